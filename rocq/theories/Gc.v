(** The garbage collected heap of lib_vm/vm_gc.{h,cpp}: two bump-allocated
    arenas.  New values are allocated in the "to" arena; a collection moves the
    reachable values of the "from" arena into the "to" arena, swaps the arenas
    and empties the new "to" arena. *)
From Coq Require Import ZArith List Bool.
From Verif Require Import Base VM.
Import ListNotations.
Open Scope Z_scope.

(** A value_t pointer: null, or an arena and a byte offset in it. *)
Definition addr : Type := bool * Z.
Definition ptr : Type := option addr.
Definition addr_eqb (a b : addr) : bool := Bool.eqb (fst a) (fst b) && (snd a =? snd b).

(** A value in memory, lib_vm/value.h:17-28,139-146. *)
Inductive cell : Type :=
| KS (s : scell)
| KA (l : list ptr).

(** [g_head a] is the bump pointer of arena [a], [g_mem a o] the value stored at
    offset [o] of it ([None] where no value starts), [g_flip] is
    [flipflop_ & 1], vm_gc.h:56-62 and 147-148. *)
Record heap : Type := Heap {
  g_head : bool -> Z;
  g_mem : bool -> Z -> option cell;
  g_flip : bool
}.

(** vm_gc.h:107-121 *)
Definition sp_from (h : heap) : bool := g_flip h.
Definition sp_to (h : heap) : bool := negb (g_flip h).

Definition empty_heap : heap := Heap (fun _ => 0) (fun _ _ => None) false.

Definition read (h : heap) (a : addr) : option cell := g_mem h (fst a) (snd a).

Definition write (h : heap) (a : addr) (c : cell) : heap :=
  Heap (g_head h)
       (fun s o => if addr_eqb (s, o) a then Some c else g_mem h s o)
       (g_flip h).

(** Bytes taken by a value: an 8 byte header, plus 8 bytes per array element,
    plus the characters and the terminator of a string. *)
Definition cell_size (c : cell) : Z :=
  match c with
  | KS (SStr s) => 8 + zlen s + 1
  | KS _ => 8
  | KA l => 8 + 8 * zlen l
  end.

(** arena_t::alloc, vm_gc.h:26-35, in the "to" arena, followed by the
    initialisation of the new value; [None] is the null result. *)
Definition alloc (cap : Z) (h : heap) (c : cell) : option (heap * addr) :=
  let t := sp_to h in
  let o := g_head h t in
  if o + cell_size c <? cap then
    Some (Heap (fun s => if Bool.eqb s t then o + cell_size c else g_head h s)
               (fun s x => if addr_eqb (s, x) (t, o) then Some c else g_mem h s x)
               (g_flip h),
          (t, o))
  else None.

(** The new_* functions, vm_gc.cpp:9-76: a failed allocation hits
    [assert(v)]. *)
Definition new_cell (cap : Z) (h : heap) (c : cell) : res (heap * ptr) :=
  match alloc cap h c with
  | Some (h', a) => Ok (h', Some a)
  | None => Stuck SOom
  end.
Definition gc_newS (cap : Z) (h : heap) (s : scell) : res (heap * ptr) :=
  new_cell cap h (KS s).
Definition gc_newA (cap : Z) (h : heap) (l : list ptr) : res (heap * ptr) :=
  new_cell cap h (KA l).

(** Reading through a pointer.  A pointer to a place where no value lives is
    undefined behaviour ([SDangling]); after [clear] the old bytes are still
    there in the code, so this is what a use after collection would be. *)
Definition gc_view (h : heap) (p : ptr) : res (view ptr) :=
  match p with
  | None => Ok WNone
  | Some a => match read h a with
              | None => Stuck SDangling
              | Some (KS s) => Ok (WS s)
              | Some (KA l) => Ok (WA l)
              end
  end.

(** [a->array()[i] = v] *)
Definition gc_set (h : heap) (p : ptr) (i : Z) (v : ptr) : res heap :=
  match p with
  | None => Stuck SNull
  | Some a => match read h a with
              | Some (KA l) =>
                  if (0 <=? i) && (i <? zlen l) then Ok (write h a (KA (zupd l i v)))
                  else Stuck SOob
              | Some (KS _) => Stuck SAssert
              | None => Stuck SDangling
              end
  end.

(** vm_gc.cpp:78-86 *)
Definition should_collect (cap : Z) (h : heap) : bool :=
  75 <? (g_head h (sp_to h) * 100) / cap.

(** The forwarding table, vm_gc.h:127-145. *)
Definition fwd : Type := list (addr * addr).
Definition fwd_find (f : fwd) (a : addr) : option addr :=
  match find (fun x => addr_eqb (fst x) a) f with
  | Some (_, b) => Some b
  | None => None
  end.

Section Trace.
  Variable cap : Z.

  (** The allocations of trace are not checked: a null result is written
      through (vm_gc.cpp:149-151, 156-158, 165-167, 184-186). *)
  Definition trace_alloc (h : heap) (c : cell) : res (heap * addr) :=
    match alloc cap h c with
    | Some r => Ok r
    | None => Stuck SOomGc
    end.

  (** One iteration of the loop, vm_gc.cpp:123-196; [rec] is the recursive call
      on the elements of an array.  The elements of an array are written back
      when the recursive call returns and not one by one: the difference could
      only be seen by an array that contains itself, whose trace never
      returns. *)
  Definition trace1 (rec : heap -> fwd -> list ptr -> res (heap * fwd * list ptr))
             (h : heap) (f : fwd) (p : ptr) : res (heap * fwd * ptr) :=
    match p with
    | None => Ok (h, f, None)
    | Some a =>
        match read h a with
        | None => Stuck SDangling
        | Some (KS s) =>
            if Bool.eqb (fst a) (sp_to h) then Ok (h, f, Some a) else
            bind (match s with
                  | SStr t => assert_ (zlen (cstr t) =? zlen t)
                  | _ => Ok tt
                  end) (fun _ =>
            bind (trace_alloc h (KS s)) (fun '(h', b) => Ok (h', f, Some b)))
        | Some (KA l) =>
            bind (rec h f l) (fun '(h1, f1, l1) =>
            let h2 := write h1 a (KA l1) in
            if Bool.eqb (fst a) (sp_to h2) then Ok (h2, f1, Some a) else
            match fwd_find f1 a with
            | Some b => Ok (h2, f1, Some b)
            | None =>
                bind (trace_alloc h2 (KA l1)) (fun '(h3, b) =>
                Ok (h3, (a, b) :: f1, Some b))
            end)
        end
    end.

  Fixpoint trace_list (rec : heap -> fwd -> list ptr -> res (heap * fwd * list ptr))
           (h : heap) (f : fwd) (l : list ptr) : res (heap * fwd * list ptr) :=
    match l with
    | [] => Ok (h, f, [])
    | p :: r =>
        bind (trace1 rec h f p) (fun '(h1, f1, p1) =>
        bind (trace_list rec h1 f1 r) (fun '(h2, f2, r2) =>
        Ok (h2, f2, p1 :: r2)))
    end.

  (** value_gc_t::trace, vm_gc.cpp:118-197.  [fuel] bounds the nesting of arrays
      inside arrays that the recursion descends; the code has no bound. *)
  Fixpoint trace (fuel : nat) (h : heap) (f : fwd) (l : list ptr)
    : res (heap * fwd * list ptr) :=
    match fuel with
    | O => Stuck SDiverge
    | S n => trace_list (trace n) h f l
    end.

  (** vm.cpp:23-28: the roots, one list after the other *)
  Fixpoint trace_roots (fuel : nat) (h : heap) (f : fwd) (rs : list (list ptr))
    : res (heap * fwd * list (list ptr)) :=
    match rs with
    | [] => Ok (h, f, [])
    | r :: rs' =>
        bind (trace fuel h f r) (fun '(h1, f1, r1) =>
        bind (trace_roots fuel h1 f1 rs') (fun '(h2, f2, rs2) =>
        Ok (h2, f2, r1 :: rs2)))
    end.
End Trace.

(** value_gc_t::collect, vm_gc.cpp:112-116 *)
Definition flip (h : heap) : heap :=
  let t := g_flip h in
  Heap (fun s => if Bool.eqb s t then 0 else g_head h s)
       (fun s o => if Bool.eqb s t then None else g_mem h s o)
       (negb (g_flip h)).

(** vm_t::gc_collect, vm.cpp:22-31; the forwarding table is empty before. *)
Definition collect (cap : Z) (fuel : nat) (h : heap) (rs : list (list ptr))
  : res (heap * list (list ptr)) :=
  bind (trace_roots cap fuel h [] rs) (fun '(h', _, rs') => Ok (flip h', rs')).

(** value_gc_t::reset, vm_gc.h:98-103 *)
Definition gc_reset (h : heap) : heap := empty_heap.

(** The heap of the machine.  [cap] is the arena size, [policy] decides when a
    tick collects. *)
Definition gc_ops_with (cap : Z) (fuel : nat) (policy : heap -> bool) : hops ptr heap :=
  Hops None gc_view (gc_newS cap) (gc_newA cap) gc_set policy (collect cap fuel).

(** vm_gc.h:58 *)
Definition arena_size : Z := 1048576.

(** The shipped configuration. *)
Definition gc_ops (fuel : nat) : hops ptr heap :=
  gc_ops_with arena_size fuel (should_collect arena_size).
