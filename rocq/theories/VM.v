(** The virtual machine, written once over an abstract interface to the heap.

    [Gc.v] instantiates the interface with the two-arena copying collector of
    lib_vm/vm_gc.{h,cpp}; [AbsHeap.v] with an ideal heap that has no addresses,
    no capacity and no collector.

    User handlers (vm.h:22-59, all null by default) are not called here; see
    Events.v for on_thread_error and on_thread_finish. *)
From Coq Require Import ZArith List Bool String.
From Verif Require Import Base F32 Instr Program.
Import ListNotations.
Open Scope Z_scope.

(** ** Values *)

(** Scalar values, lib_vm/value.h:17-28 and 139-146.  The none value is the null
    pointer (vm_gc.cpp:58-60) and is not a cell. *)
Inductive scell : Type :=
| SInt (z : Z)
| SFlt (f : f32)
| SStr (s : bytes)
| SFun (a : Z)
| SSys (n : Z).

(** What a pointer denotes: none, a scalar, or an array of pointers. *)
Inductive view (P : Type) : Type :=
| WNone
| WS (s : scell)
| WA (l : list P).
Arguments WNone {P}.
Arguments WS {P} s.
Arguments WA {P} l.

(** The same without the elements, enough for the operators. *)
Inductive pv : Type :=
| PNone
| PS (s : scell)
| PA (size : Z).

Definition plain {P} (w : view P) : pv :=
  match w with WNone => PNone | WS s => PS s | WA l => PA (zlen l) end.

(** ** Errors, lib_vm/thread_error.h:8-30 *)
Inductive terr : Type :=
| e_max_cycle_count | e_bad_prepare | e_bad_getv | e_bad_setv | e_bad_num_args
| e_bad_syscall | e_bad_opcode | e_bad_set_global | e_bad_get_global
| e_bad_pop | e_bad_divide_by_zero | e_stack_overflow | e_stack_underflow
| e_bad_globals_size | e_bad_array_bounds | e_bad_array_index
| e_bad_array_object | e_bad_type_operation | e_bad_argument
| e_bad_member_access.

(** ** Operators on values *)

(** Result of an operator: push a new scalar or raise an error. *)
Inductive oc : Type :=
| OPush (s : scell)
| ORaise (e : terr).

Definition b2z (b : bool) : Z := if b then 1 else 0.

(** value.h:47-50 and 94-102 *)
Definition is_number (v : pv) : bool :=
  match v with PS (SInt _) => true | PS (SFlt _) => true | _ => false end.
Definition as_float (v : pv) : res f32 :=
  match v with
  | PS (SInt z) => Ok (f_of_int z)
  | PS (SFlt f) => Ok f
  | _ => Stuck SAssert
  end.

(** value.h:104-112 *)
Definition as_int (v : pv) : res Z :=
  match v with
  | PS (SInt z) => Ok z
  | PS (SFlt f) => f_to_int f
  | _ => Stuck SAssert
  end.

(** value.h:114-126 *)
Definition as_bool (v : pv) : bool :=
  match v with
  | PA _ => true
  | PS (SFun _) => true
  | PS (SSys _) => true
  | PNone => false
  | PS (SStr s) => negb (zlen s =? 0)
  | PS (SFlt f) => f_nonzero f
  | PS (SInt z) => negb (z =? 0)
  end.

(** thread.cpp:35-56 with the 16 byte buffers of lines 112 and 125: at most 15
    characters survive. *)
Definition to_text (v : pv) : res bytes :=
  match v with
  | PS (SFlt f) => Ok (zfirstn 15 (f_text f))
  | PS (SInt z) => Ok (zfirstn 15 (dec z))
  | PS (SStr s) => Ok (zfirstn 15 (cstr s))
  | PNone => Ok (bs "none")
  | PS (SFun a) => Ok (zfirstn 15 (bs "function@" ++ dec a))
  | PS (SSys _) => Stuck SAssert
  | PA _ => Stuck SAssert
  end.

(** "float like" case shared by the arithmetic operators *)
Definition float_op (k : f32 -> f32 -> f32) (l r : pv) : res oc :=
  if is_number l && is_number r then
    a <- as_float l ;; b <- as_float r ;; Ok (OPush (SFlt (k a b)))
  else Ok (ORaise e_bad_type_operation).
Definition float_cmp (k : f32 -> f32 -> bool) (l r : pv) : res oc :=
  if is_number l && is_number r then
    a <- as_float l ;; b <- as_float r ;; Ok (OPush (SInt (b2z (k a b))))
  else Ok (ORaise e_bad_type_operation).

(** thread.cpp:98-144; the concatenation is cut off nowhere else than in
    [to_text]. *)
Definition op_add (l r : pv) : res oc :=
  match l, r with
  | PS (SInt a), PS (SInt b) => z <- chk32 (a + b) ;; Ok (OPush (SInt z))
  | _, _ =>
      if is_number l && is_number r then float_op f_add l r
      else match l with
           | PS (SStr s) => t <- to_text r ;; Ok (OPush (SStr (s ++ t)))
           | _ => match r with
                  | PS (SStr s) => t <- to_text l ;; Ok (OPush (SStr (t ++ s)))
                  | _ => Ok (ORaise e_bad_type_operation)
                  end
           end
  end.

(** thread.cpp:146-166 *)
Definition op_sub (l r : pv) : res oc :=
  match l, r with
  | PS (SInt a), PS (SInt b) => z <- chk32 (a - b) ;; Ok (OPush (SInt z))
  | _, _ => float_op f_sub l r
  end.

(** thread.cpp:168-189 *)
Definition op_mul (l r : pv) : res oc :=
  match l, r with
  | PS (SInt a), PS (SInt b) => z <- chk32 (a * b) ;; Ok (OPush (SInt z))
  | _, _ => float_op f_mul l r
  end.

(** thread.cpp:191-216; C++ division truncates toward zero. *)
Definition op_div (l r : pv) : res oc :=
  match l, r with
  | PS (SInt a), PS (SInt b) =>
      if b =? 0 then Ok (ORaise e_bad_divide_by_zero)
      else z <- chk32 (Z.quot a b) ;; Ok (OPush (SInt z))
  | _, _ => float_op f_div l r
  end.

(** thread.cpp:218-232; INT_MIN % -1 overflows like the division. *)
Definition op_mod (l r : pv) : res oc :=
  match l, r with
  | PS (SInt a), PS (SInt b) =>
      if b =? 0 then Ok (ORaise e_bad_divide_by_zero)
      else _ <- chk32 (Z.quot a b) ;; Ok (OPush (SInt (Z.rem a b)))
  | _, _ => Ok (ORaise e_bad_type_operation)
  end.

(** thread.cpp:234-244 *)
Definition op_and (l r : pv) : res oc := Ok (OPush (SInt (b2z (as_bool l && as_bool r)))).
Definition op_or (l r : pv) : res oc := Ok (OPush (SInt (b2z (as_bool l || as_bool r)))).

(** thread.cpp:246-258 *)
Definition op_not (v : pv) : res oc := Ok (OPush (SInt (b2z (negb (as_bool v))))).
Definition op_neg (v : pv) : res oc :=
  match v with
  | PS (SInt z) => n <- chk32 (- z) ;; Ok (OPush (SInt n))
  | _ => Ok (ORaise e_bad_type_operation)
  end.

(** thread.cpp:260-321 *)
Definition op_lt (l r : pv) : res oc :=
  match l, r with
  | PS (SInt a), PS (SInt b) => Ok (OPush (SInt (b2z (a <? b))))
  | _, _ => float_cmp f_lt l r
  end.
Definition op_gt (l r : pv) : res oc :=
  match l, r with
  | PS (SInt a), PS (SInt b) => Ok (OPush (SInt (b2z (b <? a))))
  | _, _ => float_cmp (fun a b => f_lt b a) l r
  end.
Definition op_leq (l r : pv) : res oc :=
  match l, r with
  | PS (SInt a), PS (SInt b) => Ok (OPush (SInt (b2z (a <=? b))))
  | _, _ => float_cmp f_leb l r
  end.
Definition op_geq (l r : pv) : res oc :=
  match l, r with
  | PS (SInt a), PS (SInt b) => Ok (OPush (SInt (b2z (b <=? a))))
  | _, _ => float_cmp (fun a b => f_leb b a) l r
  end.

(** thread.cpp:323-368; strcmp stops at a NUL. *)
Definition op_eq (l r : pv) : res oc :=
  match l, r with
  | PS (SInt a), PS (SInt b) => Ok (OPush (SInt (b2z (a =? b))))
  | PS (SStr a), PS (SStr b) =>
      Ok (OPush (SInt (b2z ((zlen a =? zlen b) && bytes_eqb (cstr a) (cstr b)))))
  | PS (SFun a), PS (SFun b) => Ok (OPush (SInt (b2z (a =? b))))
  | PNone, PNone => Ok (OPush (SInt 1))
  | PNone, _ => Ok (OPush (SInt 0))
  | _, PNone => Ok (OPush (SInt 0))
  | _, _ => float_cmp f_eqb l r
  end.

Definition binop (i : instr) : option (pv -> pv -> res oc) :=
  match i with
  | INS_ADD => Some op_add | INS_SUB => Some op_sub | INS_MUL => Some op_mul
  | INS_DIV => Some op_div | INS_MOD => Some op_mod | INS_AND => Some op_and
  | INS_OR => Some op_or | INS_LT => Some op_lt | INS_GT => Some op_gt
  | INS_LEQ => Some op_leq | INS_GEQ => Some op_geq | INS_EQ => Some op_eq
  | _ => None
  end.
Definition unop (i : instr) : option (pv -> res oc) :=
  match i with INS_NOT => Some op_not | INS_NEG => Some op_neg | _ => None end.

(** ** The outside world: stdout, stdin, the state of the driver's xorshift32
    generator (driver.cpp:18-24), the libm functions that are not modelled
    exactly, the calls that were made of functions of the host, in order, and
    what the host answers to the last of a list of such calls: [None] is
    raise_error(e_bad_argument).  A function of the host sees of an argument its
    kind, its number or string and the length of an array; it answers a none, a
    number or a string, and it uses the thread for nothing else. *)
Inductive harg : Type := HaNone | HaVal (s : scell) | HaArray (len : Z).
Inductive hret : Type := HrNone | HrInt (z : Z) | HrFlt (x : f32) | HrStr (s : bytes).
Record world : Type := World {
  w_out : bytes;
  w_in : bytes;
  w_rng : Z;
  w_sin : f32 -> f32;
  w_cos : f32 -> f32;
  w_tan : f32 -> f32;
  w_log : list (bytes * list harg);
  w_host : list (bytes * list harg) -> option hret
}.
Definition w_put (w : world) (o : bytes) : world :=
  World (w_out w ++ o) (w_in w) (w_rng w) (w_sin w) (w_cos w) (w_tan w) (w_log w) (w_host w).
Definition w_take (w : world) (i : bytes) : world :=
  World (w_out w) i (w_rng w) (w_sin w) (w_cos w) (w_tan w) (w_log w) (w_host w).
Definition w_seed (w : world) (x : Z) : world :=
  World (w_out w) (w_in w) x (w_sin w) (w_cos w) (w_tan w) (w_log w) (w_host w).
Definition w_call (w : world) (c : bytes * list harg) : world :=
  World (w_out w) (w_in w) (w_rng w) (w_sin w) (w_cos w) (w_tan w) (w_log w ++ [c]) (w_host w).

(** driver.cpp:18-24 *)
Definition xorshift32 (x : Z) : Z :=
  let x := to_u32 (Z.lxor x (Z.shiftl x 13)) in
  let x := Z.lxor x (Z.shiftr x 17) in
  to_u32 (Z.lxor x (Z.shiftl x 5)).

(** fgets into an 80 byte buffer, driver.cpp:52-61: at most 79 characters, up
    to and including a newline; the newline and what follows a NUL are dropped.
    The result is the text and the rest of the input. *)
Fixpoint fgets (n : nat) (i : bytes) : bytes * bytes :=
  match n, i with
  | S n', c :: r =>
      if c =? 10 then ([c], r) else let (a, b) := fgets n' r in (c :: a, b)
  | _, _ => ([], i)
  end.
Definition strip_nl (s : bytes) : bytes := map (fun c => if c =? 10 then 0 else c) s.

(** ** Threads *)

(** thread.h:20-32 *)
Record frame : Type := Frame {
  fr_sp : Z; fr_ret : Z; fr_callee : Z; fr_term : bool
}.

(** thread.h:117-160.  [t_stk] and [t_frs] have their top first. *)
Record thread (P : Type) : Type := Thread {
  t_pc : Z;
  t_stk : list P;
  t_frs : list frame;
  t_err : option terr;
  t_fin : bool;
  t_hal : bool;
  t_cyc : Z;
  t_waits : Z;
  t_last : line_t;
  t_bps : list line_t
}.
Arguments Thread {P}. Arguments t_pc {P}. Arguments t_stk {P}. Arguments t_frs {P}.
Arguments t_err {P}. Arguments t_fin {P}. Arguments t_hal {P}. Arguments t_cyc {P}.
Arguments t_waits {P}. Arguments t_last {P}. Arguments t_bps {P}.

Section ThreadUpdates.
  Context {P : Type}.
  Definition t_set_pc (t : thread P) (x : Z) : thread P := Thread x (t_stk t) (t_frs t) (t_err t) (t_fin t) (t_hal t) (t_cyc t) (t_waits t) (t_last t) (t_bps t).
  Definition t_set_stk (t : thread P) (x : list P) : thread P := Thread (t_pc t) x (t_frs t) (t_err t) (t_fin t) (t_hal t) (t_cyc t) (t_waits t) (t_last t) (t_bps t).
  Definition t_set_frs (t : thread P) (x : list frame) : thread P := Thread (t_pc t) (t_stk t) x (t_err t) (t_fin t) (t_hal t) (t_cyc t) (t_waits t) (t_last t) (t_bps t).
  Definition t_set_err (t : thread P) (x : option terr) : thread P := Thread (t_pc t) (t_stk t) (t_frs t) x (t_fin t) (t_hal t) (t_cyc t) (t_waits t) (t_last t) (t_bps t).
  Definition t_set_fin (t : thread P) (x : bool) : thread P := Thread (t_pc t) (t_stk t) (t_frs t) (t_err t) x (t_hal t) (t_cyc t) (t_waits t) (t_last t) (t_bps t).
  Definition t_set_hal (t : thread P) (x : bool) : thread P := Thread (t_pc t) (t_stk t) (t_frs t) (t_err t) (t_fin t) x (t_cyc t) (t_waits t) (t_last t) (t_bps t).
  Definition t_set_cyc (t : thread P) (x : Z) : thread P := Thread (t_pc t) (t_stk t) (t_frs t) (t_err t) (t_fin t) (t_hal t) x (t_waits t) (t_last t) (t_bps t).
  Definition t_set_waits (t : thread P) (x : Z) : thread P := Thread (t_pc t) (t_stk t) (t_frs t) (t_err t) (t_fin t) (t_hal t) (t_cyc t) x (t_last t) (t_bps t).
  Definition t_set_last (t : thread P) (x : line_t) : thread P := Thread (t_pc t) (t_stk t) (t_frs t) (t_err t) (t_fin t) (t_hal t) (t_cyc t) (t_waits t) x (t_bps t).
  Definition t_set_bps (t : thread P) (x : list line_t) : thread P := Thread (t_pc t) (t_stk t) (t_frs t) (t_err t) (t_fin t) (t_hal t) (t_cyc t) (t_waits t) (t_last t) x.
End ThreadUpdates.

(** ** The heap interface *)
Record hops (P H : Type) : Type := Hops {
  h_null : P;                                (* the none value *)
  h_view : H -> P -> res (view P);           (* dereference *)
  h_newS : H -> scell -> res (H * P);        (* allocate a scalar *)
  h_newA : H -> list P -> res (H * P);       (* allocate an array *)
  h_set : H -> P -> Z -> P -> res H;         (* array()[i] = v *)
  h_should : H -> bool;                      (* should_collect *)
  h_collect : H -> list (list P) -> res (H * list (list P))
                                             (* trace the given root lists
                                                (bottom first), then flip *)
}.
Arguments Hops {P H}. Arguments h_null {P H}. Arguments h_view {P H}.
Arguments h_newS {P H}. Arguments h_newA {P H}. Arguments h_set {P H}.
Arguments h_should {P H}. Arguments h_collect {P H}.

(** State while one thread runs: the threads before and after it in the vm's
    thread list, vm.h:113-128. *)
Record mst (P H : Type) : Type := Mst {
  m_heap : H;
  m_glob : list P;
  m_world : world;
  m_pre : list (thread P);
  m_cur : thread P;
  m_post : list (thread P)
}.
Arguments Mst {P H}. Arguments m_heap {P H}. Arguments m_glob {P H}.
Arguments m_world {P H}. Arguments m_pre {P H}. Arguments m_cur {P H}.
Arguments m_post {P H}.

(** The vm between runs. *)
Record vm (P H : Type) : Type := Vm {
  vm_heap : H;
  vm_glob : list P;
  vm_world : world;
  vm_threads : list (thread P)
}.
Arguments Vm {P H}. Arguments vm_heap {P H}. Arguments vm_glob {P H}.
Arguments vm_world {P H}. Arguments vm_threads {P H}.

Section Machine.
  Context {P H : Type}.
  Variable ops : hops P H.
  Variable prog : program_t.

  (** *** The monad *)
  Definition M (A : Type) : Type := mst P H -> res (A * mst P H).
  Definition ret {A} (a : A) : M A := fun s => Ok (a, s).
  Definition mbind {A B} (m : M A) (k : A -> M B) : M B := fun s =>
    match m s with
    | Ok (a, s') => k a s'
    | Err e l => Err e l
    | Stuck x => Stuck x
    end.
  Definition lift {A} (r : res A) : M A := fun s =>
    match r with Ok a => Ok (a, s) | Err e l => Err e l | Stuck x => Stuck x end.
  Definition get : M (mst P H) := fun s => Ok (s, s).
  Definition mod_cur (f : thread P -> thread P) : M unit := fun s =>
    Ok (tt, Mst (m_heap s) (m_glob s) (m_world s) (m_pre s) (f (m_cur s)) (m_post s)).
  Definition set_heap (h : H) : M unit := fun s =>
    Ok (tt, Mst h (m_glob s) (m_world s) (m_pre s) (m_cur s) (m_post s)).
  Definition set_glob (g : list P) : M unit := fun s =>
    Ok (tt, Mst (m_heap s) g (m_world s) (m_pre s) (m_cur s) (m_post s)).
  Definition set_world (w : world) : M unit := fun s =>
    Ok (tt, Mst (m_heap s) (m_glob s) w (m_pre s) (m_cur s) (m_post s)).
  Definition add_thread (t : thread P) : M unit := fun s =>
    Ok (tt, Mst (m_heap s) (m_glob s) (m_world s) (t :: m_pre s) (m_cur s) (m_post s)).

  Notation "x <- m ;; k" := (mbind m (fun x => k)) (at level 61, m at next level, right associativity).
  Notation "m ;;; k" := (mbind m (fun _ => k)) (at level 61, right associativity).

  Definition mget {A} (f : mst P H -> A) : M A := fun s => Ok (f s, s).

  (** *** Stack, thread.h:188-191 and value.h:178-245 *)
  (** thread.h:74-77 and 188-191 *)
  Definition raise (e : terr) : M unit :=
    mod_cur (fun t => t_set_fin (t_set_err t (Some e)) true).
  (** value.h:207-212 *)
  Definition pop : M P := fun s =>
    match t_stk (m_cur s) with
    | [] => Stuck SAssert
    | p :: r => mbind (mod_cur (fun t => t_set_stk t r)) (fun _ => ret p) s
    end.
  (** value.h:215-217 *)
  Definition push (p : P) : M unit := mod_cur (fun t => t_set_stk t (p :: t_stk t)).
  Definition deref (p : P) : M (view P) := fun s => lift (h_view ops (m_heap s) p) s.
  Definition new_s (c : scell) : M P := fun s =>
    match h_newS ops (m_heap s) c with
    | Ok (h, p) => mbind (set_heap h) (fun _ => ret p) s
    | Err e l => Err e l | Stuck x => Stuck x
    end.
  Definition new_a (l : list P) : M P := fun s =>
    match h_newA ops (m_heap s) l with
    | Ok (h, p) => mbind (set_heap h) (fun _ => ret p) s
    | Err e l => Err e l | Stuck x => Stuck x
    end.
  (** value.cpp:14-41 *)
  Definition push_s (c : scell) : M unit := p <- new_s c ;; push p.
  Definition push_none : M unit := push (h_null ops).
  Definition finish_op (r : res oc) : M unit :=
    o <- lift r ;; match o with OPush c => push_s c | ORaise e => raise e end.
  (** pop a value and look at it *)
  Definition pop_v : M (view P) := p <- pop ;; deref p.

  (** [stack_[i]] with [i] counted from the bottom *)
  Definition stk_get (l : list P) (i : Z) : option P :=
    if (0 <=? i) && (i <? zlen l) then znth l (zlen l - 1 - i) else None.
  Definition stk_set (l : list P) (i : Z) (v : P) : list P := zupd l (zlen l - 1 - i) v.

  (** *** Fetch, thread.cpp:75-96 *)
  Definition code : bytes := p_code prog.
  Definition operand : M Z :=
    lift (assert_ (4 <? zlen code)) ;;;
    pc <- mget (fun s => t_pc (m_cur s)) ;;
    if pc <? 0 then lift (Stuck SOob) else
    match rd32 (zskipn pc code) with
    | None => lift (Stuck SOob)
    | Some (v, _) => mod_cur (fun t => t_set_pc t (t_pc t + 4)) ;;; ret v
    end.
  Definition fetch : M Z :=
    lift (assert_ (4 <? zlen code)) ;;;
    pc <- mget (fun s => t_pc (m_cur s)) ;;
    match znth code pc with
    | None => lift (Stuck SOob)
    | Some b => mod_cur (fun t => t_set_pc t (t_pc t + 1)) ;;; ret b
    end.

  (** thread.cpp:797-806 *)
  Definition enter (sp pc callee : Z) : M unit :=
    mod_cur (fun t => t_set_pc (t_set_frs t (Frame sp pc callee false :: t_frs t)) callee).
  Definition head : M Z := mget (fun s => zlen (t_stk (m_cur s))).

  (** thread.cpp:809-825; the result is the new pc *)
  Definition leave : M Z :=
    frs <- mget (fun s => t_frs (m_cur s)) ;;
    match frs with
    | [] => raise e_stack_underflow ;;; ret 0
    | f :: r =>
        let fin := fr_term f || match r with [] => true | _ => false end in
        mod_cur (fun t => t_set_frs (t_set_fin t fin) r) ;;;
        (if fin then n <- head ;; lift (assert_ (0 <? n)) else ret tt) ;;;
        ret (fr_ret f)
    end.

  (** vm_gc.cpp:88-110 *)
  Definition gc_copy (p : P) : M P :=
    w <- deref p ;;
    match w with
    | WNone => ret (h_null ops)
    | WS s => new_s s
    | WA _ => lift (Stuck SAssert)
    end.

  Fixpoint copy_all (l : list P) : M (list P) :=
    match l with
    | [] => ret []
    | p :: r => q <- gc_copy p ;; qs <- copy_all r ;; ret (q :: qs)
    end.

  Fixpoint pop_n (n : nat) : M (list P) :=
    match n with
    | O => ret []
    | S n' => p <- pop ;; l <- pop_n n' ;; ret (p :: l)
    end.

  (** A freshly constructed thread, thread.cpp:60-73 and 686-692. *)
  Definition fresh_thread : thread P :=
    Thread 0 [] [] None false false 0 0 no_line [].

  (** thread.cpp:694-731 on thread [t]; the arguments have been copied into
      [args] (first argument first) when the count is right. *)
  Definition prepared (t : thread P) (f : function_t) (args : list P) : thread P :=
    Thread (f_start f) (rev args)
      (Frame (zlen args) (f_start f) (f_start f) true :: t_frs t)
      None false false 0 (t_waits t) (t_last t) (t_bps t).
  (** vm.cpp:79-90: [None] is the null pointer *)
  Definition new_thread (f : function_t) (argv : list P) : M bool :=
    if num_args f =? zlen argv then
      args <- copy_all argv ;;
      add_thread (prepared fresh_thread f args) ;;; ret true
    else ret false.

  (** *** Syscalls *)
  Definition sys_float (k : f32 -> f32) : M unit :=
    w <- pop_v ;;
    if is_number (plain w) then
      x <- lift (as_float (plain w)) ;; push_s (SFlt (k x))
    else raise e_bad_argument.

  (** What a function of the host sees of its arguments; the last one is on top. *)
  Definition harg_of (w : view P) : harg :=
    match w with WNone => HaNone | WS s => HaVal s | WA l => HaArray (zlen l) end.
  Fixpoint pop_hargs (n : nat) : M (list harg) :=
    match n with
    | O => ret []
    | S n' => w <- pop_v ;; l <- pop_hargs n' ;; ret (harg_of w :: l)
    end.
  Definition push_hret (r : hret) : M unit :=
    match r with
    | HrNone => push_none
    | HrInt z => push_s (SInt (to_i32 z))
    | HrFlt x => push_s (SFlt x)
    | HrStr s => push_s (SStr (cstr s))
    end.

  (** lib_builtins/builtin.cpp:14-244 and driver/driver.cpp:26-75; [F_host] is any
      function a host registers that behaves as said at [world], [F_sleep] is
      driver_sdl/driver.cpp:54-62. *)
  Definition run_sys (f : sysfn) (nargs : Z) : M unit :=
    match f with
    | F_abs =>
        w <- pop_v ;;
        match w with
        | WS (SInt z) => n <- lift (if z <? 0 then chk32 (- z) else Ok z) ;; push_s (SInt n)
        | WS (SFlt x) => push_s (SFlt (if f_lt x f_zero then f_neg x else x))
        | _ => raise e_bad_argument
        end
    | F_max =>
        a <- pop_v ;; b <- pop_v ;;
        if is_number (plain a) && is_number (plain b) then
          x <- lift (as_float (plain a)) ;; y <- lift (as_float (plain b)) ;;
          push_s (SFlt (if f_lt y x then x else y))
        else raise e_bad_argument
    | F_min =>
        a <- pop_v ;; b <- pop_v ;;
        if is_number (plain a) && is_number (plain b) then
          x <- lift (as_float (plain a)) ;; y <- lift (as_float (plain b)) ;;
          push_s (SFlt (if f_lt x y then x else y))
        else raise e_bad_argument
    | F_bitand =>
        a <- pop_v ;; b <- pop_v ;;
        match a, b with
        | WS (SInt x), WS (SInt y) => push_s (SInt (Z.land x y))
        | _, _ => raise e_bad_argument
        end
    | F_len =>
        w <- pop_v ;;
        match w with
        | WA l => push_s (SInt (zlen l))
        | WS (SStr s) => push_s (SInt (zlen s))
        | _ => raise e_bad_argument
        end
    | F_chr =>
        w <- pop_v ;;
        match w with
        | WS (SInt z) => push_s (SStr (cstr [z mod 256]))
        | _ => raise e_bad_argument
        end
    | F_sin => wd <- mget m_world ;; sys_float (w_sin wd)
    | F_cos => wd <- mget m_world ;; sys_float (w_cos wd)
    | F_tan => wd <- mget m_world ;; sys_float (w_tan wd)
    | F_round => sys_float f_round
    | F_floor => sys_float f_floor
    | F_ceil => sys_float f_ceil
    | F_sqrt => sys_float f_sqrt
    | F_new_thread =>
        if nargs <=? 0 then raise e_bad_argument else
        rargs <- pop_n (Z.to_nat (nargs - 1)) ;;
        w <- pop_v ;;
        match w with
        | WS (SFun a) =>
            match function_find_pc prog a with
            | None => raise e_bad_argument
            | Some f =>
                if negb (num_args f + 1 =? nargs) then raise e_bad_argument else
                new_thread f (rev rargs) ;;; push_s (SInt 0)
            end
        | _ => raise e_bad_argument
        end
    | F_wait =>
        w <- pop_v ;;
        if is_number (plain w) then
          n <- lift (as_int (plain w)) ;;
          mod_cur (fun t => t_set_waits t n) ;;;
          push_s (SInt 0) ;;;
          if 0 <? n then mod_cur (fun t => t_set_hal t true) else ret tt
        else raise e_bad_argument
    | F_new_array =>
        w <- pop_v ;;
        if is_number (plain w) then
          n <- lift (as_int (plain w)) ;;
          if n <=? 0 then raise e_bad_argument
          else p <- new_a (zrepeat (h_null ops) n) ;; push p
        else raise e_bad_argument
    | F_rand =>
        wd <- mget m_world ;;
        let x := xorshift32 (w_rng wd) in
        set_world (w_seed wd x) ;;; push_s (SInt (Z.land x 8388607))
    | F_getc =>
        wd <- mget m_world ;;
        match w_in wd with
        | [] => push_s (SInt (-1))
        | c :: r => set_world (w_take wd r) ;;; push_s (SInt c)
        end
    | F_putc =>
        w <- pop_v ;;
        match w with
        | WNone => lift (Stuck SAssert)
        | WS (SInt z) =>
            wd <- mget m_world ;; set_world (w_put wd [z mod 256]) ;;; push_s (SInt 0)
        | _ => raise e_bad_argument ;;; push_s (SInt 0)
        end
    | F_gets =>
        wd <- mget m_world ;;
        match w_in wd with
        | [] => lift (Stuck SUninit)
        | _ => let (s, r) := fgets 79 (w_in wd) in
               set_world (w_take wd r) ;;; push_s (SStr (cstr (strip_nl s)))
        end
    | F_puts =>
        w <- pop_v ;;
        match w with
        | WNone => lift (Stuck SAssert)
        | WS (SStr s) =>
            wd <- mget m_world ;; set_world (w_put wd (cstr s ++ [10])) ;;; push_s (SInt 0)
        | _ => raise e_bad_argument ;;; push_s (SInt 0)
        end
    | F_host name n =>
        args <- pop_hargs n ;;
        wd <- mget m_world ;;
        let wd' := w_call wd (name, rev args) in
        set_world wd' ;;;
        match w_host wd' (w_log wd') with
        | Some r => push_hret r
        | None => raise e_bad_argument
        end
    | F_sleep =>
        w <- pop_v ;;
        if is_number (plain w) then
          n <- lift (as_int (plain w)) ;;
          wd <- mget m_world ;;
          set_world (w_call wd (bs "sleep", [HaVal (SInt n)])) ;;;
          mod_cur (fun t => t_set_hal t true) ;;;
          push_none
        else push_none
    end.

  (** thread.cpp:414-420 *)
  Definition do_syscall (index nargs : Z) : M unit :=
    match znth (p_syscalls prog) index with
    | Some (Sysc _ (Some f)) => run_sys f nargs
    | _ => lift (Stuck SAssert)
    end.

  (** *** Instructions, thread.cpp:370-684 *)
  Definition do_ins (i : instr) : M unit :=
    match i with
    | INS_ADD | INS_SUB | INS_MUL | INS_DIV | INS_MOD | INS_AND | INS_OR
    | INS_LT | INS_GT | INS_LEQ | INS_GEQ | INS_EQ =>
        r <- pop_v ;; l <- pop_v ;;
        match binop i with
        | Some f => finish_op (f (plain l) (plain r))
        | None => ret tt
        end
    | INS_NOT | INS_NEG =>
        v <- pop_v ;;
        match unop i with
        | Some f => finish_op (f (plain v))
        | None => ret tt
        end
    | INS_JMP => o <- operand ;; mod_cur (fun t => t_set_pc t o)
    | INS_TJMP =>
        o <- operand ;; v <- pop_v ;;
        if as_bool (plain v) then mod_cur (fun t => t_set_pc t o) else ret tt
    | INS_FJMP =>
        o <- operand ;; v <- pop_v ;;
        if as_bool (plain v) then ret tt else mod_cur (fun t => t_set_pc t o)
    | INS_CALL =>
        _ <- operand ;; callee <- operand ;;
        sp <- head ;; pc <- mget (fun s => t_pc (m_cur s)) ;;
        enter sp pc callee
    | INS_RET =>
        o <- operand ;; v <- pop ;; n <- head ;;
        if n <? o then raise e_stack_underflow
        else if o <? 0 then lift (Stuck SAssert)
        else
          mod_cur (fun t => t_set_stk t (zskipn o (t_stk t))) ;;;
          push v ;;;
          pc <- leave ;; mod_cur (fun t => t_set_pc t pc)
    | INS_SCALL => nargs <- operand ;; idx <- operand ;; do_syscall idx nargs
    | INS_ICALL =>
        nargs <- operand ;; v <- pop_v ;;
        match v with
        | WNone => lift (Stuck SAssert)
        | WS (SSys n) => do_syscall n nargs
        | WS (SFun a) =>
            match function_find_pc prog a with
            | None => lift (Stuck SAssert)
            | Some f =>
                (if num_args f =? nargs then ret tt else raise e_bad_num_args) ;;;
                sp <- head ;; pc <- mget (fun s => t_pc (m_cur s)) ;;
                enter sp pc a
            end
        | _ => raise e_bad_type_operation
        end
    | INS_POP => o <- operand ;; pop_n (Z.to_nat o) ;;; ret tt
    | INS_NEW_INT => o <- operand ;; push_s (SInt o)
    | INS_NEW_STR =>
        o <- operand ;;
        lift (assert_ (o <? zlen (p_strings prog))) ;;;
        match znth (p_strings prog) o with
        | Some s => push_s (SStr s)
        | None => lift (Stuck SOob)
        end
    | INS_NEW_ARY =>
        o <- operand ;; lift (assert_ (0 <? o)) ;;;
        p <- new_a (zrepeat (h_null ops) o) ;; push p
    | INS_NEW_NONE => push_none
    | INS_NEW_FLT => o <- operand ;; push_s (SFlt (f_of_bits (to_u32 o)))
    | INS_NEW_FUNC => o <- operand ;; lift (assert_ (0 <=? o)) ;;; push_s (SFun o)
    | INS_NEW_SCALL => o <- operand ;; lift (assert_ (0 <=? o)) ;;; push_s (SSys o)
    | INS_GLOBALS =>
        o <- operand ;;
        if o =? 0 then ret tt
        else if o <? 0 then lift (Stuck SOob)
        else set_glob (zrepeat (h_null ops) o)
    | INS_LOCALS =>
        o <- operand ;;
        if o <? 0 then lift (Stuck SOob)
        else mod_cur (fun t => t_set_stk t (zrepeat (h_null ops) o ++ t_stk t))
    | INS_GETV =>
        o <- operand ;;
        frs <- mget (fun s => t_frs (m_cur s)) ;;
        match frs with
        | [] => lift (Stuck SAssert)
        | f :: _ =>
            i <- lift (chk32 (fr_sp f + o)) ;;
            stk <- mget (fun s => t_stk (m_cur s)) ;;
            match stk_get stk i with
            | Some p => push p
            | None => raise e_bad_getv ;;; push (h_null ops)
            end
        end
    | INS_SETV =>
        o <- operand ;; v <- pop ;;
        frs <- mget (fun s => t_frs (m_cur s)) ;;
        match frs with
        | [] => lift (Stuck SAssert)
        | f :: _ =>
            i <- lift (chk32 (fr_sp f + o)) ;;
            stk <- mget (fun s => t_stk (m_cur s)) ;;
            match stk_get stk i with
            | Some _ => mod_cur (fun t => t_set_stk t (stk_set (t_stk t) i v))
            | None => raise e_bad_setv
            end
        end
    | INS_GETG =>
        o <- operand ;; g <- mget m_glob ;;
        match znth g o with
        | Some p => push p
        | None => raise e_bad_get_global
        end
    | INS_SETG =>
        o <- operand ;; g <- mget m_glob ;;
        match znth g o with
        | Some _ => v <- pop ;; set_glob (zupd g o v)
        | None => raise e_bad_set_global
        end
    | INS_DEREF =>
        a <- pop_v ;; i <- pop ;;
        match a with
        | WNone => raise e_bad_array_object
        | _ =>
            iv <- deref i ;;
            match iv with
            | WS (SInt k) =>
                match a with
                | WA l => match znth l k with
                          | Some p => push p
                          | None => raise e_bad_array_bounds
                          end
                | WS (SStr s) => match znth s k with
                                 | Some c => push_s (SInt c)
                                 | None => raise e_bad_array_bounds
                                 end
                | _ => raise e_bad_type_operation
                end
            | _ => raise e_bad_array_index
            end
        end
    | INS_SETA =>
        ap <- pop ;; i <- pop ;; v <- pop ;;
        a <- deref ap ;;
        match a with
        | WA l =>
            iv <- deref i ;;
            match iv with
            | WS (SInt k) =>
                if (0 <=? k) && (k <? zlen l) then
                  vv <- deref v ;;
                  q <- match vv with WA _ => ret v | _ => gc_copy v end ;;
                  h <- mget m_heap ;;
                  h' <- lift (h_set ops h ap k q) ;;
                  set_heap h'
                else raise e_bad_array_bounds
            | _ => raise e_bad_array_index
            end
        | _ => raise e_bad_array_object
        end
    | INS_GETM =>
        v <- pop_v ;; o <- operand ;;
        match znth (p_strings prog) o with
        | None => lift (Stuck SAssert)
        | Some m =>
            match v with
            | WA l => if bytes_eqb m (bs "length") then push_s (SInt (zlen l))
                      else raise e_bad_member_access
            | _ => raise e_bad_member_access
            end
        end
    | INS_SETM =>
        pop ;;; pop ;;; o <- operand ;;
        match znth (p_strings prog) o with
        | None => lift (Stuck SAssert)
        | Some _ => raise e_bad_member_access
        end
    | INS_ARY_INIT =>
        (* the array is allocated before the elements are popped in the code;
           the order only matters for which failure is reported *)
        o <- operand ;; lift (assert_ (0 <? o)) ;;;
        l <- pop_n (Z.to_nat o) ;;
        p <- new_a (rev l) ;; push p
    end.

  (** thread.cpp:854-856 *)
  Definition source_line (t : thread P) : line_t := Program.get_line prog (t_pc t).

  Definition line_eqb (a b : line_t) : bool :=
    (l_file a =? l_file b) && (l_line a =? l_line b).

  (** thread.cpp:781-792 *)
  Definition check_breakpoints : M unit :=
    mod_cur (fun t =>
      match t_bps t with
      | [] => t
      | _ =>
          let l := source_line t in
          let hit := existsb (line_eqb l) (t_bps t) && negb (line_eqb l (t_last t)) in
          t_set_last (t_set_hal t (t_hal t || hit)) l
      end).

  (** thread.cpp:733-795 *)
  Definition step_imp : M unit :=
    b <- fetch ;;
    match of_opcode b with
    | Some i => do_ins i
    | None => raise e_bad_opcode
    end ;;;
    check_breakpoints ;;;
    mod_cur (fun t => t_set_cyc t (to_u32 (t_cyc t + 1))).

  (** vm.cpp:22-31: trace the globals, then every thread's stack in list order,
      then flip. *)
  Definition roots_of (g : list P) (ts : list (thread P)) : list (list P) :=
    g :: map (fun t => rev (t_stk t)) ts.
  Fixpoint set_stacks (ts : list (thread P)) (rs : list (list P)) : list (thread P) :=
    match ts, rs with
    | t :: ts', r :: rs' => t_set_stk t (rev r) :: set_stacks ts' rs'
    | _, _ => ts
    end.
  Definition gc_collect_vm (s : vm P H) : res (vm P H) :=
    match h_collect ops (vm_heap s) (roots_of (vm_glob s) (vm_threads s)) with
    | Ok (h, g :: rs) => Ok (Vm h g (vm_world s) (set_stacks (vm_threads s) rs))
    | Ok (_, []) => Stuck SAssert
    | Err e l => Err e l
    | Stuck x => Stuck x
    end.
  (** [s] split around its current thread *)
  Definition join (s : mst P H) : vm P H :=
    Vm (m_heap s) (m_glob s) (m_world s) (m_pre s ++ m_cur s :: m_post s).
  Definition split (n : nat) (v : vm P H) : res (mst P H) :=
    match skipn n (vm_threads v) with
    | [] => Stuck SOob
    | t :: post => Ok (Mst (vm_heap v) (vm_glob v) (vm_world v)
                           (firstn n (vm_threads v)) t post)
    end.
  Definition gc_collect : M unit := fun s =>
    match gc_collect_vm (join s) with
    | Ok v => match split (List.length (m_pre s)) v with
              | Ok s' => Ok (tt, s')
              | Err e l => Err e l
              | Stuck x => Stuck x
              end
    | Err e l => Err e l
    | Stuck x => Stuck x
    end.

  (** thread.cpp:858-863 *)
  Definition tick_gc : M unit := fun s =>
    if h_should ops (m_heap s) then gc_collect s else Ok (tt, s).

  (** thread.cpp:865-891, the loop *)
  Fixpoint resume_loop (cycles : nat) : M unit :=
    match cycles with
    | O => ret tt
    | S n =>
        tick_gc ;;;
        step_imp ;;;
        t <- mget m_cur ;;
        if t_fin t then ret tt
        else if t_hal t then ret tt
        else resume_loop n
    end.
  Definition no_error (t : thread P) : bool :=
    match t_err t with None => true | Some _ => false end.
  (** thread.cpp:865-891.  [cycles] is not negative (a negative count would
      overflow before reaching zero). *)
  Definition resume (cycles : nat) : M bool :=
    t <- mget m_cur ;;
    if t_fin t then ret false else
    mod_cur (fun t => t_set_hal t false) ;;;
    resume_loop cycles ;;;
    mget (fun s => no_error (m_cur s)).

  (** thread.cpp:827-834 *)
  Definition step_inst : M bool :=
    t <- mget m_cur ;;
    if t_fin t then ret false else
    gc_collect ;;; step_imp ;;; mget (fun s => no_error (m_cur s)).

  (** thread.cpp:836-852; the do-while loop has no bound in the code *)
  Fixpoint step_line_loop (fuel : nat) (line : line_t) : M unit :=
    match fuel with
    | O => lift (Stuck SDiverge)
    | S n =>
        step_imp ;;;
        t <- mget m_cur ;;
        if t_fin t then ret tt else
        lift (assert_ (match t_frs t with [] => false | _ => true end)) ;;;
        lift (assert_ (no_error t)) ;;;
        if line_eqb line (source_line t) then step_line_loop n line else ret tt
    end.
  Definition step_line (fuel : nat) : M bool :=
    t <- mget m_cur ;;
    if t_fin t then ret false else
    step_line_loop fuel (source_line t) ;;;
    mget (fun s => no_error (m_cur s)).

  (** ** The vm *)

  (** vm.cpp:92-117.  [pre] are the threads already handled this round (plus
      those spawned meanwhile), in list order; [n] bounds the threads left. *)
  Fixpoint vm_round (n : nat) (cycles : nat) (h : H) (g : list P) (w : world)
           (pre post : list (thread P)) : res (bool * vm P H) :=
    match post with
    | [] => Ok (true, Vm h g w pre)
    | t :: post' =>
        match n with
        | O => Stuck SDiverge
        | S n' =>
            if negb (t_waits t =? 0) then
              bind (chk32 (t_waits t - 1)) (fun k =>
              vm_round n' cycles h g w (pre ++ [t_set_waits t k]) post')
            else if t_fin t || negb (no_error t) then
              vm_round n' cycles h g w pre post'
            else
              match resume cycles (Mst h g w pre t post') with
              | Ok (ok, s) =>
                  if ok then
                    vm_round n' cycles (m_heap s) (m_glob s) (m_world s)
                      (m_pre s ++ [m_cur s]) (m_post s)
                  else if no_error (m_cur s) then Stuck SAssert
                  else Ok (false, join s)
              | Err e l => Err e l
              | Stuck x => Stuck x
              end
        end
    end.
  Definition vm_resume (cycles : nat) (v : vm P H) : res (bool * vm P H) :=
    vm_round (List.length (vm_threads v)) cycles
      (vm_heap v) (vm_glob v) (vm_world v) [] (vm_threads v).

  (** vm.cpp:79-90 called by the host: the new thread goes to the front of the
      list.  [false] is the null result. *)
  Definition vm_new_thread (v : vm P H) (f : function_t) (argv : list P)
    : res (bool * vm P H) :=
    match new_thread f argv
            (Mst (vm_heap v) (vm_glob v) (vm_world v) [] fresh_thread (vm_threads v)) with
    | Ok (ok, s) =>
        Ok (ok, Vm (m_heap s) (m_glob s) (m_world s) (m_pre s ++ m_post s))
    | Err e l => Err e l
    | Stuck x => Stuck x
    end.

  (** thread.h:53-55 *)
  Definition return_value (t : thread P) : res P :=
    if t_fin t then
      match t_stk t with p :: _ => Ok p | [] => Stuck SAssert end
    else Ok (h_null ops).

  (** vm.cpp:66-70, the unbounded while loop of call_once on the front thread *)
  Fixpoint call_loop (fuel : nat) (s : mst P H) : res (mst P H) :=
    if t_fin (m_cur s) || negb (no_error (m_cur s)) then Ok s else
    match fuel with
    | O => Stuck SDiverge
    | S n =>
        match resume (Z.to_nat (128 * 1024)) s with
        | Ok (ok, s') => if ok then call_loop n s' else Ok s'
        | Err e l => Err e l
        | Stuck x => Stuck x
        end
    end.

  (** vm.cpp:55-77: result flag, return value, error and the vm afterwards *)
  Definition call_once (fuel : nat) (v : vm P H) (f : function_t) (argv : list P)
    : res ((bool * P * option terr) * vm P H) :=
    bind (vm_new_thread v f argv) (fun '(ok, v1) =>
    bind (gc_collect_vm v1) (fun v2 =>
    if negb ok then Stuck SNull else
    bind (split 0 v2) (fun s =>
    bind (call_loop fuel s) (fun s' =>
    match t_err (m_cur s') with
    | Some e => Ok ((false, h_null ops, Some e), join s')
    | None =>
        bind (return_value (m_cur s')) (fun p =>
        Ok ((true, p, None), join s'))
    end)))).

  (** vm.cpp:43-53 *)
  Definition call_init (v : vm P H) : res (bool * vm P H) :=
    match function_find prog (bs "@init") with
    | None => Ok (false, v)
    | Some f =>
        bind (vm_new_thread v f []) (fun '(ok, v1) =>
        if ok then vm_resume (Z.to_nat 8192) v1 else Ok (false, v1))
    end.

  (** vm.cpp:123-130 *)
  Definition vm_finished (v : vm P H) : bool := forallb (@t_fin P) (vm_threads v).

  (** thread.cpp:903-916; std::set insertion keeps one copy *)
  Definition breakpoint_add (t : thread P) (l : line_t) : thread P :=
    t_set_bps t (if existsb (line_eqb l) (t_bps t) then t_bps t else l :: t_bps t).
  Definition breakpoint_remove (t : thread P) (l : line_t) : thread P :=
    t_set_bps t (filter (fun x => negb (line_eqb l x)) (t_bps t)).
  Definition breakpoint_clear (t : thread P) : thread P := t_set_bps t [].
End Machine.

(** ** Registration tables *)

(** builtins_register, lib_builtins/builtin.cpp:246-271: name and arity. *)
Definition builtin_arity : list (bytes * Z) :=
  [(bs "abs", 1); (bs "min", 2); (bs "max", 2); (bs "bitand", 2);
   (bs "sin", 1); (bs "cos", 1); (bs "tan", 1); (bs "len", 1); (bs "chr", 1);
   (bs "round", 1); (bs "ceil", 1); (bs "floor", 1); (bs "sqrt", 1);
   (bs "new_thread", -1); (bs "wait", 1); (bs "new_array", 1)].

(** driver/driver.cpp:156-161 *)
Definition driver_arity : list (bytes * Z) :=
  [(bs "putc", 1); (bs "getc", 0); (bs "puts", 1); (bs "gets", 0);
   (bs "rand", 0); (bs "print", 1)].

(** builtins_resolve, lib_builtins/builtin.cpp:275-298 *)
Definition builtin_map : list (bytes * sysfn) :=
  [(bs "abs", F_abs); (bs "min", F_min); (bs "max", F_max); (bs "bitand", F_bitand);
   (bs "sin", F_sin); (bs "cos", F_cos); (bs "tan", F_tan); (bs "len", F_len);
   (bs "chr", F_chr); (bs "round", F_round); (bs "ceil", F_ceil);
   (bs "floor", F_floor); (bs "sqrt", F_sqrt); (bs "new_thread", F_new_thread);
   (bs "wait", F_wait); (bs "new_array", F_new_array)].

(** driver/driver.cpp:176-181 *)
Definition driver_map : list (bytes * sysfn) :=
  [(bs "putc", F_putc); (bs "getc", F_getc); (bs "puts", F_puts);
   (bs "gets", F_gets); (bs "rand", F_rand); (bs "print", F_puts)].

Definition map_find (m : list (bytes * sysfn)) (n : bytes) : option sysfn :=
  match find (fun x => bytes_eqb (fst x) n) m with
  | Some (_, f) => Some f
  | None => None
  end.

(** lib_builtins/builtin.cpp:300-305 *)
Definition builtins_resolve (p : program_t) : program_t :=
  Prog (p_globals p)
       (map (fun s => match map_find builtin_map (s_name s) with
                      | Some f => Sysc (s_name s) (Some f)
                      | None => s
                      end) (p_syscalls p))
       (p_functions p) (p_code p) (p_lines p) (p_strings p).

(** driver/driver.cpp:176-183 *)
Definition driver_resolve (p : program_t) : program_t :=
  builtins_resolve
    (fold_left (fun q x => snd (syscall_resolve q (fst x) (snd x))) driver_map p).
