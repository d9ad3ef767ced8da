(** A host program driving the vm through its API: it creates values and
    threads, resumes the vm, calls functions and may force collections
    (driver/driver.cpp:127-210 is one such host). *)
From Coq Require Import ZArith List Bool.
From Verif Require Import Base Program VM Gc GcSpec.
Import ListNotations.
Open Scope Z_scope.

(** A call on one thread, the way a debugger makes it. *)
Inductive debug : Type :=
| DRun (cycles : nat)          (* thread.cpp:865-891, resume *)
| DStepInst                    (* thread.cpp:827-834 *)
| DStepLine                    (* thread.cpp:836-852 *)
| DBreakAdd (l : line_t)       (* thread.cpp:903-905 *)
| DBreakRemove (l : line_t)    (* thread.cpp:907-912 *)
| DBreakClear                  (* thread.cpp:914-916 *)
| DHalt.                       (* thread.h:87-89 *)

(** One API call.  Arguments are scalars or none ([None]), the only values
    [value_gc_t::copy] accepts, vm_gc.cpp:88-110. *)
Inductive hostop : Type :=
| HThread (f : function_t) (args : list (option scell))   (* vm.cpp:79-90 *)
| HResume (cycles : nat)                                  (* vm.cpp:92-117 *)
| HCallInit                                               (* vm.cpp:43-53 *)
| HCallOnce (f : function_t) (args : list (option scell)) (* vm.cpp:55-77 *)
| HCollect                                                (* vm.cpp:22-31 *)
| HDebug (i : nat) (d : debug).

(** What the host sees of one call: the flag, and for [call_once] also the
    returned value and the error. *)
Inductive seen : Type :=
| SeenFlag (ok : bool)
| SeenCall (ok : bool) (value : shown) (err : option terr).

Section Host.
  Context {P H : Type}.
  Variable prog : program_t.

  (** vm_gc.cpp:9-76, the host's calls to new_int, new_string, ... *)
  Fixpoint new_args (ops : hops P H) (h : H) (l : list (option scell)) : res (H * list P) :=
    match l with
    | [] => Ok (h, [])
    | None :: r =>
        bind (new_args ops h r) (fun '(h', ps) => Ok (h', h_null ops :: ps))
    | Some c :: r =>
        bind (h_newS ops h c) (fun '(h1, p) =>
        bind (new_args ops h1 r) (fun '(h2, ps) => Ok (h2, p :: ps)))
    end.

  Definition show_view (r : res (view P)) : shown :=
    match r with
    | Ok WNone => ShNone
    | Ok (WS s) => ShScalar s
    | Ok (WA l) => ShArray (zlen l)
    | _ => ShDangling
    end.

  Definition with_heap (v : vm P H) (h : H) : vm P H :=
    Vm h (vm_glob v) (vm_world v) (vm_threads v).

  (** [fuel] bounds the loop of step_line, which has no bound in the code. *)
  Definition debug_step (ops : hops P H) (fuel : nat) (d : debug) : @M P H bool :=
    match d with
    | DRun n => resume ops prog n
    | DStepInst => step_inst ops prog
    | DStepLine => step_line ops prog fuel
    | DBreakAdd l => mbind (mod_cur (fun t => breakpoint_add t l)) (fun _ => ret true)
    | DBreakRemove l => mbind (mod_cur (fun t => breakpoint_remove t l)) (fun _ => ret true)
    | DBreakClear => mbind (mod_cur (@breakpoint_clear P)) (fun _ => ret true)
    | DHalt => mbind (mod_cur (fun t => t_set_hal t true)) (fun _ => ret true)
    end.

  (** [fuel] bounds the loops of call_once and step_line, which have no bound in
      the code.  A debugger reaches the threads by their position in the list of
      the vm (a pointer that the host keeps past the removal of its thread by
      vm.cpp:104-107 dangles; such a use is not modelled). *)
  Definition host_step (ops : hops P H) (fuel : nat) (op : hostop) (v : vm P H)
    : res (seen * vm P H) :=
    match op with
    | HThread f args =>
        bind (new_args ops (vm_heap v) args) (fun '(h, ps) =>
        bind (vm_new_thread ops (with_heap v h) f ps) (fun '(ok, v') =>
        Ok (SeenFlag ok, v')))
    | HResume n =>
        bind (vm_resume ops prog n v) (fun '(ok, v') => Ok (SeenFlag ok, v'))
    | HCallInit =>
        bind (call_init ops prog v) (fun '(ok, v') => Ok (SeenFlag ok, v'))
    | HCallOnce f args =>
        bind (new_args ops (vm_heap v) args) (fun '(h, ps) =>
        bind (call_once ops prog fuel (with_heap v h) f ps) (fun '(r, v') =>
        let '(ok, p, e) := r in
        Ok (SeenCall ok (show_view (h_view ops (vm_heap v') p)) e, v')))
    | HCollect =>
        bind (gc_collect_vm ops v) (fun v' => Ok (SeenFlag true, v'))
    | HDebug i d =>
        match split i v with
        | Ok s => bind (debug_step ops fuel d s) (fun '(ok, s') => Ok (SeenFlag ok, join s'))
        | _ => Ok (SeenFlag false, v)
        end
    end.

  (** A history: every call may run under another heap configuration. *)
  Fixpoint host_run (fuel : nat) (l : list (hops P H * hostop)) (v : vm P H)
    : res (list seen * vm P H) :=
    match l with
    | [] => Ok ([], v)
    | (ops, op) :: r =>
        bind (host_step ops fuel op v) (fun '(x, v1) =>
        bind (host_run fuel r v1) (fun '(xs, v2) => Ok (x :: xs, v2)))
    end.
End Host.

(** A new vm: no threads, [n] globals that are none. *)
Definition vm_start (n : Z) (w : world) : vm ptr heap :=
  Vm empty_heap (zrepeat None n) w [].

(** A configuration of the collected heap: arena size, a bound for the recursion
    of trace, and the decision when to collect. *)
Record gc_cfg : Type := Cfg { c_cap : Z; c_fuel : nat; c_policy : heap -> bool }.
Definition cfg_ops (c : gc_cfg) : hops ptr heap :=
  gc_ops_with (c_cap c) (c_fuel c) (c_policy c).
Definition host_gc (prog : program_t) (fuel : nat) (l : list (gc_cfg * hostop)) (v : vm ptr heap)
  : res (list seen * vm ptr heap) :=
  host_run prog fuel (map (fun x => (cfg_ops (fst x), snd x)) l) v.

(** ** Specification: two vms that look the same *)
Definition same_thread (t u : thread ptr) : Prop :=
  t_pc t = t_pc u /\ t_frs t = t_frs u /\ t_err t = t_err u /\ t_fin t = t_fin u /\
  t_hal t = t_hal u /\ t_cyc t = t_cyc u /\ t_waits t = t_waits u.

(** The values a vm holds: the globals and the stacks of its threads. *)
Definition vm_roots (v : vm ptr heap) : list (list ptr) :=
  roots_of (vm_glob v) (vm_threads v).

Definition same_vm (v u : vm ptr heap) : Prop :=
  vm_world v = vm_world u /\
  Forall2 same_thread (vm_threads v) (vm_threads u) /\
  same_graph (vm_heap v) (vm_roots v) (vm_heap u) (vm_roots u).

(** Out of memory, or a loop that did not end within the given bounds. *)
Definition exhausted {X} (r : res X) : Prop :=
  r = Stuck SOom \/ r = Stuck SOomGc \/ r = Stuck SDiverge.

(** No string of the program, and no string made by the host, contains a NUL. *)
Definition prog_nonul (p : program_t) : Prop := Forall (fun s => ~ In 0 s) (p_strings p).
Definition op_nonul (op : hostop) : Prop :=
  match op with
  | HThread _ l | HCallOnce _ l => Forall (fun c => forall s, c = Some (SStr s) -> ~ In 0 s) l
  | _ => True
  end.
