(** Vocabulary for what can go wrong when a disciplined program runs: the states
    such a program can be in and the complete list of reasons for a crash. *)
From Coq Require Import ZArith List Bool String.
From Verif Require Import GcSpec Base F32 Instr InstrSpec Program VM AbsHeap Host VmSpec CgSpec SafeSpec.
Import ListNotations.
Open Scope Z_scope.
Open Scope list_scope.

(** ** Values that make sense *)

(** The program uses the name of a syscall as a value somewhere. *)
Definition syscall_values (q : program_t) : Prop :=
  exists f a o, In f (p_functions q) /\ starts q (f_start f) a /\ a < f_end f /\ at_ins q a (I1 INS_NEW_SCALL o).

(** Functions are functions of the program, arrays exist ([n] is the number of
    arrays made so far), syscalls are bound and only there if the program makes
    values of them. *)
Definition val_ok (q : program_t) (n : Z) (v : aval) : Prop :=
  match v with
  | AArr l => 0 <= l < n
  | AS (SFun a) => exists f, function_at q a f
  | AS (SSys k) => syscall_values q /\ exists fn, bound_to q k fn
  | _ => True
  end.

(** A result of call_once that makes sense. *)
Definition shown_ok (q : program_t) (r : shown) : Prop :=
  match r with
  | ShDangling => False
  | ShArray n => 0 <= n
  | ShScalar (SFun a) => exists f, function_at q a f
  | ShScalar (SSys k) => syscall_values q /\ exists fn, bound_to q k fn
  | _ => True
  end.

(** ** Stacks that make sense

    [shape q a n frs]: control is at [a], the stack has [n] values, and [frs] are
    the frames.  Each frame belongs to a function of the program that keeps the
    discipline; under a frame are the arguments of its function, under these the
    part of the caller, which waits for one result. *)
Inductive shape (q : program_t) : Z -> Z -> list frame -> Prop :=
| shape_last : forall a n fr f size h,
    In f (p_functions q) -> disciplined q f size h -> starts q (f_start f) a -> a < f_end f ->
    fr_sp fr = num_args f -> n = fr_sp fr + h a ->
    shape q a n [fr]
| shape_call : forall a n fr fr' frs f size h,
    In f (p_functions q) -> disciplined q f size h -> starts q (f_start f) a -> a < f_end f ->
    num_args f <= fr_sp fr -> n = fr_sp fr + h a ->
    shape q (fr_ret fr) (fr_sp fr - num_args f + 1) (fr' :: frs) ->
    shape q a n (fr :: fr' :: frs).

(** Errors that mean the machine is confused, or that nothing raises. *)
Definition confused (e : terr) : Prop :=
  e = e_bad_opcode \/ e = e_stack_underflow \/ e = e_bad_pop \/
  e = e_max_cycle_count \/ e = e_bad_prepare \/ e = e_bad_syscall \/ e = e_stack_overflow \/ e = e_bad_globals_size.

(** A thread is running with a sensible stack, or it has failed with an error
    other than those, or it has finished with a result. *)
Record thread_ok (q : program_t) (n : Z) (t : thread aval) : Prop := ThreadOk {
  th_values : Forall (val_ok q n) (t_stk t);
  th_runs : t_fin t = false -> t_err t = None /\ shape q (t_pc t) (zlen (t_stk t)) (t_frs t);
  th_ended : t_fin t = true -> t_err t = None -> t_stk t <> [];
  th_error : forall e, t_err t = Some e -> ~ confused e
}.
Record vm_ok (q : program_t) (v : vm aval aheap) : Prop := VmOk {
  vo_heap : Forall (Forall (val_ok q (zlen (vm_heap v)))) (vm_heap v);
  vo_glob : Forall (val_ok q (zlen (vm_heap v))) (vm_glob v);
  vo_threads : Forall (thread_ok q (zlen (vm_heap v))) (vm_threads v)
}.

(** ** Reasons to crash *)

(** The exact result of an operator on integers. *)
Definition exact (i : instr) (a b : Z) : option Z :=
  match i with
  | INS_ADD => Some (a + b)
  | INS_SUB => Some (a - b)
  | INS_MUL => Some (a * b)
  | INS_DIV | INS_MOD => if b =? 0 then None else Some (Z.quot a b)
  | _ => None
  end.
Definition is_text (v : aval) : Prop := match v with AS (SStr _) => True | _ => False end.
(** Values to_string has no case for. *)
Definition no_text (v : aval) : Prop := match v with AS (SSys _) | AArr _ => True | _ => False end.

(** The running thread is about to call the host function [fn], and the values
    on its stack are [l]. *)
Definition calling (q : program_t) (s : mst aval aheap) (fn : sysfn) (n : Z) (l : list aval) : Prop :=
  (exists k, at_ins q (pc s) (I2 INS_SCALL n k) /\ bound_to q k fn /\ stack s = l) \/
  (exists k, at_ins q (pc s) (I1 INS_ICALL n) /\ bound_to q k fn /\ stack s = AS (SSys k) :: l).

(** Everything that can go wrong: the running thread is about to ... *)
Inductive crash (q : program_t) (s : mst aval aheap) : stuck -> Prop :=
| crash_overflow : forall i a b r z,         (* integer arithmetic overflows *)
    at_ins q (pc s) (I0 i) -> stack s = AS (SInt b) :: AS (SInt a) :: r ->
    exact i a b = Some z -> in_i32 z = false -> crash q s SOverflow
| crash_negate : forall a r,                 (* so does the negation of INT_MIN *)
    at_ins q (pc s) (I0 INS_NEG) -> stack s = AS (SInt a) :: r -> in_i32 (- a) = false ->
    crash q s SOverflow
| crash_text : forall a b r,                 (* a string and an array or a syscall are added *)
    at_ins q (pc s) (I0 INS_ADD) -> stack s = b :: a :: r ->
    is_text a /\ no_text b \/ no_text a /\ is_text b -> crash q s SAssert
| crash_call_none : forall n r,              (* none is called *)
    at_ins q (pc s) (I1 INS_ICALL n) -> stack s = ANone :: r -> crash q s SAssert
| crash_far : forall i o fr r,               (* a local of a frame past the reach of an int *)
    at_ins q (pc s) (I1 i o) -> i = INS_GETV \/ i = INS_SETV ->
    frames s = fr :: r -> i32_max < fr_sp fr + o -> crash q s SOverflow
| crash_abs : forall n z r, calling q s F_abs n (AS (SInt z) :: r) ->
    in_i32 (- z) = false -> crash q s SOverflow
| crash_cast : forall fn n x r,              (* a float too large for an int, infinite or no number *)
    fn = F_wait \/ fn = F_new_array \/ fn = F_sleep -> calling q s fn n (AS (SFlt x) :: r) ->
    (forall z, f_to_int x <> Ok z) -> crash q s SCast
| crash_thread : forall n args r l,          (* an array is passed to a new thread *)
    calling q s F_new_thread n (args ++ r) -> zlen args = n - 1 -> In (AArr l) args -> crash q s SAssert
| crash_print : forall fn n r,               (* none is printed *)
    fn = F_putc \/ fn = F_puts -> calling q s fn n (ANone :: r) -> crash q s SAssert
| crash_input : forall n l, calling q s F_gets n l -> w_in (m_world s) = [] -> crash q s SUninit.

(** The running thread is about to call a syscall value with a number of
    arguments the host function does not take. *)
Definition misuse (q : program_t) (s : mst aval aheap) : Prop :=
  exists n k fn r, at_ins q (pc s) (I1 INS_ICALL n) /\ stack s = AS (SSys k) :: r /\ bound_to q k fn /\ ~ reads fn n.

(** ** Whole runs *)

(** What a host may pass: functions of the program, and values that make sense. *)
Definition arg_ok (q : program_t) (c : option scell) : Prop :=
  match c with None => True | Some c => val_ok q 0 (AS c) end.
Definition op_ok (q : program_t) (op : hostop) : Prop :=
  match op with
  | HThread f args | HCallOnce f args => In f (p_functions q) /\ Forall (arg_ok q) args
  | _ => True
  end.

Definition arg_val (c : option scell) : aval := match c with None => ANone | Some c => AS c end.
(** The host's calls [ops] ask for a thread that runs [f] on [args]. *)
Definition asked_for (q : program_t) (ops : list hostop) (f : function_t) (args : list (option scell)) : Prop :=
  In (HThread f args) ops \/ In (HCallOnce f args) ops \/
  In HCallInit ops /\ args = [] /\ function_find q (bs "@init") = Some f.

(** From [v0], threads that [ops] asks for and the instructions they execute, in
    any order, can lead to [v].  Waiting, halting and the removal of finished
    threads happen in between, and a debugger may change breakpoints. *)
Inductive leads (q : program_t) (ops : list hostop) (v0 : vm aval aheap) : vm aval aheap -> Prop :=
| leads_here : leads q ops v0 v0
| leads_start : forall h g w ts f args,
    leads q ops v0 (Vm h g w ts) -> asked_for q ops f args -> zlen args = num_args f ->
    leads q ops v0 (Vm h g w (prepared fresh_thread f (map arg_val args) :: ts))
| leads_step : forall s s',
    leads q ops v0 (join s) -> t_fin (m_cur s) = false -> step_imp abs_ops q s = Ok (tt, s') ->
    leads q ops v0 (join s')
| leads_idle : forall h g w pre t post n b,
    leads q ops v0 (Vm h g w (pre ++ t :: post)) ->
    leads q ops v0 (Vm h g w (pre ++ t_set_hal (t_set_waits t n) b :: post))
| leads_breaks : forall h g w pre t post l,
    leads q ops v0 (Vm h g w (pre ++ t :: post)) ->
    leads q ops v0 (Vm h g w (pre ++ t_set_bps t l :: post))
| leads_drop : forall h g w pre t post,
    leads q ops v0 (Vm h g w (pre ++ t :: post)) -> t_fin t = true ->
    leads q ops v0 (Vm h g w (pre ++ post)).

(** Why a run can end badly. *)
Inductive ends_badly (q : program_t) (ops : list hostop) (v0 : vm aval aheap) : stuck -> Prop :=
| bad_memory : forall x, x = SOom \/ x = SOomGc -> ends_badly q ops v0 x      (* no memory left *)
| bad_bound : ends_badly q ops v0 SDiverge                                    (* call_once or step_line ran longer than the given bound *)
| bad_step : forall s x, leads q ops v0 (join s) -> t_fin (m_cur s) = false ->
    crash q s x -> ends_badly q ops v0 x                                      (* one of the reasons above *)
| bad_wait : forall v t, leads q ops v0 v -> In t (vm_threads v) -> in_i32 (t_waits t - 1) = false ->
    ends_badly q ops v0 SOverflow                                             (* a thread waits for INT_MIN rounds *)
| bad_count : forall f args, In (HCallOnce f args) ops -> zlen args <> num_args f ->
    ends_badly q ops v0 SNull.                                                (* call_once with too many or too few arguments *)

(** Somewhere on the way a syscall value is called with a wrong number of
    arguments. *)
Definition misused (q : program_t) (ops : list hostop) (v0 : vm aval aheap) : Prop :=
  exists s, leads q ops v0 (join s) /\ t_fin (m_cur s) = false /\ misuse q s.
