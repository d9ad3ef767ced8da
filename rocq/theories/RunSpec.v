(** Vocabulary: what the host sees when it initialises a source program and calls
    its functions, told from the meaning of the source alone (SrcSem.v). *)
From Coq Require Import ZArith List Bool String.
From Verif Require Import Base Program VM AbsHeap GcSpec Host Source Parser Sema Build SrcSem CgSpec.
Import ListNotations.
Open Scope Z_scope.
Open Scope list_scope.

(** Values the host can pass: scalars and none. *)
Definition passed (o : option scell) : aval :=
  match o with Some c => AS c | None => ANone end.

(** What [call_once] shows: a scalar, none or the length of an array. *)
Definition shown_value (st : sst) (v : aval) : shown := show_view (abs_view (s_heap st) v).

(** Threads started by one call have nothing to do with the next. *)
Definition next_call (st : sst) : sst := St (s_heap st) (s_glob st) (s_world st) [].

(** A new vm: no arrays, no globals, no threads. *)
Definition fresh_state (w : world) : sst := St [] [] w [].
(** How the initialisation of the globals ended: with or without an error. *)
Definition init_result (o : outcome sst) : option (bool * sst) :=
  match o with Done st => Some (true, st) | Error _ st => Some (false, st) | _ => None end.

(** A call of the function named by the first component. *)
Definition host_call : Type := (bytes * list (option scell))%type.
Definition named (items : list ritem) (x : bytes) :=
  find (fun f => bytes_eqb (fd_name (fst (fst f))) x) (functs items).

(** [session st calls xs st']: in state [st] the calls, one after the other, show
    [xs] and lead to state [st'], whose [s_world] is what was printed and read.
    Calls without a defined meaning are not in the relation. *)
Section Session.
  Variable items : list ritem.
  Variable faddr : nat -> Z.
  Variable sidx : bytes -> Z.
  Variable sys : Z -> list aval -> sst -> outcome (aval * sst).
  Inductive session : sst -> list host_call -> list seen -> sst -> Prop :=
  | session_end : forall st, session st [] [] st
  | session_value : forall st x vs rest f n v st' xs st2, named items x = Some f ->
      run_call items faddr sidx sys n f (map passed vs) st = Done (v, st') ->
      session (next_call st') rest xs st2 ->
      session st ((x, vs) :: rest) (SeenCall true (shown_value st' v) None :: xs) st2
  | session_error : forall st x vs rest f n e st' xs st2, named items x = Some f ->
      run_call items faddr sidx sys n f (map passed vs) st = Error e st' ->
      session (next_call st') rest xs st2 ->
      session st ((x, vs) :: rest) (SeenCall false ShNone (Some e) :: xs) st2.
End Session.

(** The API calls that make these calls in the program [q]. *)
Definition call_op (q : program_t) (c : host_call) : hostop :=
  match function_find q (fst c) with
  | Some g => HCallOnce g (snd c)
  | None => HCollect
  end.

(** The thread that [call_init] started, which is the oldest, has finished. *)
Definition init_done {P H} (v : vm P H) : Prop :=
  exists young t, vm_threads v = young ++ [t] /\ t_fin t = true.

(** At some point of the calls a thread has more values on its stack than a
    32-bit index can address. *)
Definition overflows (q : program_t) (s : machine) : Prop :=
  exists s', steps q s s' /\ i32_max < zlen (t_stk (m_cur s')).
Definition starting {H} (q : program_t) (v : vm aval H) (g : function_t) (vs : list (option scell)) : mst aval H :=
  Mst (vm_heap v) (vm_glob v) (vm_world v) [] (prepared fresh_thread g (map passed vs)) (vm_threads v).
Inductive goes_deep (q : program_t) (bound : nat) : vm aval aheap -> list hostop -> Prop :=
| deep_init : forall v l g, function_find q (bs "@init") = Some g -> overflows q (starting q v g []) ->
    goes_deep q bound v (HCallInit :: l)
| deep_call : forall v l g vs, overflows q (starting q v g vs) -> goes_deep q bound v (HCallOnce g vs :: l)
| deep_later : forall v o l x v', host_step q abs_ops bound o v = Ok (x, v') -> goes_deep q bound v' l ->
    goes_deep q bound v (o :: l).

(** The tree of the sources in [m] that the optimiser and the generator get: the
    files and everything they import, with the host's syscalls in front. *)
Definition analysed (fuel : nat) (fs : bytes -> option bytes) (addr : nat -> Z) (regs : list (bytes * Z)) (m : list source_t)
  (items : list ritem) (n : nat) : Prop :=
  exists src m', parse_sources fuel fs m 0 [] [] = Ok (src, m') /\
    run_sema addr (map (fun x => CSys (fst x) (snd x)) regs ++ map CItem src) = Ok (items, n).
