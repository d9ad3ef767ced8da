(** C100: what can go wrong when a compiled program runs. *)
From Coq Require Import ZArith List Bool Lia ZifyBool String.
From Verif Require Import Base BaseFacts F32 Instr InstrSpec Program VM AbsHeap Gc GcSpec Refine Host HostProofs Demo VmSpec CgSpec Ast Source Lexer Parser
  Sema Codegen Optimize Build PropertiesCodegen PropertiesBuild PropertiesBuiltins SafeSpec SafeBuild SafeVmSpec SafeStep SafeRun PropertiesSafe.
From Verif Require SrcNames.
Import ListNotations.
Open Scope Z_scope.

(** ** C100 Compiled programs fail for a known reason only

    One step, on the ideal heap: the running thread of a sensible state calls a
    syscall value with a wrong number of arguments, or the step leads to a
    sensible state, or it crashes for one of the reasons in SafeVmSpec.v. *)
Theorem C100_step : forall q s, verified q -> vm_ok q (join s) -> t_fin (m_cur s) = false ->
  misuse q s \/
  match step_imp abs_ops q s with
  | Ok (_, s') => vm_ok q (join s')
  | Err _ _ => False
  | Stuck x => crash q s x
  end.
Proof. exact step_safe. Qed.

(** No thread of the vm and no call has failed with a sign of confusion, and the
    results of the calls make sense. *)
Definition unconfused {P H} (q : program_t) (xs : list seen) (v : vm P H) : Prop :=
  (forall t e, In t (vm_threads v) -> t_err t = Some e -> ~ confused e) /\
  (forall b r e, In (SeenCall b r (Some e)) xs -> ~ confused e) /\
  (forall b r e, In (SeenCall b r e) xs -> shown_ok q r).

Lemma start_ok q k w : vm_ok q (abs_start k w).
Proof.
  constructor; cbn [abs_start vm_heap vm_glob vm_threads]; try constructor. apply Forall_zrepeat. exact Logic.I.
Qed.

Lemma Forall2_In_l {A B} (R : A -> B -> Prop) l l' x : Forall2 R l l' -> In x l -> exists y, In y l' /\ R x y.
Proof.
  induction 1 as [|a b l l' H F IH]; [contradiction|]. intros [->|I]; [exists b; split; [now left|exact H]|].
  destruct (IH I) as (y & Y & Z0). exists y. split; [now right|exact Z0].
Qed.

(** Whole histories, with the collector: a host makes any calls on a new vm, with
    any collector settings. *)
Theorem C100_runs : forall q k w fuel l, verified q -> prog_nonul q -> Forall op_nonul (map snd l) -> Forall (op_ok q) (map snd l) ->
  misused q (map snd l) (abs_start k w) \/
  match host_gc q fuel l (vm_start k w) with
  | Ok (xs, v) => unconfused q xs v
  | Err _ _ => False
  | Stuck x => ends_badly q (map snd l) (abs_start k w) x
  end.
Proof.
  intros q k w fuel l V PN ON OK.
  destruct (run_J q V (map snd l) (abs_start k w) fuel (map snd l) (abs_start k w)) as [M|S];
    [split; [apply leads_here|apply start_ok]|exact OK|apply incl_refl|left; exact M|right].
  pose proof (ref_host_run q fuel l _ _ _ PN ON (VR_start k w)) as R.
  destruct (host_gc q fuel l (vm_start k w)) as [[xs v]|e le|x].
  - destruct (abs_run q fuel (map snd l) (abs_start k w)) as [[ys a]|? ?|?]; cbn [rrel] in R; try contradiction.
    destruct R as [E (B & VR)]. cbn [fst snd] in *. subst ys. destruct S as [[_ [_ _ T]] C]. split; [|split; [intros b r e I; now apply (C b r (Some e) I)|intros b r e I; apply (C b r e I)]].
    intros t e I Er. destruct (Forall2_In_l _ _ _ _ (vr_threads _ _ _ VR) I) as (u & U & Tr).
    rewrite (tr_err _ _ _ _ Tr) in Er. rewrite Forall_forall in T. destruct (T _ U) as [_ _ _ T4]. now apply T4.
  - destruct (abs_run q fuel (map snd l) (abs_start k w)) as [[ys a]|? ?|?]; cbn [rrel] in R; contradiction.
  - destruct x; try (apply bad_bound); try (apply bad_memory; auto; fail);
      destruct (abs_run q fuel (map snd l) (abs_start k w)) as [[ys a]|? ?|y]; cbn [rrel] in R; try contradiction; subst y; exact S.
Qed.

(** If the program does not use syscalls as values, nothing can be misused: the
    reasons in [ends_badly] are all there is. *)
Theorem C100_reasons : forall q k w fuel l, verified q -> ~ syscall_values q ->
  prog_nonul q -> Forall op_nonul (map snd l) -> Forall (op_ok q) (map snd l) ->
  match host_gc q fuel l (vm_start k w) with
  | Ok (xs, v) => unconfused q xs v
  | Err _ _ => False
  | Stuck x => ends_badly q (map snd l) (abs_start k w) x
  end.
Proof.
  intros q k w fuel l V NS PN ON OK. destruct (C100_runs q k w fuel l V PN ON OK) as [M|R]; [|exact R].
  destruct (not_misused q (map snd l) (abs_start k w) V NS (start_ok q k w) OK M).
Qed.

(** In particular the vm never reads outside its code, its tables or an array,
    never follows a dangling reference, and dereferences null only if the host
    passes call_once a wrong number of arguments. *)
Theorem C100_in_bounds : forall q k w fuel l, verified q -> ~ syscall_values q ->
  prog_nonul q -> Forall op_nonul (map snd l) -> Forall (op_ok q) (map snd l) ->
  host_gc q fuel l (vm_start k w) <> Stuck SOob /\
  host_gc q fuel l (vm_start k w) <> Stuck SDangling /\
  (host_gc q fuel l (vm_start k w) = Stuck SNull ->
   exists f args, In (HCallOnce f args) (map snd l) /\ zlen args <> num_args f).
Proof.
  intros q k w fuel l V NS PN ON OK. pose proof (C100_reasons q k w fuel l V NS PN ON OK) as R.
  repeat split; try intros E; rewrite E in R; inversion R as [? H| |? ? _ _ H|? ? _ _ H|? ? H1 H2];
    try (destruct H as [H|H]; discriminate H); try (inversion H; fail). eauto.
Qed.

(** The same from the text on: the compiler, with or without the optimiser, and
    the syscalls of the command line driver. *)
Theorem C100_from_text : forall fuel fs addr on regs m p, incl regs (builtin_arity ++ driver_arity) ->
  build fuel fs addr on regs m = Ok (Some p) -> fits p ->
  let q := driver_resolve p in
  forall k w N l, Forall op_nonul (map snd l) -> Forall (op_ok q) (map snd l) ->
  misused q (map snd l) (abs_start k w) \/
  match host_gc q N l (vm_start k w) with
  | Ok (xs, v) => unconfused q xs v
  | Err _ _ => False
  | Stuck x => ends_badly q (map snd l) (abs_start k w) x
  end.
Proof.
  intros fuel fs addr on regs m p I B F q k w N l ON OK. apply C100_runs; auto; [eapply C99_driver_programs; eassumption|].
  eapply SrcNames.bound_nonul; [exact B|apply driver_bound].
Qed.

(** A program with arrays, an indirect call, output and a thread, run with a
    collection before every instruction. *)
Definition work_text : bytes := bs "
var total = 0
function add(x, y)
  return x + y
end
function main(n)
  var i
  var a = [1, 2, 3]
  var f = add
  for (i = 0 to n)
    a[i % 3] = f(a[i % 3], i)
    total = total + len(a)
  end
  print(""total "" + total)
  new_thread(add, 1, 2)
  return a[1]
end
"%string.
Definition work_build : res (option program_t) :=
  build 5 (fun _ => None) Z.of_nat true (driver_arity ++ builtin_arity) (snd (sm_load_from_string [] work_text)).
Definition work_prog : program_t := match work_build with Ok (Some p) => p | _ => Prog [] [] [] [] [] [] end.
Definition work_run : program_t := driver_resolve work_prog.
Definition work_main : function_t := match nth_error (p_functions work_prog) 1 with Some f => f | None => Func [] 0 0 [] [] end.
Definition work_ops (f : function_t) : list (gc_cfg * hostop) :=
  map (pair cfg_always) [HCallInit; HCallOnce f [Some (SInt 7)]; HResume 50; HCallOnce f [Some (SStr (bs "x"%string))]].
Lemma work_nonul f : Forall op_nonul (map snd (work_ops f)).
Proof.
  assert (N : forall s, Some (SStr (bs "x"%string)) = Some (SStr s) -> ~ In 0 s).
  { intros s E. inversion E; subst s. intros [X|[]]. discriminate X. }
  cbn [work_ops map snd]. constructor; [exact Logic.I|]. constructor; [constructor; [discriminate|constructor]|]. constructor; [exact Logic.I|].
  constructor; [constructor; [exact N|constructor]|constructor].
Qed.
Lemma work_ok q f : In f (p_functions q) -> Forall (op_ok q) (map snd (work_ops f)).
Proof.
  intros I. cbn [work_ops map snd]. constructor; [exact Logic.I|]. constructor; [split; [exact I|repeat constructor]|]. constructor; [exact Logic.I|].
  constructor; [split; [exact I|repeat constructor]|constructor].
Qed.
Definition prog_nonulb (p : program_t) : bool := forallb (forallb (fun c => negb (c =? 0))) (p_strings p).
Lemma prog_nonulb_ok p : prog_nonulb p = true -> prog_nonul p.
Proof.
  intros H. unfold prog_nonul. apply Forall_forall. intros s I J. unfold prog_nonulb in H. rewrite forallb_forall in H.
  specialize (H s I). rewrite forallb_forall in H. specialize (H 0 J). discriminate.
Qed.
Lemma work_b : work_build = Ok (Some work_prog). Proof. vm_compute; reflexivity. Qed.
Lemma work_f : fits work_prog. Proof. apply fitsb_ok; vm_compute; reflexivity. Qed.
Lemma work_s : ~ syscall_values work_run. Proof. apply by_name; vm_compute; reflexivity. Qed.
Lemma work_n : prog_nonul work_run. Proof. apply prog_nonulb_ok; vm_compute; reflexivity. Qed.
Lemma work_i : In work_main (p_functions work_run). Proof. vm_compute; right; left; reflexivity. Qed.
Lemma work_r :
  match host_gc work_run 5 (work_ops work_main) (vm_start 1 world0) with
  | Ok (xs, v) => xs = [SeenFlag true; SeenCall true (ShScalar (SInt 7)) None; SeenFlag true; SeenCall false ShNone (Some e_bad_type_operation)] /\
      w_out (vm_world v) = bs "total 21
"%string /\ zlen (vm_threads v) = 2
  | _ => False
  end.
Proof. vm_compute. repeat split. Qed.
Lemma driver_incl : incl (driver_arity ++ builtin_arity) (builtin_arity ++ driver_arity).
Proof. intros x I. apply in_app_iff in I. apply in_app_iff. tauto. Qed.
Lemma work_v : verified work_run.
Proof.
  apply (C99_driver_programs 5 (fun _ => None) Z.of_nat true (driver_arity ++ builtin_arity) (snd (sm_load_from_string [] work_text)) work_prog driver_incl);
    [vm_compute; reflexivity|exact work_f].
Qed.
Example C100_ex : work_build = Ok (Some work_prog) /\ fits work_prog /\
  verified work_run /\ ~ syscall_values work_run /\ prog_nonul work_run /\
  Forall op_nonul (map snd (work_ops work_main)) /\ Forall (op_ok work_run) (map snd (work_ops work_main)) /\
  match host_gc work_run 5 (work_ops work_main) (vm_start 1 world0) with
  | Ok (xs, v) => xs = [SeenFlag true; SeenCall true (ShScalar (SInt 7)) None; SeenFlag true; SeenCall false ShNone (Some e_bad_type_operation)] /\
      w_out (vm_world v) = bs "total 21
"%string /\ zlen (vm_threads v) = 2
  | _ => False
  end.
Proof.
  split; [exact work_b|]. split; [exact work_f|]. split; [exact work_v|]. split; [exact work_s|].
  split; [exact work_n|]. split; [apply work_nonul|]. split; [apply work_ok; exact work_i|]. exact work_r.
Qed.

(** A crash for a listed reason: 100000 times 100000. *)
Definition square_text : bytes := bs "function main(n)
  return n * n
end
"%string.
Definition square_build : res (option program_t) :=
  build 5 (fun _ => None) Z.of_nat true (driver_arity ++ builtin_arity) (snd (sm_load_from_string [] square_text)).
Definition square_prog : program_t := match square_build with Ok (Some p) => p | _ => Prog [] [] [] [] [] [] end.
Definition square_main : function_t := match p_functions square_prog with f :: _ => f | [] => Func [] 0 0 [] [] end.
Example C100_crash_ex : square_build = Ok (Some square_prog) /\
  host_gc (driver_resolve square_prog) 5 [(cfg_always, HCallOnce square_main [Some (SInt 100000)])] (vm_start 0 world0) = Stuck SOverflow /\
  host_gc (driver_resolve square_prog) 5 [(cfg_always, HCallOnce square_main [])] (vm_start 0 world0) = Stuck SNull.
Proof. split; [vm_compute; reflexivity|]. split; vm_compute; reflexivity. Qed.

Print Assumptions C100_step.
Print Assumptions C100_runs.
Print Assumptions C100_reasons.
Print Assumptions C100_in_bounds.
Print Assumptions C100_from_text.
