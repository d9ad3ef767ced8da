(** C115: stepping through a program the way a debugger does. *)
From Coq Require Import ZArith List Bool Lia ZifyBool String.
From Verif Require Import Base BaseFacts F32 Instr InstrSpec Program VM AbsHeap Gc GcSpec Refine Host HostProofs Demo VmSpec CgSpec Ast Source Lexer Parser
  Sema Codegen Optimize Build RunFacts PropertiesRun PropertiesCodegen PropertiesBuild PropertiesBuiltins SafeSpec SafeBuild SafeVmSpec SafeStep SafeRun PropertiesSafe PropertiesSafeRun.
Import ListNotations.
Open Scope list_scope.
Open Scope Z_scope.

(** [n] instructions of the running thread, one after the other, without a
    collection in between. *)
Inductive steps {P H} (ops : hops P H) (prog : program_t) : nat -> mst P H -> mst P H -> Prop :=
| steps_0 : forall s, steps ops prog 0 s s
| steps_S : forall n s s1 s2, step_imp ops prog s = Ok (tt, s1) -> steps ops prog n s1 s2 -> steps ops prog (S n) s s2.

(** The thread is still on the line [l]. *)
Definition stays {P H} (prog : program_t) (l : line_t) (s : mst P H) : Prop :=
  t_fin (m_cur s) = false /\ line_now prog s = l.

Lemma steps_fun {P H} (ops : hops P H) prog n s a b : steps ops prog n s a -> steps ops prog n s b -> a = b.
Proof.
  intros A. revert b. induction A as [s|n s s1 s2 E A IH]; intros b B; inversion B; subst; [reflexivity|].
  apply IH. congruence.
Qed.

Lemma line_loop_inv {P H} (ops : hops P H) prog l : forall fuel s u s', step_line_loop ops prog fuel l s = Ok (u, s') ->
  exists n, (1 <= n <= fuel)%nat /\ steps ops prog n s s' /\
    (forall k x, (0 < k < n)%nat -> steps ops prog k s x -> stays prog l x /\ no_error (m_cur x) = true /\ t_frs (m_cur x) <> []) /\
    ~ stays prog l s' /\ (t_fin (m_cur s') = false -> no_error (m_cur s') = true).
Proof.
  induction fuel as [|fuel IH]; intros s u s' E; [discriminate|]. cbn [step_line_loop] in E.
  apply mbind_ok in E. destruct E as ([] & s1 & E1 & E). unfold mbind, mget, lift, assert_, ret in E.
  assert (X1 : forall x, steps ops prog 1 s x -> x = s1).
  { intros x X. inversion X as [|? ? ? ? Y Z0]; subst. inversion Z0; subst. congruence. }
  assert (S1 : steps ops prog 1 s s1) by (econstructor; [exact E1|constructor]).
  destruct (t_fin (m_cur s1)) eqn:F.
  { assert (s1 = s') by congruence. subst s1. exists 1%nat. split; [lia|]. split; [exact S1|]. split; [intros; lia|]. split; [intros [X _]; congruence|congruence]. }
  destruct (t_frs (m_cur s1)) as [|fr frs] eqn:Fr; [discriminate|]. destruct (no_error (m_cur s1)) eqn:Ne; [|discriminate].
  destruct (line_eqb l (source_line prog (m_cur s1))) eqn:L.
  - destruct (IH _ _ _ E) as (n & N & St & Mid & La). exists (S n). split; [lia|]. split; [econstructor; eassumption|]. split; [|exact La].
    intros k x K X. destruct k as [|k]; [lia|]. inversion X as [|? ? ? ? Y Z0]; subst. assert (s2 = s1) by congruence. subst s2.
    destruct k as [|k].
    + inversion Z0; subst. split; [split; [exact F|]|split; [exact Ne|congruence]]. apply line_eqb_eq in L. symmetry. exact L.
    + apply (Mid (S k)); [lia|exact Z0].
  - assert (s1 = s') by congruence. subst s1. exists 1%nat. split; [lia|]. split; [exact S1|]. split; [intros; lia|]. split; [|auto].
    intros [_ X]. assert (line_eqb l (source_line prog (m_cur s')) = true) by (apply line_eqb_eq; symmetry; exact X). congruence.
Qed.

(** ** C115 Stepping

    step_line executes instructions of the thread, at least one, until it has
    finished or left the line on which it stood, and no further: in between it is
    on the same line.  The result tells whether it is free of errors. *)
Theorem C115_step_line : forall P H (ops : hops P H) prog fuel s b s', t_fin (m_cur s) = false ->
  step_line ops prog fuel s = Ok (b, s') ->
  exists n, (1 <= n)%nat /\ steps ops prog n s s' /\
    (forall k x, (0 < k < n)%nat -> steps ops prog k s x -> stays prog (line_now prog s) x) /\
    ~ stays prog (line_now prog s) s' /\
    (b = true <-> t_err (m_cur s') = None).
Proof.
  intros P H ops prog fuel s b s' F E. unfold step_line in E. unfold mbind at 1, mget in E. rewrite F in E.
  apply mbind_ok in E. destruct E as (u & s1 & E1 & E). assert (s1 = s' /\ b = no_error (m_cur s1)) as [-> ->] by (split; congruence).
  destruct (line_loop_inv _ _ _ _ _ _ _ E1) as (n & N & St & Mid & La & _). exists n. split; [lia|]. split; [exact St|].
  split; [intros k x K X; apply (Mid k x K X)|]. split; [exact La|]. unfold no_error. destruct (t_err (m_cur s')); split; congruence.
Qed.

(** step_inst executes exactly one, after a collection. *)
Theorem C115_step_inst : forall P H (ops : hops P H) prog s b s', t_fin (m_cur s) = false ->
  step_inst ops prog s = Ok (b, s') ->
  exists s1, gc_collect ops s = Ok (tt, s1) /\ steps ops prog 1 s1 s' /\ (b = true <-> t_err (m_cur s') = None).
Proof.
  intros P H ops prog s b s' F E. unfold step_inst in E. unfold mbind at 1, mget in E. rewrite F in E.
  apply mbind_ok in E. destruct E as ([] & s1 & E1 & E). apply mbind_ok in E. destruct E as ([] & s2 & E2 & E).
  assert (s2 = s' /\ b = no_error (m_cur s2)) as [-> ->] by (split; congruence).
  exists s1. split; [exact E1|]. split; [econstructor; [exact E2|constructor]|]. unfold no_error. destruct (t_err (m_cur s')); split; congruence.
Qed.

(** *** Stepping is running

    On the ideal heap, without breakpoints and syscalls that halt, a step is a
    resume with the right number of cycles, so a program that is stepped through
    does what it does otherwise. *)
Lemma steps_resume : forall prog n s s', no_wait prog -> t_bps (m_cur s) = [] -> t_hal (m_cur s) = false ->
  steps abs_ops prog n s s' -> (forall k x, (0 < k < n)%nat -> steps abs_ops prog k s x -> t_fin (m_cur x) = false) ->
  resume_loop abs_ops prog n s = Ok (tt, s') /\ t_hal (m_cur s') = false /\ t_bps (m_cur s') = [].
Proof.
  intros prog n s s' Nw Bp Hl St. induction St as [s|n s s1 s2 E St IH]; intros Mid; [split; [reflexivity|]; auto|].
  destruct (C56_step _ _ _ _ _ _ Nw Hl E) as (Ha & _ & Bs). rewrite Bp in Ha, Bs.
  assert (H1 : t_hal (m_cur s1) = false).
  { destruct (t_hal (m_cur s1)); [|reflexivity]. destruct Ha as [Ha _]. destruct (Ha eq_refl) as [[] _]. }
  cbn [resume_loop]. unfold mbind at 1, tick_gc. cbn [abs_ops h_should]. unfold mbind at 1. rewrite E. unfold mbind, mget.
  destruct n as [|n].
  - inversion St; subst. split; [|auto]. destruct (t_fin (m_cur s2)); [reflexivity|]. rewrite H1. reflexivity.
  - rewrite (Mid 1%nat s1); [|lia|econstructor; [exact E|constructor]]. rewrite H1.
    apply IH; auto. intros k x K X. apply (Mid (S k)); [lia|]. econstructor; eassumption.
Qed.
Theorem C115_as_resume : forall prog fuel s b s', no_wait prog -> t_fin (m_cur s) = false ->
  t_bps (m_cur s) = [] -> t_hal (m_cur s) = false ->
  (step_line abs_ops prog fuel s = Ok (b, s') -> exists n, (1 <= n)%nat /\ resume abs_ops prog n s = Ok (b, s')) /\
  step_inst abs_ops prog s = resume abs_ops prog 1 s.
Proof.
  intros prog fuel s b s' Nw F Bp Hl.
  assert (U : unhalted s = s) by (destruct s as [h g w pre [] post]; cbn in Hl; subst; reflexivity).
  assert (R : forall n, resume abs_ops prog n s = mbind (resume_loop abs_ops prog n) (fun _ => mget (fun s => no_error (m_cur s))) s).
  { intros n. unfold resume. unfold mbind at 1, mget at 1. rewrite F. unfold mbind at 1, mod_cur. fold (unhalted s).
    change (Mst (m_heap s) _ _ _ _ _) with (unhalted s). rewrite U. reflexivity. }
  split.
  - intros E. destruct (C115_step_line _ _ _ _ _ _ _ _ F E) as (n & N & St & Mid & _ & Eb). exists n. split; [exact N|]. rewrite R. unfold mbind.
    destruct (steps_resume prog n s s' Nw Bp Hl St) as [L _]; [intros k x K X; apply (Mid k x K X)|]. rewrite L. unfold mget. do 2 f_equal.
    unfold no_error. destruct (t_err (m_cur s')), b; try reflexivity; [destruct Eb as [Eb _]; discriminate (Eb eq_refl)|destruct Eb as [_ Eb]; discriminate (Eb eq_refl)].
  - rewrite R. unfold step_inst. unfold mbind at 1, mget at 1. rewrite F. unfold mbind at 1. rewrite Refine.abs_gc_collect.
    cbn [resume_loop]. unfold mbind, tick_gc, mget, ret. cbn [abs_ops h_should]. destruct (step_imp abs_ops prog s) as [[[] s1]| |]; [|reflexivity|reflexivity].
    destruct (t_fin (m_cur s1)); [reflexivity|]. destruct (t_hal (m_cur s1)); reflexivity.
Qed.

(** *** The assertions of step_line

    In a program that was compiled from source and that uses no syscall as a
    value, step_line returns as soon as the thread finishes or leaves its line
    within the bound: neither of its assertions fails. *)
Theorem C115_returns : forall q s s' n fuel, verified q -> ~ syscall_values q -> vm_ok q (join s) -> t_fin (m_cur s) = false ->
  (1 <= n <= fuel)%nat -> steps abs_ops q n s s' ->
  (forall k x, (0 < k < n)%nat -> steps abs_ops q k s x -> stays q (line_now q s) x) ->
  ~ stays q (line_now q s) s' ->
  exists b, step_line abs_ops q fuel s = Ok (b, s') /\ vm_ok q (join s').
Proof.
  intros q s s' n fuel V NS O F [N Le] St Mid La. unfold step_line. unfold mbind at 1, mget at 1. rewrite F.
  assert (NM : forall s, vm_ok q (join s) -> ~ misuse q s).
  { intros x Os (m & k & fn & r & _ & E & _). pose proof (cur_thread q x Os) as [T _ _ _]. unfold stack in E. rewrite E in T. apply Forall_inv in T. exact (NS (proj1 T)). }
  assert (G : step_line_loop abs_ops q fuel (line_now q s) s = Ok (tt, s') /\ vm_ok q (join s')).
  { revert Mid La. generalize (line_now q s). intros l Mid La. revert n N Le St Mid. revert s O F. induction fuel as [|fuel IH]; intros s O F n N Le St Mid; [lia|].
    destruct St as [s|n s s1 s2 E St]; [lia|]. destruct (step_safe q s V O F) as [M|G]; [destruct (NM s O M)|]. rewrite E in G.
    cbn [step_line_loop]. unfold mbind at 1. rewrite E. unfold mbind, mget, lift, assert_, ret.
    assert (S1 : steps abs_ops q 1 s s1) by (econstructor; [exact E|constructor]).
    destruct n as [|n].
    - inversion St; subst. destruct (t_fin (m_cur s2)) eqn:F1; [split; [reflexivity|exact G]|].
      destruct (cur_thread q s2 G) as [_ T _ _]. destruct (T F1) as [Er Sh]. destruct (shape_in _ _ _ _ Sh) as (fr & rest & _ & _ & _ & Ef & _).
      rewrite Ef. unfold no_error. rewrite Er. destruct (line_eqb l (source_line q (m_cur s2))) eqn:L; [|split; [reflexivity|exact G]].
      exfalso. apply La. split; [exact F1|]. apply line_eqb_eq in L. symmetry. exact L.
    - destruct (Mid 1%nat s1) as [F1 L1]; [lia|exact S1|]. rewrite F1.
      destruct (cur_thread q s1 G) as [_ T _ _]. destruct (T F1) as [Er Sh]. destruct (shape_in _ _ _ _ Sh) as (fr & rest & _ & _ & _ & Ef & _).
      rewrite Ef. unfold no_error. rewrite Er. replace (line_eqb l (source_line q (m_cur s1))) with true by (symmetry; apply line_eqb_eq; symmetry; exact L1).
      apply (IH s1 G F1 (S n)); [lia|lia|exact St|]. intros k x K X. apply (Mid (S k)); [lia|]. econstructor; eassumption. }
  destruct G as [G Ok']. exists (no_error (m_cur s')). split; [|exact Ok']. unfold mbind. change (source_line q (m_cur s)) with (line_now q s). rewrite G. reflexivity.
Qed.

(** *** What goes wrong when stepping *)

(** step_line never collects: it does the same whatever the collector is and
    whenever it wants to run, so all the garbage of a line stays. *)
Theorem C115_no_collection : forall cap c1 p1 c2 p2 prog fuel s,
  step_line (gc_ops_with cap c1 p1) prog fuel s = step_line (gc_ops_with cap c2 p2) prog fuel s.
Proof.
  intros cap c1 p1 c2 p2 prog fuel s.
  assert (St : forall x, step_imp (gc_ops_with cap c1 p1) prog x = step_imp (gc_ops_with cap c2 p2) prog x).
  { intros x. unfold step_imp, mbind. destruct (fetch prog x) as [[b x1]| |]; [|reflexivity|reflexivity].
    destruct (of_opcode b) as [i|]; [|reflexivity].
    assert (D : do_ins (gc_ops_with cap c1 p1) prog i x1 = do_ins (gc_ops_with cap c2 p2) prog i x1) by (destruct i; reflexivity).
    rewrite D. reflexivity. }
  assert (L : forall l n x, step_line_loop (gc_ops_with cap c1 p1) prog n l x = step_line_loop (gc_ops_with cap c2 p2) prog n l x).
  { intros l. induction n as [|n IH]; intros x; [reflexivity|]. cbn [step_line_loop]. unfold mbind. rewrite St.
    destruct (step_imp (gc_ops_with cap c2 p2) prog x) as [[[] y]| |]; [|reflexivity|reflexivity]. unfold mget, lift, assert_, ret.
    destruct (t_fin (m_cur y)); [reflexivity|]. destruct (t_frs (m_cur y)); [reflexivity|]. destruct (no_error (m_cur y)); [|reflexivity].
    destruct (line_eqb l (source_line prog (m_cur y))); [apply IH|reflexivity]. }
  unfold step_line, mbind, mget. destruct (t_fin (m_cur s)); [reflexivity|]. rewrite L. reflexivity.
Qed.

(** On a line that the thread never leaves step_line does not return. *)
Theorem C115_endless : forall P H (ops : hops P H) prog s, t_fin (m_cur s) = false ->
  (forall n x, (0 < n)%nat -> steps ops prog n s x -> stays prog (line_now prog s) x) ->
  forall fuel b s', step_line ops prog fuel s <> Ok (b, s').
Proof.
  intros P H ops prog s F A fuel b s' E. destruct (C115_step_line _ _ _ _ _ _ _ _ F E) as (n & N & St & _ & La & _).
  apply La. apply (A n); [lia|exact St].
Qed.

(** *** Examples *)

(** A function that counts, waits and prints. *)
Definition step_text : bytes := bs "function count(n)
  var i = 0
  while (i < n)
    i = i + 1
  end
  var r = [wait(2), puts(""go"")]
  return i
end
function spin(n)
  while (n < 10)
  end
end
"%string.
Definition step_build : res (option program_t) :=
  build 5 (fun _ => None) Z.of_nat true (driver_arity ++ builtin_arity) (snd (sm_load_from_string [] step_text)).
Definition step_prog : program_t := match step_build with Ok (Some p) => p | _ => Prog [] [] [] [] [] [] end.
Definition step_run : program_t := driver_resolve step_prog.
Definition step_main : function_t := match p_functions step_prog with f :: _ => f | [] => Func [] 0 0 [] [] end.
Definition step_session (ds : list debug) : list (gc_cfg * hostop) :=
  map (pair cfg_always) (HThread step_main [Some (SInt 3)] :: map (HDebug 0) ds).
(** The lines the threads are on, 0 for a finished thread, and the output. *)
Definition where_at (r : res (list seen * vm ptr heap)) : option (list Z * bytes) :=
  match r with Ok (_, v) => Some (map (fun t => if t_fin t then 0 else l_line (Program.get_line step_run (t_pc t))) (vm_threads v), w_out (vm_world v)) | _ => None end.
(** The thread visits the lines 1, 2, then 3 and 4 three times, then 6, 7 and the
    end.  One step over line 6 both waits and prints: stepping does not care that
    the thread waits. *)
Lemma step_path : map (fun n => where_at (host_gc step_run 100 (step_session (repeat DStepLine n)) (vm_start 0 world0))) [0; 1; 2; 3; 4; 5; 6; 7; 8; 9; 10; 11]%nat =
  [Some ([1], []); Some ([2], []); Some ([3], []); Some ([4], []); Some ([3], []); Some ([4], []); Some ([3], []); Some ([4], []); Some ([3], []);
   Some ([6], []); Some ([7], bs "go
"%string); Some ([0], bs "go
"%string)].
Proof. vm_compute. reflexivity. Qed.
(** Resumed instead, it stops at wait. *)
Lemma step_waits :
  match host_gc step_run 100 (step_session (repeat DStepLine 9 ++ [DRun 1000])) (vm_start 0 world0) with
  | Ok (_, v) => map (@t_waits ptr) (vm_threads v) = [2] /\ map (@t_fin ptr) (vm_threads v) = [false] /\ w_out (vm_world v) = []
  | _ => False
  end.
Proof. vm_compute. repeat split. Qed.

(** A line that makes garbage: resume collects and goes on, step_line runs out of
    memory. *)
Definition spin_main : function_t := match nth_error (p_functions step_prog) 1 with Some f => f | None => Func [] 0 0 [] [] end.
Definition small : gc_cfg := Cfg 4096 100 (should_collect 4096).
Definition spin_session (d : debug) : list (gc_cfg * hostop) := map (pair small) [HThread spin_main [Some (SInt 1)]; HDebug 0 (DRun 3000); HDebug 0 d].
Lemma spin_runs : match host_gc step_run 3000 (spin_session (DRun 3000)) (vm_start 0 world0) with
  | Ok (xs, v) => xs = [SeenFlag true; SeenFlag true; SeenFlag true] /\ map (@t_fin ptr) (vm_threads v) = [false] /\ map (@t_cyc ptr) (vm_threads v) = [6000]
  | _ => False end.
Proof. vm_compute. repeat split. Qed.
Lemma spin_dies : host_gc step_run 3000 (spin_session DStepLine) (vm_start 0 world0) = Stuck SOom.
Proof. vm_compute. reflexivity. Qed.
Example C115_ex :
  step_build = Ok (Some step_prog) /\
  map (fun n => where_at (host_gc step_run 100 (step_session (repeat DStepLine n)) (vm_start 0 world0))) [0; 1; 2; 3; 4; 5; 6; 7; 8; 9; 10; 11]%nat =
  [Some ([1], []); Some ([2], []); Some ([3], []); Some ([4], []); Some ([3], []); Some ([4], []); Some ([3], []); Some ([4], []); Some ([3], []);
   Some ([6], []); Some ([7], bs "go
"%string); Some ([0], bs "go
"%string)] /\
  (exists xs v, host_gc step_run 3000 (spin_session (DRun 3000)) (vm_start 0 world0) = Ok (xs, v)) /\
  host_gc step_run 3000 (spin_session DStepLine) (vm_start 0 world0) = Stuck SOom.
Proof.
  split; [vm_compute; reflexivity|]. split; [exact step_path|]. split; [|exact spin_dies].
  pose proof spin_runs as X. destruct (host_gc step_run 3000 (spin_session (DRun 3000)) (vm_start 0 world0)) as [[xs v]| |]; [|contradiction..]. now exists xs, v.
Qed.

(** The conditions of C115_returns and C115_as_resume hold at the start of a
    function. *)
Definition step_state : mst aval aheap := Mst [] [] world0 [] (prepared fresh_thread step_main [AS (SInt 3)]) [].
Lemma step_v : verified step_run.
Proof.
  apply (C99_driver_programs 5 (fun _ => None) Z.of_nat true (driver_arity ++ builtin_arity) (snd (sm_load_from_string [] step_text)) step_prog driver_incl);
    [vm_compute; reflexivity|apply fitsb_ok; vm_compute; reflexivity].
Qed.
Lemma step_vo : vm_ok step_run (join step_state).
Proof.
  apply (started_ok step_run step_v (abs_start 0 world0) step_main [Some (SInt 3)]); [apply start_ok|vm_compute; left; reflexivity|repeat constructor|vm_compute; reflexivity].
Qed.
Lemma step_once : match step_line abs_ops step_run 10 step_state with Ok (b, s') => b = true /\ line_now step_run s' = Line 0 2 | _ => False end.
Proof. vm_compute. split; reflexivity. Qed.
Example C115_returns_ex : verified step_run /\ ~ syscall_values step_run /\ vm_ok step_run (join step_state) /\ t_fin (m_cur step_state) = false /\
  exists n s', (1 <= n)%nat /\ steps abs_ops step_run n step_state s' /\
    (forall k x, (0 < k < n)%nat -> steps abs_ops step_run k step_state x -> stays step_run (line_now step_run step_state) x) /\
    ~ stays step_run (line_now step_run step_state) s'.
Proof.
  split; [exact step_v|]. split; [apply by_name; vm_compute; reflexivity|]. split; [exact step_vo|]. split; [reflexivity|].
  pose proof step_once as X. destruct (step_line abs_ops step_run 10 step_state) as [[b s']| |] eqn:E; [|contradiction..]. assert (F : t_fin (m_cur step_state) = false) by reflexivity. destruct (C115_step_line _ _ _ _ _ _ _ _ F E) as (n & N & St & M & L & _). exists n, s'. split; [exact N|]. split; [exact St|]. split; [exact M|exact L].
Qed.

(** An endless line: a jump to itself. *)
Definition loop_prog : program_t := Prog [] [] [demo_main] (asm [I1 INS_JMP 0]) [(0, Line 0 1)] [].
Definition loop_state (c : Z) : mst aval aheap := Mst [] [] world0 [] (t_set_cyc (prepared fresh_thread demo_main []) c) [].
Lemma loop_step c : step_imp abs_ops loop_prog (loop_state c) = Ok (tt, loop_state (to_u32 (c + 1))).
Proof. reflexivity. Qed.
Example C115_endless_ex : forall fuel b s', step_line abs_ops loop_prog fuel (loop_state 0) <> Ok (b, s').
Proof.
  apply C115_endless; [reflexivity|]. intros n x _ S. generalize dependent 0. induction n as [|n IH]; intros c S; inversion S as [|? ? ? ? E S']; subst.
  - split; reflexivity.
  - rewrite loop_step in E. match type of E with Ok (_, ?a) = Ok (_, ?b) => assert (a = b) as <- by congruence end. exact (IH _ S').
Qed.

Print Assumptions C115_step_line.
Print Assumptions C115_step_inst.
Print Assumptions C115_as_resume.
Print Assumptions C115_returns.
Print Assumptions C115_no_collection.
Print Assumptions C115_endless.
