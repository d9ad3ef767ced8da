(** Which breakpoints a thread has: C56, continued. *)
From Coq Require Import ZArith List Bool Lia.
From Verif Require Import Base BaseFacts Instr Program ProgramProofs VM Gc GcSpec Host Demo VmSpec VmFacts RunFacts PropertiesRun.
Import ListNotations.
Open Scope Z_scope.

(** A debugger makes the calls [ds] on one thread, one after the other. *)
Inductive debugged {P H} (ops : hops P H) (prog : program_t) (fuel : nat) : list debug -> mst P H -> mst P H -> Prop :=
| debugged_none : forall s, debugged ops prog fuel [] s s
| debugged_call : forall d ds s b s1 s2, debug_step prog ops fuel d s = Ok (b, s1) ->
    debugged ops prog fuel ds s1 s2 -> debugged ops prog fuel (d :: ds) s s2.
(** Some of the calls take the breakpoint on [l] away. *)
Definition dropped (l : line_t) (ds : list debug) : Prop := In (DBreakRemove l) ds \/ In DBreakClear ds.

Section Keep.
  Context {P H : Type}.
  Variable ops : hops P H.
  Variable prog : program_t.
  Lemma collect_bps s u s' : gc_collect ops s = Ok (u, s') -> t_bps (m_cur s') = t_bps (m_cur s).
  Proof. intros E. destruct (gc_collect_facts _ _ _ _ E) as (_ & _ & (l & Ec) & _). now rewrite Ec. Qed.
  Lemma tick_bps s u s' : tick_gc ops s = Ok (u, s') -> t_bps (m_cur s') = t_bps (m_cur s).
  Proof. intros E. destruct (tick_facts _ _ _ _ E) as (_ & _ & (l & Ec) & _). now rewrite Ec. Qed.
  Lemma step_bps s u s' : step_imp ops prog s = Ok (u, s') -> t_bps (m_cur s') = t_bps (m_cur s).
  Proof. intros E. exact (sf_bps _ _ _ (step_weak _ _ _ _ _ E)). Qed.
  Lemma loop_bps : forall n s u s', resume_loop ops prog n s = Ok (u, s') -> t_bps (m_cur s') = t_bps (m_cur s).
  Proof.
    induction n as [|n IH]; intros s u s' E.
    - unfold resume_loop, ret in E. injection E as _ <-. reflexivity.
    - destruct u. destruct (loop_S _ _ _ _ _ _ _ E) as (s1 & s2 & E1 & E2 & D).
      rewrite <- (tick_bps _ _ _ E1), <- (step_bps _ _ _ E2). destruct D as [[_ ->]|(_ & _ & D)]; [reflexivity|eauto].
  Qed.
  Lemma line_bps : forall n l s u s', step_line_loop ops prog n l s = Ok (u, s') -> t_bps (m_cur s') = t_bps (m_cur s).
  Proof.
    induction n as [|n IH]; intros l s u s' E; [discriminate E|]. cbn [step_line_loop] in E. unfold mbind at 1 in E.
    destruct (step_imp ops prog s) as [[u1 s1]|? ?|?] eqn:E1; try discriminate E. rewrite <- (step_bps _ _ _ E1).
    unfold mbind, mget, lift, ret in E. destruct (t_fin (m_cur s1)); [injection E as _ <-; reflexivity|].
    destruct (assert_ _) as [[]|? ?|?]; try discriminate E. destruct (assert_ _) as [[]|? ?|?]; try discriminate E.
    destruct (line_eqb _ _); [eauto|]. injection E as _ <-. reflexivity.
  Qed.
  Lemma debug_bps fuel d s b s' : debug_step prog ops fuel d s = Ok (b, s') ->
    forall l, In l (t_bps (m_cur s')) <-> d = DBreakAdd l \/ In l (t_bps (m_cur s)) /\ ~ dropped l [d].
  Proof.
    intros E l. unfold dropped.
    assert (K : t_bps (m_cur s') = t_bps (m_cur s) -> (forall x, d <> DBreakAdd x /\ d <> DBreakRemove x) -> d <> DBreakClear ->
      (In l (t_bps (m_cur s')) <-> d = DBreakAdd l \/ In l (t_bps (m_cur s)) /\ ~ (In (DBreakRemove l) [d] \/ In DBreakClear [d]))).
    { intros -> A C. destruct (A l) as [A1 A2]. cbn. intuition congruence. }
    destruct d as [n| | |x|x| |]; cbn [debug_step] in E.
    - apply K; [|split; discriminate|discriminate]. unfold resume, mbind, mget, mod_cur, ret in E. destruct (t_fin (m_cur s)); [injection E as _ <-; reflexivity|].
      destruct (resume_loop ops prog n _) as [[u s1]|? ?|?] eqn:E1; try discriminate E. injection E as _ <-. rewrite (loop_bps _ _ _ _ E1). reflexivity.
    - apply K; [|split; discriminate|discriminate]. unfold step_inst, mbind, mget, ret in E. destruct (t_fin (m_cur s)); [injection E as _ <-; reflexivity|].
      destruct (gc_collect ops s) as [[u s1]|? ?|?] eqn:E1; try discriminate E. destruct (step_imp ops prog s1) as [[u2 s2]|? ?|?] eqn:E2; try discriminate E.
      injection E as _ <-. now rewrite (step_bps _ _ _ E2), (collect_bps _ _ _ E1).
    - apply K; [|split; discriminate|discriminate]. unfold step_line, mbind, mget, ret in E. destruct (t_fin (m_cur s)); [injection E as _ <-; reflexivity|].
      destruct (step_line_loop ops prog fuel _ s) as [[u s1]|? ?|?] eqn:E1; try discriminate E. injection E as _ <-. now rewrite (line_bps _ _ _ _ _ E1).
    - unfold mbind, mod_cur, ret in E. injection E as _ <-. unfold breakpoint_add. cbn.
      destruct (existsb (line_eqb x) (t_bps (m_cur s))) eqn:X.
      + apply existsb_exists in X. destruct X as (y & Iy & X). apply line_eqb_eq in X. subst y.
        split; [intros Il; right; split; [exact Il|intuition discriminate]|]. intros [A|[Il _]]; [now injection A as <-|exact Il].
      + cbn. split; [intros [->|Il]; [now left|right; split; [exact Il|intuition discriminate]]|]. intros [A|[Il _]]; [injection A as <-; now left|now right].
    - unfold mbind, mod_cur, ret in E. injection E as _ <-. unfold breakpoint_remove. cbn. rewrite filter_In, negb_true_iff. split.
      + intros [Il X]. right. split; [exact Il|]. intros [[A|[]]|[A|[]]]; [|discriminate A]. injection A as ->.
        destruct (line_eqb l l) eqn:Y; [discriminate X|]. assert (line_eqb l l = true) by now apply line_eqb_eq. congruence.
      + intros [A|[Il X]]; [discriminate A|]. split; [exact Il|]. destruct (line_eqb x l) eqn:Y; [|reflexivity]. apply line_eqb_eq in Y. subst. destruct X. auto.
    - unfold mbind, mod_cur, ret in E. injection E as _ <-. unfold breakpoint_clear. cbn. intuition discriminate.
    - apply K; [|split; discriminate|discriminate]. unfold mbind, mod_cur, ret in E. injection E as _ <-. reflexivity.
  Qed.
End Keep.

(** After any calls of a debugger, with the thread running in between, there is a
    breakpoint on a line exactly if it was asked for and not taken away since. *)
Theorem C56_breakpoints : forall P H (ops : hops P H) prog fuel ds s s', debugged ops prog fuel ds s s' ->
  forall l, In l (t_bps (m_cur s')) <->
    (exists ds1 ds2, ds = ds1 ++ DBreakAdd l :: ds2 /\ ~ dropped l ds2) \/ In l (t_bps (m_cur s)) /\ ~ dropped l ds.
Proof.
  intros P H ops prog fuel ds s s' D l. induction D as [s|d ds s b s1 s2 E D IH].
  - split; [intros I; right; split; [exact I|intros [[]|[]]]|]. intros [(ds1 & ds2 & A & _)|[I _]]; [now destruct ds1|exact I].
  - rewrite IH. rewrite (debug_bps _ _ _ _ _ _ _ E l). split.
    + intros [(ds1 & ds2 & -> & N)|[[->|[I N]] N2]].
      * left. exists (d :: ds1), ds2. auto.
      * left. exists [], ds. auto.
      * right. split; [exact I|]. unfold dropped in *. cbn in *. tauto.
    + intros [([|d1 ds1] & ds2 & A & N)|[I N]].
      * injection A as -> ->. right. auto.
      * injection A as <- ->. left. exists ds1, ds2. auto.
      * right. unfold dropped in *. cbn in *. tauto.
Qed.
(** Breakpoints of other threads stay, and so does all else. *)
Theorem C56_only_this : forall P H (ops : hops P H) prog fuel d s b s', debug_step prog ops fuel d s = Ok (b, s') ->
  (exists l, d = DBreakAdd l \/ d = DBreakRemove l) \/ d = DBreakClear ->
  b = true /\ s' = with_cur s (t_set_bps (m_cur s) (t_bps (m_cur s'))).
Proof.
  intros P H ops prog fuel d s b s' E [(l & [-> | ->])| ->]; cbn in E; unfold mbind, mod_cur, ret in E; injection E as <- <-; split; reflexivity.
Qed.
(** Two breakpoints, one taken away while the thread runs. *)
Example C56_breakpoints_ex : exists s', debugged (gc_ops 5) bp_prog 10 [DBreakAdd (Line 0 3); DRun 10; DBreakRemove (Line 0 2); DRun 10] bp_state s' /\
  t_bps (m_cur s') = [Line 0 3] /\ line_now bp_prog s' = Line 0 3 /\ t_hal (m_cur s') = true /\
  In (Line 0 2) (t_bps (m_cur bp_state)) /\ dropped (Line 0 2) [DBreakAdd (Line 0 3); DRun 10; DBreakRemove (Line 0 2); DRun 10].
Proof.
  eexists. split; [repeat (eapply debugged_call; [vm_compute; reflexivity|]); apply debugged_none|]. split; [reflexivity|]. split; [reflexivity|]. split; [reflexivity|].
  split; [now left|]. left. cbn. auto.
Qed.

Print Assumptions C56_breakpoints.
Print Assumptions C56_only_this.
