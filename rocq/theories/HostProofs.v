(** Host histories on the collected heap refine the ideal heap. *)
From Coq Require Import ZArith List Bool Lia.
From Verif Require Import Base BaseFacts Program VM Gc AbsHeap GcProofs GcSpec GcFacts Refine Host.
Import ListNotations.
Open Scope Z_scope.

Definition abs_run (prog : program_t) (fuel : nat) (l : list hostop) (v : vm aval aheap) :=
  host_run prog fuel (map (fun x => (abs_ops, x)) l) v.
Definition abs_start (n : Z) (w : world) : vm aval aheap := Vm [] (zrepeat ANone n) w [].

Lemma ref_new_args : forall c B l h A,
  HR A h B -> Forall (fun c => forall s, c = Some (SStr s) -> ~ In 0 s) l ->
  rrel (fun x y => exists B', ext h B (fst x) B' /\ HR (fst y) (fst x) B' /\
                              Forall2 (vrel (fst x) B') (snd x) (snd y))
       (new_args (cfg_ops c) h l) (new_args abs_ops A l).
Proof.
  intros c B l. revert B. induction l as [|[s|] l IH]; intros B h A HH F.
  - simpl. exists B. split; [apply ext_refl|]. split; auto.
  - cbn [new_args]. inversion F as [|? ? F1 F2]; subst. simpl h_newS.
    unfold gc_newS, new_cell. destruct (alloc (c_cap c) h (KS s)) as [[h1 p]|] eqn:E; simpl; auto.
    assert (SO : sok s) by (destruct s; simpl; auto).
    destruct (HR_alloc_s _ _ _ _ _ _ _ HH E) as [H1 EX].
    assert (V : vrel h1 B (Some p) (AS s)).
    { simpl. destruct (alloc_spec _ _ _ _ _ (hr_wf _ _ _ HH) E) as (_ & _ & _ & Rb & _). auto. }
    pose proof (IH B h1 A H1 F2) as Q.
    destruct (new_args (cfg_ops c) h1 l) as [[h2 ps]|e le|[]], (new_args abs_ops A l) as [[A2 vs]|e' le'|st'];
      simpl in *; auto; try contradiction; try (destruct Q; congruence).
    destruct Q as (B' & EX2 & H2 & F3). exists B'. split; [eapply ext_trans; eauto|]. split; auto.
    constructor; auto. eapply vrel_ext; eauto.
  - cbn [new_args]. inversion F as [|? ? F1 F2]; subst.
    pose proof (IH B h A HH F2) as Q.
    destruct (new_args (cfg_ops c) h l) as [[h2 ps]|e le|[]], (new_args abs_ops A l) as [[A2 vs]|e' le'|st'];
      simpl in *; auto; try contradiction; try (destruct Q; congruence).
    destruct Q as (B' & EX2 & H2 & F3). exists B'. split; auto. split; auto. constructor; simpl; auto.
Qed.

Lemma show_rel : forall A h B p v, HR A h B -> vrel h B p v ->
  show_view (gc_view h p) = show_view (abs_view A v).
Proof.
  intros A h B p v HH V. destruct p as [a|], v as [|s|l]; simpl in *; try contradiction; auto.
  - destruct V as [V _]. now rewrite V.
  - destruct (hr_obj _ _ _ HH a l V) as (ps & vs & R & Z & F). rewrite R, Z. simpl.
    now rewrite (Forall2_zlen _ _ _ F).
Qed.

Lemma VR_with_heap : forall B v a h A B', VR B v a -> ext (vm_heap v) B h B' -> HR A h B' ->
  VR B' (with_heap v h) (with_heap a A).
Proof.
  intros B v a h A B' [] E HH. constructor; simpl; auto.
  - eapply vrels_ext; eauto.
  - eapply trels_ext; eauto.
Qed.

Definition hrel {X} (x : X * vm ptr heap) (y : X * vm aval aheap) : Prop :=
  fst x = fst y /\ exists B, VR B (snd x) (snd y).

Lemma Forall2_cut : forall {A B} (R : A -> B -> Prop) i l m, Forall2 R l m ->
  Forall2 R (firstn i l) (firstn i m) /\ Forall2 R (skipn i l) (skipn i m).
Proof.
  intros A B R i. induction i as [|i IH]; intros l m F; cbn [firstn skipn]; [split; [constructor|exact F]|].
  destruct F as [|x y l m X F]; [split; constructor|]. destruct (IH _ _ F). split; auto.
Qed.
Lemma ref_split : forall i B v a, VR B v a ->
  match split i v, split i a with
  | Ok s, Ok t => SR B s t
  | Stuck _, Stuck _ => True
  | _, _ => False
  end.
Proof.
  intros i B v a [V1 V2 V3 V4]. unfold split.
  destruct (Forall2_cut _ i _ _ V4) as [F1 F].
  destruct F as [|t u ts us T F]; [exact Logic.I|]. constructor; auto.
Qed.
Lemma ref_mod : forall f g s a B, SR B s a -> trel (m_heap s) B (f (m_cur s)) (g (m_cur a)) ->
  rrel orel (mbind (mod_cur f) (fun _ => ret true) s) (mbind (mod_cur g) (fun _ => ret true) a).
Proof.
  intros f g s a B S T. unfold mbind, mod_cur, ret. split; [reflexivity|]. exists B. destruct S. constructor; simpl; auto.
Qed.
Lemma ref_debug : forall prog fuel c d s a, prog_ok prog -> (exists B, SR B s a) ->
  rrel orel (debug_step prog (cfg_ops c) fuel d s) (debug_step prog abs_ops fuel d a).
Proof.
  intros prog fuel c d s a PO [B S]. pose proof (sr_cur _ _ _ S) as T. destruct d as [n| | |l|l| |]; cbn [debug_step].
  - apply ref_resume; eauto.
  - apply ref_step_inst; eauto.
  - apply ref_step_line; eauto.
  - eapply ref_mod; [exact S|]. destruct T. unfold breakpoint_add. rewrite tr_bps. constructor; simpl; auto.
  - eapply ref_mod; [exact S|]. destruct T. unfold breakpoint_remove. rewrite tr_bps. constructor; simpl; auto.
  - eapply ref_mod; [exact S|]. destruct T. constructor; simpl; auto.
  - eapply ref_mod; [exact S|]. destruct T. constructor; simpl; auto.
Qed.

Lemma ref_host_step : forall prog fuel c op B v a, prog_ok prog -> op_nonul op -> VR B v a ->
  rrel hrel (host_step prog (cfg_ops c) fuel op v) (host_step prog abs_ops fuel op a).
Proof.
  intros prog fuel c op B v a PO ON V. destruct op as [f l|n| |f l| |i d]; cbn [host_step].
  - eapply rrel_bind; [apply ref_new_args; [apply V|exact ON]|].
    intros [h ps] [A vs] (B' & E & HH & F). simpl in E, HH, F.
    eapply rrel_bind; [eapply ref_vm_new_thread; [eapply VR_with_heap; eauto|exact F]|].
    intros [ok v'] [ok' a'] [Q V']. simpl in *. subst. split; auto.
  - eapply rrel_bind; [apply ref_vm_resume; eauto|].
    intros [ok v'] [ok' a'] [Q V']. simpl in *. subst. split; auto.
  - eapply rrel_bind; [apply ref_call_init; eauto|].
    intros [ok v'] [ok' a'] [Q V']. simpl in *. subst. split; auto.
  - eapply rrel_bind; [apply ref_new_args; [apply V|exact ON]|].
    intros [h ps] [A vs] (B' & E & HH & F). simpl in E, HH, F.
    eapply rrel_bind; [eapply ref_call_once; [exact PO|eapply VR_with_heap; eauto|exact F]|].
    intros [[[ok p] er] v'] [[[ok' p'] er'] a'] (Q1 & Q2 & B2 & V2 & R2). simpl in *. subst.
    split; simpl; eauto. f_equal. eapply show_rel; eauto. apply V2.
  - eapply rrel_bind; [eapply ref_gc_collect_vm; eauto|].
    intros v' a' V'. simpl. split; auto.
  - pose proof (ref_split i _ _ _ V) as R. destruct (split i v) as [s|e l|x], (split i a) as [t|e' l'|x']; try contradiction.
    + eapply rrel_bind; [apply ref_debug; eauto|]. intros [ok s'] [ok' t'] [Q [B' S']]. cbn [fst snd] in *. subst ok'.
      split; [reflexivity|]. exists B'. now apply SR_join.
    + split; [reflexivity|]. exists B. exact V.
Qed.

Lemma ref_host_run : forall prog fuel l B v a, prog_ok prog -> Forall op_nonul (map snd l) ->
  VR B v a ->
  rrel hrel (host_gc prog fuel l v) (abs_run prog fuel (map snd l) a).
Proof.
  intros prog fuel l. unfold host_gc, abs_run.
  induction l as [|[c op] l IH]; intros B v a PO ON V; cbn [host_run map fst snd].
  - simpl. split; eauto.
  - inversion ON as [|? ? O1 O2]; subst.
    eapply rrel_bind; [eapply ref_host_step; eauto|].
    intros [x v1] [y a1] [Q [B1 V1]]. simpl in Q, V1. subst y.
    eapply rrel_bind; [eapply IH; eauto|].
    intros [xs v2] [ys a2] [Q2 V2]. simpl in *. subst. split; auto.
Qed.

Lemma VR_start : forall n w, VR (fun _ _ => False) (vm_start n w) (abs_start n w).
Proof.
  intros n w. constructor; simpl; auto.
  - constructor; try contradiction; try easy.
  - apply Forall2_zrepeat_null.
Qed.

Lemma VR_roots : forall B v a, VR B v a ->
  Forall2 (Forall2 (vrel (vm_heap v) B)) (vm_roots v) (roots_of (vm_glob a) (vm_threads a)).
Proof.
  intros B v a [V1 V2 V3 V4]. constructor; auto. clear - V4.
  induction V4; simpl; auto. constructor; auto. apply Forall2_rev. apply H.
Qed.

Lemma VR_same : forall B B' v v' a, VR B v a -> VR B' v' a -> same_vm v v'.
Proof.
  intros B B' v v' a V V'. split; [|split].
  - rewrite (vr_world _ _ _ V), (vr_world _ _ _ V'). reflexivity.
  - destruct V as [V1 V2 V3 vr_threads0], V' as [V4 V5 V6 vr_threads1]. clear - vr_threads0 vr_threads1. revert vr_threads1.
    generalize (vm_threads v'). induction vr_threads0 as [|t u ts us T F IH]; intros ts' F';
      inversion F' as [|t' ? ? ? T' F'']; subst; constructor; auto.
    destruct T, T'. unfold same_thread. repeat split; congruence.
  - eapply HR_same_graph; [apply V|apply V'|apply VR_roots; eauto|apply VR_roots; eauto].
Qed.
