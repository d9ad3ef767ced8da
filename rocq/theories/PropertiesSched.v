(** Scheduling: C64, C65, C67, C68. *)
From Coq Require Import ZArith List Bool Lia ZifyBool.
From Verif Require Import Base BaseFacts F32 Instr InstrSpec InstrProofs Program VM Gc GcProofs GcSpec
  Host Demo VmSpec VmFacts RunFacts PropertiesOps PropertiesMem PropertiesRun.
Import ListNotations.
Open Scope Z_scope.

(** "@init" *)
Definition init_name : bytes := [64; 105; 110; 105; 116].

(** ** C64 One scheduling round *)

(** The memory the threads share. *)
Definition mem_of {P H} (s : mst P H) : H * list P * world := (m_heap s, m_glob s, m_world s).
Definition vm_mem {P H} (v : vm P H) : H * list P * world := (vm_heap v, vm_glob v, vm_world v).

(** What one thread may do with a slice of [c] cycles: [k] instructions, all
    [c] of them unless it finishes or halts.  [t] is the thread before and [t']
    after; a collection by this or another thread may have moved the values on
    its stack before and after the slice ([restacked]). *)
Inductive slice {P H} (ops : hops P H) (prog : program_t) (c : nat)
  (t : thread P) (mem : H * list P * world) (t' : thread P) (mem' : H * list P * world) : Prop :=
| Slice : forall k s s',
    restacked t (m_cur s) -> mem_of s = mem ->
    executed ops prog k (unhalted s) s' -> (k <= c)%nat ->
    (k = c \/ t_fin (m_cur s') = true \/ t_hal (m_cur s') = true) ->
    restacked (m_cur s') t' -> mem_of s' = mem' ->
    slice ops prog c t mem t' mem'.

Definition runnable {P} (t : thread P) : Prop :=
  t_waits t = 0 /\ t_fin t = false /\ t_err t = None.

(** A round over a list of threads, in order: for each thread the list of what
    is left of it (the thread, or nothing). *)
Inductive turns {P H} (ops : hops P H) (prog : program_t) (c : nat) :
  H * list P * world -> list (thread P) -> list (list (thread P)) -> H * list P * world -> Prop :=
| turns_nil : forall mem, turns ops prog c mem [] [] mem
| turns_wait : forall mem t t' ts ks mem',
    t_waits t <> 0 -> restacked (t_set_waits t (t_waits t - 1)) t' ->
    turns ops prog c mem ts ks mem' ->
    turns ops prog c mem (t :: ts) ([t'] :: ks) mem'
| turns_dead : forall mem t ts ks mem',
    t_waits t = 0 -> t_fin t = true \/ t_err t <> None ->
    turns ops prog c mem ts ks mem' ->
    turns ops prog c mem (t :: ts) ([] :: ks) mem'
| turns_run : forall mem mem1 t t' ts ks mem',
    runnable t -> slice ops prog c t mem t' mem1 -> t_err t' = None ->
    turns ops prog c mem1 ts ks mem' ->
    turns ops prog c mem (t :: ts) ([t'] :: ks) mem'.

(** A thread created in this round and not run: no cycle counted. *)
Definition unborn {P} (t : thread P) : Prop :=
  exists f args t0, t0 = prepared fresh_thread f args /\ restacked t0 t.

Lemma restacked_trans : forall P (a b c : thread P), restacked a b -> restacked b c -> restacked a c.
Proof. intros P a b c (x & ->) (y & ->). eexists; reflexivity. Qed.
Lemma restacked_F2_trans : forall P (a b c : list (thread P)),
  Forall2 restacked a b -> Forall2 restacked b c -> Forall2 restacked a c.
Proof.
  induction a as [|x a IH]; intros b c F G; inversion F; subst; inversion G; subst; constructor; eauto using restacked_trans.
Qed.
Lemma restacked_F2_refl : forall P (l : list (thread P)), Forall2 restacked l l.
Proof. induction l; constructor; auto using restacked_refl. Qed.
Lemma unborn_restacked : forall P (a b : list (thread P)), Forall2 restacked a b -> Forall unborn a -> Forall unborn b.
Proof.
  induction 1 as [|x y a b (l & ->) F IH]; intros U; inversion U; subst; constructor; auto.
  destruct H1 as (f & args & t0 & E & (l0 & ->)). exists f, args, t0. split; auto. eexists; reflexivity.
Qed.
Lemma newborn_unborn : forall P (a : list (thread P)), Forall newborn a -> Forall unborn a.
Proof.
  intros P a F. eapply Forall_impl; [|exact F]. intros t (f & args & E). exists f, args, t. split; auto.
  apply restacked_refl.
Qed.

(** What executing instructions of one thread does to the others. *)
Lemma executed_others : forall P H (ops : hops P H) prog k s s', executed ops prog k s s' ->
  Forall2 restacked (m_post s) (m_post s') /\
  exists ns pre', m_pre s' = ns ++ pre' /\ Forall unborn ns /\ Forall2 restacked (m_pre s) pre'.
Proof.
  induction 1 as [s|n s s1 s2 s3 T1 T2 T3 (IH1 & ns & pre' & E & U & R)].
  - split; [apply restacked_F2_refl|]. exists [], (m_pre s). repeat split; auto. apply restacked_F2_refl.
  - destruct (tick_facts _ _ _ _ T1) as (_ & A & _ & B).
    destruct (step_weak _ _ _ _ _ T2) as [_ _ _ Po (ns1 & Pr & Nb) _].
    rewrite Po in IH1. split; [eapply restacked_F2_trans; eauto|].
    rewrite Pr in R. apply Forall2_app_inv_l in R. destruct R as (n2 & p2 & R1 & R2 & ->).
    exists (ns ++ n2), p2. rewrite <- app_assoc. split; auto. split.
    + apply Forall_app. split; auto. eapply unborn_restacked; eauto. now apply newborn_unborn.
    + eapply restacked_F2_trans; eauto.
Qed.

Lemma slice_left : forall P H (ops : hops P H) prog c t0 t mem t' mem',
  restacked t0 t -> slice ops prog c t mem t' mem' -> slice ops prog c t0 mem t' mem'.
Proof. intros P H ops prog c t0 t mem t' mem' R []. econstructor; eauto using restacked_trans. Qed.
Lemma turns_left : forall P H (ops : hops P H) prog c ts0 ts mem ks mem',
  Forall2 restacked ts0 ts -> turns ops prog c mem ts ks mem' -> turns ops prog c mem ts0 ks mem'.
Proof.
  intros P H ops prog c ts0 ts mem ks mem' F T. revert ts0 F.
  induction T; intros ts0 F; inversion F as [|t0 ? l0 ? R F']; subst; try constructor 1.
  - apply turns_wait; auto; destruct R as (l & ->); auto.
  - apply turns_dead; auto; destruct R as (l & ->); auto.
  - eapply turns_run; eauto using slice_left. destruct R as (l & ->). exact H0.
Qed.

Definition ends {P} (t : thread P) : Prop := t_err t <> None.

(** The list is split where the round stopped, if it stopped. *)
Lemma round_turns : forall P H (ops : hops P H) prog c n h g w pre post b v,
  vm_round ops prog n c h g w pre post = Ok (b, v) ->
  exists ns pre', Forall unborn ns /\ Forall2 restacked pre pre' /\
  if b then
    exists ks, turns ops prog c (h, g, w) post ks (vm_mem v) /\
               vm_threads v = ns ++ pre' ++ concat ks
  else
    exists done ks t t' rest rest' mem,
      post = done ++ t :: rest /\ turns ops prog c (h, g, w) done ks mem /\
      runnable t /\ slice ops prog c t mem t' (vm_mem v) /\ t_err t' <> None /\
      Forall2 restacked rest rest' /\
      vm_threads v = ns ++ pre' ++ concat ks ++ t' :: rest'.
Proof.
  intros P H ops prog c. induction n as [|n IH]; intros h g w pre post b v E.
  - destruct post; [|discriminate]. cbn in E. assert (b = true) by congruence. subst b.
    assert (v = Vm h g w pre) by congruence. subst v.
    exists [], pre. split; auto. split; [apply restacked_F2_refl|]. exists []. split; [constructor|].
    cbn. now rewrite app_nil_r.
  - destruct post as [|t post]; cbn [vm_round] in E.
    { assert (b = true) by congruence. subst b. assert (v = Vm h g w pre) by congruence. subst v.
      exists [], pre. split; auto. split; [apply restacked_F2_refl|]. exists []. split; [constructor|].
      cbn. now rewrite app_nil_r. }
    destruct (negb (t_waits t =? 0)) eqn:W.
    { apply bind_ok in E. destruct E as (k & Ek & E).
      assert (k = t_waits t - 1) by (unfold chk32 in Ek; destruct (in_i32 _); congruence). subst k.
      destruct (IH _ _ _ _ _ _ _ E) as (ns & pre' & U & R & D).
      apply Forall2_app_inv_l in R. destruct R as (p1 & p2 & R1 & R2 & ->).
      inversion R2 as [|? t' ? ? Rt R3]; subst. inversion R3; subst.
      exists ns, p1. split; auto. split; auto. destruct b.
      - destruct D as (ks & T & Q). exists ([t'] :: ks). split; [apply turns_wait; auto; lia|].
        rewrite Q. cbn. now rewrite <- !app_assoc.
      - destruct D as (dn & ks & u & u' & rest & rest' & mem & D1 & D2 & D3 & D4 & D5 & D6 & D7).
        exists (t :: dn), ([t'] :: ks), u, u', rest, rest', mem. subst post. split; auto.
        split; [apply turns_wait; auto; lia|]. repeat (split; auto).
        rewrite D7. cbn. now rewrite <- !app_assoc. }
    destruct (t_fin t || negb (no_error t)) eqn:Dd.
    { assert (Dead : t_fin t = true \/ t_err t <> None).
      { unfold no_error in Dd. destruct (t_fin t); auto. right. destruct (t_err t); [discriminate|]. discriminate Dd. }
      destruct (IH _ _ _ _ _ _ _ E) as (ns & pre' & U & R & D).
      exists ns, pre'. split; auto. split; auto. destruct b.
      - destruct D as (ks & T & Q). exists ([] :: ks). split; [apply turns_dead; auto; lia|]. auto.
      - destruct D as (dn & ks & u & u' & rest & rest' & mem & D1 & D2 & D3 & D4 & D5 & D6 & D7).
        exists (t :: dn), ([] :: ks), u, u', rest, rest', mem. subst post. split; auto.
        split; [apply turns_dead; auto; lia|]. repeat (split; auto). }
    destruct (resume ops prog c _) as [[ok s]| |] eqn:Er; try discriminate.
    assert (Fi : t_fin t = false) by (destruct (t_fin t); [discriminate|auto]).
    assert (Ne : t_err t = None).
    { rewrite Fi in Dd. unfold no_error in Dd. destruct (t_err t); [discriminate|auto]. }
    assert (Run : runnable t) by (repeat split; auto; lia).
    destruct (resume_inv _ _ _ _ _ _ _ _ (Fi : t_fin (m_cur (Mst h g w pre t post)) = false) Er) as [L Ok_].
    destruct (loop_executed _ _ _ _ _ _ _ L) as (k & K & Ex & _ & St & _).
    destruct (executed_others _ _ _ _ _ _ _ Ex) as (Rp & ns1 & pre1 & Ep & U1 & R1). cbn in Rp, R1.
    assert (Sl : forall t', restacked (m_cur s) t' -> slice ops prog c t (h, g, w) t' (mem_of s)).
    { intros t' Rt. eapply Slice with (s := Mst h g w pre t post); eauto. apply restacked_refl. }
    destruct ok.
    + assert (Ns : t_err (m_cur s) = None) by (unfold no_error in Ok_; destruct (t_err (m_cur s)); congruence).
      destruct (IH _ _ _ _ _ _ _ E) as (ns & pre' & U & R & D).
      apply Forall2_app_inv_l in R. destruct R as (p1 & p2 & Ra & Rb & ->).
      inversion Rb as [|? t' ? ? Rt R3]; subst. inversion R3; subst.
      rewrite Ep in Ra. apply Forall2_app_inv_l in Ra. destruct Ra as (q1 & q2 & Ra1 & Ra2 & ->).
      exists (ns ++ q1), q2. split; [apply Forall_app; split; auto; eapply unborn_restacked; eauto|].
      split; [eapply restacked_F2_trans; eauto|]. 
      assert (Ns' : t_err t' = None) by (destruct Rt as (l & ->); exact Ns).
      destruct b.
      * destruct D as (ks & T & Q). exists ([t'] :: ks). split.
        -- eapply turns_run; eauto. eapply turns_left; eauto.
        -- rewrite Q. cbn. now rewrite <- !app_assoc.
      * destruct D as (dn & ks & u & u' & rest & rest' & mem & D1 & D2 & D3 & D4 & D5 & D6 & D7).
        rewrite D1 in Rp. apply Forall2_app_inv_r in Rp. destruct Rp as (dn0 & q & Rd & Rq & ->).
        inversion Rq as [|u0 ? rest0 ? Ru Rr]; subst.
        exists (t :: dn0), ([t'] :: ks), u0, u', rest0, rest', mem. split; auto.
        split; [eapply turns_run; eauto; eapply turns_left; eauto|].
        split; [destruct Ru as (l & ->); exact D3|].
        split; [eapply slice_left; eauto|]. split; auto.
        split; [eapply restacked_F2_trans; eauto|].
        rewrite D7. cbn. now rewrite <- !app_assoc.
    + assert (Ns : t_err (m_cur s) <> None) by (unfold no_error in Ok_; destruct (t_err (m_cur s)); congruence).
      destruct (no_error (m_cur s)) eqn:N; [discriminate|].
      assert (b = false) by congruence. subst b. assert (v = join s) by congruence. subst v.
      exists ns1, pre1. split; auto. split; auto.
      exists [], [], t, (m_cur s), post, (m_post s), (h, g, w).
      split; auto. split; [constructor|]. split; auto.
      split; [apply Sl; apply restacked_refl|]. split; auto. split; auto.
      cbn. rewrite Ep. now rewrite <- !app_assoc.
Qed.

(** The whole round.  On success every thread of the list had its turn, in list
    order ([turns]); the new list has the threads created meanwhile, which have
    not run, and behind them what is left of the old ones, in order. *)
Theorem C64_round : forall P H (ops : hops P H) prog c v v',
  vm_resume ops prog c v = Ok (true, v') ->
  exists spawned kept,
    turns ops prog c (vm_mem v) (vm_threads v) kept (vm_mem v') /\
    Forall unborn spawned /\ vm_threads v' = spawned ++ concat kept.
Proof.
  intros P H ops prog c v v' E. destruct (round_turns _ _ _ _ _ _ _ _ _ _ _ _ _ E) as (ns & p & U & R & ks & T & Q).
  inversion R; subst. exists ns, ks. split; auto.
Qed.
(** The round reports failure only when a slice ends in an error; the threads
    behind the failed one have not had their turn. *)
Theorem C64_stops_on_failure : forall P H (ops : hops P H) prog c v v',
  vm_resume ops prog c v = Ok (false, v') ->
  exists spawned kept done t t' rest rest' mem,
    vm_threads v = done ++ t :: rest /\
    turns ops prog c (vm_mem v) done kept mem /\
    runnable t /\ slice ops prog c t mem t' (vm_mem v') /\ t_err t' <> None /\
    Forall2 restacked rest rest' /\ Forall unborn spawned /\
    vm_threads v' = spawned ++ concat kept ++ t' :: rest'.
Proof.
  intros P H ops prog c v v' E. destruct (round_turns _ _ _ _ _ _ _ _ _ _ _ _ _ E) as (ns & p & U & R & D).
  destruct D as (dn & ks & u & u' & rest & rest' & mem & D1 & D2 & D3 & D4 & D5 & D6 & D7).
  inversion R; subst. exists ns, ks, dn, u, u', rest, rest', mem. repeat (split; auto).
Qed.

(** A finished thread, a waiting one and one that prints. *)
Definition sched_vm : vm ptr heap :=
  let t := prepared fresh_thread demo_main [] in
  Vm empty_heap [] world0 [t_set_fin t true; t_set_waits t 2; t].
Example C64_example :
  match vm_resume (gc_ops 5) demo_prog 10 sched_vm with
  | Ok (b, v) => b = true /\ map (fun t => (t_waits t, t_cyc t)) (vm_threads v) = [(1, 0); (0, 10)]
  | _ => False
  end.
Proof. vm_compute. split; reflexivity. Qed.
Example C64_failure_example :
  let bad := Prog [] [] [demo_main] (asm [I1 INS_NEW_INT 1; I1 INS_NEW_INT 0; I0 INS_DIV]) [] [] in
  match vm_resume (gc_ops 5) bad 10 sched_vm with
  | Ok (b, v) => b = false /\ map (fun t => (t_waits t, t_err t)) (vm_threads v) = [(1, None); (0, Some e_bad_divide_by_zero)]
  | _ => False
  end.
Proof. vm_compute. split; reflexivity. Qed.

(** ** C65 wait(n) skips exactly n rounds *)

(** [k] successful rounds of any lengths. *)
Inductive rounds {P H} (ops : hops P H) (prog : program_t) : nat -> vm P H -> vm P H -> Prop :=
| rounds_0 : forall v, rounds ops prog 0 v v
| rounds_S : forall k c v v1 v2,
    vm_resume ops prog c v = Ok (true, v1) -> rounds ops prog k v1 v2 ->
    rounds ops prog (S k) v v2.

Lemma turns_in : forall P H (ops : hops P H) prog c mem ts ks mem' t,
  turns ops prog c mem ts ks mem' -> In t ts -> t_waits t <> 0 ->
  exists t', In t' (concat ks) /\ restacked (t_set_waits t (t_waits t - 1)) t'.
Proof.
  intros P H ops prog c mem ts ks mem' t T I W.
  induction T as [mem|mem u u' ts ks mem' Wu Ru T IH|mem u ts ks mem' Wu Du T IH|mem mem1 u u' ts ks mem' Ru Sl Ne T IH].
  - destruct I.
  - destruct I as [->|I]; [exists u'; split; auto; now left|].
    destruct (IH I) as (t' & I' & R). exists t'. split; auto. cbn. auto.
  - destruct I as [->|I]; [contradiction|]. exact (IH I).
  - destruct I as [->|I]; [destruct Ru; contradiction|].
    destruct (IH I) as (t' & I' & R). exists t'. split; auto. cbn. auto.
Qed.

(** As long as fewer rounds have passed than the wait count (always, when that
    is negative), the thread is still there, with its pc, frames and cycle
    count, has not run, and its count has gone down by one per round. *)
Theorem C65_skipped : forall P H (ops : hops P H) prog k v v' t,
  rounds ops prog k v v' -> In t (vm_threads v) ->
  (t_waits t < 0 \/ Z.of_nat k <= t_waits t) ->
  exists t', In t' (vm_threads v') /\ restacked (t_set_waits t (t_waits t - Z.of_nat k)) t'.
Proof.
  intros P H ops prog k v v' t R. revert t. induction R as [v|k c v v1 v2 E R IH]; intros t I W.
  - exists t. split; auto. rewrite Z.sub_0_r. destruct t. eexists; reflexivity.
  - destruct (C64_round _ _ _ _ _ _ _ E) as (sp & ks & T & _ & Q).
    destruct (turns_in _ _ _ _ _ _ _ _ _ t T I) as (t1 & I1 & R1); [lia|].
    destruct (IH t1) as (t2 & I2 & R2).
    + rewrite Q. apply in_or_app. auto.
    + destruct R1 as (l & ->). cbn [t_waits t_set_stk t_set_waits]. lia.
    + exists t2. split; auto. destruct R1 as (l & ->), R2 as (l2 & ->). 
      cbn [t_waits t_set_stk t_set_waits]. exists l2.
      replace (t_waits t - Z.of_nat (S k)) with (t_waits t - 1 - Z.of_nat k) by lia. reflexivity.
Qed.
(** And in the round after its [n]-th it runs again, if it can. *)
Theorem C65_then_runs : forall P H (ops : hops P H) prog c v v' t,
  vm_resume ops prog c v = Ok (true, v') -> In t (vm_threads v) -> runnable t ->
  exists mem mem' t', slice ops prog c t mem t' mem' /\ In t' (vm_threads v').
Proof.
  intros P H ops prog c v v' t E I Ru. destruct (C64_round _ _ _ _ _ _ _ E) as (sp & ks & T & _ & Q).
  enough (G : exists mem mem' t', slice ops prog c t mem t' mem' /\ In t' (concat ks)).
  { destruct G as (m & m' & t' & S & J). exists m, m', t'. split; auto. rewrite Q. apply in_or_app. auto. }
  clear Q E. revert T I. generalize (vm_threads v) (vm_mem v) (vm_mem v'). intros ts m m' T.
  induction T as [mem|mem u u' ts ks mem' Wu Rs T IH|mem u ts ks mem' Wu Du T IH|mem mem1 u u' ts ks mem' Rn Sl Ne T IH]; intros I.
  - destruct I.
  - destruct I as [->|I]; [destruct Ru; contradiction|]. destruct (IH I) as (? & ? & t' & ? & ?).
    do 3 eexists. split; eauto. cbn. auto.
  - destruct I as [->|I]; [destruct Ru as (? & ? & ?); destruct Du; congruence|]. auto.
  - destruct I as [->|I]; [exists mem, mem1, u'; split; auto; now left|].
    destruct (IH I) as (? & ? & t' & ? & ?). do 3 eexists. split; eauto. cbn. auto.
Qed.

(** [s] is about to call the builtin [f] with [n] arguments; the stack is [stk]. *)
Definition sys_state {P H} (prog : program_t) (s : mst P H) (f : sysfn) (n : Z) (stk : list P) : Prop :=
  quiet s /\ stack s = stk /\
  exists k nm, at_ins prog (pc s) (I2 INS_SCALL n k) /\ znth (p_syscalls prog) k = Some (Sysc nm (Some f)).

Lemma sys_step : forall P H (ops : hops P H) prog s f n stk, sys_state prog s f n stk ->
  step_imp ops prog s = mbind (run_sys ops prog f n) (fun _ => finish_step prog)
     (with_cur s (t_set_pc (m_cur s) (pc s + 9))).
Proof.
  intros P H ops prog s f n stk (Q & Es & k & nm & At & Ef).
  rewrite (step_at _ _ _ _ At). cbn [ins_op do_ins]. unfold mbind at 1. unfold mbind at 1.
  destruct (operand2_at _ _ _ _ _ At) as (O1 & O2). rewrite O1. cbv beta iota.
  unfold mbind at 1. rewrite O2. unfold do_syscall. rewrite Ef. reflexivity.
Qed.

(** wait(n) sets the wait count to [n], pushes 0, and ends the slice exactly
    when [n] is positive; it changes nothing else. *)
Theorem C65_wait : forall P H (ops : hops P H) prog s p rest w n h q,
  sys_state prog s F_wait 1 (p :: rest) ->
  h_view ops (m_heap s) p = Ok w -> is_number (plain w) = true -> as_int (plain w) = Ok n ->
  h_newS ops (m_heap s) (SInt 0) = Ok (h, q) ->
  step_imp ops prog s =
    Ok (tt, let s1 := after s (pc s + 9) (q :: rest) h in
            with_cur s1 (t_set_waits (t_set_hal (m_cur s1) (t_hal (m_cur s) || (0 <? n))) n)).
Proof.
  intros P H ops prog s p rest w n h q St Ew Nu An Nw. rewrite (sys_step _ _ _ _ _ _ _ _ St).
  destruct St as (Q & Es & _). cbn [run_sys]. dstate s. mcbv. subst stk bps. mcbv. rw Ew. rw Nu. rw An. rw Nw.
  destruct (0 <? n); rewrite finish_quiet' by reflexivity; rewrite ?orb_true_r, ?orb_false_r; reflexivity.
Qed.
(** Integers wait for themselves. *)
Lemma as_int_int : forall z, is_number (PInt z) = true /\ as_int (PInt z) = Ok z.
Proof. split; reflexivity. Qed.

(** A thread that waits three rounds. *)
Definition wait_prog (n : Z) : program_t :=
  Prog [] [Sysc [119] (Some F_wait)] [demo_main]
    (asm [I1 INS_NEW_INT n; I2 INS_SCALL 1 0; I1 INS_POP 1; I1 INS_NEW_INT 7; I1 INS_RET 0]) [] [].
Example C65_example :
  (let s := with_cur demo_state (t_set_pc (t_set_stk (m_cur demo_state) [Some (true, 0)]) 5) in
   sys_state (wait_prog 3) s F_wait 1 [Some (true, 0)]) /\
  map (fun k => match host_gc (wait_prog 3) 3
                        (map (pair cfg_always) (HThread demo_main [] :: repeat (HResume 10) k)) (vm_start 0 world0) with
                | Ok (_, v) => map (fun t => (t_waits t, t_fin t)) (vm_threads v)
                | _ => [] end) [1%nat; 2%nat; 4%nat; 5%nat]
  = [[(3, false)]; [(2, false)]; [(0, false)]; [(0, true)]].
Proof.
  split; [|vm_compute; reflexivity].
  repeat split. exists 0, [119]. split; [|reflexivity]. unfold at_ins.
  split; [vm_compute; reflexivity|]. split; [vm_compute; discriminate|]. split; [repeat split; vm_compute; congruence|].
  eexists. split; vm_compute; reflexivity.
Qed.

(** ** C67 Preparing a thread checks the number of arguments *)

Lemma vm_eta : forall P H (v : vm P H), Vm (vm_heap v) (vm_glob v) (vm_world v) (vm_threads v) = v.
Proof. intros P H []. reflexivity. Qed.

(** With the wrong number no thread is made and nothing changes. *)
Theorem C67_wrong_count : forall P H (ops : hops P H) v f argv,
  num_args f <> zlen argv -> vm_new_thread ops v f argv = Ok (false, v).
Proof.
  intros P H ops v f argv N. unfold vm_new_thread, new_thread. replace (num_args f =? zlen argv) with false by lia.
  unfold ret. cbn. now rewrite vm_eta.
Qed.

(** ... and call_once crashes on the null thread, after a collection. *)
Theorem C67_call_once_crashes : forall P H (ops : hops P H) prog fuel v v1 f argv,
  num_args f <> zlen argv -> gc_collect_vm ops v = Ok v1 ->
  call_once ops prog fuel v f argv = Stuck SNull.
Proof.
  intros P H ops prog fuel v v1 f argv N E. unfold call_once. rewrite C67_wrong_count by auto.
  cbn [bind]. rewrite E. reflexivity.
Qed.

(** With the right number of scalar or none arguments a thread is put in front
    of the others, unless the arena is exhausted.  It will start at the
    function's first instruction; its argument slots hold the given values in
    order. *)
Lemma copy_all_spec : forall cap fuel policy (argv : list ptr) (s : mst ptr heap),
  in_arena (m_heap s) ->
  Forall (fun p => forall n, shows (m_heap s) p <> ShArray n) argv ->
  Forall (fun p => shows (m_heap s) p <> ShDangling) argv ->
  copy_all (gc_ops_with cap fuel policy) argv s = Stuck SOom \/
  exists h' args, copy_all (gc_ops_with cap fuel policy) argv s =
      Ok (args, Mst h' (m_glob s) (m_world s) (m_pre s) (m_cur s) (m_post s)) /\
    Forall2 (fun p q => shows h' q = shows (m_heap s) p) argv args /\
    in_arena h' /\
    (forall a c, read (m_heap s) a = Some c -> read h' a = Some c).
Proof.
  intros cap fuel policy. induction argv as [|p argv IH]; intros s W Na Nd.
  - right. exists (m_heap s), []. split; [destruct s; reflexivity|]. split; [constructor|auto].
  - inversion Na as [|? ? Na1 Na2]; subst. inversion Nd as [|? ? Nd1 Nd2]; subst.
    destruct p as [a|].
    + unfold shows in Na1, Nd1. destruct (read (m_heap s) a) as [[c|l]|] eqn:Ea; [|exfalso; eapply Na1; reflexivity|congruence].
      assert (C : gc_copy (gc_ops_with cap fuel policy) (Some a) s =
                  match alloc cap (m_heap s) (KS c) with
                  | Some (h1, n) => Ok (Some n, Mst h1 (m_glob s) (m_world s) (m_pre s) (m_cur s) (m_post s))
                  | None => Stuck SOom end).
      { unfold gc_copy, mbind, deref, lift. cbn [h_view gc_ops_with gc_view]. rewrite Ea. cbv beta iota.
        unfold new_s. cbn [h_newS gc_ops_with]. unfold gc_newS, new_cell.
        destruct (alloc cap (m_heap s) (KS c)) as [[h1 n]|]; reflexivity. }
      cbn [copy_all]. unfold mbind. rewrite C. clear C.
      destruct (alloc cap (m_heap s) (KS c)) as [[h1 n]|] eqn:Al; [|left; reflexivity].
      destruct (alloc_spec _ _ _ _ _ W Al) as (W1 & _ & Fr & Rn & Ot & _).
      assert (Ok1 : forall b0 c0, read (m_heap s) b0 = Some c0 -> read h1 b0 = Some c0).
      { intros b0 c0 E. rewrite Ot; auto. intros ->. congruence. }
      assert (Sh : forall q, shows (m_heap s) q <> ShDangling -> shows h1 q = shows (m_heap s) q).
      { intros [b|] D; auto. unfold shows in *. destruct (read (m_heap s) b) eqn:Eb; [|congruence]. now rewrite (Ok1 _ _ Eb). }
      destruct (IH (Mst h1 (m_glob s) (m_world s) (m_pre s) (m_cur s) (m_post s))) as [St|(h' & args & St & F & W' & Rd)]; auto.
      * cbn. rewrite Forall_forall in *. intros q I k. rewrite Sh by auto. now apply Na2.
      * cbn. rewrite Forall_forall in *. intros q I. rewrite Sh by auto. now apply Nd2.
      * left. unfold ptr in *. rewrite St. reflexivity.
      * right. cbn [m_heap m_glob m_world m_pre m_cur m_post] in *. unfold ptr in *. exists h', (Some n :: args).
        rewrite St. split; [reflexivity|]. split.
        -- constructor.
           ++ unfold shows. now rewrite (Rd _ _ Rn), Ea.
           ++ clear - F Sh Nd2. revert args F. induction argv as [|q l IHl]; intros args F; inversion F; subst; constructor.
              ** inversion Nd2; subst. rewrite <- Sh by auto. auto.
              ** inversion Nd2; subst. apply IHl; auto.
        -- split; auto.
    + cbn [copy_all]. unfold mbind.
      change (gc_copy _ None s) with (Ok (None : ptr, s)). cbv beta iota.
      destruct (IH s W Na2 Nd2) as [St|(h' & args & St & F & W' & Rd)]; unfold ptr in *.
      * left. rewrite St. reflexivity.
      * right. exists h', (None :: args). rewrite St. split; [reflexivity|]. split; auto.
Qed.

Theorem C67_right_count : forall cap fuel policy v f argv,
  in_arena (vm_heap v) -> num_args f = zlen argv ->
  Forall (fun p => shows (vm_heap v) p <> ShDangling /\ forall n, shows (vm_heap v) p <> ShArray n) argv ->
  let r := vm_new_thread (gc_ops_with cap fuel policy) v f argv in
  r = Stuck SOom \/
  exists h' t, r = Ok (true, Vm h' (vm_glob v) (vm_world v) (t :: vm_threads v)) /\
    (forall a c, read (vm_heap v) a = Some c -> read h' a = Some c) /\
    t_pc t = f_start f /\ runnable t /\ t_cyc t = 0 /\
    exists fr, t_frs t = [fr] /\
      forall i p, znth argv i = Some p ->
        exists q, slot (t_stk t) fr (i - num_args f) = Some q /\ shows h' q = shows (vm_heap v) p.
Proof.
  intros cap fuel policy v f argv W N F r. unfold r, vm_new_thread, new_thread. rewrite N, Z.eqb_refl.
  unfold mbind.
  destruct (copy_all_spec cap fuel policy argv (Mst (vm_heap v) (vm_glob v) (vm_world v) [] fresh_thread (vm_threads v)))
    as [St|(h' & args & St & G & W' & Rd)]; auto.
  - eapply Forall_impl; [|exact F]. cbn. tauto.
  - eapply Forall_impl; [|exact F]. cbn. tauto.
  - left. unfold ptr in *. rewrite St. reflexivity.
  - right. unfold ptr in *. rewrite St. cbn in G, Rd. exists h', (prepared fresh_thread f args).
    split; [reflexivity|]. split; auto. split; [reflexivity|]. split; [repeat split|]. split; [reflexivity|].
    eexists. split; [reflexivity|]. intros i p Ei. unfold slot. cbn [t_stk prepared fr_sp].
    assert (L : zlen args = zlen argv) by (unfold zlen; rewrite (F2_length _ _ _ _ _ G); reflexivity).
    rewrite rev_involutive, L. replace (zlen argv + (i - zlen argv)) with i by lia.
    clear - G Ei. revert i Ei. induction G as [|a b l l' Q G IH]; intros i Ei.
    + destruct i; discriminate.
    + cbn [znth] in *. destruct (i =? 0).
      * exists b. split; auto. congruence.
      * auto.
Qed.
Example C67_example :
  let f := Func [102] 0 10 [] [Ident [97] (-2); Ident [98] (-1)] in
  num_args f <> zlen ([] : list ptr) /\ num_args f = zlen [None : ptr; None] /\
  in_arena (vm_heap (vm_start 0 world0)) /\
  Forall (fun p => shows (vm_heap (vm_start 0 world0)) p <> ShDangling /\
                   forall n, shows (vm_heap (vm_start 0 world0)) p <> ShArray n) [None : ptr; None] /\
  exists v1, gc_collect_vm (gc_ops 5) (vm_start 0 world0) = Ok v1.
Proof.
  cbv zeta. split; [discriminate|]. split; [reflexivity|]. split; [split; [intros []; cbn; lia|intros x o c E; discriminate E]|].
  split; [repeat constructor; discriminate|].
  eexists. reflexivity.
Qed.

(** ** C66 Spawning a thread from a script *)
Lemma pop_n_eq : forall P H (l : list P) r (s : mst P H), t_stk (m_cur s) = l ++ r ->
  pop_n (length l) s = Ok (l, with_cur s (t_set_stk (m_cur s) r)).
Proof.
  intros P H. induction l as [|p l IH]; intros r s E; cbn [length pop_n].
  - unfold ret. cbn in E. destruct s as [h g w pre [] post]; cbn in *. subst. reflexivity.
  - unfold mbind at 1, pop. rewrite E. cbn [app]. unfold mbind at 1, mod_cur, ret at 1.
    unfold mbind. rewrite (IH r).
    + destruct s as [h g w pre [] post]; reflexivity.
    + destruct s as [h g w pre [] post]; reflexivity.
Qed.

(** new_thread(f, a1, ..., an): the stack holds the arguments above the function
    value [fp].  When [f] takes [n] arguments, none of which is an array, a
    thread is put in front of the others and 0 is pushed (unless the arena is
    exhausted).  It is runnable, has not run, starts at [f], and its argument
    slots hold copies of the arguments in order. *)
Theorem C66_spawn : forall cap fuel policy prog s f fp a argv rest,
  sys_state prog s F_new_thread (zlen argv + 1) (rev argv ++ fp :: rest) -> in_arena (m_heap s) ->
  shows (m_heap s) fp = ShScalar (SFun a) -> function_find_pc prog a = Some f ->
  num_args f = zlen argv ->
  Forall (fun p => shows (m_heap s) p <> ShDangling /\ forall n, shows (m_heap s) p <> ShArray n) argv ->
  let r := step_imp (gc_ops_with cap fuel policy) prog s in
  r = Stuck SOom \/
  exists h' t z, r = Ok (tt, let s1 := after s (pc s + 9) (z :: rest) h' in
      Mst (m_heap s1) (m_glob s1) (m_world s1) (t :: m_pre s1) (m_cur s1) (m_post s1)) /\
    shows h' z = ShScalar (SInt 0) /\
    (forall a c, read (m_heap s) a = Some c -> read h' a = Some c) /\
    t_pc t = f_start f /\ runnable t /\ t_cyc t = 0 /\
    exists fr, t_frs t = [fr] /\
      forall i p, znth argv i = Some p ->
        exists q, slot (t_stk t) fr (i - num_args f) = Some q /\ shows h' q = shows (m_heap s) p.
Proof.
  intros cap fuel policy prog s f fp a argv rest St W Ef Ff N F r.
  assert (Er : r = step_imp (gc_ops_with cap fuel policy) prog s) by reflexivity.
  clearbody r. rewrite (sys_step _ _ _ _ _ _ _ _ St) in Er. destruct St as (Q & Es & _).
  cbn [run_sys] in Er. pose proof (zlen_nonneg argv) as Lp.
  replace (zlen argv + 1 <=? 0) with false in Er by lia.
  replace (Z.to_nat (zlen argv + 1 - 1)) with (length (rev argv)) in Er by (rewrite rev_length; unfold zlen in *; lia).
  unfold mbind at 1 2 in Er. rewrite (pop_n_eq _ _ (rev argv) (fp :: rest)) in Er by exact Es.
  unfold mbind at 1 in Er. rewrite (pop_v_eq _ _ _ _ fp rest) in Er by reflexivity.
  cbn [h_view gc_ops_with with_cur m_heap] in Er. unfold ptr in *.
  assert (V : gc_view (m_heap s) fp = Ok (WS (SFun a))).
  { unfold shows in Ef. destruct fp as [b|]; [|discriminate]. cbn [gc_view].
    destruct (read (m_heap s) b) as [[]|]; congruence. }
  rewrite V in Er. cbv beta iota in Er. rewrite Ff, N, Z.eqb_refl in Er. cbn [negb] in Er.
  rewrite rev_involutive in Er. unfold new_thread in Er. rewrite N, Z.eqb_refl in Er.
  match type of Er with context [mbind _ _ ?x] => set (s0 := x) in Er end.
  destruct (copy_all_spec cap fuel policy argv s0)
    as [St|(h' & args & St & G & W' & Rd)].
  - exact W.
  - eapply Forall_impl; [|exact F]. cbn. tauto.
  - eapply Forall_impl; [|exact F]. cbn. tauto.
  - left. unfold ptr, mbind in *. rewrite St in Er. exact Er.
  - unfold ptr, mbind in *. rewrite St in Er. cbn in G, Rd.
    unfold add_thread, ret in Er. cbv beta iota in Er. unfold push_s, mbind, new_s in Er.
    cbn [m_heap h_newS gc_ops_with m_pre m_cur m_post m_glob m_world] in Er. unfold gc_newS, new_cell in Er.
    destruct (alloc cap h' (KS (SInt 0))) as [[h1 n]|] eqn:Al; [right|left; exact Er].
    destruct (alloc_spec _ _ _ _ _ W' Al) as (W1 & _ & Fr & Rn & Ot & _).
    assert (Ok1 : forall b0 c0, read h' b0 = Some c0 -> read h1 b0 = Some c0).
    { intros b0 c0 E. rewrite Ot; auto. intros ->. congruence. }
    exists h1, (prepared fresh_thread f args), (Some n).
    split.
    { subst s0. rewrite Er. clear - Q. dstate s. mcbv. subst bps. rewrite finish_quiet' by reflexivity. reflexivity. }
    split; [cbn [shows]; now rewrite Rn|]. split; [auto|].
    split; [reflexivity|]. split; [repeat split|]. split; [reflexivity|].
    eexists. split; [reflexivity|]. intros i p Ei. unfold slot. cbn [t_stk prepared fr_sp].
    assert (L : zlen args = zlen argv) by (unfold zlen; rewrite (F2_length _ _ _ _ _ G); reflexivity).
    rewrite rev_involutive, N, L. replace (zlen argv + (i - zlen argv)) with i by lia.
    clear - G Ei Ok1 F. revert i Ei. induction G as [|a b l l' Q G IH]; intros i Ei.
    + destruct i; discriminate.
    + inversion F; subst. cbn [znth] in *. destruct (i =? 0); [|auto].
      exists b. split; auto. assert (a = p) by congruence. subst a. rewrite <- Q.
      unfold shows. destruct b as [b|]; auto. destruct (read h' b) eqn:Eb; [now rewrite (Ok1 _ _ Eb)|].
      exfalso. unfold shows in Q at 1. rewrite Eb in Q. destruct H1; congruence.
Qed.

(** Wrong number of arguments, an address that is not in a function, or no
    function at all: the thread fails with e_bad_argument and no thread is
    made. *)
Theorem C66_bad_spawn : forall P H (ops : hops P H) prog s n argv fp w rest,
  sys_state prog s F_new_thread n (rev argv ++ fp :: rest) -> n = zlen argv + 1 ->
  h_view ops (m_heap s) fp = Ok w ->
  (forall a, w = WS (SFun a) -> forall f, function_find_pc prog a = Some f -> num_args f <> zlen argv) ->
  step_imp ops prog s = Ok (tt, failed s (pc s + 9) rest e_bad_argument).
Proof.
  intros P H ops prog s n argv fp w rest St -> Ew Bad.
  rewrite (sys_step _ _ _ _ _ _ _ _ St). destruct St as (Q & Es & _).
  cbn [run_sys]. pose proof (zlen_nonneg argv) as Lp. replace (zlen argv + 1 <=? 0) with false by lia.
  replace (Z.to_nat (zlen argv + 1 - 1)) with (length (rev argv)) by (rewrite rev_length; unfold zlen in *; lia).
  unfold mbind at 1 2. rewrite (pop_n_eq _ _ (rev argv) (fp :: rest)) by exact Es.
  unfold mbind at 1. rewrite (pop_v_eq _ _ _ _ fp rest) by reflexivity.
  cbn [with_cur m_heap]. rewrite Ew. cbv beta iota.
  assert (D : (match w with
     | WS (SFun a) => match function_find_pc prog a with
            | None => raise e_bad_argument
            | Some f => if negb (num_args f + 1 =? zlen argv + 1) then raise e_bad_argument else
                mbind (new_thread ops f (rev (rev argv))) (fun _ => push_s ops (SInt 0)) end
     | _ => raise e_bad_argument end) = raise (P := P) (H := H) e_bad_argument).
  { destruct w as [|[]|]; auto. destruct (function_find_pc prog a) eqn:Ef; auto.
    specialize (Bad _ eq_refl _ Ef). replace (num_args f + 1 =? zlen argv + 1) with false by lia. reflexivity. }
  rewrite D. clear D. dstate s. mcbv. subst bps. rewrite finish_quiet' by reflexivity. reflexivity.
Qed.

(** Finding: an array argument aborts the program. *)
Theorem C66_array_argument_aborts : forall cap fuel policy prog s f fp a ap n rest,
  sys_state prog s F_new_thread 2 (ap :: fp :: rest) ->
  shows (m_heap s) fp = ShScalar (SFun a) -> function_find_pc prog a = Some f ->
  num_args f = 1 -> shows (m_heap s) ap = ShArray n ->
  step_imp (gc_ops_with cap fuel policy) prog s = Stuck SAssert.
Proof.
  intros cap fuel policy prog s f fp a ap n rest St Ef Ff N Ea.
  rewrite (sys_step _ _ _ _ _ _ _ _ St). destruct St as (Q & Es & _).
  cbn [run_sys]. change (2 <=? 0) with false. cbv iota. change (Z.to_nat (2 - 1)) with (length [ap]).
  unfold mbind at 1 2. rewrite (pop_n_eq _ _ [ap] (fp :: rest)) by exact Es.
  unfold mbind at 1. rewrite (pop_v_eq _ _ _ _ fp rest) by reflexivity.
  cbn [h_view gc_ops_with with_cur m_heap]. unfold ptr in *.
  assert (V : gc_view (m_heap s) fp = Ok (WS (SFun a))).
  { unfold shows in Ef. destruct fp as [b|]; [|discriminate]. cbn [gc_view].
    destruct (read (m_heap s) b) as [[]|]; congruence. }
  assert (Va : exists l, gc_view (m_heap s) ap = Ok (WA l)).
  { unfold shows in Ea. destruct ap as [b|]; [|discriminate]. cbn [gc_view].
    destruct (read (m_heap s) b) as [[]|]; [discriminate|eauto|discriminate]. }
  destruct Va as (l & Va).
  rewrite V. cbv beta iota. rewrite Ff, N. cbn [Z.add Z.eqb Pos.eqb Pos.add negb rev app].
  unfold new_thread. rewrite N. change (1 =? zlen [ap]) with true. cbn [copy_all].
  unfold mbind, gc_copy, mbind, deref, lift. cbn [h_view gc_ops_with m_heap with_cur]. rewrite Va. reflexivity.
Qed.

(** new_thread(f, 5) and new_thread(f) for a function [f] of one argument. *)
Definition spawn_prog : program_t :=
  Prog [] [Sysc [110] (Some F_new_thread)] [demo_main; Func [102] 200 300 [] [Ident [97] (-1)]]
    (asm [I1 INS_NEW_FUNC 200; I1 INS_NEW_INT 5; I2 INS_SCALL 2 0;
          I1 INS_NEW_FUNC 200; I2 INS_SCALL 1 0]) [] [].
Example C66_example :
  match resume (gc_ops 5) spawn_prog 2 demo_state with
  | Ok (_, s) =>
      sys_state spawn_prog s F_new_thread 2 [Some (true, 8); Some (true, 0)] /\
      shows (m_heap s) (Some (true, 0)) = ShScalar (SFun 200) /\
      shows (m_heap s) (Some (true, 8)) = ShScalar (SInt 5) /\
      match resume (gc_ops 5) spawn_prog 1 s with
      | Ok (_, s') => map (fun t => (t_pc t, map (shows (m_heap s')) (t_stk t))) (m_pre s') = [(200, [ShScalar (SInt 5)])] /\
          match resume (gc_ops 5) spawn_prog 2 s' with
          | Ok (_, s2) => t_err (m_cur s2) = Some e_bad_argument /\ length (m_pre s2) = 1%nat
          | _ => False end
      | _ => False end
  | _ => False end.
Proof.
  destruct (resume (gc_ops 5) spawn_prog 2 demo_state) as [[b s]| |] eqn:E; vm_compute in E; try discriminate.
  match type of E with Ok (_, ?x) = Ok _ => assert (x = s) as <- by congruence end.
  split.
  - split; [reflexivity|]. split; [reflexivity|]. exists 0, [110]. split; [|reflexivity]. unfold at_ins.
    split; [vm_compute; reflexivity|]. split; [vm_compute; discriminate|]. split; [repeat split; vm_compute; congruence|].
    eexists. split; vm_compute; reflexivity.
  - vm_compute. repeat split.
Qed.

(** ** C68 Finding: call_init can report success before the globals are set *)

(** The result of call_init is whether the first 8192 cycles went without an
    error, nothing more. *)
Theorem C68_reports_first_slice : forall P H (ops : hops P H) prog h g w f s ok,
  function_find prog init_name = Some f -> num_args f = 0 ->
  resume ops prog (Z.to_nat 8192) (Mst h g w [] (prepared fresh_thread f []) []) = Ok (ok, s) ->
  exists v, call_init ops prog (Vm h g w []) = Ok (ok, v) /\ vm_glob v = m_glob s.
Proof.
  intros P H ops prog h g w f s ok Ff N E.
  assert (F0 : t_fin (m_cur (Mst h g w [] (prepared (@fresh_thread P) f []) [])) = false) by reflexivity.
  destruct (resume_inv _ _ _ _ _ _ _ _ F0 E) as [L Ok_].
  assert (Po : m_post s = []).
  { destruct (loop_executed _ _ _ _ _ _ _ L) as (k & _ & Ex & _).
    destruct (executed_others _ _ _ _ _ _ _ Ex) as (R & _). cbn in R. now inversion R. }
  unfold call_init. match goal with |- context [function_find prog ?x] => change x with init_name end. rewrite Ff.
  unfold vm_new_thread, new_thread. rewrite N. change (0 =? zlen []) with true. cbv iota.
  unfold mbind, copy_all, ret, add_thread. cbn [m_heap m_glob m_world m_pre m_post m_cur vm_heap vm_glob vm_world vm_threads app bind].
  unfold vm_resume. cbn [vm_threads vm_heap vm_glob vm_world].
  change (length _) with 1%nat. cbn [vm_round]. change (negb _) with false. cbv iota.
  change (t_fin _ || _) with false. cbv iota. rewrite E.
  destruct ok.
  - rewrite Po. eexists. split; reflexivity.
  - rewrite <- Ok_. eexists. split; reflexivity.
Qed.

(** var g = f()
    function f()
      var i = 0
      while (i < 2000)
        i = i + 1
      end
      return 7
    end *)
Definition slow_init : program_t :=
  Prog [Ident [103] 0] []
    [Func init_name 0 25 [] []; Func [102] 25 87 [Ident [105] 0] []]
    (asm [I1 INS_GLOBALS 1; I2 INS_CALL 0 25; I1 INS_SETG 0; I0 INS_NEW_NONE; I1 INS_RET 0;
          I1 INS_LOCALS 1; I1 INS_NEW_INT 0; I1 INS_SETV 0;
          I1 INS_GETV 0; I1 INS_NEW_INT 2000; I0 INS_LT; I1 INS_FJMP 77;
          I1 INS_GETV 0; I1 INS_NEW_INT 1; I0 INS_ADD; I1 INS_SETV 0; I1 INS_JMP 40;
          I1 INS_NEW_INT 7; I1 INS_RET 1]) [] [].
(** call_init reports success, yet the global is none and the initialiser is
    not finished; 20000 more cycles set it. *)
Theorem C68_call_init_too_early :
  exists v v', call_init (gc_ops 5) slow_init (vm_start 1 world0) = Ok (true, v) /\
    vm_glob v = [None] /\ vm_finished v = false /\
    vm_resume (gc_ops 5) slow_init (Z.to_nat 20000) v = Ok (true, v') /\
    vm_finished v' = true /\ map (shows (vm_heap v')) (vm_glob v') = [ShScalar (SInt 7)].
Proof.
  destruct (call_init (gc_ops 5) slow_init (vm_start 1 world0)) as [[b v]| |] eqn:E; [|exfalso; revert E; vm_compute; discriminate..].
  destruct (vm_resume (gc_ops 5) slow_init (Z.to_nat 20000) v) as [[b' v']| |] eqn:E'.
  - exists v, v'.
    assert (G : match call_init (gc_ops 5) slow_init (vm_start 1 world0) with
      | Ok (b, v) => b = true /\ vm_glob v = [None] /\ vm_finished v = false /\
        match vm_resume (gc_ops 5) slow_init (Z.to_nat 20000) v with
        | Ok (b', v') => b' = true /\ vm_finished v' = true /\ map (shows (vm_heap v')) (vm_glob v') = [ShScalar (SInt 7)]
        | _ => False end
      | _ => False end) by (vm_compute; repeat split).
    rewrite E, E' in G. destruct G as (-> & G1 & G2 & -> & G3 & G4). auto 10.
  - exfalso. assert (G : match call_init (gc_ops 5) slow_init (vm_start 1 world0) with
      | Ok (b, v) => match vm_resume (gc_ops 5) slow_init (Z.to_nat 20000) v with Ok _ => True | _ => False end
      | _ => False end) by (vm_compute; exact I). now rewrite E, E' in G.
  - exfalso. assert (G : match call_init (gc_ops 5) slow_init (vm_start 1 world0) with
      | Ok (b, v) => match vm_resume (gc_ops 5) slow_init (Z.to_nat 20000) v with Ok _ => True | _ => False end
      | _ => False end) by (vm_compute; exact I). now rewrite E, E' in G.
Qed.

Print Assumptions C64_round.
Print Assumptions C64_stops_on_failure.
Print Assumptions C65_skipped.
Print Assumptions C65_then_runs.
Print Assumptions C65_wait.
Print Assumptions C66_spawn.
Print Assumptions C66_bad_spawn.
Print Assumptions C66_array_argument_aborts.
Print Assumptions C67_wrong_count.
Print Assumptions C67_call_once_crashes.
Print Assumptions C67_right_count.
Print Assumptions C68_reports_first_slice.
Print Assumptions C68_call_init_too_early.
