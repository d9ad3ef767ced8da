(** Proof support for C117 and C118: a thread that is run in rounds of the vm. *)
From Coq Require Import ZArith List Bool Lia ZifyBool String.
From Verif Require PropertiesSched.
From Verif Require Import Base BaseFacts F32 Instr Program VM AbsHeap Gc GcSpec VmSpec VmFacts RunFacts PropertiesRun Ast Sema SemaSpec Codegen SrcSem
  CgCode CgLayout CgSlots CgStep CgSim CgSpec CgLink CgRun CgFlow Host RunSpec SrcFacts SrcKeys HostRun HostProofs Refine.
Import ListNotations.
Open Scope Z_scope.
Open Scope list_scope.

(** ** Instructions do not touch the threads after the running one *)
Section Frame.
  Context {P H : Type}.
  Variable ops : hops P H.
  Variable prog : program_t.
  Notation mst := (mst P H).
  Notation M := (@M P H).

  Definition repost (l : list (thread P)) (s : mst) : mst :=
    Mst (m_heap s) (m_glob s) (m_world s) (m_pre s) (m_cur s) l.
  Definition free {A} (m : M A) : Prop := forall s l,
    m (repost l s) = match m s with Ok (x, s') => Ok (x, repost l s') | Err e n => Err e n | Stuck x => Stuck x end.

  Lemma free_bind A B (m : M A) (k : A -> M B) : free m -> (forall x, free (k x)) -> free (mbind m k).
  Proof.
    intros Hm Hk s l. unfold mbind. rewrite Hm. destruct (m s) as [[x s1]| |]; [apply Hk|reflexivity|reflexivity].
  Qed.
  Lemma free_ret A (a : A) : free (ret a : M A). Proof. intros s l. reflexivity. Qed.
  Lemma free_lift A (r : res A) : free (lift r : M A). Proof. intros s l. destruct r; reflexivity. Qed.
  Lemma free_mget A (f : mst -> A) : (forall s l, f (repost l s) = f s) -> free (mget f).
  Proof. intros E s l. unfold mget. rewrite E. reflexivity. Qed.
  Lemma free_mod_cur f : free (mod_cur f : M unit). Proof. intros s l. reflexivity. Qed.
  Lemma free_set_heap h : free (set_heap h : M unit). Proof. intros s l. reflexivity. Qed.
  Lemma free_set_glob h : free (set_glob h : M unit). Proof. intros s l. reflexivity. Qed.
  Lemma free_set_world h : free (set_world h : M unit). Proof. intros s l. reflexivity. Qed.
  Lemma free_add t : free (add_thread t : M unit). Proof. intros s l. reflexivity. Qed.
  Lemma free_pop : free (pop : M P).
  Proof. intros s l. unfold pop. cbn [repost m_cur]. destruct (t_stk (m_cur s)); reflexivity. Qed.
  Lemma free_deref p : free (deref ops p : M (view P)).
  Proof. intros s l. unfold deref. cbn [repost m_heap]. apply free_lift. Qed.
  Lemma free_new_s c : free (new_s ops c : M P).
  Proof. intros s l. unfold new_s. cbn [repost m_heap]. destruct (h_newS ops (m_heap s) c) as [[h p]| |]; reflexivity. Qed.
  Lemma free_new_a c : free (new_a ops c : M P).
  Proof. intros s l. unfold new_a. cbn [repost m_heap]. destruct (h_newA ops (m_heap s) c) as [[h p]| |]; reflexivity. Qed.

  Ltac fr := repeat first
    [ apply free_ret | apply free_lift | apply free_mod_cur | apply free_set_heap | apply free_set_glob | apply free_set_world
    | apply free_add | apply free_pop | apply free_deref | apply free_new_s | apply free_new_a
    | apply free_mget; reflexivity
    | apply free_bind; [|intros]
    | match goal with
      | |- free (if ?b then _ else _) => destruct b
      | |- free (match ?x with _ => _ end) => destruct x
      | |- free (let _ := _ in _) => cbv zeta
      end
    | progress unfold raise, push, push_s, push_none, pop_v, finish_op, operand, fetch, enter, head, leave, gc_copy, new_thread, sys_float ].
  Lemma free_pop_n n : free (pop_n n : M (list P)).
  Proof. induction n; cbn [pop_n]; fr. exact IHn. Qed.
  Lemma free_copy_all l : free (copy_all ops l : M (list P)).
  Proof. induction l; cbn [copy_all]; fr. exact IHl. Qed.
  Lemma free_pop_hargs n : free (pop_hargs ops n : M (list harg)).
  Proof. induction n; cbn [pop_hargs]; fr. exact IHn. Qed.
  Lemma free_sys f n : free (run_sys ops prog f n).
  Proof. destruct f; cbn [run_sys]; unfold push_hret; fr; try apply free_pop_n; try apply free_copy_all; try apply free_pop_hargs. Qed.
  Lemma free_syscall i n : free (do_syscall ops prog i n).
  Proof. unfold do_syscall. fr. apply free_sys. Qed.
  Lemma free_ins i : free (do_ins ops prog i).
  Proof. destruct i; cbn [do_ins]; fr; try apply free_pop_n; try apply free_syscall. Qed.
  Lemma free_step : free (step_imp ops prog).
  Proof. unfold step_imp, check_breakpoints. fr. apply free_ins. Qed.
End Frame.

Definition crepost (l : list (thread aval)) (c : config) : config :=
  CgStep.Cfg (c_heap c) (c_glob c) (c_world c) (c_new c) l (c_pc c) (c_stk c) (c_frs c) (c_err c) (c_fin c).
Definition some_state (c : config) : machine :=
  Mst (c_heap c) (c_glob c) (c_world c) (c_new c)
      (Thread (c_pc c) (c_stk c) (c_frs c) (c_err c) (c_fin c) false 0 0 no_line []) (c_post c).
Lemma core_some c : core (some_state c) = c.
Proof. destruct c; reflexivity. Qed.

Section Rounds.
  Variable q : program_t.

  Lemma cstep_repost l c c' : cstep q c c' -> cstep q (crepost l c) (crepost l c').
  Proof.
    intros S s E. destruct (S (repost (c_post c) s)) as (s1 & S1 & E1).
    { destruct c. inversion E; subst. reflexivity. }
    exists (repost l s1). split; [|destruct c'; inversion E1; subst; reflexivity].
    assert (Es : s = repost l (repost (c_post c) s)) by (destruct s, c; inversion E; subst; reflexivity).
    rewrite Es, free_step, S1. reflexivity.
  Qed.
  Lemma evn_repost (Q Q' : config -> Prop) l k c : (forall d, Q d -> Q' (crepost l d)) -> evn q Q k c -> evn q Q' k (crepost l c).
  Proof.
    intros I E. induction E as [k c H|k c c' F S E IH]; [constructor; auto|].
    eapply evn_step; [exact F|apply cstep_repost; exact S|exact IH].
  Qed.
  Lemma evn_ended extra o l r st k c : evn q (ended_with extra o r st) k c -> evn q (ended_with extra l r st) k (crepost l c).
  Proof.
    apply evn_repost. intros d. unfold ended_with. destruct r.
    - intros (fr & T & ->). exists fr. split; [exact T|reflexivity].
    - intros (x & stk & frs & ->). exists x, stk, frs. reflexivity.
  Qed.
  Lemma evn_sides extra o r st k c : s_new st = [] -> evn q (ended_with extra o r st) k c -> c_new c = [] /\ c_post c = o.
  Proof.
    intros N E. induction E as [k c D|k c c' F S E (I1 & I2)].
    - unfold ended_with in D. destruct r.
      + destruct D as (fr & _ & ->). split; [exact N|reflexivity].
      + destruct D as (x & stk & frs & ->). split; [exact N|reflexivity].
    - destruct (S (some_state c) (core_some c)) as (s1 & S1 & E1). pose proof (step_weak _ _ _ _ _ S1) as W.
      pose proof (sf_post _ _ _ W) as W1. destruct (sf_pre _ _ _ W) as (ns & W2 & _). rewrite <- E1 in I1, I2.
      cbn [core c_new c_post some_state m_post m_pre] in *. split; [|congruence]. rewrite I1 in W2. now destruct ns, (c_new c).
  Qed.

  (** Threads that have finished and are only waiting to be removed. *)
  Definition good_wait (t : thread aval) : Prop := 0 <= t_waits t <= i32_max.
  Definition parked (t : thread aval) : Prop := t_fin t = true /\ good_wait t.
  Lemma parked_round c : forall ts n h g w pre, (List.length ts <= n)%nat -> Forall parked ts ->
    exists ts', vm_round abs_ops q n c h g w pre ts = Ok (true, Vm h g w (pre ++ ts')) /\ Forall parked ts'.
  Proof.
    induction ts as [|t ts IH]; intros n h g w pre L F.
    - exists []. rewrite app_nil_r. split; [destruct n; reflexivity|constructor].
    - destruct n as [|n]; [cbn in L; lia|]. inversion F as [|? ? [Fi Wt] F']; subst. cbn [vm_round]. cbn [List.length] in L.
      destruct (t_waits t =? 0) eqn:E; cbn [negb].
      + rewrite Fi. cbn [orb]. apply IH; [lia|exact F'].
      + unfold good_wait, i32_max in Wt. unfold chk32. replace (in_i32 (t_waits t - 1)) with true by (unfold in_i32, i32_min, i32_max; lia). cbn [bind].
        destruct (IH n h g w (pre ++ [t_set_waits t (t_waits t - 1)]) ltac:(lia) F') as (ts' & R & F'').
        exists (t_set_waits t (t_waits t - 1) :: ts'). rewrite R, <- app_assoc. split; [reflexivity|]. constructor; [|exact F''].
        split; [exact Fi|]. unfold good_wait, i32_max. cbn [t_waits t_set_waits]. lia.
  Qed.

  Variables (extra : list aval) (r : aval + terr) (st' : sst) (c : nat).
  Hypothesis New : s_new st' = [].
  Hypothesis Pos : (1 <= c)%nat.
  Definition good : bool := match r with inl _ => true | inr _ => false end.
  Definition front (v : vm aval aheap) (t : thread aval) (ts : list (thread aval)) : machine :=
    Mst (vm_heap v) (vm_glob v) (vm_world v) [] t ts.
  (** The thread has come to its end. *)
  Definition over (v : vm aval aheap) : Prop :=
    exists t ts, vm_threads v = t :: ts /\ Forall parked ts /\ vm_holds (next_call st') extra v /\
      t_fin t = true /\
      match r with inl x => t_err t = None /\ hd_error (t_stk t) = Some x | inr e => t_err t = Some e end.
  Definition stays_away (v : vm aval aheap) : Prop := exists t ts, vm_threads v = t :: ts /\ ~ good_wait t.
  Definition ends_up (N : nat) (v : vm aval aheap) : Prop :=
    (exists K v', abs_run q N (repeat (HResume c) (S K)) v = Ok (repeat (SeenFlag true) K ++ [SeenFlag good], v') /\ over v') \/
    (exists K v', abs_run q N (repeat (HResume c) K) v = Ok (repeat (SeenFlag true) K, v') /\ stays_away v').

  Lemma abs_run_S N o l v x v1 xs v2 : host_step q abs_ops N o v = Ok (x, v1) -> abs_run q N l v1 = Ok (xs, v2) ->
    abs_run q N (o :: l) v = Ok (x :: xs, v2).
  Proof. intros E1 E2. unfold abs_run in *. cbn [map host_run]. rewrite E1. cbn [bind]. rewrite E2. reflexivity. Qed.
  Lemma ends_up_S N v v1 : vm_resume abs_ops q c v = Ok (true, v1) -> ends_up N v1 -> ends_up N v.
  Proof.
    intros E R. assert (Hs : host_step q abs_ops N (HResume c) v = Ok (SeenFlag true, v1)) by (cbn [host_step]; rewrite E; reflexivity).
    destruct R as [(K & v' & R & O)|(K & v' & R & O)].
    - left. exists (S K), v'. split; [|exact O]. exact (abs_run_S _ _ _ _ _ _ _ _ Hs R).
    - right. exists (S K), v'. split; [|exact O]. exact (abs_run_S _ _ _ _ _ _ _ _ Hs R).
  Qed.

  Lemma ends_up_evn N k : forall n v t ts, Z.to_nat (t_waits t) = n -> vm_threads v = t :: ts -> Forall parked ts ->
    evn q (ended_with extra ts r st') k (core (front v t ts)) -> t_fin t = false -> t_err t = None -> ends_up N v.
  Proof.
    induction k as [k IHk] using (well_founded_induction Nat.lt_wf_0).
    induction n as [n IHn] using (well_founded_induction Nat.lt_wf_0).
    intros v t ts En T Pa E F Er.
    assert (D : good_wait t \/ ~ good_wait t) by (unfold good_wait; lia).
    destruct D as [W|W]; [|right; exists O, v; split; [reflexivity|exists t, ts; auto]].
    destruct v as [h g w l]. cbn [vm_threads] in T. subst l.
    destruct (t_waits t =? 0) eqn:W0.
    - destruct (resume_evn q _ (ended_fin extra ts r st') k _ (front (Vm h g w (t :: ts)) t ts) c E eq_refl F Er) as (s' & R & D).
      assert (R' : resume abs_ops q c (Mst h g w [] t ts) = Ok (no_error (m_cur s'), s')) by exact R. clear R.
      destruct D as [D|(D1 & D2 & j & J & _ & Lt)].
      + assert (Es : evn q (ended_with extra ts r st') 0 (core s')) by (constructor; exact D).
        destruct (evn_sides _ _ _ _ _ _ New Es) as [S1 S2]. cbn [core c_new c_post] in S1, S2.
        assert (Ho : forall th, vm_holds (next_call st') extra (Vm (m_heap s') (m_glob s') (m_world s') th)).
        { intros th. unfold ended_with in D. destruct r.
          - destruct D as (fr & T & D). injection D as D1 D2 D3 D4 D5 D6 D7 D8 D9 D10. repeat split; assumption.
          - destruct D as (a & stk & frs & D). injection D as D1 D2 D3 D4 D5 D6 D7 D8 D9 D10. repeat split; assumption. }
        assert (En' : t_fin (m_cur s') = true /\ match r with inl x => t_err (m_cur s') = None /\ hd_error (t_stk (m_cur s')) = Some x | inr e => t_err (m_cur s') = Some e end).
        { unfold ended_with in D. destruct r.
          - destruct D as (fr & T & D). injection D as D1 D2 D3 D4 D5 D6 D7 D8 D9 D10. rewrite D10, T, D9, D7. auto.
          - destruct D as (a & stk & frs & D). injection D as D1 D2 D3 D4 D5 D6 D7 D8 D9 D10. rewrite D10, D9. auto. }
        assert (NE : no_error (m_cur s') = good).
        { unfold no_error, good. destruct r; [destruct En' as (_ & -> & _)|destruct En' as (_ & ->)]; reflexivity. }
        left. exists O.
        assert (X : exists v', vm_resume abs_ops q c (Vm h g w (t :: ts)) = Ok (good, v') /\ over v').
        { unfold vm_resume. cbn [vm_threads vm_heap vm_glob vm_world List.length vm_round]. rewrite W0. cbn [negb]. rewrite F. unfold no_error at 1. rewrite Er. cbn [orb negb].
          rewrite R', NE. destruct good eqn:Gd.
          - rewrite S1, S2. cbn [app].
            destruct (parked_round c ts (List.length ts) (m_heap s') (m_glob s') (m_world s') [m_cur s'] (le_n _) Pa) as (ts' & Q & Pa'). rewrite Q.
            eexists. split; [reflexivity|]. exists (m_cur s'), ts'. split; [reflexivity|]. split; [exact Pa'|]. split; [apply Ho|exact En'].
          - eexists. split; [reflexivity|]. exists (m_cur s'), ts. unfold join. rewrite S1, S2. split; [reflexivity|]. split; [exact Pa|]. split; [apply Ho|exact En']. }
        destruct X as (v' & X & O). exists v'. split; [|exact O].
        apply (abs_run_S N (HResume c) [] _ (SeenFlag good) v' [] v'); [cbn [host_step]; rewrite X; reflexivity|reflexivity].
      + destruct (evn_sides _ _ _ _ _ _ New J) as [S1 S2]. cbn [core c_new c_post c_fin c_err] in S1, S2, D1, D2.
        destruct (parked_round c ts (List.length ts) (m_heap s') (m_glob s') (m_world s') [m_cur s'] (le_n _) Pa) as (ts' & Q & Pa').
        eapply (ends_up_S N _ (Vm (m_heap s') (m_glob s') (m_world s') (m_cur s' :: ts'))).
        * unfold vm_resume. cbn [vm_threads vm_heap vm_glob vm_world List.length vm_round]. rewrite W0. cbn [negb]. rewrite F. unfold no_error at 1. rewrite Er. cbn [orb negb].
          rewrite R'. unfold no_error. rewrite D2, S1, S2. exact Q.
        * apply (IHk j ltac:(lia) (Z.to_nat (t_waits (m_cur s'))) (Vm (m_heap s') (m_glob s') (m_world s') (m_cur s' :: ts')) (m_cur s') ts' eq_refl eq_refl Pa'); [|exact D1|exact D2].
          apply (evn_ended extra ts ts' r st' j) in J. replace (core (front _ _ _)) with (crepost ts' (core s')); [exact J|].
          unfold core, crepost, front. cbn. rewrite S1. reflexivity.
    - unfold good_wait, i32_max in W.
      destruct (parked_round c ts (List.length ts) h g w [t_set_waits t (t_waits t - 1)] (le_n _) Pa) as (ts' & Q & Pa').
      eapply (ends_up_S N _ (Vm h g w (t_set_waits t (t_waits t - 1) :: ts'))).
      + unfold vm_resume. cbn [vm_threads vm_heap vm_glob vm_world List.length vm_round]. rewrite W0. cbn [negb].
        unfold chk32. replace (in_i32 (t_waits t - 1)) with true by (unfold in_i32, i32_min, i32_max; lia). cbn [bind app]. exact Q.
      + apply (IHn (Z.to_nat (t_waits t - 1)) ltac:(lia) _ (t_set_waits t (t_waits t - 1)) ts'); [reflexivity|reflexivity|exact Pa'| |exact F|exact Er].
        apply (evn_ended extra ts ts' r st' k) in E. exact E.
  Qed.
End Rounds.

(** ** The same for compiled sources *)
Section Built.
  Variables (items : list ritem) (n : nat) (prog q : program_t).
  Hypothesis Gen : generate items n = Ok prog.
  Hypothesis Pok : program_ok items n.
  Hypothesis Fit : fits prog.
  Hypothesis Bnd : bound prog q.
  Let sx := sys_index q.

  (** [init_host] of HostRun.v, with the threads. *)
  Lemma init_threads k w g fuel b st : function_find q init_name = Some g ->
    init_result (initial items (entry items q) sx (vm_sys q) fuel (fresh_state w)) = Some (b, st) ->
    overflows q (starting q (abs_start k w) g []) \/
    forall N x v, host_step q abs_ops N HCallInit (abs_start k w) = Ok (x, v) -> init_done v ->
      exists t, vm_threads v = s_new st ++ [t] /\ t_fin t = true.
  Proof.
    intros F R. destruct (init_call_ev items n prog q Gen Pok Fit Bnd k w g fuel b st F R) as (G & r & -> & E).
    destruct (ev_evn q _ _ E) as [[j K]|K]; [right|left; exact (K _ eq_refl)].
    destruct (resume_evn q _ (ended_fin (spare items k) [] r st) j _ (starting q (abs_start k w) g []) (Z.to_nat 8192) K eq_refl eq_refl eq_refl) as (s' & L & D).
    destruct (find_init items n prog q Gen Pok Bnd) as (g' & F' & A & S). rewrite F in F'. inversion F'; subst g'.
    assert (L' : resume abs_ops q (Z.to_nat 8192) (Mst (vm_heap (abs_start k w)) (vm_glob (abs_start k w)) (vm_world (abs_start k w)) [] (prepared fresh_thread g []) []) = Ok (no_error (m_cur s'), s')) by exact L.
    assert (Po : m_post s' = []).
    { assert (F0 : t_fin (m_cur (starting q (abs_start k w) g [])) = false) by reflexivity.
      destruct (resume_inv _ _ _ _ _ _ _ _ F0 L) as [L1 _].
      destruct (loop_executed _ _ _ _ _ _ _ L1) as (i & _ & Ex & _).
      destruct (PropertiesSched.executed_others _ _ _ _ _ _ _ Ex) as (R1 & _). cbn in R1. now inversion R1. }
    assert (Hs : forall N, host_step q abs_ops N HCallInit (abs_start k w) = Ok (SeenFlag (no_error (m_cur s')), join s')).
    { intros N. cbn [host_step]. unfold call_init. fold init_name. rewrite F.
      change (@nil aval) with (map passed []). rewrite abs_thread by exact A. cbn [bind].
      unfold vm_resume. cbn [vm_threads vm_heap vm_glob vm_world]. change (List.length _) with 1%nat.
      cbn [vm_round map]. change (negb _) with false. cbv iota. change (t_fin _ || _) with false. cbv iota.
      change (vm_threads (abs_start k w)) with (@nil (thread aval)). rewrite L'.
      destruct (no_error (m_cur s')) eqn:NE; [|reflexivity]. rewrite Po. cbn [vm_round bind]. unfold join. rewrite Po. reflexivity. }
    intros N x v Hv Di. rewrite Hs in Hv. injection Hv as _ <-.
    destruct Di as (young & t & T & Tf). unfold join in *. cbn [vm_threads] in *. rewrite Po in *.
    apply app_inj_tail in T. destruct T as [_ T]. subst t.
    exists (m_cur s'). split; [|exact Tf]. f_equal.
    destruct D as [D|(D1 & _)]; [|cbn [core c_fin] in D1; congruence]. unfold ended_with in D. destruct r as [x0|e].
    + destruct D as (fr & T & D). injection D as D1 D2 D3 D4 D5 D6 D7 D8 D9 D10. exact D4.
    + destruct D as (a & stk & frs & D). injection D as D1 D2 D3 D4 D5 D6 D7 D8 D9 D10. exact D4.
  Qed.

  (** A thread started by the host in a vm whose other threads have finished. *)
  Lemma thread_ends extra fuel f args body vs st v g r st' N c : In (f, args, body) (functs items) -> function_find q (fd_name f) = Some g ->
    globals_of items st -> s_new st = [] -> vm_holds st extra v -> Forall parked (vm_threads v) ->
    run_call items (entry items q) sx (vm_sys q) fuel (f, args, body) (map passed vs) st = match r with inl x => Done (x, st') | inr e => Error e st' end ->
    s_new st' = [] -> (1 <= c)%nat ->
    overflows q (starting q v g vs) \/
    exists v1, host_step q abs_ops N (HThread g vs) v = Ok (SeenFlag true, v1) /\ ends_up q extra r st' c N v1.
  Proof.
    intros I F Gl Ne Ho Pa Ca New Pos.
    pose proof (call_ev items n prog q Gen Pok Fit Bnd extra fuel f args body vs st v g I F Gl Ne Ho) as H. fold sx in H. rewrite Ca in H.
    assert (H' : num_args g = zlen vs /\ ev q (ended_with extra (vm_threads v) r st') (core (starting q v g vs))) by (destruct r; apply H).
    destruct H' as [A E]. clear H. destruct (ev_evn q _ _ E) as [[k K]|K]; [right|left; exact (K _ eq_refl)].
    eexists. split.
    - cbn [host_step]. rewrite abs_new_args. cbn [bind]. rewrite abs_thread by exact A. cbn [bind]. reflexivity.
    - eapply (ends_up_evn q extra r st' c New Pos N k _ _ (prepared fresh_thread g (map passed vs)) (vm_threads v)); [reflexivity|reflexivity|exact Pa|exact K|reflexivity|reflexivity].
  Qed.
End Built.
