(** Proof support: a syscall behaves the same on a scratch thread that holds only
    its arguments and on the calling thread. *)
From Coq Require Import ZArith List Bool Lia ZifyBool String.
From Verif Require Import Base BaseFacts F32 Instr InstrSpec Program VM AbsHeap VmSpec VmFacts Ast Sema Codegen SrcSem CgCode CgStep.
Import ListNotations.
Open Scope Z_scope.
Open Scope list_scope.

Section Frame.
  Variable prog : program_t.
  Variables (rest : list aval) (g : list aval) (post : list (thread aval)) (a : Z) (frs : list frame).
  Notation mst := (mst aval aheap).
  Definition framed (s0 s : mst) : Prop :=
    core s = Cfg (m_heap s0) g (m_world s0) (m_pre s0) post a (t_stk (m_cur s0) ++ rest) frs
                 (t_err (m_cur s0)) (t_fin (m_cur s0)) /\
    t_fin (m_cur s0) = match t_err (m_cur s0) with None => false | Some _ => true end.
  Definition local {A} (k : @M aval aheap A) : Prop :=
    forall s0 s x s0', framed s0 s -> k s0 = Ok (x, s0') -> exists s', k s = Ok (x, s') /\ framed s0' s'.

  Lemma l_bind {A B} (k : @M aval aheap A) (f : A -> @M aval aheap B) : local k -> (forall x, local (f x)) -> local (mbind k f).
  Proof.
    intros K F s0 s x s0' R E. unfold mbind in *. destruct (k s0) as [[y s1]| |] eqn:E1; try discriminate.
    destruct (K _ _ _ _ R E1) as (s2 & E2 & R2). rewrite E2. eapply F; eassumption.
  Qed.
  Lemma l_ret {A} (x : A) : local (ret x).
  Proof. intros s0 s y s0' R E. unfold ret in *. inversion E; subst. eauto. Qed.
  Lemma l_lift {A} (r : res A) : local (lift r).
  Proof. intros s0 s y s0' R E. unfold lift in *. destruct r; inversion E; subst. eauto. Qed.
  Ltac go R := let R' := fresh in destruct R as [R R']; (split; [clear R'|first [exact R'|reflexivity]]); unfold framed, core in *; cbn [m_heap m_glob m_world m_pre m_cur m_post t_pc t_stk t_frs t_err t_fin
      t_set_stk t_set_fin t_set_err t_set_hal t_set_waits] in *; inversion R; subst; f_equal; auto; congruence.
  Lemma l_pop : local pop.
  Proof.
    intros s0 s y s0' R E. unfold pop in *. destruct (t_stk (m_cur s0)) as [|p r] eqn:S; [discriminate|].
    assert (t_stk (m_cur s) = p :: r ++ rest) as T by (unfold framed, core in R; rewrite S in R; destruct R as [R _]; inversion R; reflexivity).
    rewrite T. unfold mbind, mod_cur, ret in *. inversion E; subst. eexists. split; [reflexivity|]. go R.
  Qed.
  Lemma l_push p : local (push p).
  Proof.
    intros s0 s y s0' R E. unfold push, mod_cur in *. inversion E; subst. eexists. split; [reflexivity|].
    destruct R as [R R']. split; [|exact R'].
    unfold framed, core in *. cbn [m_heap m_glob m_world m_pre m_cur m_post t_pc t_stk t_frs t_err t_fin t_set_stk app].
    inversion R. congruence.
  Qed.
  Lemma l_raise e : local (raise e).
  Proof.
    intros s0 s y s0' R E. unfold raise, mod_cur in *. inversion E; subst. eexists. split; [reflexivity|]. go R.
  Qed.
  Lemma l_waits n : local (mod_cur (fun t => t_set_waits t n)).
  Proof. intros s0 s y s0' R E. unfold mod_cur in *. inversion E; subst. eexists. split; [reflexivity|]. go R. Qed.
  Lemma l_hal n : local (mod_cur (fun t => t_set_hal t n)).
  Proof. intros s0 s y s0' R E. unfold mod_cur in *. inversion E; subst. eexists. split; [reflexivity|]. go R. Qed.
  Lemma framed_heap s0 s : framed s0 s -> m_heap s = m_heap s0.
  Proof. unfold framed, core. intros [R _]. inversion R. reflexivity. Qed.
  Lemma l_deref p : local (deref abs_ops p).
  Proof.
    intros s0 s y s0' R E. unfold deref in *. rewrite (framed_heap _ _ R). unfold lift in *.
    destruct (h_view abs_ops (m_heap s0) p); inversion E; subst. eauto.
  Qed.
  Lemma l_pop_v : local (pop_v abs_ops).
  Proof. apply l_bind; [apply l_pop|intros; apply l_deref]. Qed.
  Lemma l_world : local (mget m_world).
  Proof.
    intros s0 s y s0' R E. unfold mget in *. inversion E; subst. eexists. split; [|exact R].
    do 2 f_equal. destruct R as [R _]. unfold core in R. inversion R. reflexivity.
  Qed.
  Lemma l_set_world w : local (set_world w).
  Proof. intros s0 s y s0' R E. unfold set_world in *. inversion E; subst. eexists. split; [reflexivity|]. go R. Qed.
  Lemma l_set_heap w : local (set_heap w).
  Proof. intros s0 s y s0' R E. unfold set_heap in *. inversion E; subst. eexists. split; [reflexivity|]. go R. Qed.
  Lemma l_add_thread t : local (add_thread t).
  Proof. intros s0 s y s0' R E. unfold add_thread in *. inversion E; subst. eexists. split; [reflexivity|]. go R. Qed.
  Lemma l_new_s c : local (new_s abs_ops c).
  Proof.
    intros s0 s y s0' R E. unfold new_s in *. cbn [h_newS abs_ops] in *. unfold mbind, set_heap, ret in *.
    inversion E; subst. eexists. rewrite (framed_heap _ _ R). split; [reflexivity|]. go R.
  Qed.
  Lemma l_new_a c : local (new_a abs_ops c).
  Proof.
    intros s0 s y s0' R E. unfold new_a in *. cbn [h_newA abs_ops] in *. unfold mbind, set_heap, ret in *.
    inversion E; subst. rewrite (framed_heap _ _ R). eexists. split; [reflexivity|]. go R.
  Qed.
  Lemma l_push_s c : local (push_s abs_ops c).
  Proof. apply l_bind; [apply l_new_s|intros; apply l_push]. Qed.
  Lemma l_pop_n n : local (pop_n n).
  Proof.
    induction n; cbn [pop_n]; [apply l_ret|]. apply l_bind; [apply l_pop|]. intros p.
    apply l_bind; [exact IHn|]. intros. apply l_ret.
  Qed.
  Lemma l_copy p : local (gc_copy abs_ops p).
  Proof. apply l_bind; [apply l_deref|]. intros [| |]; [apply l_ret|apply l_new_s|apply l_lift]. Qed.
  Lemma l_copy_all l : local (copy_all abs_ops l).
  Proof.
    induction l; cbn [copy_all]; [apply l_ret|]. apply l_bind; [apply l_copy|]. intros p.
    apply l_bind; [exact IHl|]. intros. apply l_ret.
  Qed.
  Lemma l_new_thread f l : local (new_thread abs_ops f l).
  Proof.
    unfold new_thread. destruct (num_args f =? zlen l); [|apply l_ret].
    apply l_bind; [apply l_copy_all|]. intros. apply l_bind; [apply l_add_thread|]. intros. apply l_ret.
  Qed.
  Lemma l_pop_hargs n : local (pop_hargs abs_ops n).
  Proof.
    induction n; cbn [pop_hargs]; [apply l_ret|]. apply l_bind; [apply l_pop_v|]. intros p.
    apply l_bind; [exact IHn|]. intros. apply l_ret.
  Qed.
  Lemma l_run_sys f n : local (run_sys abs_ops prog f n).
  Proof.
    destruct f; cbn [run_sys]; unfold sys_float, push_hret, push_none; cbv zeta;
      repeat first
        [ apply l_ret | apply l_lift | apply l_push_s | apply l_push | apply l_raise | apply l_waits | apply l_hal | apply l_pop_v
        | apply l_world | apply l_set_world | apply l_new_a | apply l_pop_n | apply l_pop_hargs | apply l_new_thread
        | apply l_bind; [|intros ?]
        | match goal with |- local (match ?b with _ => _ end) => destruct b end ].
  Qed.
  Lemma l_syscall i n : local (do_syscall abs_ops prog i n).
  Proof.
    unfold do_syscall. destruct (znth (p_syscalls prog) i) as [[nm [f|]]|]; [apply l_run_sys|apply l_lift|apply l_lift].
  Qed.
End Frame.

(** what the caller sees *)
Lemma vm_sys_runs prog i vs st g post a rest frs :
  let C := Cfg (s_heap st) g (s_world st) (s_new st) post a (rev vs ++ rest) frs None false in
  match vm_sys prog i vs st with
  | Done (v, st') => s_glob st' = s_glob st /\
      runs (do_syscall abs_ops prog i (zlen vs)) C
        (Cfg (s_heap st') g (s_world st') (s_new st') post a (v :: rest) frs None false)
  | Error e st' => s_glob st' = s_glob st /\ exists stk',
      runs (do_syscall abs_ops prog i (zlen vs)) C
        (Cfg (s_heap st') g (s_world st') (s_new st') post a stk' frs (Some e) true)
  | _ => True
  end.
Proof.
  intros C. unfold vm_sys.
  set (s0 := Mst (s_heap st) [] (s_world st) (s_new st) (t_set_stk fresh_thread (rev vs)) []).
  destruct (do_syscall abs_ops prog i (zlen vs) s0) as [[u s1]| |] eqn:E; [|exact I|exact I].
  assert (Q : runs (do_syscall abs_ops prog i (zlen vs)) C
     (Cfg (m_heap s1) g (m_world s1) (m_pre s1) post a (t_stk (m_cur s1) ++ rest) frs (t_err (m_cur s1)) (t_fin (m_cur s1)))
     /\ t_fin (m_cur s1) = match t_err (m_cur s1) with None => false | Some _ => true end).
  { assert (P : forall s, core s = C -> exists s', do_syscall abs_ops prog i (zlen vs) s = Ok (u, s') /\ framed rest g post a frs s1 s').
    { intros s Es. apply (l_syscall prog rest g post a frs i (zlen vs) s0 s u s1); [|exact E].
      split; [rewrite Es; reflexivity|reflexivity]. }
    split.
    - intros s Es. destruct (P s Es) as (s' & E' & F & _). eauto.
    - destruct (P (Mst (s_heap st) g (s_world st) (s_new st) (Thread a (rev vs ++ rest) frs None false false 0 0 no_line []) post) eq_refl)
        as (s' & _ & _ & F). exact F. }
  destruct Q as [Q F]. destruct (t_err (m_cur s1)) as [e|] eqn:Er.
  - split; [reflexivity|]. exists (t_stk (m_cur s1) ++ rest). rewrite F in Q. exact Q.
  - destruct (t_stk (m_cur s1)) as [|v [|]] eqn:S; [exact I| |exact I].
    split; [reflexivity|]. rewrite F in Q. exact Q.
Qed.

Section SysSteps.
  Variable prog : program_t.
  Lemma st_sysc (x : ins) i vs st g post a rest frs :
    let C p s := Cfg (s_heap st) g (s_world st) (s_new st) post p s frs None false in
    forall stk, (x = I2 INS_SCALL (zlen vs) i /\ stk = rev vs ++ rest) \/ (x = I1 INS_ICALL (zlen vs) /\ stk = AS (SSys i) :: rev vs ++ rest) ->
    at_ins prog a x ->
    match vm_sys prog i vs st with
    | Done (v, st') => s_glob st' = s_glob st /\
        cstep prog (C a stk) (Cfg (s_heap st') g (s_world st') (s_new st') post (a + swidth (SI x)) (v :: rest) frs None false)
    | Error e st' => s_glob st' = s_glob st /\ exists stk',
        cstep prog (C a stk) (Cfg (s_heap st') g (s_world st') (s_new st') post (a + swidth (SI x)) stk' frs (Some e) true)
    | _ => True
    end.
  Proof.
    intros C stk Hx A. pose proof (vm_sys_runs prog i vs st g post (a + swidth (SI x)) rest frs) as R. cbn zeta in R.
    assert (K : forall c', runs (do_syscall abs_ops prog i (zlen vs)) (C (a + swidth (SI x)) (rev vs ++ rest)) c' -> cstep prog (C a stk) c').
    { intros c' Q. destruct Hx as [[-> ->]|[-> ->]].
      - eapply cstep2; [exact A|reflexivity|]. exact Q.
      - eapply cstep1; [exact A|reflexivity|]. intros s Es.
        change (swidth (SI (I1 INS_ICALL (zlen vs)))) with 5 in Q.
        destruct (Q (with_cur s (t_set_stk (m_cur s) (rev vs ++ rest)))) as (u & s' & E & F).
        { destruct s as [? ? ? ? [] ?]. unfold core, with_pc, C in *. cbn in *. inversion Es; subst. reflexivity. }
        exists u, s'. split; [|exact F]. unfold mbind at 1. 
        rewrite (pop_v_eq _ _ _ _ (AS (SSys i)) (rev vs ++ rest)).
        2: { destruct s as [? ? ? ? [] ?]. unfold core, with_pc, C in *. cbn in *. inversion Es; subst. reflexivity. }
        cbn [h_view abs_ops abs_view]. exact E. }
    destruct (vm_sys prog i vs st) as [[v st']|e st'| |]; [| |exact I|exact I].
    - destruct R as [R1 R2]. split; [exact R1|]. apply K. exact R2.
    - destruct R as [R1 [stk' R2]]. split; [exact R1|]. exists stk'. apply K. exact R2.
  Qed.
End SysSteps.
