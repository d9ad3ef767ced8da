(** What executing an instruction can and cannot change. *)
From Coq Require Import ZArith List Bool Lia ZifyBool.
From Verif Require Import Base BaseFacts F32 Instr InstrSpec InstrProofs Program VM VmSpec VmFacts.
Import ListNotations.
Open Scope Z_scope.

Lemma mbind_ok : forall P H A B (m : @M P H A) (k : A -> @M P H B) s x s',
  mbind m k s = Ok (x, s') -> exists a s1, m s = Ok (a, s1) /\ k a s1 = Ok (x, s').
Proof.
  intros P H A B m k s x s' E. unfold mbind in E.
  destruct (m s) as [[a s1]| |] eqn:Em; try discriminate. eauto.
Qed.
Lemma lift_ok : forall P H A (r : res A) (s : mst P H) x s',
  lift r s = Ok (x, s') -> r = Ok x /\ s' = s.
Proof.
  intros P H A r s x s' E. unfold lift in E. destruct r; try discriminate. split; congruence.
Qed.

Section Resp.
  Context {P H : Type}.
  Variable ops : hops P H.
  Variable prog : program_t.
  Notation mst := (mst P H).
  Notation M := (@M P H).

  (** A graded relation between the states before and after. *)
  Variable R : Z -> mst -> mst -> Prop.
  Hypothesis R_refl : forall s, R 0 s s.
  Hypothesis R_trans : forall a b s t u, R a s t -> R b t u -> R (a + b) s u.
  Hypothesis R_stk : forall s l, R 0 s (with_cur s (t_set_stk (m_cur s) l)).
  Hypothesis R_heap : forall s h, R 0 s (Mst h (m_glob s) (m_world s) (m_pre s) (m_cur s) (m_post s)).
  Hypothesis R_world : forall s w, R 0 s (Mst (m_heap s) (m_glob s) w (m_pre s) (m_cur s) (m_post s)).
  Hypothesis R_raise : forall s e, R 0 s (with_cur s (t_set_fin (t_set_err (m_cur s) (Some e)) true)).
  Hypothesis R_add : forall s f args,
    R 0 s (Mst (m_heap s) (m_glob s) (m_world s) (prepared fresh_thread f args :: m_pre s) (m_cur s) (m_post s)).
  Hypothesis R_operand : forall s, R 4 s (with_cur s (t_set_pc (m_cur s) (t_pc (m_cur s) + 4))).

  Definition resp {A} (k : Z) (m : M A) : Prop := forall s x s', m s = Ok (x, s') -> R k s s'.

  Lemma resp_bind : forall A B a b (m : M A) (k : A -> M B),
    resp a m -> (forall x, resp b (k x)) -> resp (a + b) (mbind m k).
  Proof.
    intros A B a b m k Hm Hk s x s' E. apply mbind_ok in E. destruct E as (y & s1 & E1 & E2).
    eapply R_trans; [eapply Hm; eauto|eapply Hk; eauto].
  Qed.
  Lemma resp_bind0 : forall A B b (m : M A) (k : A -> M B),
    resp 0 m -> (forall x, resp b (k x)) -> resp b (mbind m k).
  Proof. intros A B b m k Hm Hk. exact (resp_bind A B 0 b m k Hm Hk). Qed.
  Lemma resp_bind4 : forall A B b (m : M A) (k : A -> M B),
    resp 4 m -> (forall x, resp (b - 4) (k x)) -> resp b (mbind m k).
  Proof.
    intros A B b m k Hm Hk. replace b with (4 + (b - 4)) by lia. now apply resp_bind.
  Qed.
  Lemma resp_ret : forall A (a : A), resp 0 (ret a : M A).
  Proof. intros A a s x s' E. assert (s = s') by (unfold ret in E; congruence). subst. apply R_refl. Qed.
  Lemma resp_lift : forall A (r : res A), resp 0 (lift r : M A).
  Proof. intros A r s x s' E. apply lift_ok in E. destruct E as [_ ->]. apply R_refl. Qed.
  Lemma resp_lift_stuck : forall A k e, resp k (lift (Stuck e) : M A).
  Proof. intros A k e s x s' E. discriminate E. Qed.
  Lemma resp_mget : forall A (f : mst -> A), resp 0 (mget f).
  Proof. intros A f s x s' E. assert (s = s') by (unfold mget in E; congruence). subst. apply R_refl. Qed.
  Lemma resp_raise : forall e, resp 0 (raise e : M unit).
  Proof. intros e s x s' E. unfold raise, mod_cur in E. match type of E with Ok (_, ?y) = _ => assert (y = s') by congruence; subst s' end. apply R_raise. Qed.
  Lemma resp_setstk : forall f, resp 0 (mod_cur (fun t => t_set_stk t (f t)) : M unit).
  Proof. intros f s x s' E. unfold mod_cur in E. match type of E with Ok (_, ?y) = _ => assert (y = s') by congruence; subst s' end. apply (R_stk s). Qed.
  Lemma resp_push : forall p, resp 0 (push p : M unit).
  Proof. intros p. apply (resp_setstk (fun t => p :: t_stk t)). Qed.
  Lemma resp_set_heap : forall h, resp 0 (set_heap h : M unit).
  Proof. intros h s x s' E. unfold set_heap in E. match type of E with Ok (_, ?y) = _ => assert (y = s') by congruence; subst s' end. apply R_heap. Qed.
  Lemma resp_set_world : forall h, resp 0 (set_world h : M unit).
  Proof. intros h s x s' E. unfold set_world in E. match type of E with Ok (_, ?y) = _ => assert (y = s') by congruence; subst s' end. apply R_world. Qed.
  Lemma resp_pop : resp 0 (pop : M P).
  Proof.
    intros s x s' E. unfold pop in E. destruct (t_stk (m_cur s)) as [|p r]; [discriminate|].
    eapply (resp_bind0 _ _ 0 (mod_cur (fun t => t_set_stk t r)) (fun _ => ret p)); [|intros; apply resp_ret|exact E].
    apply (resp_setstk (fun _ => r)).
  Qed.
  Lemma resp_deref : forall p, resp 0 (deref ops p : M (view P)).
  Proof. intros p s x s' E. unfold deref in E. apply resp_lift in E. exact E. Qed.
  Lemma resp_new_s : forall c, resp 0 (new_s ops c : M P).
  Proof.
    intros c s x s' E. unfold new_s in E. destruct (h_newS ops (m_heap s) c) as [[h p]| |]; try discriminate.
    eapply (resp_bind0 _ _ 0 (set_heap h) (fun _ => ret p)); [apply resp_set_heap|intros; apply resp_ret|exact E].
  Qed.
  Lemma resp_new_a : forall c, resp 0 (new_a ops c : M P).
  Proof.
    intros c s x s' E. unfold new_a in E. destruct (h_newA ops (m_heap s) c) as [[h p]| |]; try discriminate.
    eapply (resp_bind0 _ _ 0 (set_heap h) (fun _ => ret p)); [apply resp_set_heap|intros; apply resp_ret|exact E].
  Qed.
  Lemma resp_operand : resp 4 (operand prog : M Z).
  Proof.
    intros s x s' E. unfold operand in E.
    apply mbind_ok in E. destruct E as (? & s1 & E1 & E). apply lift_ok in E1. destruct E1 as [_ ->].
    apply mbind_ok in E. destruct E as (pc0 & s1 & E1 & E).
    unfold mget in E1. assert (pc0 = t_pc (m_cur s)) by congruence. assert (s1 = s) by congruence. subst. clear E1.
    destruct (_ <? 0); [discriminate|]. destruct (rd32 _) as [[v r]|]; [|discriminate].
    unfold mbind, mod_cur, ret in E.
    match type of E with Ok (_, ?y) = _ => assert (y = s') by congruence; subst s' end. apply R_operand.
  Qed.

  Ltac rs := repeat first
    [ apply resp_ret | apply resp_lift | apply resp_mget | apply resp_raise | apply resp_push
    | apply resp_set_heap | apply resp_set_world | apply resp_pop | apply resp_deref
    | apply resp_new_s | apply resp_new_a | apply resp_lift_stuck | apply resp_operand
    | apply resp_setstk
    | apply resp_bind0; [|intros]
    | match goal with
      | |- resp _ (if ?b then _ else _) => destruct b
      | |- resp _ (match ?x with _ => _ end) => destruct x
      end ].

  Lemma resp_push_s : forall c, resp 0 (push_s ops c : M unit).
  Proof. intros; unfold push_s; rs. Qed.
  Lemma resp_pop_v : resp 0 (pop_v ops : M (view P)).
  Proof. intros; unfold pop_v; rs. Qed.
  Lemma resp_gc_copy : forall p, resp 0 (gc_copy ops p : M P).
  Proof. intros; unfold gc_copy; rs. Qed.
  Lemma resp_copy_all : forall l, resp 0 (copy_all ops l : M (list P)).
  Proof. induction l; cbn [copy_all]; rs; auto. Qed.
  Lemma resp_pop_n : forall n, resp 0 (pop_n n : M (list P)).
  Proof. induction n; cbn [pop_n]; rs; auto. Qed.
  Lemma resp_finish_op : forall r, resp 0 (finish_op ops r : M unit).
  Proof. intros; unfold finish_op; rs. Qed.
  Lemma resp_new_thread : forall f argv, resp 0 (new_thread ops f argv : M bool).
  Proof.
    intros. unfold new_thread. destruct (_ =? _); [|apply resp_ret].
    apply resp_bind0; [apply resp_copy_all|intros args].
    apply resp_bind0; [|intros; apply resp_ret].
    intros s x s' E. unfold add_thread in E.
    match type of E with Ok (_, ?y) = _ => assert (y = s') by congruence; subst s' end. apply R_add.
  Qed.
  Ltac rs2 := repeat first
    [ apply resp_ret | apply resp_lift | apply resp_mget | apply resp_raise | apply resp_push
    | apply resp_set_heap | apply resp_set_world | apply resp_pop | apply resp_deref
    | apply resp_new_s | apply resp_new_a | apply resp_lift_stuck | apply resp_operand
    | apply resp_setstk | apply resp_push_s | apply resp_pop_v | apply resp_gc_copy | apply resp_copy_all
    | apply resp_pop_n | apply resp_finish_op | apply resp_new_thread
    | apply resp_bind4; [apply resp_operand|intros; match goal with |- resp ?k _ =>
         let k' := eval cbv in k in change k with k' end]
    | apply resp_bind0; [|intros]
    | match goal with
      | |- resp _ (if ?b then _ else _) => destruct b
      | |- resp _ (match ?x with _ => _ end) => destruct x
      end ].

  Lemma resp_sys_float : forall k, resp 0 (sys_float ops k : M unit).
  Proof. intros; unfold sys_float; rs2. Qed.

  Lemma resp_pop_hargs : forall n, resp 0 (pop_hargs ops n : M (list harg)).
  Proof. induction n; cbn [pop_hargs]; rs2. exact IHn. Qed.

  (** The functions that halt their thread. *)
  Definition halts (f : sysfn) : Prop := f = F_wait \/ f = F_sleep.
  Lemma resp_run_sys : forall f n, ~ halts f -> resp 0 (run_sys ops prog f n : M unit).
  Proof.
    intros f n Nw. destruct f; try (destruct Nw; unfold halts; now auto); cbn [run_sys]; unfold sys_float; try solve [rs2].
    cbv zeta. apply resp_bind0; [apply resp_pop_hargs|intros]. unfold push_hret, push_none. rs2.
  Qed.

  (** With the halt flag and the wait counter out of the picture. *)
  Hypothesis wait_case : (forall s n, R 0 s (with_cur s (t_set_waits (m_cur s) n))) /\
                         (forall s b, R 0 s (with_cur s (t_set_hal (m_cur s) b))) \/
                         (forall n nm f, halts f -> znth (p_syscalls prog) n <> Some (Sysc nm (Some f))).

  Lemma resp_do_syscall : forall i n, resp 0 (do_syscall ops prog i n : M unit).
  Proof.
    intros i n. unfold do_syscall. destruct (znth (p_syscalls prog) i) as [[nm [f|]]|] eqn:E; [|rs2..].
    destruct wait_case as [[W1 W2]|W].
    - destruct f; try (apply resp_run_sys; unfold halts; intuition discriminate); cbn [run_sys].
      2: { apply resp_bind0; [apply resp_pop_v|intros w]. unfold push_none. destruct (is_number (plain w)); [|rs2].
           apply resp_bind0; [rs2|intros z]. apply resp_bind0; [rs2|intros wd]. apply resp_bind0; [rs2|intros]. apply resp_bind0; [|intros; rs2].
           intros s x1 s' Q. unfold mod_cur in Q.
           match type of Q with Ok (_, ?y) = _ => assert (y = s') by congruence; subst s' end. apply (W2 s). }
      apply resp_bind0; [apply resp_pop_v|intros w]. destruct (is_number (plain w)); [|rs2].
      apply resp_bind0; [rs2|intros z]. apply resp_bind0.
      { intros s x s' Q. unfold mod_cur in Q.
        match type of Q with Ok (_, ?y) = _ => assert (y = s') by congruence; subst s' end. apply (W1 s). }
      intros. apply resp_bind0; [rs2|intros]. destruct (0 <? z); [|rs2].
      intros s x1 s' Q. unfold mod_cur in Q.
      match type of Q with Ok (_, ?y) = _ => assert (y = s') by congruence; subst s' end. apply (W2 s).
    - apply resp_run_sys. intros Hf. now apply (W i nm f Hf).
  Qed.

  (** Instructions that neither transfer control nor write globals. *)
  Definition ordinary (i : instr) : bool :=
    match i with
    | INS_JMP | INS_TJMP | INS_FJMP | INS_CALL | INS_RET | INS_ICALL | INS_SETG | INS_GLOBALS => false
    | _ => true
    end.

  Lemma resp_do_ins : forall i, ordinary i = true -> resp (4 * operands i) (do_ins ops prog i : M unit).
  Proof.
    intros i O. destruct i; try discriminate O;
      (match goal with |- resp ?k _ => let k' := eval cbv in k in change k with k' end);
      cbn [do_ins binop unop]; try solve [rs2].
    - apply resp_bind4; [apply resp_operand|intros].
      match goal with |- resp ?k _ => let k' := eval cbv in k in change k with k' end.
      apply resp_bind4; [apply resp_operand|intros]. apply resp_do_syscall.
  Qed.
End Resp.

(** A thread just created by the syscall new_thread. *)
Definition newborn {P} (t : thread P) : Prop :=
  exists f args, t = prepared fresh_thread f args.

Section Frame.
  Context {P H : Type}.
  Variable ops : hops P H.
  Variable prog : program_t.
  Notation mst := (mst P H).

  Definition grows (s s' : mst) : Prop :=
    exists ns, m_pre s' = ns ++ m_pre s /\ Forall newborn ns.
  Lemma grows_refl : forall s, grows s s.
  Proof. intros s. exists []. auto. Qed.
  Lemma grows_trans : forall s t u, grows s t -> grows t u -> grows s u.
  Proof.
    intros s t u (a & A1 & A2) (b & B1 & B2). exists (b ++ a).
    rewrite B1, A1, app_assoc. split; auto. apply Forall_app; auto.
  Qed.

  (** Every instruction. *)
  Record weak (s s' : mst) : Prop := Weak {
    wk_cyc : t_cyc (m_cur s') = t_cyc (m_cur s);
    wk_bps : t_bps (m_cur s') = t_bps (m_cur s);
    wk_last : t_last (m_cur s') = t_last (m_cur s);
    wk_post : m_post s' = m_post s;
    wk_pre : grows s s';
    wk_err : t_err (m_cur s) = None -> t_err (m_cur s') = None \/ t_fin (m_cur s') = true }.

  (** Ordinary instructions. *)
  Record strong (k : Z) (s s' : mst) : Prop := Strong {
    st_pc : t_pc (m_cur s') = t_pc (m_cur s) + k;
    st_frs : t_frs (m_cur s') = t_frs (m_cur s);
    st_glob : m_glob s' = m_glob s;
    st_cyc : t_cyc (m_cur s') = t_cyc (m_cur s);
    st_bps : t_bps (m_cur s') = t_bps (m_cur s);
    st_last : t_last (m_cur s') = t_last (m_cur s);
    st_post : m_post s' = m_post s;
    st_pre : grows s s';
    st_fin : t_fin (m_cur s) = true -> t_fin (m_cur s') = true;
    st_err : t_err (m_cur s') = t_err (m_cur s) \/ t_fin (m_cur s') = true }.

  Lemma strong_weak : forall k s s', strong k s s' -> weak s s'.
  Proof. intros k s s' []. constructor; auto. intros E. destruct st_err0; auto. left; congruence. Qed.

  Lemma strong_refl : forall s, strong 0 s s.
  Proof. intros. constructor; auto using grows_refl; lia. Qed.
  Lemma strong_trans : forall a b s t u, strong a s t -> strong b t u -> strong (a + b) s u.
  Proof.
    intros a b s t u [] []. constructor; try congruence; auto.
    - lia.
    - eapply grows_trans; eauto.
    - destruct st_err0, st_err1; auto. left; congruence.
  Qed.
  Ltac pcbn := cbn [with_cur m_heap m_glob m_world m_pre m_cur m_post t_set_pc t_set_stk t_set_frs t_set_err t_set_fin t_set_hal t_set_cyc t_set_waits t_set_last t_set_bps t_pc t_stk t_frs t_err t_fin t_hal t_cyc t_waits t_last t_bps].
  Ltac easy_strong := intros; constructor; pcbn; auto using grows_refl; try lia; try (eexists []; split; [reflexivity|constructor]).
  Lemma strong_stk : forall s l, strong 0 s (with_cur s (t_set_stk (m_cur s) l)).
  Proof. easy_strong. Qed.
  Lemma strong_heap : forall s h, strong 0 s (Mst h (m_glob s) (m_world s) (m_pre s) (m_cur s) (m_post s)).
  Proof. easy_strong. Qed.
  Lemma strong_world : forall s w, strong 0 s (Mst (m_heap s) (m_glob s) w (m_pre s) (m_cur s) (m_post s)).
  Proof. easy_strong. Qed.
  Lemma strong_raise : forall s e, strong 0 s (with_cur s (t_set_fin (t_set_err (m_cur s) (Some e)) true)).
  Proof. easy_strong. Qed.
  Lemma strong_add : forall s f args,
    strong 0 s (Mst (m_heap s) (m_glob s) (m_world s) (prepared fresh_thread f args :: m_pre s) (m_cur s) (m_post s)).
  Proof.
    intros; constructor; pcbn; auto; try lia. eexists [_]. split; [reflexivity|].
    constructor; auto. eexists; eauto.
  Qed.
  Lemma strong_operand : forall s, strong 4 s (with_cur s (t_set_pc (m_cur s) (t_pc (m_cur s) + 4))).
  Proof. easy_strong. Qed.
  Lemma strong_waits : forall s n, strong 0 s (with_cur s (t_set_waits (m_cur s) n)).
  Proof. easy_strong. Qed.
  Lemma strong_hal : forall s n, strong 0 s (with_cur s (t_set_hal (m_cur s) n)).
  Proof. easy_strong. Qed.

  Notation resp := (@resp P H strong).
  Hint Resolve strong_refl strong_trans strong_stk strong_heap strong_world strong_raise strong_add
    strong_operand strong_waits strong_hal : strong.

  Lemma strong_ins : forall i, ordinary i = true -> resp (4 * operands i) (do_ins ops prog i).
  Proof. intros i O. apply resp_do_ins; eauto with strong. Qed.
  Lemma strong_sys : forall i n, resp 0 (do_syscall ops prog i n).
  Proof. intros. apply resp_do_syscall; eauto with strong. Qed.
  Lemma strong_op : resp 4 (operand prog).
  Proof. apply resp_operand; eauto with strong. Qed.
  Lemma strong_pop : resp 0 pop.
  Proof. apply resp_pop; eauto with strong. Qed.
  Lemma strong_pop_v : resp 0 (pop_v ops).
  Proof. apply resp_pop_v; eauto with strong. Qed.

  Ltac wkk := constructor; pcbn; auto; try (eexists []; split; [reflexivity|constructor]).
  (** pc after an instruction: the next instruction, or a transfer of control *)
  Definition transfer (i : instr) (s s' : mst) (next : Z) : Prop :=
    match i with
    | INS_JMP | INS_RET => True
    | INS_TJMP | INS_FJMP =>
        pc s' = next \/ exists r, rd32 (zskipn (pc s) (p_code prog)) = Some (pc s', r)
    | INS_CALL | INS_ICALL =>
        (frames s' = frames s /\ pc s' = next) \/
        (exists f, frames s' = f :: frames s /\ fr_ret f = next /\ pc s' = fr_callee f)
    | _ => pc s' = next
    end.

  Ltac inv E := let a := fresh "a" in let s1 := fresh "s" in let E1 := fresh "E" in
    apply mbind_ok in E; destruct E as (a & s1 & E1 & E).
  Ltac okinv E s' := match type of E with Ok (_, ?y) = Ok (_, s') => assert (y = s') by congruence; subst s'; clear E end.

  Lemma do_ins_weak : forall i s u s', do_ins ops prog i s = Ok (u, s') ->
    weak s s' /\ transfer i s s' (pc s + 4 * operands i).
  Proof.
    intros i s u s' E. destruct (ordinary i) eqn:O.
    { pose proof (strong_ins i O s u s' E) as St. split; [eapply strong_weak; eauto|].
      destruct St. destruct i; try discriminate O; exact st_pc0. }
    assert (Opx : forall (s : mst) o s1, operand prog s = Ok (o, s1) ->
      s1 = with_cur s (t_set_pc (m_cur s) (pc s + 4)) /\
      exists r, rd32 (zskipn (pc s) (p_code prog)) = Some (o, r)).
    { clear. intros s o s1 E. unfold operand in E. inv E. apply lift_ok in E0. destruct E0 as [_ ->].
      inv E. unfold mget in E0. assert (t_pc (m_cur s) = a0) by congruence. assert (s = s0) by congruence. subst. clear E0.
      destruct (_ <? 0); [discriminate|]. unfold code in E.
      destruct (rd32 (zskipn (t_pc (m_cur s0)) (p_code prog))) as [[v r]|] eqn:Rd; [|discriminate]. 
      unfold mbind, mod_cur, ret in E.
      assert (v = o) by congruence. subst v.
      okinv E s1. split; [reflexivity|]. unfold pc. rewrite Rd. eauto. }
    assert (Popx : forall (s : mst) o s1, pop s = Ok (o, s1) ->
      exists r, t_stk (m_cur s) = o :: r /\ s1 = with_cur s (t_set_stk (m_cur s) r)).
    { clear. intros s o s1 E. unfold pop in E. destruct (t_stk (m_cur s)) as [|p r]; [discriminate|].
      unfold mbind, mod_cur, ret in E. assert (p = o) by congruence. subst p. okinv E s1. eauto. }
    assert (PopVx : forall (s : mst) o s1, pop_v ops s = Ok (o, s1) ->
      exists r, s1 = with_cur s (t_set_stk (m_cur s) r)).
    { clear - Popx. intros s o s1 E. unfold pop_v in E. inv E. unfold deref in E. apply lift_ok in E. destruct E as [_ ->].
      destruct (Popx _ _ _ E0) as (r & _ & ->). eauto. }
    destruct i; try discriminate O; cbn [do_ins] in E; clear O.
    - (* JMP *) inv E. destruct (Opx _ _ _ E0) as (-> & _). unfold mod_cur in E. okinv E s'.
      split; [wkk|exact I].
    - (* TJMP *) inv E. destruct (Opx _ _ _ E0) as (-> & Rd). inv E. destruct (PopVx _ _ _ E1) as (r & ->).
      destruct (as_bool _).
      + unfold mod_cur in E. okinv E s'. split; [wkk|]. right. exact Rd.
      + unfold ret in E. okinv E s'. split; [wkk|]. left. reflexivity.
    - (* FJMP *) inv E. destruct (Opx _ _ _ E0) as (-> & Rd). inv E. destruct (PopVx _ _ _ E1) as (r & ->).
      destruct (as_bool _).
      + unfold ret in E. okinv E s'. split; [wkk|]. left. reflexivity.
      + unfold mod_cur in E. okinv E s'. split; [wkk|]. right. exact Rd.
    - (* CALL *) inv E. destruct (Opx _ _ _ E0) as (-> & _). inv E. destruct (Opx _ _ _ E1) as (-> & _).
      unfold mbind, head, mget, enter, mod_cur in E. okinv E s'.
      split; [wkk|]. right. eexists. split; [reflexivity|]. split; [|reflexivity].
      unfold pc. cbn. lia.
    - (* RET *) inv E. destruct (Opx _ _ _ E0) as (-> & _). inv E. destruct (Popx _ _ _ E1) as (r & _ & ->).
      split; [|exact I]. clear Opx Popx PopVx E0 E1. dstate s. mcbv.
      destruct (_ <? a); [okinv E s'; wkk|]. destruct (a <? 0); [discriminate|].
      destruct frs as [|f fs]; [okinv E s'; wkk|].
      destruct (_ || _); [destruct (0 <? _); try discriminate E|]; okinv E s'; wkk.
    - (* ICALL *) inv E. destruct (Opx _ _ _ E0) as (-> & _). inv E. destruct (PopVx _ _ _ E1) as (r & ->).
      destruct a0 as [|[z|f|st|a0|n]|l]; try discriminate E;
        try (unfold raise, mod_cur in E; okinv E s'; split; [wkk|];
             left; split; reflexivity).
      + destruct (function_find_pc prog a0) as [f|]; [|discriminate].
        inv E. assert (s0 = with_cur s (t_set_stk (t_set_pc (m_cur s) (pc s + 4)) r) \/
               exists e, s0 = with_cur s (t_set_fin (t_set_err (t_set_stk (t_set_pc (m_cur s) (pc s + 4)) r) (Some e)) true)) as D.
        { destruct (num_args f =? a).
          - left. unfold ret in E2. okinv E2 s0. reflexivity.
          - right. unfold raise, mod_cur in E2. okinv E2 s0. eexists; reflexivity. }
        unfold mbind, head, mget, enter, mod_cur in E. okinv E s'.
        destruct D as [->|(e & ->)];
        (split; [wkk|]; right; eexists; split; [reflexivity|]; split; [|reflexivity];
         unfold pc; cbn; lia).
      + pose proof (strong_sys _ _ _ _ _ E) as [].
        split.
        * constructor; cbn in *; auto.
          intros X. destruct st_err0; auto. left; congruence.
        * left. split; [unfold frames; rewrite st_frs0; reflexivity|].
          unfold pc; rewrite st_pc0. cbn [with_cur m_cur t_set_stk t_set_pc t_pc operands]. unfold pc. lia.
    - (* GLOBALS *) inv E. destruct (Opx _ _ _ E0) as (-> & _).
      destruct (a =? 0); [|destruct (a <? 0); [discriminate|]]; unfold ret, set_glob in E; okinv E s';
        (split; [wkk|]; reflexivity).
    - (* SETG *) inv E. destruct (Opx _ _ _ E0) as (-> & _). inv E. unfold mget in E1.
      assert (m_glob s = a0) by (injection E1 as X _; exact X). 
      match type of E1 with Ok (_, ?a) = Ok (_, ?b) => assert (b = a) by congruence; subst b end. clear E1.
      destruct (znth a0 a).
      + inv E. destruct (Popx _ _ _ E1) as (r & _ & ->). unfold set_glob in E. okinv E s'.
        split; [wkk|]; reflexivity.
      + unfold raise, mod_cur in E. okinv E s'. split; [wkk|]; reflexivity.
  Qed.

  (** Which instructions can change the globals. *)
  Lemma do_ins_glob : forall i s u s', do_ins ops prog i s = Ok (u, s') ->
    i <> INS_SETG -> i <> INS_GLOBALS -> m_glob s' = m_glob s.
  Proof.
    intros i s u s' E N1 N2. destruct (ordinary i) eqn:O.
    { apply (strong_ins i O s u s' E). }
    assert (T : forall k A (m : M A), resp k m -> forall s x s', m s = Ok (x, s') -> m_glob s' = m_glob s).
    { intros k A m Hm s1 x s1' X. apply (Hm _ _ _ X). }
    destruct i; try discriminate O; try contradiction; cbn [do_ins] in E.
    - inv E. unfold mod_cur in E. okinv E s'. apply (T _ _ _ strong_op _ _ _ E0).
    - inv E. inv E. transitivity (m_glob s1).
      + destruct (as_bool _); unfold mod_cur, ret in E; okinv E s'; reflexivity.
      + rewrite (T _ _ _ strong_pop_v _ _ _ E1). apply (T _ _ _ strong_op _ _ _ E0).
    - inv E. inv E. transitivity (m_glob s1).
      + destruct (as_bool _); unfold mod_cur, ret in E; okinv E s'; reflexivity.
      + rewrite (T _ _ _ strong_pop_v _ _ _ E1). apply (T _ _ _ strong_op _ _ _ E0).
    - inv E. inv E. unfold mbind, head, mget, enter, mod_cur in E. okinv E s'. cbn.
      rewrite (T _ _ _ strong_op _ _ _ E1). apply (T _ _ _ strong_op _ _ _ E0).
    - inv E. inv E. transitivity (m_glob s1).
      + clear T E0 E1. dstate s1. mcbv.
        destruct (_ <? a); [okinv E s'; reflexivity|]. destruct (a <? 0); [discriminate|].
        destruct frs as [|f fs]; [okinv E s'; reflexivity|].
        destruct (_ || _); [destruct (0 <? _); try discriminate E|]; okinv E s'; reflexivity.
      + rewrite (T _ _ _ strong_pop _ _ _ E1). apply (T _ _ _ strong_op _ _ _ E0).
    - inv E. inv E. transitivity (m_glob s1).
      + destruct a0 as [|[z|f|st|a0|n]|l]; try discriminate E;
          try (unfold raise, mod_cur in E; okinv E s'; reflexivity).
        * destruct (function_find_pc prog a0) as [f|]; [|discriminate]. inv E.
          unfold mbind, head, mget, enter, mod_cur in E. okinv E s'. cbn.
          destruct (num_args f =? a); unfold ret, raise, mod_cur in E2; okinv E2 s2; reflexivity.
        * apply (T _ _ _ (strong_sys _ _) _ _ _ E).
      + rewrite (T _ _ _ strong_pop_v _ _ _ E1). apply (T _ _ _ strong_op _ _ _ E0).
  Qed.
End Frame.

(** ** Collections only move stacks *)
Definition restacked {P} (t t' : thread P) : Prop := exists l, t' = t_set_stk t l.
Lemma restacked_refl : forall P (t : thread P), restacked t t.
Proof. intros P [] . eexists; reflexivity. Qed.
Lemma F2_length : forall A B (R : A -> B -> Prop) l l', Forall2 R l l' -> length l = length l'.
Proof. induction 1; cbn; congruence. Qed.
Lemma set_stacks_restacked : forall P (ts : list (thread P)) rs,
  Forall2 restacked ts (set_stacks ts rs).
Proof.
  induction ts as [|t ts IH]; intros rs; cbn [set_stacks]; [constructor|].
  destruct rs as [|r rs].
  - clear IH. constructor; [apply restacked_refl|]. induction ts; constructor; auto using restacked_refl.
  - constructor; auto. eexists; reflexivity.
Qed.

Section Collect.
  Context {P H : Type}.
  Variable ops : hops P H.

  Lemma gc_collect_vm_facts : forall (v v' : vm P H), gc_collect_vm ops v = Ok v' ->
    vm_world v' = vm_world v /\ Forall2 restacked (vm_threads v) (vm_threads v').
  Proof.
    intros v v' E. unfold gc_collect_vm in E.
    destruct (h_collect ops _ _) as [[h [|g rs]]| |]; try discriminate.
    assert (Vm h g (vm_world v) (set_stacks (vm_threads v) rs) = v') by congruence. subst v'. cbn.
    split; auto. apply set_stacks_restacked.
  Qed.

  Lemma gc_collect_facts : forall (s : mst P H) u s', gc_collect ops s = Ok (u, s') ->
    m_world s' = m_world s /\ Forall2 restacked (m_pre s) (m_pre s') /\
    restacked (m_cur s) (m_cur s') /\ Forall2 restacked (m_post s) (m_post s').
  Proof.
    intros s u s' E. unfold gc_collect in E.
    destruct (gc_collect_vm ops (join s)) as [v| |] eqn:Ev; try discriminate.
    destruct (gc_collect_vm_facts _ _ Ev) as (Ew & F). unfold join in F. cbn [vm_threads] in F.
    destruct (split (length (m_pre s)) v) as [s1| |] eqn:Es; try discriminate.
    assert (s1 = s') by congruence. subst s1. clear E. unfold split in Es.
    apply Forall2_app_inv_l in F. destruct F as (pre' & q & F1 & F2 & Q).
    inversion F2; subst. 
    assert (L : length (m_pre s) = length pre') by (eapply F2_length; eauto).
    rewrite Q, L in Es.
    rewrite skipn_app, skipn_all, Nat.sub_diag in Es. cbn [app skipn] in Es.
    rewrite firstn_app, Nat.sub_diag, firstn_all in Es. cbn [firstn] in Es. rewrite app_nil_r in Es.
    match type of Es with Ok ?x = Ok s' => assert (x = s') by congruence; subst s' end. cbn. auto.
  Qed.

  Lemma tick_facts : forall (s : mst P H) u s', tick_gc ops s = Ok (u, s') ->
    m_world s' = m_world s /\ Forall2 restacked (m_pre s) (m_pre s') /\
    restacked (m_cur s) (m_cur s') /\ Forall2 restacked (m_post s) (m_post s').
  Proof.
    intros s u s' E. unfold tick_gc in E. destruct (h_should ops (m_heap s)).
    - eapply gc_collect_facts; eauto.
    - assert (s = s') by congruence. subst s'.
      assert (F : forall l : list (thread P), Forall2 restacked l l)
        by (induction l; constructor; auto using restacked_refl).
      auto using restacked_refl.
  Qed.
End Collect.

(** ** One step *)
Section Step.
  Context {P H : Type}.
  Variable ops : hops P H.
  Variable prog : program_t.
  Notation mst := (mst P H).

  Definition line_now (s : mst) : line_t := get_line prog (pc s).

  (** the halt flag after the breakpoint check *)
  Definition bp_hit (bps : list line_t) (last now : line_t) : bool :=
    match bps with [] => false | _ => existsb (line_eqb now) bps && negb (line_eqb now last) end.

  Lemma step_inv : forall s u s', step_imp ops prog s = Ok (u, s') ->
    exists b s1, znth (p_code prog) (pc s) = Some b /\ 4 < zlen (p_code prog) /\
      (match of_opcode b with Some i => do_ins ops prog i | None => raise e_bad_opcode end)
        (with_cur s (t_set_pc (m_cur s) (pc s + 1))) = Ok (tt, s1) /\
      let t := m_cur s1 in
      s' = with_cur s1 (Thread (t_pc t) (t_stk t) (t_frs t) (t_err t) (t_fin t)
             (t_hal t || bp_hit (t_bps t) (t_last t) (line_now s1))
             (to_u32 (t_cyc t + 1)) (t_waits t)
             (match t_bps t with [] => t_last t | _ => line_now s1 end) (t_bps t)).
  Proof.
    intros s u s' E. unfold step_imp in E. apply mbind_ok in E. destruct E as (b & s0 & E0 & E).
    unfold fetch in E0. apply mbind_ok in E0. destruct E0 as (? & ? & E1 & E0).
    apply lift_ok in E1. destruct E1 as [L ->]. apply mbind_ok in E0. destruct E0 as (pc0 & ? & E1 & E0).
    unfold mget in E1. assert (t_pc (m_cur s) = pc0) by congruence. subst pc0.
    match type of E1 with Ok (_, ?a) = Ok (_, ?b) => assert (b = a) by congruence; subst b end. clear E1.
    unfold code in *. destruct (znth (p_code prog) (t_pc (m_cur s))) as [b0|] eqn:Eb; [|discriminate].
    unfold mbind, mod_cur, ret in E0. assert (b0 = b) by congruence. subst b0.
    match type of E0 with Ok (_, ?a) = Ok (_, ?b) => assert (b = a) by congruence; subst b end. clear E0.
    apply mbind_ok in E. destruct E as ([] & s1 & E1 & E).
    exists b, s1. split; [exact Eb|]. split.
    { unfold assert_ in L. destruct (4 <? zlen (p_code prog)) eqn:Q; [lia|discriminate]. }
    split; [exact E1|]. cbv zeta.
    unfold mbind, check_breakpoints, mod_cur in E. cbn [m_heap m_glob m_world m_pre m_cur m_post] in E.
    match type of E with Ok (_, ?a) = Ok (_, ?b) => assert (a = b) as <- by congruence end.
    unfold with_cur, bp_hit, line_now, source_line, pc. destruct (m_cur s1) as [tpc stk frs err fin hal cyc wts last bps].
    cbn [t_bps]. destruct bps; cbn; rewrite ?orb_false_r; reflexivity.
  Qed.

  Record step_facts (s s' : mst) : Prop := {
    sf_cyc : t_cyc (m_cur s') = to_u32 (t_cyc (m_cur s) + 1);
    sf_bps : t_bps (m_cur s') = t_bps (m_cur s);
    sf_last : t_bps (m_cur s) <> [] -> t_last (m_cur s') = line_now s';
    sf_post : m_post s' = m_post s;
    sf_pre : grows s s';
    sf_err : t_err (m_cur s) = None -> t_err (m_cur s') = None \/ t_fin (m_cur s') = true }.

  Lemma step_weak : forall s u s', step_imp ops prog s = Ok (u, s') -> step_facts s s'.
  Proof.
    intros s u s' E. destruct (step_inv _ _ _ E) as (b & s1 & _ & _ & E1 & ->).
    assert (W : weak (with_cur s (t_set_pc (m_cur s) (pc s + 1))) s1).
    { destruct (of_opcode b) as [i|].
      - eapply do_ins_weak; eauto.
      - unfold raise, mod_cur in E1. match type of E1 with Ok (_, ?a) = Ok (_, ?b) => assert (a = b) as <- by congruence end.
        constructor; cbn; auto. exists []; auto. }
    destruct W. cbn in *. constructor; cbn; auto.
    - now rewrite wk_cyc0.
    - rewrite wk_bps0. destruct (t_bps (m_cur s)); [congruence|reflexivity].
  Qed.
End Step.

(** ** A relation kept by every instruction *)
Section Resp2.
  Context {P H : Type}.
  Variable ops : hops P H.
  Variable prog : program_t.
  Notation mst := (mst P H).
  Notation M := (@M P H).
  Variable Q : mst -> mst -> Prop.
  Hypothesis Q_refl : forall s, Q s s.
  Hypothesis Q_trans : forall s t u, Q s t -> Q t u -> Q s u.
  Hypothesis Q_cur : forall s (f : thread P -> thread P),
    (exists pc stk frs err fin, forall t, f t = Thread (pc t) (stk t) (frs t) (err t) (fin t) (t_hal t) (t_cyc t) (t_waits t) (t_last t) (t_bps t)) ->
    Q s (with_cur s (f (m_cur s))).
  Hypothesis Q_heap : forall s h, Q s (Mst h (m_glob s) (m_world s) (m_pre s) (m_cur s) (m_post s)).
  Hypothesis Q_glob : forall s g, Q s (Mst (m_heap s) g (m_world s) (m_pre s) (m_cur s) (m_post s)).
  Hypothesis Q_world : forall s w, Q s (Mst (m_heap s) (m_glob s) w (m_pre s) (m_cur s) (m_post s)).
  Hypothesis Q_add : forall s f args,
    Q s (Mst (m_heap s) (m_glob s) (m_world s) (prepared fresh_thread f args :: m_pre s) (m_cur s) (m_post s)).
  Hypothesis Q_wait : (forall s n, Q s (with_cur s (t_set_waits (m_cur s) n))) /\
                         (forall s b, Q s (with_cur s (t_set_hal (m_cur s) b))) \/
                         (forall n nm f, halts f -> znth (p_syscalls prog) n <> Some (Sysc nm (Some f))).

  Let R (k : Z) := Q.
  Notation resp := (@resp P H R _ 0).

  Lemma q_stk : forall s l, R 0 s (with_cur s (t_set_stk (m_cur s) l)).
  Proof. intros. apply (Q_cur s (fun t => t_set_stk t l)). do 5 eexists. reflexivity. Qed.
  Lemma q_raise : forall s e, R 0 s (with_cur s (t_set_fin (t_set_err (m_cur s) (Some e)) true)).
  Proof. intros. apply (Q_cur s (fun t => t_set_fin (t_set_err t (Some e)) true)). do 5 eexists. reflexivity. Qed.
  Lemma q_operand : forall s, R 4 s (with_cur s (t_set_pc (m_cur s) (t_pc (m_cur s) + 4))).
  Proof. intros. apply (Q_cur s (fun t => t_set_pc t (t_pc t + 4))). do 5 eexists. reflexivity. Qed.
  Lemma q_trans : forall a b s t u, R a s t -> R b t u -> R (a + b) s u.
  Proof. intros a b. apply Q_trans. Qed.
  Hint Resolve q_stk q_raise q_operand q_trans : q.

  Lemma q_modcur : forall f,
    (exists pc stk frs err fin, forall t, f t = Thread (pc t) (stk t) (frs t) (err t) (fin t) (t_hal t) (t_cyc t) (t_waits t) (t_last t) (t_bps t)) ->
    resp (mod_cur f : M unit).
  Proof.
    intros f Hf s x s' E. unfold mod_cur in E.
    match type of E with Ok (_, ?a) = Ok (_, ?b) => assert (a = b) as <- by congruence end.
    now apply Q_cur.
  Qed.
  Lemma q_bind : forall A B (m : M A) (k : A -> M B), resp m -> (forall x, resp (k x)) -> resp (mbind m k).
  Proof. intros. apply resp_bind0; auto. Qed.
  Lemma q_ret : forall A (a : A), resp (ret a : M A). Proof. intros. apply resp_ret; auto. Qed.
  Lemma q_lift : forall A (a : res A), resp (lift a : M A). Proof. intros. apply resp_lift; auto. Qed.
  Lemma q_mget : forall A (f : mst -> A), resp (mget f). Proof. intros. apply resp_mget; auto. Qed.
  Lemma q_pop : resp (pop : M P). Proof. apply resp_pop; eauto with q. Qed.
  Lemma q_pop_v : resp (pop_v ops : M (view P)). Proof. apply resp_pop_v; eauto with q. Qed.
  Lemma q_raise' : forall e, resp (raise e : M unit). Proof. intros; apply resp_raise; eauto with q. Qed.
  Lemma q_push : forall e, resp (push e : M unit). Proof. intros; apply resp_push; eauto with q. Qed.
  Lemma q_op : resp (operand prog : M Z).
  Proof. intros s x s' E. apply (resp_operand prog R q_operand _ _ _ E). Qed.
  Lemma q_glob : forall g, resp (set_glob g : M unit).
  Proof.
    intros g s x s' E. unfold set_glob in E.
    match type of E with Ok (_, ?a) = Ok (_, ?b) => assert (a = b) as <- by congruence end. apply Q_glob.
  Qed.
  Lemma q_sys : forall i n, resp (do_syscall ops prog i n : M unit).
  Proof. intros. apply resp_do_syscall; eauto with q. Qed.

  Ltac qs := repeat first
    [ apply q_ret | apply q_lift | apply q_mget | apply q_raise' | apply q_push | apply q_op
    | apply q_pop | apply q_pop_v | apply q_glob | apply q_sys
    | apply q_modcur; do 5 eexists; reflexivity
    | apply q_bind; [|intros]
    | match goal with
      | |- RunFacts.resp _ _ (if ?b then _ else _) => destruct b
      | |- RunFacts.resp _ _ (match ?x with _ => _ end) => destruct x
      end ].

  Lemma q_ins : forall i, resp (do_ins ops prog i : M unit).
  Proof.
    intros i. destruct (ordinary i) eqn:O.
    - intros s x s' E. apply (resp_do_ins ops prog R) in E; eauto with q.
    - destruct i; try discriminate O; cbn [do_ins]; unfold enter, head, leave; qs.
  Qed.
End Resp2.

Definition no_wait (prog : program_t) : Prop :=
  forall n nm f, f = F_wait \/ f = F_sleep -> znth (p_syscalls prog) n <> Some (Sysc nm (Some f)).

Lemma do_ins_hal : forall P H (ops : hops P H) prog i s u s', no_wait prog ->
  do_ins ops prog i s = Ok (u, s') -> t_hal (m_cur s') = t_hal (m_cur s).
Proof.
  intros P H ops prog i s u s' Nw E.
  refine (q_ins ops prog (fun s s' : mst P H => t_hal (m_cur s') = t_hal (m_cur s)) _ _ _ _ _ _ _ _ i s u s' E);
    cbn; auto; try congruence.
  intros s0 f (a & b & c & d & e & F). rewrite F. reflexivity.
Qed.

Lemma step_hal : forall P H (ops : hops P H) prog s u s', no_wait prog ->
  step_imp ops prog s = Ok (u, s') ->
  t_hal (m_cur s') = t_hal (m_cur s) || bp_hit (t_bps (m_cur s)) (t_last (m_cur s)) (line_now prog s').
Proof.
  intros P H ops prog s u s' Nw E. destruct (step_inv _ _ _ _ _ E) as (b & s1 & _ & _ & E1 & ->).
  assert (W : weak (with_cur s (t_set_pc (m_cur s) (pc s + 1))) s1 /\
              t_hal (m_cur s1) = t_hal (m_cur s)).
  { destruct (of_opcode b) as [i|].
    - split; [eapply do_ins_weak; eauto|]. apply (do_ins_hal _ _ _ _ _ _ _ _ Nw E1).
    - unfold raise, mod_cur in E1. match type of E1 with Ok (_, ?a) = Ok (_, ?b) => assert (a = b) as <- by congruence end.
      split; [constructor; cbn; auto|reflexivity]. exists []; auto. }
  destruct W as [[] Wh]. cbn in *. rewrite Wh, wk_bps0, wk_last0. reflexivity.
Qed.
