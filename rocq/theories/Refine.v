(** The machine on the collected heap refines the machine on the ideal heap. *)
From Coq Require Import ZArith List Bool Lia ZifyBool.
From Verif Require Import Base BaseFacts F32 Instr Program VM Gc AbsHeap GcProofs.
Import ListNotations.
Open Scope Z_scope.

(** Outcomes: the collected heap may in addition run out of memory, or loop in
    the collector; otherwise both end the same way. *)
Definition rrel {A B} (R : A -> B -> Prop) (x : res A) (y : res B) : Prop :=
  match x, y with
  | Ok a, Ok b => R a b
  | Stuck SOom, _ => True
  | Stuck SOomGc, _ => True
  | Stuck SDiverge, _ => True
  | Stuck SDangling, _ => False
  | Stuck s, Stuck s' => s = s'
  | Err e l, Err e' l' => e = e' /\ l = l'
  | _, _ => False
  end.

Lemma rrel_bind : forall {A B C D} (R : A -> B -> Prop) (R' : C -> D -> Prop) x y k k',
  rrel R x y -> (forall a b, R a b -> rrel R' (k a) (k' b)) ->
  rrel R' (bind x k) (bind y k').
Proof.
  intros A B C D R R' [a|e l|s] [b|e' l'|s'] k k' H K; simpl in *; auto;
    try contradiction; destruct s; auto; contradiction.
Qed.

Lemma rrel_imp : forall {A B} (R R' : A -> B -> Prop) x y,
  (forall a b, R a b -> R' a b) -> rrel R x y -> rrel R' x y.
Proof.
  intros A B R R' [a|e l|s] [b|e' l'|s'] H K; simpl in *; auto.
Qed.

Definition nd {A} (x : res A) : Prop := x <> Stuck SDangling.
Lemma nd_bind : forall {A B} (x : res A) (k : A -> res B),
  nd x -> (forall a, nd (k a)) -> nd (bind x k).
Proof. unfold nd. intros A B [a|e l|[]] k H K; simpl in *; auto; discriminate. Qed.
Lemma nd_assert : forall b, nd (assert_ b).
Proof. intros []; discriminate. Qed.
Lemma nd_chk32 : forall z, nd (chk32 z).
Proof. intros z. unfold chk32, nd. destruct (in_i32 z); discriminate. Qed.
Lemma nd_as_float : forall v, nd (as_float v).
Proof. intros [|[]|]; discriminate. Qed.
Lemma nd_as_int : forall v, nd (as_int v).
Proof.
  intros [|[]|]; try discriminate. unfold nd. simpl. unfold f_to_int.
  destruct f; try discriminate. destruct (in_i32 _); discriminate.
Qed.
Lemma nd_to_text : forall v, nd (to_text v).
Proof. intros [|[]|]; discriminate. Qed.
Lemma nd_ok : forall {A} (x : A), nd (Ok x).
Proof. intros; discriminate. Qed.
#[global] Hint Resolve nd_bind nd_assert nd_chk32 nd_as_float nd_as_int nd_to_text nd_ok : nd.
Lemma nd_float_op : forall k l r, nd (float_op k l r).
Proof. intros. unfold float_op. destruct (_ && _); auto 6 with nd. Qed.
Lemma nd_float_cmp : forall k l r, nd (float_cmp k l r).
Proof. intros. unfold float_cmp. destruct (_ && _); auto 6 with nd. Qed.
#[global] Hint Resolve nd_float_op nd_float_cmp : nd.
Lemma binop_nd : forall i f l r, binop i = Some f -> nd (f l r).
Proof.
  intros i f l r E. destruct i; try discriminate; injection E as <-;
    destruct l as [|[]|], r as [|[]|];
    unfold op_add, op_sub, op_mul, op_div, op_mod, op_and, op_or, op_lt, op_gt, op_leq, op_geq, op_eq;
    try (destruct (_ =? 0)); auto with nd; cbn [is_number andb]; auto with nd.
Qed.
Lemma unop_nd : forall i f v, unop i = Some f -> nd (f v).
Proof.
  intros i f v E. destruct i; try discriminate; injection E as <-; [discriminate|].
  destruct v as [|[]|]; simpl; auto with nd.
Qed.

(** ** State relation *)
Record trel (h : heap) (B : bmap) (t : thread ptr) (u : thread aval) : Prop := {
  tr_pc : t_pc t = t_pc u;
  tr_stk : Forall2 (vrel h B) (t_stk t) (t_stk u);
  tr_frs : t_frs t = t_frs u;
  tr_err : t_err t = t_err u;
  tr_fin : t_fin t = t_fin u;
  tr_hal : t_hal t = t_hal u;
  tr_cyc : t_cyc t = t_cyc u;
  tr_waits : t_waits t = t_waits u;
  tr_last : t_last t = t_last u;
  tr_bps : t_bps t = t_bps u
}.

Record SR (B : bmap) (s : mst ptr heap) (a : mst aval aheap) : Prop := {
  sr_heap : HR (m_heap a) (m_heap s) B;
  sr_glob : Forall2 (vrel (m_heap s) B) (m_glob s) (m_glob a);
  sr_world : m_world s = m_world a;
  sr_pre : Forall2 (trel (m_heap s) B) (m_pre s) (m_pre a);
  sr_cur : trel (m_heap s) B (m_cur s) (m_cur a);
  sr_post : Forall2 (trel (m_heap s) B) (m_post s) (m_post a)
}.

Definition ext (h : heap) (B : bmap) (h' : heap) (B' : bmap) : Prop :=
  (forall a l, B a l -> B' a l) /\
  (forall a s, read h a = Some (KS s) -> read h' a = Some (KS s)).
Lemma ext_refl : forall h B, ext h B h B.
Proof. split; auto. Qed.
Lemma ext_trans : forall h B h1 B1 h2 B2, ext h B h1 B1 -> ext h1 B1 h2 B2 -> ext h B h2 B2.
Proof. intros h B h1 B1 h2 B2 [] []; split; auto. Qed.
Lemma vrel_ext : forall h B h' B' p v, ext h B h' B' -> vrel h B p v -> vrel h' B' p v.
Proof. intros h B h' B' p v []. apply vrel_mono; auto. Qed.
Lemma vrels_ext : forall h B h' B' p v, ext h B h' B' ->
  Forall2 (vrel h B) p v -> Forall2 (vrel h' B') p v.
Proof. intros h B h' B' p v E. apply Forall2_imp. intros; eapply vrel_ext; eauto. Qed.
Lemma trel_ext : forall h B h' B' p v, ext h B h' B' -> trel h B p v -> trel h' B' p v.
Proof. intros h B h' B' p v E []. constructor; auto. eapply vrels_ext; eauto. Qed.
Lemma trels_ext : forall h B h' B' p v, ext h B h' B' ->
  Forall2 (trel h B) p v -> Forall2 (trel h' B') p v.
Proof. intros h B h' B' p v E. apply Forall2_imp. intros; eapply trel_ext; eauto. Qed.

Definition krel (X Y : Type) : Type := heap -> bmap -> X -> Y -> Prop.

Definition sim {X Y} (R : krel X Y) (B : bmap) (s : mst ptr heap) (a : mst aval aheap)
           (m : @M ptr heap X) (m' : @M aval aheap Y) : Prop :=
  rrel (fun x y => exists B', ext (m_heap s) B (m_heap (snd x)) B' /\
                              SR B' (snd x) (snd y) /\ R (m_heap (snd x)) B' (fst x) (fst y))
       (m s) (m' a).

Lemma sim_bind : forall {X Y X' Y'} (R : krel X Y) (R' : krel X' Y') B s a m m' k k',
  sim R B s a m m' ->
  (forall x y s1 a1 B1, ext (m_heap s) B (m_heap s1) B1 -> SR B1 s1 a1 ->
     R (m_heap s1) B1 x y -> sim R' B1 s1 a1 (k x) (k' y)) ->
  sim R' B s a (mbind m k) (mbind m' k').
Proof.
  intros X Y X' Y' R R' B s a m m' k k' H K. unfold sim, mbind in *.
  destruct (m s) as [[x s1]|e l|st], (m' a) as [[y a1]|e' l'|st']; simpl in *; auto;
    try contradiction; try (destruct st; auto; contradiction).
  destruct H as (B1 & E & S & Hr). simpl in *.
  eapply rrel_imp; [|apply (K x y s1 a1 B1 E S Hr)].
  intros p q (B2 & E2 & S2 & R2). exists B2. split; auto. eapply ext_trans; eauto.
Qed.

Lemma sim_ret : forall {X Y} (R : krel X Y) B s a x y,
  SR B s a -> R (m_heap s) B x y -> sim R B s a (ret x) (ret y).
Proof.
  intros. unfold sim, ret; simpl. exists B. split; auto using ext_refl.
Qed.

Lemma sim_lift : forall {X} (R : krel X X) B s a (r : res X),
  SR B s a -> nd r -> (forall x, r = Ok x -> R (m_heap s) B x x) -> sim R B s a (lift r) (lift r).
Proof.
  intros X R B s a r S N H. unfold sim, lift. destruct r as [x|e l|[]]; simpl; auto.
  exists B. auto using ext_refl.
Qed.

Lemma sim_stuck : forall {X Y} (R : krel X Y) B s a x, x <> SDangling ->
  sim R B s a (lift (Stuck x)) (lift (Stuck x)).
Proof. intros X Y R B s a [] N; unfold sim, lift; simpl; auto. Qed.
Ltac stuck_ := apply sim_stuck; discriminate.

Definition keq {X} : krel X X := fun _ _ x y => x = y.
Definition kv : krel ptr aval := fun h B p v => vrel h B p v.
Definition kvs : krel (list ptr) (list aval) := fun h B p v => Forall2 (vrel h B) p v.
Definition kw : krel (view ptr) (view aval) := fun h B w x =>
  match w, x with
  | WNone, WNone => True
  | WS s, WS s' => s = s' /\ sok s
  | WA l, WA l' => Forall2 (vrel h B) l l'
  | _, _ => False
  end.
Definition kfrs : krel (list frame) (list frame) := keq.

(** A read of the state. *)
Lemma sim_mget : forall {X Y} (R : krel X Y) B s a f g,
  SR B s a -> R (m_heap s) B (f s) (g a) -> sim R B s a (mget f) (mget g).
Proof. intros. unfold sim, mget; simpl. exists B. auto using ext_refl. Qed.

Lemma sim_mod_cur : forall B s a f g,
  SR B s a -> trel (m_heap s) B (f (m_cur s)) (g (m_cur a)) ->
  sim keq B s a (mod_cur f) (mod_cur g).
Proof.
  intros B s a f g [] H. unfold sim, mod_cur; simpl. exists B.
  split; [apply ext_refl|]. split; [|reflexivity]. constructor; simpl; auto.
Qed.

Lemma sim_set_world : forall B s a w,
  SR B s a -> sim keq B s a (set_world w) (set_world w).
Proof.
  intros B s a w []. unfold sim, set_world; simpl. exists B.
  split; [apply ext_refl|]. split; [|reflexivity]. constructor; simpl; auto.
Qed.

Lemma sim_set_glob : forall B s a g g',
  SR B s a -> Forall2 (vrel (m_heap s) B) g g' -> sim keq B s a (set_glob g) (set_glob g').
Proof.
  intros B s a g g' [] H. unfold sim, set_glob; simpl. exists B.
  split; [apply ext_refl|]. split; [|reflexivity]. constructor; simpl; auto.
Qed.

Lemma sim_add_thread : forall B s a t u,
  SR B s a -> trel (m_heap s) B t u -> sim keq B s a (add_thread t) (add_thread u).
Proof.
  intros B s a t u [] H. unfold sim, add_thread; simpl. exists B.
  split; [apply ext_refl|]. split; [|reflexivity]. constructor; simpl; auto.
Qed.

Lemma SR_heap : forall B s a h' A' B',
  SR B s a -> ext (m_heap s) B h' B' -> HR A' h' B' ->
  SR B' (Mst h' (m_glob s) (m_world s) (m_pre s) (m_cur s) (m_post s))
        (Mst A' (m_glob a) (m_world a) (m_pre a) (m_cur a) (m_post a)).
Proof.
  intros B s a h' A' B' [] E H. constructor; simpl; auto.
  - eapply vrels_ext; eauto.
  - eapply trels_ext; eauto.
  - eapply trel_ext; eauto.
  - eapply trels_ext; eauto.
Qed.

(** ** Heap operations *)
Section Ops.
  Variable cap : Z.
  Variable fuel : nat.
  Variable policy : heap -> bool.
  Notation ops := (gc_ops_with cap fuel policy).

  Lemma HR_alloc_s : forall A h B c h' b,
    HR A h B -> alloc cap h (KS c) = Some (h', b) ->
    HR A h' B /\ ext h B h' B.
  Proof.
    intros A h B c h' b [W Fn In Ob] E.
    destruct (alloc_spec _ _ _ _ _ W E) as (W' & Fb & Rn & Rb & Ro & Fl & _).
    assert (X : ext h B h' B).
    { split; auto. intros x s Rx. rewrite Ro; auto. congruence. }
    split; auto. constructor; auto.
    intros x l H. destruct (Ob x l H) as (ps & vs & R & Z & F). exists ps, vs.
    split; [|split]; auto.
    - rewrite Ro; auto. congruence.
    - eapply vrels_ext; eauto.
  Qed.

  Lemma sim_new_s : forall B s a c, SR B s a -> sok c ->
    sim kv B s a (new_s ops c) (new_s abs_ops c).
  Proof.
    intros B s a c S K. unfold sim, new_s. simpl. unfold gc_newS, new_cell.
    destruct (alloc cap (m_heap s) (KS c)) as [[h b]|] eqn:E; simpl; auto.
    destruct (HR_alloc_s _ _ _ _ _ _ (sr_heap _ _ _ S) E) as [H X].
    exists B. split; auto. split.
    - pose proof (SR_heap _ _ _ _ _ _ S X H). simpl in *. exact H0.
    - simpl. destruct (alloc_spec _ _ _ _ _ (hr_wf _ _ _ (sr_heap _ _ _ S)) E) as (_ & _ & _ & Rb & _).
      auto.
  Qed.

  Lemma sim_new_a : forall B s a l l', SR B s a -> Forall2 (vrel (m_heap s) B) l l' ->
    sim kv B s a (new_a ops l) (new_a abs_ops l').
  Proof.
    intros B s a l l' S F. unfold sim, new_a. simpl. unfold gc_newA, new_cell.
    destruct (alloc cap (m_heap s) (KA l)) as [[h b]|] eqn:E; simpl; auto.
    pose proof (sr_heap _ _ _ S) as [W Fn In Ob].
    destruct (alloc_spec _ _ _ _ _ W E) as (W' & Fb & Rn & Rb & Ro & Fl & _).
    set (n := zlen (m_heap a)).
    set (B' := fun x k => B x k \/ (x = b /\ k = n)).
    assert (X : ext (m_heap s) B h B').
    { split; [unfold B'; auto|]. intros x c Rx. rewrite Ro; auto. congruence. }
    assert (NB : forall k, ~ B b k).
    { intros k Hk. apply Ob in Hk as (? & ? & R' & _). congruence. }
    assert (NL : forall x k, B x k -> k < n).
    { intros x k Hx. apply Ob in Hx as (? & ? & _ & Z & _). apply znth_some in Z. unfold n; lia. }
    assert (H : HR (m_heap a ++ [l']) h B').
    { constructor; auto.
      - intros x k k' [H|[-> ->]] [H'|[Q ->]]; eauto; subst; exfalso; eapply NB; eauto.
      - intros x y k [H|[-> ->]] [H'|[-> Q]]; eauto.
        + apply NL in H. lia.
        + apply NL in H'. lia.
      - intros x k [H|[-> ->]].
        + destruct (Ob x k H) as (ps & vs & R & Z & F'). exists ps, vs. split; [|split].
          * rewrite Ro; auto. congruence.
          * rewrite znth_app1; auto. apply znth_some in Z; lia.
          * eapply vrels_ext; eauto.
        + exists l, l'. split; auto. split.
          * unfold n. rewrite znth_app2 by lia. rewrite Z.sub_diag. reflexivity.
          * eapply vrels_ext; eauto. }
    exists B'. split; auto. split.
    - pose proof (SR_heap _ _ _ _ _ _ S X H). simpl in *. exact H0.
    - simpl. right; auto.
  Qed.

  Lemma sim_deref : forall B s a p v, SR B s a -> vrel (m_heap s) B p v ->
    sim kw B s a (deref ops p) (deref abs_ops v).
  Proof.
    intros B s a p v S V. unfold sim, deref, lift. simpl.
    destruct p as [x|], v as [|c|l]; simpl in V; try contradiction; simpl.
    - destruct V as [R K]. rewrite R. simpl. exists B. auto using ext_refl.
    - destruct (hr_obj _ _ _ (sr_heap _ _ _ S) x l V) as (ps & vs & R & Z & F).
      rewrite R, Z. simpl. exists B. auto using ext_refl.
    - exists B. auto using ext_refl.
  Qed.

  Lemma sim_pop : forall B s a, SR B s a -> sim kv B s a pop pop.
  Proof.
    intros B s a S. unfold sim, pop. pose proof (tr_stk _ _ _ _ (sr_cur _ _ _ S)) as F.
    destruct F as [|p v l l' V F]; simpl; auto.
    exists B. split; [apply ext_refl|]. split; auto.
    destruct S, sr_cur0. constructor; simpl; auto. constructor; simpl; auto.
  Qed.

  Lemma sim_push : forall B s a p v, SR B s a -> vrel (m_heap s) B p v ->
    sim keq B s a (push p) (push v).
  Proof.
    intros B s a p v S V. apply sim_mod_cur; auto.
    destruct S, sr_cur0. constructor; simpl; auto.
  Qed.

  Lemma sim_raise : forall B s a e, SR B s a -> sim keq B s a (raise e) (raise e).
  Proof.
    intros B s a e S. apply sim_mod_cur; auto.
    destruct S, sr_cur0. constructor; simpl; auto.
  Qed.

  Lemma sim_push_s : forall B s a c, SR B s a -> sok c ->
    sim keq B s a (push_s ops c) (push_s abs_ops c).
  Proof.
    intros B s a c S K. eapply sim_bind; [apply sim_new_s; auto|].
    intros. apply sim_push; auto.
  Qed.

  Lemma sim_pop_v : forall B s a, SR B s a -> sim kw B s a (pop_v ops) (pop_v abs_ops).
  Proof.
    intros B s a S. eapply sim_bind; [apply sim_pop; auto|].
    intros. apply sim_deref; auto.
  Qed.

  Lemma kw_plain : forall h B w x, kw h B w x -> plain w = plain x.
  Proof.
    intros h B [|c|l] [|c'|l'] H; simpl in *; try contradiction; auto.
    - destruct H; congruence.
    - f_equal. eapply Forall2_zlen; eauto.
  Qed.
  Lemma kw_ext : forall h B h' B' w x, ext h B h' B' -> kw h B w x -> kw h' B' w x.
  Proof.
    intros h B h' B' [|c|l] [|c'|l'] E H; simpl in *; auto. eapply vrels_ext; eauto.
  Qed.

  Definition oc_ok (r : res oc) : Prop := forall c, r = Ok (OPush c) -> sok c.

  Lemma sim_finish_op : forall B s a r, SR B s a -> nd r -> oc_ok r ->
    sim keq B s a (finish_op ops r) (finish_op abs_ops r).
  Proof.
    intros B s a r S N K. eapply sim_bind with (R := fun _ _ x y => x = y /\ r = Ok x).
    - apply sim_lift; auto.
    - intros x y s1 a1 B1 E S1 [<- Q]. destruct x.
      + apply sim_push_s; auto.
      + apply sim_raise; auto.
  Qed.

  Lemma sim_operand : forall prog B s a, SR B s a ->
    sim keq B s a (operand prog) (operand prog).
  Proof.
    intros prog B s a S. unfold operand.
    eapply sim_bind with (R := keq); [apply sim_lift; auto with nd; intros; reflexivity|].
    intros ? ? s1 a1 B1 E1 S1 _.
    eapply sim_bind with (R := keq); [apply sim_mget; auto; apply S1|].
    intros pc pc' s2 a2 B2 E2 S2 Q; red in Q; subst pc'.
    destruct (pc <? 0); [stuck_|].
    destruct (rd32 _) as [[v ?]|]; [|stuck_].
    eapply sim_bind; [apply sim_mod_cur; auto|].
    - destruct S2, sr_cur0. constructor; simpl; auto. congruence.
    - intros. apply sim_ret; auto. reflexivity.
  Qed.

  Lemma sim_fetch : forall prog B s a, SR B s a ->
    sim keq B s a (fetch prog) (fetch prog).
  Proof.
    intros prog B s a S. unfold fetch.
    eapply sim_bind with (R := keq); [apply sim_lift; auto with nd; intros; reflexivity|].
    intros ? ? s1 a1 B1 E1 S1 _.
    eapply sim_bind with (R := keq); [apply sim_mget; auto; apply S1|].
    intros pc pc' s2 a2 B2 E2 S2 Q; red in Q; subst pc'.
    destruct (znth _ _); [|stuck_].
    eapply sim_bind; [apply sim_mod_cur; auto|].
    - destruct S2, sr_cur0. constructor; simpl; auto. congruence.
    - intros. apply sim_ret; auto. reflexivity.
  Qed.

  Lemma sim_gc_copy : forall B s a p v, SR B s a -> vrel (m_heap s) B p v ->
    sim kv B s a (gc_copy ops p) (gc_copy abs_ops v).
  Proof.
    intros B s a p v S V. eapply sim_bind; [apply sim_deref; eauto|].
    intros w x s1 a1 B1 E S1 W. destruct w, x; simpl in W; try contradiction.
    - apply sim_ret; simpl; auto.
    - destruct W as [<- K]. apply sim_new_s; auto.
    - stuck_.
  Qed.

  Lemma sim_copy_all : forall l l' B s a, SR B s a -> Forall2 (vrel (m_heap s) B) l l' ->
    sim kvs B s a (copy_all ops l) (copy_all abs_ops l').
  Proof.
    intros l l' B s a S F. revert B s a S F.
    revert l'. induction l as [|p l IH]; intros l' B s a S F; inversion F; subst; simpl.
    - apply sim_ret; auto; constructor.
    - eapply sim_bind; [apply sim_gc_copy; eauto|].
      intros q z s1 a1 B1 E S1 V.
      eapply sim_bind; [apply IH; eauto; eapply vrels_ext; eauto|].
      intros qs ys s2 a2 B2 E2 S2 V2. apply sim_ret; auto.
      constructor; auto. eapply vrel_ext; eauto.
  Qed.

  Lemma sim_pop_n : forall n B s a, SR B s a -> sim kvs B s a (pop_n n) (pop_n n).
  Proof.
    induction n as [|n IH]; intros B s a S; simpl.
    - apply sim_ret; auto; constructor.
    - eapply sim_bind; [apply sim_pop; auto|].
      intros p v s1 a1 B1 E S1 V.
      eapply sim_bind; [apply IH; auto|].
      intros l l' s2 a2 B2 E2 S2 V2. apply sim_ret; auto.
      constructor; auto. eapply vrel_ext; eauto.
  Qed.

  (** *** Strings stay free of NUL *)
  Lemma nonul_app : forall a b : bytes, ~ In 0 a -> ~ In 0 b -> ~ In 0 (a ++ b).
  Proof. intros a b H K I. apply in_app_or in I. tauto. Qed.
  Lemma nonul_cstr : forall s, ~ In 0 (cstr s).
  Proof.
    induction s as [|c s IH]; simpl; auto. destruct (c =? 0) eqn:E; simpl; auto.
    intros [C|C]; [lia|auto].
  Qed.
  Lemma nonul_zfirstn : forall s n, ~ In 0 s -> ~ In 0 (zfirstn n s).
  Proof.
    induction s as [|c s IH]; simpl; intros n H; auto. destruct (n <=? 0); auto.
    intros [C|C]; [tauto|]. eapply IH; eauto.
  Qed.
  Lemma nonul_dec_digits : forall f n acc, ~ In 0 acc -> ~ In 0 (dec_digits f n acc).
  Proof.
    induction f as [|f IH]; intros n acc H; cbn [dec_digits]; auto.
    assert (K : ~ In 0 ((48 + n mod 10) :: acc)).
    { intros [C|C]; auto. pose proof (Z.mod_pos_bound n 10 ltac:(lia)). lia. }
    destruct (n / 10 =? 0); auto.
  Qed.
  Lemma nonul_dec_nonneg : forall n, ~ In 0 (dec_nonneg n).
  Proof. intros. apply nonul_dec_digits. auto. Qed.
  Lemma nonul_dec : forall n, ~ In 0 (dec n).
  Proof.
    intros n. unfold dec. destruct (n <? 0); [|apply nonul_dec_nonneg].
    intros [C|C]; [lia|]. eapply nonul_dec_nonneg; eauto.
  Qed.
  Lemma nonul_repeat48 : forall n, ~ In 0 (repeat 48 n).
  Proof. intros n I. apply repeat_spec in I. discriminate. Qed.
  Lemma nonul_f_text : forall f, ~ In 0 (f_text f).
  Proof.
    assert (Sg : forall s : bool, ~ In 0 (if s then [45] else [])).
    { intros []; simpl; intuition lia. }
    intros [s|s| |s m e]; cbn [f_text].
    - apply nonul_app; auto. simpl; intuition lia.
    - apply nonul_app; auto. simpl; intuition lia.
    - simpl; intuition lia.
    - apply nonul_app; auto. apply nonul_app; [apply nonul_dec_nonneg|].
      apply nonul_app; [simpl; intuition lia|]. unfold pad6.
      apply nonul_app; [apply nonul_repeat48|apply nonul_dec_nonneg].
  Qed.

  Definition pok (v : pv) : Prop := match v with PS s => sok s | _ => True end.
  Lemma nonul_to_text : forall v t, pok v -> to_text v = Ok t -> ~ In 0 t.
  Proof.
    intros [|[]|] t K E; cbn [to_text] in E; try discriminate;
      match type of E with Ok ?x = Ok ?y => assert (Q : x = y) by congruence; subst t; clear E end.
    - simpl; intuition lia.
    - apply nonul_zfirstn, nonul_dec.
    - apply nonul_zfirstn, nonul_f_text.
    - apply nonul_zfirstn, nonul_cstr.
    - apply nonul_zfirstn. apply nonul_app; [simpl; intuition lia|apply nonul_dec].
  Qed.

  Lemma op_add_ok : forall l r, pok l -> pok r -> oc_ok (op_add l r).
  Proof.
    intros l r Kl Kr c E.
    destruct l as [|[]|], r as [|[]|]; cbn -[to_text float_op f_of_int f_add] in E;
      try discriminate;
      try (apply bind_ok in E as (t & Et & E); try discriminate E; injection E as <-; simpl; auto;
           eapply nonul_to_text in Et; simpl in *; auto; apply nonul_app; auto; fail);
      try (injection E as <-; simpl; auto; fail).
  Qed.

  Lemma float_op_ok : forall k l r, oc_ok (float_op k l r).
  Proof.
    intros k l r c E. unfold float_op in E. destruct (_ && _); [|discriminate].
    apply bind_ok in E as (x & _ & E). apply bind_ok in E as (y & _ & E).
    injection E as <-. exact I.
  Qed.
  Lemma float_cmp_ok : forall k l r, oc_ok (float_cmp k l r).
  Proof.
    intros k l r c E. unfold float_cmp in E. destruct (_ && _); [|discriminate].
    apply bind_ok in E as (x & _ & E). apply bind_ok in E as (y & _ & E).
    injection E as <-. exact I.
  Qed.

  Lemma binop_ok : forall i f l r, binop i = Some f -> pok l -> pok r -> oc_ok (f l r).
  Proof.
    intros i f l r E Kl Kr.
    destruct i; try discriminate; injection E as <-; try (apply op_add_ok; auto; fail);
      try (intros c E; injection E as <-; exact I);
      destruct l as [|[]|], r as [|[]|]; try apply float_op_ok; try apply float_cmp_ok;
      intros c E; unfold op_sub, op_mul, op_div, op_mod, op_lt, op_gt, op_leq, op_geq, op_eq in E;
      try discriminate;
      try (injection E as <-; exact I);
      try (destruct (_ =? 0); [discriminate|]);
      apply bind_ok in E as (t & Et & E); injection E as <-; exact I.
  Qed.
  Lemma unop_ok : forall i f v, unop i = Some f -> oc_ok (f v).
  Proof.
    intros i f v E. destruct i; try discriminate; injection E as <-; intros c E.
    - injection E as <-. exact I.
    - destruct v as [|[]|]; try discriminate. simpl in E.
      apply bind_ok in E as (t & Et & E); injection E as <-; exact I.
  Qed.
  Lemma kw_pok : forall h B w x, kw h B w x -> pok (plain w).
  Proof.
    intros h B [|c|l] [|c'|l'] H; simpl in *; try contradiction; auto. tauto.
  Qed.


  (** *** Stepping through a monadic program *)
  Ltac trans E :=
    repeat match type of E with
    | ext ?h ?B _ _ =>
        match goal with
        | H : kv h B _ _ |- _ => apply (vrel_ext _ _ _ _ _ _ E) in H
        | H : vrel h B _ _ |- _ => apply (vrel_ext _ _ _ _ _ _ E) in H
        | H : kvs h B _ _ |- _ => apply (vrels_ext _ _ _ _ _ _ E) in H
        | H : Forall2 (vrel h B) _ _ |- _ => apply (vrels_ext _ _ _ _ _ _ E) in H
        | H : kw h B _ _ |- _ => apply (kw_ext _ _ _ _ _ _ E) in H
        end
    end.
  Ltac nx :=
    let E := fresh "E" in let S := fresh "S" in let R := fresh "R" in
    intros ? ? ? ? ? E S R; trans E;
    match type of R with
    | keq _ _ ?x ?y => red in R; subst y
    | _ => idtac
    end; cbv beta.
  Ltac keq_lift := eapply (sim_bind keq); [apply sim_lift; [assumption|auto with nd; try (destruct (_ <? 0); auto with nd)|intros; reflexivity]|nx].
  Ltac cur := eapply (sim_bind keq); [apply sim_mget; [assumption|red; symmetry; try symmetry; apply sr_cur; assumption]|nx].

  Ltac prim :=
    first [ apply sim_pop_v; assumption
          | apply sim_pop; assumption
          | apply sim_operand; assumption
          | apply sim_pop_n; assumption
          | apply sim_raise; assumption
          | apply sim_set_world; assumption
          | apply sim_push; [assumption|eassumption]
          | apply sim_deref; [assumption|eassumption]
          | apply sim_gc_copy; [assumption|eassumption] ].
  Ltac bnd := eapply sim_bind; [prim|nx].

  Lemma sim_sys_float : forall k B s a, SR B s a ->
    sim keq B s a (sys_float ops k) (sys_float abs_ops k).
  Proof.
    intros k B s a S. unfold sys_float. bnd.
    rewrite (kw_plain _ _ _ _ R). destruct (is_number (plain y)); [|prim].
    keq_lift. apply sim_push_s; simpl; auto.
  Qed.

  Lemma Forall2_rev : forall {X Y} (R : X -> Y -> Prop) l l',
    Forall2 R l l' -> Forall2 R (rev l) (rev l').
  Proof.
    induction 1; simpl; auto. apply Forall2_app; auto.
  Qed.

  Lemma Forall2_zrepeat_null : forall h B n, Forall2 (vrel h B) (zrepeat None n) (zrepeat ANone n).
  Proof.
    intros h B n. unfold zrepeat. induction (Z.to_nat n); simpl; auto.
    constructor; simpl; auto.
  Qed.

  Lemma sim_new_thread : forall f B s a l l', SR B s a -> kvs (m_heap s) B l l' ->
    sim keq B s a (new_thread ops f l) (new_thread abs_ops f l').
  Proof.
    intros f B s a l l' S F. unfold new_thread.
    rewrite (Forall2_zlen _ _ _ F).
    destruct (num_args f =? zlen l'); [|apply sim_ret; auto; reflexivity].
    eapply sim_bind; [apply sim_copy_all; eauto|nx].
    eapply sim_bind; [apply sim_add_thread; auto|nx].
    - constructor; simpl; auto. apply Forall2_rev. exact R.
      rewrite (Forall2_zlen _ _ _ R). reflexivity.
    - apply sim_ret; auto. reflexivity.
  Qed.

  Lemma sim_world : forall B s a, SR B s a -> sim keq B s a (mget m_world) (mget m_world).
  Proof. intros. apply sim_mget; auto. apply H. Qed.

  Ltac kwd R :=
    match type of R with
    | kw _ _ ?x ?y =>
        destruct x as [|[]|], y as [|[]|]; simpl in R; try contradiction;
        try (let Q := fresh "Q" in
             match type of R with
             | _ /\ _ => destruct R as [Q ?]; try discriminate Q; try (injection Q as <-)
             end)
    end.

  Lemma sim_pop_hargs : forall n B s a, SR B s a -> sim keq B s a (pop_hargs ops n) (pop_hargs abs_ops n).
  Proof.
    induction n as [|n IH]; intros B s a S; cbn [pop_hargs]; [apply sim_ret; auto; reflexivity|].
    bnd. eapply sim_bind; [apply IH; auto|nx]. apply sim_ret; auto. unfold keq in *. subst. f_equal.
    kwd R; try reflexivity. cbn [harg_of]. now rewrite (Forall2_zlen _ _ _ R).
  Qed.
  Lemma sim_push_hret : forall r B s a, SR B s a -> sim keq B s a (push_hret ops r) (push_hret abs_ops r).
  Proof.
    intros r B s a S; destruct r; cbn [push_hret]; [apply sim_push; simpl; auto|..]; apply sim_push_s; simpl; auto. apply nonul_cstr.
  Qed.
  Lemma sim_run_sys : forall prog f n B s a, SR B s a ->
    sim keq B s a (run_sys ops prog f n) (run_sys abs_ops prog f n).
  Proof.
    intros prog f n B s a S. destruct f; cbn [run_sys].
    - (* abs *) bnd. kwd R; try prim.
      + keq_lift. apply sim_push_s; simpl; auto.
      + apply sim_push_s; simpl; auto.
    - (* min *) bnd. bnd.
      rewrite (kw_plain _ _ _ _ R), (kw_plain _ _ _ _ R0).
      destruct (_ && _); [|prim]. keq_lift. keq_lift. apply sim_push_s; simpl; auto.
    - (* max *) bnd. bnd.
      rewrite (kw_plain _ _ _ _ R), (kw_plain _ _ _ _ R0).
      destruct (_ && _); [|prim]. keq_lift. keq_lift. apply sim_push_s; simpl; auto.
    - (* bitand *) bnd. bnd. kwd R; try prim; kwd R0; try prim. apply sim_push_s; simpl; auto.
    - eapply sim_bind; [apply sim_world; auto|nx]. apply sim_sys_float; auto.
    - eapply sim_bind; [apply sim_world; auto|nx]. apply sim_sys_float; auto.
    - eapply sim_bind; [apply sim_world; auto|nx]. apply sim_sys_float; auto.
    - (* len *) bnd. kwd R; try prim.
      + apply sim_push_s; simpl; auto.
      + rewrite (Forall2_zlen _ _ _ R). apply sim_push_s; simpl; auto.
    - (* chr *) bnd. kwd R; try prim. apply sim_push_s; auto. apply nonul_cstr.
    - apply sim_sys_float; auto.
    - apply sim_sys_float; auto.
    - apply sim_sys_float; auto.
    - apply sim_sys_float; auto.
    - (* new_thread *)
      destruct (n <=? 0); [prim|]. bnd. bnd. kwd R0; try prim.
      destruct (function_find_pc prog _); [|prim]. destruct (negb _); [prim|].
      eapply sim_bind; [apply sim_new_thread; auto; apply Forall2_rev; exact R|nx].
      apply sim_push_s; simpl; auto.
    - (* wait *) bnd. rewrite (kw_plain _ _ _ _ R). destruct (is_number (plain y)); [|prim].
      keq_lift. eapply sim_bind; [apply sim_mod_cur; auto|nx].
      + destruct S1, sr_cur0. constructor; simpl; auto.
      + eapply sim_bind; [apply sim_push_s; simpl; auto|nx].
        destruct (0 <? _); [|apply sim_ret; auto; reflexivity].
        apply sim_mod_cur; auto. destruct S3, sr_cur0. constructor; simpl; auto.
    - (* new_array *) bnd. rewrite (kw_plain _ _ _ _ R). destruct (is_number (plain y)); [|prim].
      keq_lift. destruct (_ <=? 0); [prim|].
      eapply sim_bind; [apply sim_new_a; auto; apply Forall2_zrepeat_null|nx]. prim.
    - (* rand *) eapply sim_bind; [apply sim_world; auto|nx]. bnd. apply sim_push_s; simpl; auto.
    - (* getc *) eapply sim_bind; [apply sim_world; auto|nx]. destruct (w_in x).
      + apply sim_push_s; simpl; auto.
      + bnd. apply sim_push_s; simpl; auto.
    - (* putc *) bnd. kwd R; try stuck_;
        try (bnd; apply sim_push_s; simpl; auto; fail).
      eapply sim_bind; [apply sim_world; auto|nx]. bnd. apply sim_push_s; simpl; auto.
    - (* gets *) eapply sim_bind; [apply sim_world; auto|nx]. destruct (w_in x); [stuck_|].
      destruct (fgets 79 (z :: l)). bnd. apply sim_push_s; auto. apply nonul_cstr.
    - (* puts *) bnd. kwd R; try stuck_;
        try (bnd; apply sim_push_s; simpl; auto; fail).
      eapply sim_bind; [apply sim_world; auto|nx]. bnd. apply sim_push_s; simpl; auto.
    - (* host *) eapply sim_bind; [apply sim_pop_hargs; auto|nx]. eapply sim_bind; [apply sim_world; auto|nx]. cbv zeta. bnd.
      destruct (w_host _ _); [apply sim_push_hret; auto|prim].
    - (* sleep *) bnd. rewrite (kw_plain _ _ _ _ R). destruct (is_number (plain y)); [|apply sim_push; simpl; auto].
      keq_lift. eapply sim_bind; [apply sim_world; auto|nx]. bnd. eapply sim_bind; [apply sim_mod_cur; auto|nx]; [|apply sim_push; simpl; auto].
      destruct S3, sr_cur0. constructor; simpl; auto.
  Qed.

  (** String constants of the program contain no NUL. *)
  Definition prog_ok (prog : program_t) : Prop :=
    Forall (fun t => ~ In 0 t) (p_strings prog).

  Lemma sim_do_syscall : forall prog i n B s a, SR B s a ->
    sim keq B s a (do_syscall ops prog i n) (do_syscall abs_ops prog i n).
  Proof.
    intros. unfold do_syscall. destruct (znth _ i) as [[? [|]]|]; try stuck_.
    apply sim_run_sys; auto.
  Qed.

  Lemma sim_set_pc : forall B s a o, SR B s a ->
    sim keq B s a (mod_cur (fun t => t_set_pc t o)) (mod_cur (fun t => t_set_pc t o)).
  Proof. intros. apply sim_mod_cur; auto. destruct H, sr_cur0. constructor; simpl; auto. Qed.

  Lemma sim_head : forall B s a, SR B s a -> sim keq B s a head head.
  Proof.
    intros. apply sim_mget; auto. red. eapply Forall2_zlen. apply (tr_stk _ _ _ _ (sr_cur _ _ _ H)).
  Qed.
  Lemma sim_pc : forall B s a, SR B s a ->
    sim keq B s a (mget (fun s => t_pc (m_cur s))) (mget (fun s => t_pc (m_cur s))).
  Proof. intros. apply sim_mget; auto. apply (tr_pc _ _ _ _ (sr_cur _ _ _ H)). Qed.
  Lemma sim_frs : forall B s a, SR B s a ->
    sim keq B s a (mget (fun s => t_frs (m_cur s))) (mget (fun s => t_frs (m_cur s))).
  Proof. intros. apply sim_mget; auto. apply (tr_frs _ _ _ _ (sr_cur _ _ _ H)). Qed.
  Lemma sim_stk : forall B s a, SR B s a ->
    sim kvs B s a (mget (fun s => t_stk (m_cur s))) (mget (fun s => t_stk (m_cur s))).
  Proof. intros. apply sim_mget; auto. apply (tr_stk _ _ _ _ (sr_cur _ _ _ H)). Qed.
  Lemma sim_enter : forall x y z B s a, SR B s a -> sim keq B s a (enter x y z) (enter x y z).
  Proof.
    intros. apply sim_mod_cur; auto. destruct H, sr_cur0. constructor; simpl; auto. congruence.
  Qed.
  Lemma sim_leave : forall B s a, SR B s a -> sim keq B s a leave leave.
  Proof.
    intros B s a S. unfold leave. eapply sim_bind; [apply sim_frs; auto|nx].
    destruct x as [|f r].
    - bnd. apply sim_ret; auto. reflexivity.
    - eapply sim_bind; [apply sim_mod_cur; auto|nx].
      + destruct S0, sr_cur0. constructor; simpl; auto.
      + eapply (sim_bind keq).
        * destruct (_ || _); [|apply sim_ret; auto; reflexivity].
          eapply sim_bind; [apply sim_head; auto|nx].
          apply sim_lift; [auto|auto with nd|intros; reflexivity].
        * nx. apply sim_ret; auto. reflexivity.
  Qed.

  Lemma stk_get_rel : forall h B l l' i, Forall2 (vrel h B) l l' ->
    match stk_get l i, stk_get l' i with
    | Some p, Some v => vrel h B p v
    | None, None => True
    | _, _ => False
    end.
  Proof.
    intros h B l l' i F. unfold stk_get. rewrite (Forall2_zlen _ _ _ F).
    destruct (_ && _); auto. apply Forall2_znth. exact F.
  Qed.

  Lemma zskipn_rel : forall {X Y} (R : X -> Y -> Prop) l l' n,
    Forall2 R l l' -> Forall2 R (zskipn n l) (zskipn n l').
  Proof.
    intros X Y R l l' n F; revert n. induction F; intros n; simpl; auto.
    destruct (n <=? 0); auto.
  Qed.

  Lemma sim_set : forall B s a p v i q w,
    SR B s a -> vrel (m_heap s) B p v -> vrel (m_heap s) B q w ->
    sim keq B s a
      (mbind (mget m_heap) (fun h => mbind (lift (h_set ops h p i q)) (fun h' => set_heap h')))
      (mbind (mget m_heap) (fun h => mbind (lift (h_set abs_ops h v i w)) (fun h' => set_heap h'))).
  Proof.
    intros B s a p v i q w S V W. unfold sim, mbind, mget, lift. simpl.
    unfold gc_set, abs_set.
    destruct p as [x|], v as [|c|l]; simpl in V; try contradiction; simpl; auto.
    - destruct V as [R _]. rewrite R. reflexivity.
    - pose proof (sr_heap _ _ _ S) as [Wf Fn In Ob].
      destruct (Ob x l V) as (ps & vs & R & Z & F). rewrite R, Z.
      rewrite (Forall2_zlen _ _ _ F). destruct (_ && _); simpl; auto.
      assert (X : ext (m_heap s) B (write (m_heap s) x (KA (zupd ps i q))) B).
      { split; auto. intros y c Ry. rewrite read_write_other; auto. congruence. }
      exists B. split; auto. split; [|reflexivity].
      apply SR_heap with (B := B); auto. constructor; auto.
      + eapply wfh_write; eauto. cbn [cell_size]. now rewrite zlen_zupd.
      + intros y k Hy. destruct (addr_dec y x) as [->|N].
        * rewrite <- (Fn x l k V Hy). exists (zupd ps i q), (zupd vs i w).
          split; [apply read_write_same|]. split.
          -- apply znth_zupd_same. apply znth_some in Z. exact Z.
          -- apply Forall2_zupd; [eapply vrels_ext; eauto|eapply vrel_ext; eauto].
        * destruct (Ob y k Hy) as (ps' & vs' & R' & Z' & F'). exists ps', vs'.
          split; [rewrite read_write_other; auto|]. split.
          -- rewrite znth_zupd_other; auto. intros ->. apply N. eapply In; eauto.
          -- eapply vrels_ext; eauto.
  Qed.

  Lemma sim_do_ins : forall prog i B s a, prog_ok prog -> SR B s a ->
    sim keq B s a (do_ins ops prog i) (do_ins abs_ops prog i).
  Proof.
    intros prog i B s a PO S.
    assert (BIN : forall f, binop i = Some f -> sim keq B s a
       (mbind (pop_v ops) (fun r => mbind (pop_v ops) (fun l => finish_op ops (f (plain l) (plain r)))))
       (mbind (pop_v abs_ops) (fun r => mbind (pop_v abs_ops) (fun l => finish_op abs_ops (f (plain l) (plain r)))))).
    { intros f E. bnd. bnd.
      rewrite <- (kw_plain _ _ _ _ R), <- (kw_plain _ _ _ _ R0).
      apply sim_finish_op; [auto|eapply binop_nd; eauto|eapply binop_ok; eauto using kw_pok]. }
    assert (UN : forall f, unop i = Some f -> sim keq B s a
       (mbind (pop_v ops) (fun l => finish_op ops (f (plain l))))
       (mbind (pop_v abs_ops) (fun l => finish_op abs_ops (f (plain l))))).
    { intros f E. bnd. rewrite <- (kw_plain _ _ _ _ R).
      apply sim_finish_op; [auto|eapply unop_nd; eauto|eapply unop_ok; eauto]. }
    destruct i; cbn [do_ins binop unop]; try (apply BIN; reflexivity); try (apply UN; reflexivity);
      clear BIN UN.
    - (* JMP *) bnd. apply sim_set_pc; auto.
    - (* TJMP *) bnd. bnd. rewrite (kw_plain _ _ _ _ R).
      destruct (as_bool _); [apply sim_set_pc; auto|apply sim_ret; auto; reflexivity].
    - (* FJMP *) bnd. bnd. rewrite (kw_plain _ _ _ _ R).
      destruct (as_bool _); [apply sim_ret; auto; reflexivity|apply sim_set_pc; auto].
    - (* CALL *) bnd. bnd. eapply sim_bind; [apply sim_head; auto|nx].
      eapply sim_bind; [apply sim_pc; auto|nx]. apply sim_enter; auto.
    - (* RET *) bnd. bnd. eapply sim_bind; [apply sim_head; auto|nx].
      destruct (_ <? x); [prim|]. destruct (x <? 0); [stuck_|].
      eapply sim_bind; [apply sim_mod_cur; auto|nx].
      + destruct S2, sr_cur0. constructor; simpl; auto. apply zskipn_rel; auto.
      + bnd. eapply sim_bind; [apply sim_leave; auto|nx]. apply sim_set_pc; auto.
    - (* SCALL *) bnd. bnd. apply sim_do_syscall; auto.
    - (* ICALL *) bnd. bnd. kwd R; try stuck_; try prim.
      + destruct (function_find_pc prog _); [|stuck_].
        eapply (sim_bind keq).
        * destruct (_ =? _); [apply sim_ret; auto; reflexivity|prim].
        * nx. eapply sim_bind; [apply sim_head; auto|nx].
          eapply sim_bind; [apply sim_pc; auto|nx]. apply sim_enter; auto.
      + apply sim_do_syscall; auto.
    - (* POP *) bnd. bnd. apply sim_ret; auto; reflexivity.
    - (* NEW_INT *) bnd. apply sim_push_s; simpl; auto.
    - (* NEW_STR *) bnd. keq_lift. destruct (znth (p_strings prog) x) eqn:Z; [|stuck_].
      apply sim_push_s; auto. apply znth_In in Z. red in PO. rewrite Forall_forall in PO.
      apply PO; auto.
    - (* NEW_ARY *) bnd. keq_lift.
      eapply sim_bind; [apply sim_new_a; auto; apply Forall2_zrepeat_null|nx]. prim.
    - (* NEW_NONE *) apply sim_push; simpl; auto.
    - (* NEW_FLT *) bnd. apply sim_push_s; simpl; auto.
    - (* NEW_FUNC *) bnd. keq_lift. apply sim_push_s; simpl; auto.
    - (* NEW_SCALL *) bnd. keq_lift. apply sim_push_s; simpl; auto.
    - (* LOCALS *) bnd. destruct (x <? 0); [stuck_|]. apply sim_mod_cur; auto.
      destruct S0, sr_cur0. constructor; simpl; auto. apply Forall2_app; auto.
      apply Forall2_zrepeat_null.
    - (* GLOBALS *) bnd. destruct (x =? 0); [apply sim_ret; auto; reflexivity|].
      destruct (x <? 0); [stuck_|]. apply sim_set_glob; auto. apply Forall2_zrepeat_null.
    - (* GETV *) bnd. eapply sim_bind; [apply sim_frs; auto|nx].
      destruct x0 as [|f r]; [stuck_|]. keq_lift.
      eapply sim_bind; [apply sim_stk; auto|nx].
      pose proof (stk_get_rel _ _ _ _ x0 R) as Q.
      destruct (stk_get x1 x0), (stk_get y x0); try contradiction.
      + apply sim_push; auto.
      + bnd. apply sim_push; simpl; auto.
    - (* SETV *) bnd. bnd. eapply sim_bind; [apply sim_frs; auto|nx].
      destruct x1 as [|f r]; [stuck_|]. keq_lift.
      eapply sim_bind; [apply sim_stk; auto|nx].
      pose proof (stk_get_rel _ _ _ _ x1 R0) as Q.
      destruct (stk_get x2 x1), (stk_get y0 x1); try contradiction; [|prim].
      apply sim_mod_cur; auto. destruct S4, sr_cur0. constructor; simpl; auto.
      unfold stk_set. rewrite (Forall2_zlen _ _ _ tr_stk0). apply Forall2_zupd; auto.
    - (* DEREF *) bnd. bnd.
      destruct x as [|c|l], y as [|c'|l']; simpl in R; try contradiction; [prim| |].
      + destruct R as [<- K]. bnd.
        match goal with H : kw _ _ _ _ |- _ => kwd H; try prim end.
        destruct c as [| |t| |]; try prim. destruct (znth t _); [|prim]. apply sim_push_s; simpl; auto.
      + bnd. match goal with H : kw _ _ _ _ |- _ => kwd H; try prim end.
        pose proof (Forall2_znth _ _ _ R z) as Q.
        destruct (znth l z), (znth l' z); try contradiction; [|prim]. apply sim_push; auto.
    - (* SETA *) bnd. bnd. bnd. bnd.
      destruct x2 as [|c|l], y2 as [|c'|l']; simpl in R2; try contradiction; try prim.
      bnd. kwd R3; try prim. rewrite (Forall2_zlen _ _ _ R2).
      destruct (_ && _); [|prim].
      eapply sim_bind; [apply sim_deref; [assumption|exact R1]|nx].
      eapply (sim_bind kv).
      + match goal with H : kw _ _ ?u ?w |- _ =>
          destruct u as [|c|q], w as [|c'|q']; simpl in H; try contradiction; try prim end.
        apply sim_ret; auto.
      + nx. apply sim_set; auto.
    - (* GETG *) bnd.
      eapply (sim_bind kvs); [apply sim_mget; auto; apply S0|nx].
      pose proof (Forall2_znth _ _ _ R x) as Q.
      destruct (znth x0 x), (znth y x); try contradiction; [|prim]. apply sim_push; auto.
    - (* SETG *) bnd.
      eapply (sim_bind kvs); [apply sim_mget; auto; apply S0|nx].
      pose proof (Forall2_znth _ _ _ R x) as Q.
      destruct (znth x0 x), (znth y x); try contradiction; [|prim]. bnd.
      apply sim_set_glob; auto. apply Forall2_zupd; auto.
    - (* GETM *) bnd. bnd. destruct (znth _ x0); [|stuck_]. kwd R; try prim.
      destruct (bytes_eqb _ _); [|prim].
      rewrite (Forall2_zlen _ _ _ R). apply sim_push_s; simpl; auto.
    - (* SETM *) bnd. bnd. bnd. destruct (znth _ x1); [|stuck_]. prim.
    - (* ARY_INIT *) bnd. keq_lift. bnd.
      eapply sim_bind; [apply sim_new_a; auto; apply Forall2_rev; exact R|nx]. prim.
  Qed.


  Lemma sim_step_imp : forall prog B s a, prog_ok prog -> SR B s a ->
    sim keq B s a (step_imp ops prog) (step_imp abs_ops prog).
  Proof.
    intros prog B s a PO S. unfold step_imp.
    eapply sim_bind; [apply sim_fetch; auto|nx].
    eapply (sim_bind keq).
    - destruct (of_opcode x); [apply sim_do_ins; auto|prim].
    - nx. eapply sim_bind; [apply sim_mod_cur; auto|nx].
      + match goal with S : SR _ ?x ?y |- trel _ _ _ (match t_bps (m_cur ?y) with _ => _ end) =>
          destruct S, sr_cur0; unfold source_line; rewrite tr_bps0; destruct (t_bps (m_cur y)) eqn:BP end;
          [constructor; auto; try congruence|].
        rewrite tr_pc0, tr_last0, tr_hal0.
        constructor; simpl; auto; congruence.
      + apply sim_mod_cur; auto.
        match goal with S : SR _ ?x ?y |- trel _ _ (t_set_cyc (m_cur ?x) _) _ => destruct S, sr_cur0 end.
        constructor; simpl; auto; congruence.
  Qed.

  (** *** Relation between whole machines *)
  Record VR (B : bmap) (v : vm ptr heap) (a : vm aval aheap) : Prop := {
    vr_heap : HR (vm_heap a) (vm_heap v) B;
    vr_glob : Forall2 (vrel (vm_heap v) B) (vm_glob v) (vm_glob a);
    vr_world : vm_world v = vm_world a;
    vr_threads : Forall2 (trel (vm_heap v) B) (vm_threads v) (vm_threads a)
  }.

  Lemma SR_join : forall B s a, SR B s a -> VR B (join s) (join a).
  Proof.
    intros B s a []. constructor; simpl; auto. apply Forall2_app; auto.
  Qed.

  Lemma SR_split : forall B v a n, VR B v a -> rrel (SR B) (split n v) (split n a).
  Proof.
    intros B v a n []. unfold split.
    assert (F1 : forall n, Forall2 (trel (vm_heap v) B) (firstn n (vm_threads v)) (firstn n (vm_threads a))).
    { clear n. intros n. revert n. induction vr_threads0; intros [|n]; simpl; auto. }
    assert (F2 : forall n, Forall2 (trel (vm_heap v) B) (skipn n (vm_threads v)) (skipn n (vm_threads a))).
    { clear n F1. intros n. revert n. induction vr_threads0; intros [|n]; simpl; auto. }
    specialize (F1 n). specialize (F2 n).
    inversion F2; simpl; auto. constructor; simpl; auto.
  Qed.

  Lemma set_stacks_id : forall (ts : list (thread aval)),
    set_stacks ts (map (fun t => rev (t_stk t)) ts) = ts.
  Proof.
    induction ts as [|t ts IH]; simpl; auto. rewrite IH, rev_involutive. now destruct t.
  Qed.
  Lemma abs_gc_collect_vm : forall v, gc_collect_vm abs_ops v = Ok v.
  Proof.
    intros [h g w ts]. unfold gc_collect_vm. simpl. now rewrite set_stacks_id.
  Qed.
  Lemma abs_gc_collect : forall s, gc_collect abs_ops s = Ok (tt, s).
  Proof.
    intros [h g w pre c post]. unfold gc_collect. rewrite abs_gc_collect_vm. simpl.
    unfold split; simpl. rewrite skipn_app, skipn_all, Nat.sub_diag. simpl.
    rewrite firstn_app, firstn_all, Nat.sub_diag. simpl. now rewrite app_nil_r.
  Qed.

  Lemma set_stacks_rel : forall h h' B B' ts us rs,
    Forall2 (trel h B) ts us ->
    Forall2 (Forall2 (vrel h' B')) rs (map (fun t => rev (t_stk t)) us) ->
    Forall2 (trel h' B') (set_stacks ts rs) us.
  Proof.
    intros h h' B B' ts us rs F. revert rs. induction F as [|t u ts us T F IH]; intros rs K; simpl.
    - constructor.
    - inversion K as [|r ? rs' ? K1 K2]; subst. simpl. constructor; auto.
      destruct T. constructor; simpl; auto.
      rewrite <- (rev_involutive (t_stk u)). apply Forall2_rev. exact K1.
  Qed.

  Lemma ref_gc_collect_vm : forall B v a, VR B v a ->
    rrel (fun v' a' => exists B', VR B' v' a') (gc_collect_vm ops v) (gc_collect_vm abs_ops a).
  Proof.
    intros B v a V. rewrite abs_gc_collect_vm. unfold gc_collect_vm. simpl.
    assert (F : Forall2 (Forall2 (vrel (vm_heap v) B)) (roots_of (vm_glob v) (vm_threads v))
                        (roots_of (vm_glob a) (vm_threads a))).
    { destruct V. constructor; auto. clear - vr_threads0. induction vr_threads0; simpl; auto.
      constructor; auto. apply Forall2_rev. apply H. }
    pose proof (collect_safe _ cap fuel _ _ _ _ (vr_heap _ _ _ V) F) as SF.
    destruct (collect cap fuel (vm_heap v) _) as [[h rs]|e l|[]] eqn:E; simpl in *; auto; try contradiction.
    destruct (collect_spec _ _ _ _ _ _ _ _ _ (vr_heap _ _ _ V) F E) as (_ & B' & H' & F' & _).
    inversion F' as [|g ? rs' ? Fg Fr]; subst. simpl. exists B'. destruct V.
    constructor; simpl; auto. eapply set_stacks_rel; eauto.
  Qed.

  Definition orel {X} (x : X * mst ptr heap) (y : X * mst aval aheap) : Prop :=
    fst x = fst y /\ exists B, SR B (snd x) (snd y).

  Lemma ref_gc_collect : forall B s a, SR B s a ->
    rrel orel (gc_collect ops s) (gc_collect abs_ops a).
  Proof.
    intros B s a S. unfold gc_collect.
    pose proof (ref_gc_collect_vm _ _ _ (SR_join _ _ _ S)) as H.
    replace (List.length (m_pre a)) with (List.length (m_pre s))
      by (eapply Forall2_length; apply S).
    destruct (gc_collect_vm ops (join s)) as [v'|e l|[]], (gc_collect_vm abs_ops (join a)) as [a'|e' l'|st];
      simpl in *; auto; try contradiction; try (exfalso; exact H).
    destruct H as [B' V']. pose proof (SR_split _ _ _ (List.length (m_pre s)) V') as Q.
    destruct (split _ v') as [s'|e l|[]], (split _ a') as [t'|e' l'|[]];
      simpl in *; auto; try contradiction; try discriminate.
    split; simpl; eauto.
  Qed.

  Lemma sim_orel : forall {X} B s a (m : M X) m', sim keq B s a m m' -> rrel orel (m s) (m' a).
  Proof.
    intros X B s a m m' H. eapply rrel_imp; [|exact H]. intros x y (B' & _ & S & E).
    split; eauto.
  Qed.

  Lemma orel_bind : forall {X Y} (m : @M ptr heap X) (m' : @M aval aheap X) (k : X -> @M ptr heap Y) k' s a,
    rrel orel (m s) (m' a) ->
    (forall x s' a', (exists B, SR B s' a') -> rrel orel (k x s') (k' x a')) ->
    rrel orel (mbind m k s) (mbind m' k' a).
  Proof.
    intros X Y m m' k k' s a H K. unfold mbind.
    destruct (m s) as [[x s1]|e l|st], (m' a) as [[y a1]|e' l'|st']; simpl in *; auto;
      try contradiction; try (destruct st; auto; contradiction).
    destruct H as [E S]; simpl in *; subst. auto.
  Qed.

  Lemma ref_tick_gc : forall B s a, SR B s a ->
    rrel orel (tick_gc ops s) (tick_gc abs_ops a).
  Proof.
    intros B s a S. unfold tick_gc. simpl. destruct (policy (m_heap s)).
    - rewrite <- abs_gc_collect. eapply ref_gc_collect; eauto.
    - simpl. split; eauto.
  Qed.

  Lemma trel_fin : forall B s a, SR B s a -> t_fin (m_cur s) = t_fin (m_cur a).
  Proof. intros B s a S. apply (sr_cur _ _ _ S). Qed.
  Lemma trel_hal : forall B s a, SR B s a -> t_hal (m_cur s) = t_hal (m_cur a).
  Proof. intros B s a S. apply (sr_cur _ _ _ S). Qed.
  Lemma trel_noerr : forall h B t u, trel h B t u -> no_error t = no_error u.
  Proof. intros h B t u []. unfold no_error. now rewrite tr_err0. Qed.

  Lemma orel_ret : forall {X} (x : X) s a, (exists B, SR B s a) -> rrel orel (ret x s) (ret x a).
  Proof. intros. simpl. split; auto. Qed.

  Lemma ref_resume_loop : forall prog n s a, prog_ok prog -> (exists B, SR B s a) ->
    rrel orel (resume_loop ops prog n s) (resume_loop abs_ops prog n a).
  Proof.
    intros prog n. induction n as [|n IH]; intros s a PO [B S]; cbn [resume_loop].
    - apply orel_ret; eauto.
    - apply orel_bind; [eapply ref_tick_gc; eauto|]. intros [] s1 a1 [B1 S1].
      apply orel_bind; [eapply sim_orel, sim_step_imp; eauto|]. intros [] s2 a2 [B2 S2].
      unfold mbind, mget.
      rewrite (trel_fin _ _ _ S2), (trel_hal _ _ _ S2).
      destruct (t_fin (m_cur a2)); [apply orel_ret; eauto|].
      destruct (t_hal (m_cur a2)); [apply orel_ret; eauto|]. apply IH; eauto.
  Qed.

  Lemma ref_resume : forall prog n s a, prog_ok prog -> (exists B, SR B s a) ->
    rrel orel (resume ops prog n s) (resume abs_ops prog n a).
  Proof.
    intros prog n s a PO [B S]. unfold resume.
    unfold mbind at 1. unfold mbind at 3. unfold mget at 1 3.
    rewrite (trel_fin _ _ _ S). destruct (t_fin (m_cur a)); [apply orel_ret; eauto|].
    apply orel_bind.
    { eapply sim_orel, sim_mod_cur; eauto. destruct S, sr_cur0. constructor; simpl; auto. }
    intros [] s1 a1 S1.
    apply orel_bind; [apply ref_resume_loop; auto|]. intros [] s2 a2 [B2 S2].
    simpl. split; simpl; eauto. eapply trel_noerr; apply S2.
  Qed.

  Lemma ref_step_inst : forall prog s a, prog_ok prog -> (exists B, SR B s a) ->
    rrel orel (step_inst ops prog s) (step_inst abs_ops prog a).
  Proof.
    intros prog s a PO [B S]. unfold step_inst.
    unfold mbind at 1. unfold mbind at 3. unfold mget at 1 3.
    rewrite (trel_fin _ _ _ S). destruct (t_fin (m_cur a)); [apply orel_ret; eauto|].
    apply orel_bind; [eapply ref_gc_collect; eauto|]. intros [] s1 a1 [B1 S1].
    apply orel_bind; [eapply sim_orel, sim_step_imp; eauto|]. intros [] s2 a2 [B2 S2].
    simpl. split; simpl; eauto. eapply trel_noerr; apply S2.
  Qed.

  Lemma ref_step_line_loop : forall prog l n s a, prog_ok prog -> (exists B, SR B s a) ->
    rrel orel (step_line_loop ops prog n l s) (step_line_loop abs_ops prog n l a).
  Proof.
    intros prog l n. induction n as [|n IH]; intros s a PO [B S]; cbn [step_line_loop]; [exact Logic.I|].
    apply orel_bind; [eapply sim_orel, sim_step_imp; eauto|]. intros [] s2 a2 [B2 S2].
    unfold mbind, mget, lift, assert_. rewrite (trel_fin _ _ _ S2), (trel_noerr _ _ _ _ (sr_cur _ _ _ S2)).
    assert (E : t_frs (m_cur s2) = t_frs (m_cur a2) /\ t_pc (m_cur s2) = t_pc (m_cur a2)) by (split; apply (sr_cur _ _ _ S2)).
    destruct E as [E1 E2]. unfold source_line. rewrite E1, E2.
    destruct (t_fin (m_cur a2)); [apply orel_ret; eauto|]. destruct (t_frs (m_cur a2)); [reflexivity|]. destruct (no_error (m_cur a2)); [|reflexivity].
    destruct (line_eqb l (Program.get_line prog (t_pc (m_cur a2)))); [apply IH; eauto|apply orel_ret; eauto].
  Qed.
  Lemma ref_step_line : forall prog n s a, prog_ok prog -> (exists B, SR B s a) ->
    rrel orel (step_line ops prog n s) (step_line abs_ops prog n a).
  Proof.
    intros prog n s a PO [B S]. unfold step_line.
    unfold mbind at 1. unfold mbind at 2. unfold mget at 1 3.
    rewrite (trel_fin _ _ _ S). destruct (t_fin (m_cur a)); [apply orel_ret; eauto|].
    replace (source_line prog (m_cur s)) with (source_line prog (m_cur a)) by (unfold source_line; destruct S, sr_cur0; congruence).
    apply orel_bind; [apply ref_step_line_loop; eauto|]. intros [] s2 a2 [B2 S2].
    simpl. split; simpl; eauto. eapply trel_noerr; apply S2.
  Qed.

  Definition vrel2 (x : bool * vm ptr heap) (y : bool * vm aval aheap) : Prop :=
    fst x = fst y /\ exists B, VR B (snd x) (snd y).

  Lemma ref_vm_round : forall prog n cycles h g w pre post h' g' pre' post' B,
    prog_ok prog ->
    HR h' h B -> Forall2 (vrel h B) g g' -> Forall2 (trel h B) pre pre' ->
    Forall2 (trel h B) post post' ->
    rrel vrel2 (vm_round ops prog n cycles h g w pre post)
               (vm_round abs_ops prog n cycles h' g' w pre' post').
  Proof.
    intros prog n. induction n as [|n IH]; intros cycles h g w pre post h' g' pre' post' B PO HH HG HP HQ.
    - destruct HQ; simpl; auto. split; simpl; auto. exists B. constructor; auto.
    - destruct HQ as [|t u post post' T HQ]; simpl.
      + split; simpl; auto. exists B. constructor; auto.
      + rewrite (tr_waits _ _ _ _ T), (tr_fin _ _ _ _ T), (trel_noerr _ _ _ _ T).
        destruct (negb (t_waits u =? 0)).
        * unfold chk32. destruct (in_i32 (t_waits u - 1)); cbn [bind]; [|cbn; auto].
          eapply IH; eauto. apply Forall2_app; auto. constructor; auto.
          destruct T. constructor; simpl; auto; congruence.
        * destruct (t_fin u || negb (no_error u)).
          -- eapply IH; eauto.
          -- assert (S : exists B, SR B (Mst h g w pre t post) (Mst h' g' w pre' u post')).
             { exists B. constructor; simpl; auto. }
             pose proof (ref_resume prog cycles _ _ PO S) as R.
             destruct (resume ops prog cycles _) as [[ok s1]|e l|st],
                      (resume abs_ops prog cycles _) as [[ok' a1]|e' l'|st'];
               simpl in *; auto; try contradiction; try (destruct st; auto; contradiction).
             destruct R as [R [B1 S1]]. simpl in *. subst ok'. destruct ok.
             ++ destruct S1. rewrite sr_world0. eapply IH; eauto. apply Forall2_app; auto.
             ++ rewrite (trel_noerr _ _ _ _ (sr_cur _ _ _ S1)).
                destruct (no_error (m_cur a1)); simpl; auto.
                split; simpl; auto. exists B1. apply SR_join; auto.
  Qed.

  Lemma ref_vm_resume : forall prog cycles v a, prog_ok prog -> (exists B, VR B v a) ->
    rrel vrel2 (vm_resume ops prog cycles v) (vm_resume abs_ops prog cycles a).
  Proof.
    intros prog cycles v a PO [B []]. unfold vm_resume.
    rewrite (Forall2_length _ _ _ vr_threads0), vr_world0. eapply ref_vm_round; eauto.
  Qed.

  Lemma ref_vm_new_thread : forall f B v a l l', VR B v a -> Forall2 (vrel (vm_heap v) B) l l' ->
    rrel vrel2 (vm_new_thread ops v f l) (vm_new_thread abs_ops a f l').
  Proof.
    intros f B v a l l' V F. unfold vm_new_thread.
    assert (S : SR B (Mst (vm_heap v) (vm_glob v) (vm_world v) [] fresh_thread (vm_threads v))
                     (Mst (vm_heap a) (vm_glob a) (vm_world a) [] fresh_thread (vm_threads a))).
    { destruct V. constructor; simpl; auto. constructor; simpl; auto. }
    pose proof (sim_new_thread f _ _ _ l l' S F) as Q. apply sim_orel in Q.
    destruct (new_thread ops f l _) as [[ok s1]|e le|st],
             (new_thread abs_ops f l' _) as [[ok' a1]|e' le'|st'];
      simpl in *; auto; try contradiction; try (destruct st; auto; contradiction).
    destruct Q as [Q [B1 S1]]; simpl in Q, S1. split; simpl; auto. exists B1. destruct S1.
    constructor; simpl; auto. apply Forall2_app; auto.
  Qed.

  Lemma ref_call_init : forall prog v a, prog_ok prog -> (exists B, VR B v a) ->
    rrel vrel2 (call_init ops prog v) (call_init abs_ops prog a).
  Proof.
    intros prog v a PO [B V]. unfold call_init. destruct (function_find _ _); simpl.
    - eapply rrel_bind; [eapply ref_vm_new_thread; eauto|].
      intros [ok v1] [ok' a1] [E V1]; simpl in *; subst. destruct ok'.
      + apply ref_vm_resume; auto.
      + simpl. split; auto.
    - split; simpl; eauto.
  Qed.

  Lemma ref_call_loop : forall prog n s a, prog_ok prog -> (exists B, SR B s a) ->
    rrel (fun s' a' => exists B, SR B s' a') (call_loop ops prog n s) (call_loop abs_ops prog n a).
  Proof.
    intros prog n. induction n as [|n IH]; intros s a PO [B S]; cbn [call_loop];
      rewrite (trel_fin _ _ _ S), (trel_noerr _ _ _ _ (sr_cur _ _ _ S));
      destruct (t_fin (m_cur a) || negb (no_error (m_cur a))); simpl; eauto.
    pose proof (ref_resume prog (Z.to_nat (128 * 1024)) s a PO (ex_intro _ B S)) as Q.
    destruct (resume ops prog _ s) as [[ok s1]|e le|st],
             (resume abs_ops prog _ a) as [[ok' a1]|e' le'|st'];
      simpl in *; auto; try contradiction; try (destruct st; auto; contradiction).
    destruct Q as [E S1]. simpl in *. subst. destruct ok'; simpl; auto.
  Qed.

  (** call_once: same flag, same error, related return values. *)
  Lemma ref_call_once : forall prog n f B v a l l', prog_ok prog ->
    VR B v a -> Forall2 (vrel (vm_heap v) B) l l' ->
    rrel (fun x y => fst (fst (fst x)) = fst (fst (fst y)) /\ snd (fst x) = snd (fst y) /\
            exists B', VR B' (snd x) (snd y) /\
                       vrel (vm_heap (snd x)) B' (snd (fst (fst x))) (snd (fst (fst y))))
      (call_once ops prog n v f l) (call_once abs_ops prog n a f l').
  Proof.
    intros prog n f B v a l l' PO V F. unfold call_once.
    eapply rrel_bind; [eapply ref_vm_new_thread; eauto|].
    intros [ok v1] [ok' a1] [E [B1 V1]]; simpl in E, V1; subst ok'.
    eapply rrel_bind; [eapply ref_gc_collect_vm; eauto|].
    intros v2 a2 [B2 V2].
    destruct ok; simpl; auto.
    eapply rrel_bind; [eapply SR_split; eauto|]. intros s2 t2 S2.
    eapply rrel_bind; [apply ref_call_loop; eauto|]. intros s3 t3 [B3 S3].
    rewrite (tr_err _ _ _ _ (sr_cur _ _ _ S3)).
    destruct (t_err (m_cur t3)).
    - simpl. split; auto. split; auto. exists B3. split; simpl; auto. apply SR_join; auto.
    - unfold return_value. rewrite (tr_fin _ _ _ _ (sr_cur _ _ _ S3)).
      pose proof (tr_stk _ _ _ _ (sr_cur _ _ _ S3)) as Q.
      destruct (t_fin (m_cur t3)).
      + destruct Q; simpl; auto. split; auto. split; auto. exists B3. split; auto. apply SR_join; auto.
      + simpl. split; auto. split; auto. exists B3. split; simpl; auto. apply SR_join; auto.
  Qed.

End Ops.
