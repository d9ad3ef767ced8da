(** Proofs about when the compiler stays clear of its own assertions. *)
From Coq Require Import ZArith List Bool Lia String ZifyBool.
From Verif Require Import Base BaseFacts F32 Instr Program Ast PrintFacts Sema SemaSpec SemaFacts ConstFacts Optimize OptFacts
  Codegen SrcSem CgCode CgSpec Build BuildSpec CgWell CompileSpec CompileFacts.
Import ListNotations.
Open Scope list_scope.
Open Scope Z_scope.

(** A result or an error; or else an overflow. *)
Definition settles {A} (r : res A) (P : A -> Prop) : Prop :=
  match r with Ok a => P a | Err _ _ => True | Stuck _ => False end.
Definition soft {A} (r : res A) (P : A -> Prop) : Prop :=
  match r with Ok a => P a | Err _ _ => True | Stuck x => x = SOverflow end.
Lemma settles_bind {A B} (r : res A) (k : A -> res B) P Q : settles r P -> (forall a, r = Ok a -> P a -> settles (k a) Q) -> settles (bind r k) Q.
Proof. destruct r; cbn [settles bind]; auto. Qed.
Lemma soft_bind {A B} (r : res A) (k : A -> res B) P Q : soft r P -> (forall a, r = Ok a -> P a -> soft (k a) Q) -> soft (bind r k) Q.
Proof. destruct r; cbn [soft bind]; auto. Qed.
Lemma settles_soft {A} (r : res A) P : settles r P -> soft r P.
Proof. destruct r; cbn; tauto. Qed.
Lemma settles_weak {A} (r : res A) (P Q : A -> Prop) : settles r P -> (forall a, P a -> Q a) -> settles r Q.
Proof. destruct r; cbn; auto. Qed.
Lemma soft_weak {A} (r : res A) (P Q : A -> Prop) : soft r P -> (forall a, P a -> Q a) -> soft r Q.
Proof. destruct r; cbn; auto. Qed.

(** ** Uses that survive the inlining of constants *)
Fixpoint hard (e : rexpr) : list vdecl :=
  match e with
  | RMember d _ _ _ => [d]
  | RArray _ es => flat_map hard es
  | RIndex _ a i => hard a ++ hard i
  | RCall _ f es => match f with RIdent (DV d) _ => [d] | _ => hard f end ++ flat_map hard es
  | RBin _ _ a b => hard a ++ hard b
  | RUn _ _ a => hard a
  | _ => []
  end.
Definition ohard (o : option rexpr) : list vdecl := match o with Some e => hard e | None => [] end.
Fixpoint hard_s (x : rstmt) : list vdecl :=
  let blk o := match o with Some b => flat_map hard_s b | None => [] end in
  match x with
  | RVar _ oe | RReturn _ oe => ohard oe
  | RAssign _ _ e => hard e
  | RSetMem d _ _ _ e => d :: hard e
  | RSetIdx d _ i e => d :: hard i ++ hard e
  | RCallS l f es => hard (RCall l f es)
  | RIf _ c t f => hard c ++ blk t ++ blk f
  | RWhile _ c b => hard c ++ blk b
  | RFor _ d _ a b body => d :: hard a ++ hard b ++ flat_map hard_s body
  end.
Definition hard_i (i : ritem) : list vdecl :=
  match i with RSys _ => [] | RGlobal _ oe => ohard oe | RFunc _ _ body _ => flat_map hard_s body end.
Lemma ncs_cons d l : ncs (d :: l) <-> vd_const d = false /\ ncs l.
Proof. apply Forall_cons_iff. Qed.

Section Inl.
  Context (lit : vdecl -> rexpr -> Prop) (Hlit : forall d e, lit d e -> literal e).
  Lemma inlined_clean e : forall e', inlined lit e e' -> ncs (hard e) -> clean e' = true.
  Proof.
    assert (L : forall es, Forall (fun e => forall e', inlined lit e e' -> ncs (hard e) -> clean e' = true) es ->
      forall es', Forall2 (inlined lit) es es' -> ncs (flat_map hard es) -> forallb clean es' = true).
    { intros es H es' F. induction F; cbn [flat_map forallb]; [reflexivity|]. inversion H; subst. rewrite ncs_app. intros [N1 N2].
      apply andb_true_iff. split; eauto. }
    induction e using rexpr_nested; intros e' H0 N; cbn [hard] in N; inversion H0; subst; cbn [clean]; rewrite ?ncs_app, ?ncs_cons in N; try reflexivity.
    - apply Hlit in H4. destruct e'; try contradiction; reflexivity.
    - unfold nc. now rewrite H3.
    - unfold nc. destruct N as [-> _]. reflexivity.
    - eapply L; eassumption.
    - destruct N. apply andb_true_iff. split; eauto.
    - destruct N as [N1 N2]. apply andb_true_iff. split; [eapply L; eassumption|]. destruct d as [d|f]; [|reflexivity].
      apply nc_iff. now inversion N1.
    - destruct N as [N1 N2]. apply andb_true_iff. split; [eapply L; eassumption|]. apply IHe; [assumption|].
      destruct e as [| | | |[d|f] lf| | | | | |]; try exact N1. destruct (H4 (DV d) lf eq_refl).
    - destruct N. apply andb_true_iff. split; eauto.
    - eauto.
  Qed.
  Lemma inlined_clean_opt o o' : inlined_opt lit o o' -> ncs (ohard o) -> oclean o' = true.
  Proof. destruct 1; cbn [ohard oclean]; [reflexivity|]. apply inlined_clean. assumption. Qed.
  Scheme is_m2 := Minimality for inlined_stmt Sort Prop
    with io_m2 := Minimality for inlined_opt Sort Prop
    with ib_m2 := Minimality for inlined_block Sort Prop
    with iob_m2 := Minimality for inlined_oblock Sort Prop.
  Lemma inlined_clean_block b b' : inlined_block lit b b' -> ncs (flat_map hard_s b) -> forallb clean_s b' = true.
  Proof.
    apply (ib_m2 lit (fun s s' => ncs (hard_s s) -> clean_s s' = true) (fun o o' => inlined_opt lit o o')
      (fun b b' => ncs (flat_map hard_s b) -> forallb clean_s b' = true)
      (fun o o' => ncs (match o with Some b => flat_map hard_s b | None => [] end) -> ob o' = true));
      try solve [intros; constructor; eassumption]; try reflexivity; cbn [hard_s clean_s flat_map forallb].
    - intros. eapply inlined_clean_opt; eassumption.
    - intros d l e e' C I0 N. apply andb_true_iff. split; [eapply inlined_clean; eassumption|now apply nc_iff].
    - intros d l m lm e e' I0 N. rewrite ncs_cons in N. destruct N. apply andb_true_iff. split; [eapply inlined_clean; eassumption|now apply nc_iff].
    - intros d l i e i' e' I1 I2 N. rewrite ncs_cons, ncs_app in N. destruct N as (N0 & N1 & N2).
      apply nc_iff in N0. rewrite N0, (inlined_clean _ _ I1 N1), (inlined_clean _ _ I2 N2). reflexivity.
    - intros l f es f' es' I0 N. apply (inlined_clean _ _ I0) in N. exact N.
    - intros l c t f c' t' f' I0 _ IT _ IF N. rewrite !ncs_app in N. destruct N as (N0 & N1 & N2).
      fold (ob t') (ob f'). rewrite (inlined_clean _ _ I0 N0), (IT N1), (IF N2). reflexivity.
    - intros l c b0 c' b0' I0 _ IB N. rewrite !ncs_app in N. destruct N as (N0 & N1).
      fold (ob b0'). rewrite (inlined_clean _ _ I0 N0), (IB N1). reflexivity.
    - intros l d lx a b0 body a' b0' body' I1 I2 _ IB N. rewrite ncs_cons, !ncs_app in N. destruct N as (N0 & N1 & N2 & N3).
      apply nc_iff in N0. rewrite N0, (inlined_clean _ _ I1 N1), (inlined_clean _ _ I2 N2), (IB N3). reflexivity.
    - intros. eapply inlined_clean_opt; eassumption.
    - intros s s' b0 b0' _ HS _ HB N. rewrite ncs_app in N. destruct N. rewrite HS, HB by assumption. reflexivity.
    - intros b0 b0' _ HB N. exact (HB N).
  Qed.
  Lemma inlined_itidy i i' : inlined_item lit i i' -> ncs (hard_i i) -> itidy i'.
  Proof.
    destruct 1; cbn [hard_i]; intros N; split; cbn [clean_i init_assign]; auto.
    - destruct H; [reflexivity|]. destruct (vd_const d) eqn:C; [reflexivity|]. cbn [forallb clean_s]. cbn [ohard] in N.
      rewrite (inlined_clean _ _ H N). apply nc_iff in C. rewrite C. reflexivity.
    - eapply inlined_clean_block; eassumption.
  Qed.
End Inl.

(** ** Annotation *)
Fixpoint rclosed (e : rexpr) : Prop :=
  match e with
  | RInt _ _ _ => True
  | RUn UNeg _ a => rclosed a
  | RBin _ _ a b => rclosed a /\ rclosed b
  | _ => False
  end.
Fixpoint rtame (e : rexpr) : Prop :=
  match e with
  | RIdent (DF _) _ => False
  | RUn UNeg _ a => rclosed a
  | RUn UNot _ _ => False
  | RBin _ _ a b => rtame a /\ rtame b
  | _ => True
  end.
Definition rinit_ok (e : rexpr) : Prop := match e with RBin _ _ _ _ | RUn _ _ _ => rtame e | _ => True end.

Section Ann.
  Context (addr : nat -> Z) (fn cn : list bytes).
  Definition known (d : decl) : Prop :=
    match d with DF f => In (fd_name f) fn | DV d => vd_const d = true -> In (vd_name d) cn end.
  Definition known_sc (sc : scopes) : Prop := Forall (Forall known) sc.
  Definition node_ok (e : expr) : Prop :=
    match e with
    | EMember x _ _ _ => ~ In x fn /\ ~ In x cn
    | ECall _ (EIdent x _) _ => ~ In x cn
    | _ => True
    end.
  Definition exp_ok (e : expr) : Prop := Forall node_ok (parts e).
  Lemma known_find x sc d : known_sc sc -> find_decl addr x sc = Some d -> known d /\ decl_name d = x.
  Proof.
    intros K E. destruct (find_decl_innermost _ _ _ _ E) as [N (inner & level & outer & -> & I0 & _)]. split; [|exact N].
    unfold known_sc in K. apply Forall_app in K. destruct K as [_ K]. inversion K; subst. rewrite Forall_forall in H1. auto.
  Qed.
  Lemma exps_ok es : Forall node_ok (flat_map parts es) -> Forall exp_ok es.
  Proof. unfold exp_ok. intros H. apply Forall_flat in H. exact H. Qed.
  Definition ann_good (e : expr) : Prop := forall sc n, known_sc sc -> exp_ok e ->
    settles (ann_expr addr sc e n) (fun r => ncs (hard (fst r)) /\ (closed e -> rclosed (fst r)) /\ (tame fn e -> rtame (fst r))).
  Lemma ann_exprs_good es : Forall ann_good es -> forall sc n, known_sc sc -> Forall exp_ok es ->
    settles (each (ann_expr addr sc) es n) (fun r => ncs (flat_map hard (fst r))).
  Proof.
    induction 1 as [|e es He Hes IH]; intros sc n K X; cbn [each]; [constructor|]. inversion X; subst.
    eapply settles_bind; [apply He; assumption|]. intros [r n1] _ (N & _). eapply settles_bind; [apply IH; assumption|]. intros [rs n2] _ N2.
    cbn [settles fst flat_map] in *. apply ncs_app. auto.
  Qed.
  Lemma ann_expr_good e : ann_good e.
  Proof.
    induction e using expr_nested; intros sc n K X; cbn [ann_expr]; unfold exp_ok in X; cbn [parts] in X; inversion X as [|? ? X0 X1]; subst.
    - cbn. repeat split; constructor.
    - cbn. repeat split; [constructor|tauto].
    - cbn. repeat split; [constructor|tauto].
    - cbn. repeat split; [constructor|tauto].
    - destruct (find_decl addr x sc) as [d|] eqn:F; cbn [settles fst]; [|exact Logic.I]. destruct (known_find _ _ _ K F) as [KD ND].
      split; [constructor|]. split; [intros []|]. destruct d as [d|f]; cbn [rtame tame known decl_name] in *; [auto|]. subst. intros NI. contradiction.
    - destruct (find_decl addr x sc) as [d|] eqn:F; cbn [settles]; [|exact Logic.I]. destruct (known_find _ _ _ K F) as [KD ND].
      cbn [node_ok] in X0. destruct d as [d|f]; cbn [known decl_name] in *; subst; [|destruct X0; contradiction].
      cbn [fst hard]. split; [apply ncs_one; destruct (vd_const d); [destruct X0; tauto|reflexivity]|]. split; [intros []|intros _; exact Logic.I].
    - eapply settles_bind; [apply ann_exprs_good; [exact H|exact K|apply exps_ok; exact X1]|]. intros [rs n1] _ N. cbn [settles fst hard] in *.
      split; [exact N|]. split; [intros []|intros _; exact Logic.I].
    - apply Forall_app in X1. destruct X1. eapply settles_bind; [apply IHe1; assumption|]. intros [ra n1] _ (N1 & _).
      eapply settles_bind; [apply IHe2; assumption|]. intros [rb n2] _ (N2 & _). cbn [settles fst hard] in *. rewrite ncs_app.
      split; [auto|]. split; [intros []|intros _; exact Logic.I].
    - apply Forall_app in X1. destruct X1. eapply settles_bind; [apply ann_exprs_good; [exact H|exact K|apply exps_ok; assumption]|]. intros [rs n1] _ N.
      eapply settles_bind; [apply IHe; assumption|]. intros [rf n2] E (N2 & _). cbn [settles fst hard] in *. rewrite ncs_app.
      split; [|split; [intros []|intros _; exact Logic.I]]. split; [|exact N]. destruct rf as [| | | |[d|f] lf| | | | | |]; try exact N2.
      cbn [node_ok] in X0. destruct e; cbn [ann_expr] in E; try (inv_bind E; try destruct a; try inv_bind E; try destruct a; discriminate); try discriminate.
      + destruct (find_decl addr x sc) as [d'|] eqn:F; [|discriminate]. inversion E; subst. destruct (known_find _ _ _ K F) as [KD ND].
        cbn [known decl_name] in *. subst. apply ncs_one. destruct (vd_const d); [elim X0; auto|reflexivity].
      + destruct (find_decl addr x sc) as [[|]|]; discriminate.
    - apply Forall_app in X1. destruct X1. eapply settles_bind; [apply IHe1; assumption|]. intros [ra n1] _ (N1 & C1 & T1).
      eapply settles_bind; [apply IHe2; assumption|]. intros [rb n2] _ (N2 & C2 & T2). cbn [settles fst hard] in *. rewrite ncs_app.
      split; [auto|]. cbn [closed tame rclosed rtame]. tauto.
    - eapply settles_bind; [apply IHe; assumption|]. intros [ra n1] _ (N1 & C1 & T1). cbn [settles fst hard closed tame rclosed rtame] in *.
      destruct o; auto.
  Qed.
  Lemma ann_opt_good o sc n : known_sc sc -> Forall node_ok (flat_map parts (opt_list o)) ->
    settles (ann_opt addr sc o n) (fun r => ncs (ohard (fst r)) /\
      (match o with Some e => initialiser_ok fn e | None => True end -> match fst r with Some e => rinit_ok e | None => True end)).
  Proof.
    intros K X. destruct o as [e|]; cbn [ann_opt]; [|cbn; split; [constructor|auto]]. cbn [opt_list flat_map] in X. rewrite app_nil_r in X.
    eapply settles_bind; [apply ann_expr_good; eassumption|]. intros [r n1] E (N & _ & T). cbn [settles fst ohard] in *. split; [exact N|].
    intros IO. destruct e; cbn [ann_expr] in E.
    - inversion E; subst. exact Logic.I.
    - inversion E; subst. exact Logic.I.
    - inversion E; subst. exact Logic.I.
    - inversion E; subst. exact Logic.I.
    - destruct (find_decl addr x sc); inversion E; subst. exact Logic.I.
    - destruct (find_decl addr x sc) as [[|]|]; inversion E; subst. exact Logic.I.
    - inv_bind E. destruct a. inversion E; subst. exact Logic.I.
    - inv_bind E. destruct a. inv_bind E. destruct a. inversion E; subst. exact Logic.I.
    - inv_bind E. destruct a. inv_bind E. destruct a. inversion E; subst. exact Logic.I.
    - specialize (T IO). destruct r; try exact Logic.I; exact T.
    - specialize (T IO). destruct r; try exact Logic.I; exact T.
  Qed.
  Definition target_ok (s : stmt) : Prop := Forall (fun x => ~ In x cn) (variable_target s).
  Definition st_ok (s : stmt) : Prop := Forall node_ok (flat_map parts (stmt_exprs s)) /\ Forall target_ok (stmt_parts s).
  Definition ann_s_good (s : stmt) : Prop := forall sc n, known_sc sc -> st_ok s ->
    settles (ann_stmt addr s (sc, n)) (fun r => ncs (hard_s (fst r)) /\ known_sc (fst (snd r))).
  Lemma known_declare d sc : known d -> known_sc sc -> known_sc (declare d sc).
  Proof.
    intros K H. destruct sc as [|s sc]; cbn [declare]; [repeat constructor; assumption|]. inversion H; subst. constructor; [constructor; assumption|assumption].
  Qed.
  Lemma known_tl sc : known_sc sc -> known_sc (tl sc).
  Proof. destruct sc; cbn [tl]; [auto|]. intros H. now inversion H. Qed.
  Lemma ann_block_good b : Forall ann_s_good b -> forall sc n, known_sc sc -> 
    Forall node_ok (flat_map parts (flat_map stmt_exprs b)) -> Forall target_ok (flat_map stmt_parts b) ->
    settles (each (ann_stmt addr) b (sc, n)) (fun r => ncs (flat_map hard_s (fst r)) /\ known_sc (fst (snd r))).
  Proof.
    induction 1 as [|s b Hs Hb IH]; intros sc n K X Y; cbn [each]; [split; [constructor|exact K]|].
    cbn [flat_map] in *. rewrite flat_map_app in X. apply Forall_app in X. apply Forall_app in Y. destruct X, Y.
    eapply settles_bind; [apply Hs; [exact K|split; assumption]|]. intros [r [sc1 n1]] _ [N1 K1].
    eapply settles_bind; [apply IH; assumption|]. intros [rs [sc2 n2]] _ [N2 K2]. cbn [settles fst snd flat_map] in *. rewrite ncs_app. auto.
  Qed.
  Lemma find_var_good err x l sc (Q : vdecl -> Prop) : known_sc sc -> (forall d, vd_name d = x -> known (DV d) -> Q d) -> settles (find_var addr err x l sc) Q.
  Proof.
    intros K H. unfold find_var. destruct (find_decl addr x sc) as [[d|f]|] eqn:F; cbn [settles]; auto. destruct (known_find _ _ _ K F). auto.
  Qed.
  Lemma const_free x d : ~ In x cn -> vd_name d = x -> known (DV d) -> vd_const d = false.
  Proof. intros NI <- KD. cbn [known] in KD. destruct (vd_const d); [elim NI; auto|reflexivity]. Qed.
  Lemma known_push sc : known_sc sc -> known_sc ([] :: sc).
  Proof. intros K. constructor; [constructor|exact K]. Qed.
  Ltac one X := cbn [flat_map] in X; rewrite app_nil_r in X.
  Lemma ann_stmt_good s : ann_s_good s.
  Proof.
    induction s using stmt_nested; intros sc n K [X Y]; cbn [ann_stmt stmt_exprs stmt_parts] in *; inversion Y as [|? ? Y0 Y1]; subst; unfold target_ok in Y0; cbn [variable_target] in Y0.
    - eapply settles_bind; [apply ann_opt_good; eassumption|]. intros [r n1] _ [N _]. cbn [settles fst snd hard_s]. split; [exact N|].
      apply known_declare; [|exact K]. cbn [known vd_const]. discriminate.
    - one X. eapply settles_bind; [apply ann_expr_good; eassumption|]. intros [r n1] _ (N & _).
      eapply settles_bind; [apply (find_var_good _ _ _ _ (fun _ => True)); auto|]. intros d _ _. cbn [settles fst snd hard_s]. auto.
    - one X. eapply settles_bind; [apply ann_expr_good; eassumption|]. intros [r n1] _ (N & _). inversion Y0; subst.
      eapply settles_bind; [apply (find_var_good _ _ _ _ (fun d => vd_const d = false)); [exact K|intros; eapply const_free; eassumption]|].
      intros d _ C. cbn [settles fst snd hard_s]. rewrite ncs_cons. auto.
    - cbn [flat_map] in X. rewrite app_nil_r in X. apply Forall_app in X. destruct X.
      eapply settles_bind; [apply ann_expr_good; eassumption|]. intros [r n1] _ (N & _).
      eapply settles_bind; [apply ann_expr_good; eassumption|]. intros [r2 n2] _ (N2 & _). inversion Y0; subst.
      eapply settles_bind; [apply (find_var_good _ _ _ _ (fun d => vd_const d = false)); [exact K|intros; eapply const_free; eassumption]|].
      intros d _ C. cbn [settles fst snd hard_s] in *. rewrite ncs_cons, ncs_app. auto.
    - one X. pose proof (ann_expr_good (ECall lc (EIdent x l) es) sc n K X) as G. cbn [ann_expr] in G |- *.
      destruct (each (ann_expr addr sc) es n) as [[rs n1]| |]; cbn [bind settles] in *; auto.
      destruct (find_decl addr x sc); cbn [bind settles] in *; auto. cbn [fst snd hard_s] in *. destruct G as (N & _). auto.
    - cbn [flat_map] in X. rewrite app_nil_r in *. apply Forall_app in X. destruct X. pose proof (known_push _ K) as K1.
      eapply settles_bind; [apply ann_expr_good; eassumption|]. intros [rc n1] _ (N & _).
      eapply settles_bind; [apply ann_block_good; eassumption|]. intros [rt [sc2 n2]] _ (N2 & K2). cbn [bind settles fst snd hard_s] in *.
      rewrite !ncs_app. repeat split; auto; [constructor|apply known_tl; exact K2].
    - cbn [flat_map] in X. rewrite flat_map_app in X. apply Forall_app in X. destruct X as [X0 X1]. apply Forall_app in X1. destruct X1.
      apply Forall_app in Y1. destruct Y1. pose proof (known_push _ K) as K1.
      eapply settles_bind; [apply ann_expr_good; eassumption|]. intros [rc n1] _ (N & _).
      eapply settles_bind; [apply ann_block_good; eassumption|]. intros [rt [sc2 n2]] _ (N2 & K2). cbn [fst snd] in *.
      eapply (settles_bind _ _ (fun r : option (list rstmt) * (scopes * nat) =>
        ncs (match fst r with Some b => flat_map hard_s b | None => [] end) /\ known_sc (fst (snd r)))).
      { eapply settles_bind; [apply ann_block_good; eassumption|]. intros [rf [sc3 n3]] _ H5. exact H5. }
      intros [rf [sc3 n3]] _ [N3 K3]. cbn [settles fst snd hard_s] in *.
      rewrite !ncs_app. repeat split; auto. apply known_tl; exact K3.
    - cbn [flat_map] in X. apply Forall_app in X. destruct X. pose proof (known_push _ K) as K1.
      eapply settles_bind; [apply ann_expr_good; eassumption|]. intros [rc n1] _ (N & _).
      eapply settles_bind; [apply ann_block_good; eassumption|]. intros [rt [sc2 n2]] _ (N2 & K2). cbn [bind settles fst snd hard_s] in *.
      rewrite !ncs_app. repeat split; auto. apply known_tl; exact K2.
    - cbn [flat_map] in X. apply Forall_app in X. destruct X as [X0 X1]. apply Forall_app in X1. destruct X1. pose proof (known_push _ K) as K1. inversion Y0; subst.
      eapply settles_bind; [apply (find_var_good _ _ _ _ (fun d => vd_const d = false)); [exact K1|intros; eapply const_free; eassumption]|]. intros d _ C.
      eapply settles_bind; [apply ann_expr_good; eassumption|]. intros [ra n1] _ (N & _).
      eapply settles_bind; [apply ann_expr_good; eassumption|]. intros [rb n2] _ (N2 & _).
      eapply settles_bind; [apply ann_block_good; eassumption|]. intros [rt [sc2 n3]] _ (N3 & K2). cbn [bind settles fst snd hard_s] in *.
      rewrite ncs_cons, !ncs_app. repeat split; auto. apply known_tl; exact K2.
    - eapply settles_bind; [apply ann_opt_good; eassumption|]. intros [r n1] _ [N _]. cbn [settles fst snd hard_s]. auto.
  Qed.
End Ann.

Definition ginit (i : ritem) : Prop := match i with RGlobal _ (Some e) => rinit_ok e | _ => True end.
Section AnnItems.
  Context (addr : nat -> Z) (fn cn : list bytes).
  Definition child_ok (c : child) : Prop :=
    match c with
    | CItem (TVar _ _ oe | TConst _ _ oe) =>
        Forall (node_ok fn cn) (flat_map parts (opt_list oe)) /\ match oe with Some e => initialiser_ok fn e | None => True end
    | CItem (TFunc _ _ _ body _) =>
        Forall (node_ok fn cn) (flat_map parts (flat_map stmt_exprs body)) /\ Forall (target_ok cn) (flat_map stmt_parts body)
    | _ => True
    end.
  Definition clean_item (i : ritem) : Prop := ncs (hard_i i) /\ ginit i.
  Lemma known_args args : forall n s, Forall (known fn cn) s -> Forall (known fn cn) (fold_left (fun s d => DV d :: s) (ann_args args n) s).
  Proof.
    induction args as [|[x l] args IH]; intros n s H; cbn [ann_args fold_left]; [exact H|]. apply IH. constructor; [cbn; discriminate|exact H].
  Qed.
  Lemma ann_child_good g dc n : Forall (known fn cn) g -> child_ok (snd dc) ->
    settles (ann_child addr g dc n) (fun r => clean_item (fst r)).
  Proof.
    intros K C. destruct dc as [[d|f] c]; cbn [snd] in C.
    - assert (T : clean_item (RGlobal d None)) by (split; [constructor|exact Logic.I]).
      destruct c as [x k|[x l oe|x l oe|x l args body lend|p l]]; cbn [ann_child settles fst]; auto; cbn [child_ok] in C; destruct C as [C1 C2];
        (eapply settles_bind; [apply (ann_opt_good addr fn cn); [repeat constructor; exact K|exact C1]|]; intros [r n1] _ [N R]; cbn [settles fst] in *;
         split; [exact N|]; cbn [ginit]; destruct r; [apply R; exact C2|exact Logic.I]).
    - assert (T : clean_item (RSys f)) by (split; [constructor|exact Logic.I]).
      destruct c as [x k|[x l oe|x l oe|x l args body lend|p l]]; cbn [ann_child settles fst]; auto. cbn [child_ok] in C. destruct C as [C1 C2].
      eapply settles_bind; [apply (ann_block_good addr fn cn); try eassumption; [apply Forall_forall; intros s _; apply ann_stmt_good|]|].
      + constructor; [apply known_args; constructor|]. repeat constructor. exact K.
      + intros [rb st] _ [N _]. cbn [settles fst] in *. split; [exact N|exact Logic.I].
  Qed.
  Lemma number_in cs : forall n ds m, number cs n = (ds, m) -> Forall (fun dc => In (snd dc) cs) ds.
  Proof.
    induction cs as [|c cs IH]; intros n ds m E; cbn [number] in E; [inversion E; constructor|].
    destruct (head_decl c n) as [d|].
    - destruct (number cs (Datatypes.S n)) as [r m'] eqn:N. inversion E; subst. constructor; [now left|]. eapply Forall_impl; [|eapply IH; exact N]. cbn. auto.
    - eapply Forall_impl; [|eapply IH; exact E]. cbn. auto.
  Qed.
  Definition head_known (c : child) : Prop :=
    match c with CSys x _ => In x fn | CItem (TFunc x _ _ _ _) => In x fn | CItem (TConst x _ _) => In x cn | _ => True end.
  Lemma annotate_good cs : Forall child_ok cs -> Forall head_known cs ->
    settles (annotate addr cs) (fun r => Forall clean_item (fst r)).
  Proof.
    intros C H. unfold annotate. destruct (number cs 0) as [ds n] eqn:N.
    destruct (number_inv _ _ _ _ N) as [HD _]. pose proof (number_in _ _ _ _ N) as IN.
    assert (K : Forall (known fn cn) (map fst ds)).
    { rewrite Forall_forall in *. intros d I0. apply in_map_iff in I0. destruct I0 as ([d' c] & <- & I1). cbn [fst].
      destruct (HD _ I1) as [k HK]. specialize (H _ (IN _ I1)). cbn [fst snd] in *.
      destruct c as [x j|[]]; cbn [head_decl] in HK; inversion HK; subst; cbn [known head_known vd_const vd_name fd_name sys_decl] in *; auto; discriminate. }
    assert (D : Forall (fun dc => child_ok (snd dc)) ds).
    { rewrite Forall_forall in *. auto. }
    clear N HD IN H C. revert n K. generalize (map fst ds) as g. induction D as [|dc ds D0 D IH]; intros g n K; cbn [each]; [constructor|].
    eapply settles_bind; [apply ann_child_good; assumption|]. intros [i n1] _ G. eapply settles_bind; [apply IH; exact K|]. intros [is n2] _ G2.
    cbn [settles fst] in *. constructor; assumption.
  Qed.
End AnnItems.

(** ** Global initialisers *)
Section Ev.
  Context (items : list ritem).
  Notation len := (@List.length Z).
  Lemma ev_closed e : rclosed e -> forall vs ok, soft (ev items e (vs, ok)) (fun r => snd r = ok /\ (len vs < len (fst r))%nat).
  Proof.
    induction e using rexpr_nested; intros C vs ok; cbn [rclosed] in C; try contradiction; cbn [ev].
    - cbn. split; [reflexivity|lia].
    - destruct C as [C1 C2].
      assert (SU : forall e, rclosed e -> ev_supported e = true) by (intros x; destruct x; cbn; tauto).
      rewrite (SU _ C1), (SU _ C2). cbn [andb].
      eapply soft_bind; [apply IHe1; exact C1|]. intros [vs1 ok1] _ [O1 L1]. cbn [fst snd] in *. subst.
      eapply soft_bind; [apply IHe2; exact C2|]. intros [vs2 ok2] _ [O2 L2]. cbn [fst snd] in *. subst.
      destruct ok; cbn [negb].
      + destruct vs2 as [|y [|x vs3]]; cbn [List.length] in *; try lia. destruct ((y =? 0) && is_div o) eqn:Z0; [exact Logic.I|].
        assert (SF : soft (fold_bin o x y) (fun _ => True)).
        { destruct o; cbn [fold_bin is_div] in *; unfold chk32; try exact Logic.I; try (destruct (in_i32 _); cbn; auto; fail);
            destruct (y =? 0); cbn; auto; destruct (in_i32 _); cbn; auto. }
        eapply soft_bind; [exact SF|]. intros r _ _. cbn. split; [reflexivity|lia].
      + cbn. split; [reflexivity|lia].
    - destruct o; [|contradiction].
      assert (SU : ev_supported e = true) by (destruct e; cbn in *; tauto). rewrite SU.
      eapply soft_bind; [apply IHe; exact C|]. intros [vs1 ok1] _ [O1 L1]. cbn [fst snd] in *. subst.
      destruct vs1 as [|v vs1]; cbn [List.length] in *; [lia|]. unfold chk32. destruct (in_i32 _); cbn; auto.
  Qed.
  Lemma ev_tame e : rtame e -> ev_supported e = true -> forall vs ok, soft (ev items e (vs, ok)) (fun r =>
    snd r = true -> ok = true /\ (len vs < len (fst r))%nat).
  Proof.
    induction e using rexpr_nested; intros C SU vs ok; try discriminate; cbn [rtame] in C; cbn [ev].
    - cbn. intros ->. split; [reflexivity|lia].
    - destruct x as [d|f]; [|contradiction].
      destruct (if vd_const d then _ else _) as [[]|]; cbn; try discriminate. intros ->. split; [reflexivity|lia].
    - destruct C as [C1 C2]. destruct (ev_supported e1) eqn:S1; cbn [andb]; [|cbn; discriminate]. destruct (ev_supported e2) eqn:S2; [|cbn; discriminate].
      eapply soft_bind; [apply IHe1; auto|]. intros [vs1 ok1] _ G1. cbn [fst snd] in *.
      eapply soft_bind; [apply IHe2; auto|]. intros [vs2 ok2] _ G2. cbn [fst snd] in *.
      destruct ok2; cbn [negb]; [|cbn; discriminate].
      destruct (G2 eq_refl) as [-> L2]. destruct (G1 eq_refl) as [-> L1].
      destruct vs2 as [|y [|x vs3]]; cbn [List.length] in *; try lia. destruct ((y =? 0) && is_div o) eqn:Z0; [exact Logic.I|].
      assert (SF : soft (fold_bin o x y) (fun _ => True)).
      { destruct o; cbn [fold_bin is_div] in *; unfold chk32; try exact Logic.I; try (destruct (in_i32 _); cbn; auto; fail);
          destruct (y =? 0); cbn; auto; destruct (in_i32 _); cbn; auto. }
      eapply soft_bind; [exact SF|]. intros r _ _. cbn. intros _. split; [reflexivity|lia].
    - destruct o; [|contradiction].
      assert (S2 : ev_supported e = true) by (destruct e; cbn in *; tauto). rewrite S2.
      eapply soft_bind; [apply ev_closed; exact C|]. intros [vs1 ok1] _ [O1 L1]. cbn [fst snd] in *. subst.
      destruct vs1 as [|v vs1]; cbn [List.length] in *; [lia|]. unfold chk32. destruct (in_i32 _); cbn; auto.
  Qed.
  Lemma eval_soft e : rtame e -> ev_supported e = true -> soft (eval items e) (fun _ => True).
  Proof.
    intros C SU. unfold eval. eapply soft_bind; [apply ev_tame; assumption|]. intros [vs ok] _ _. destruct vs as [|v [|]]; exact Logic.I.
  Qed.
End Ev.
Definition op_init (i : ritem) : nat :=
  match i with RGlobal _ (Some (RBin _ _ _ _ | RUn _ _ _)) => 1 | _ => 0 end.
Definition ops (items : list ritem) : nat := list_sum (map op_init items).
Lemma ops_app a b : ops (a ++ b) = (ops a + ops b)%nat.
Proof. unfold ops. rewrite map_app. apply list_sum_app. Qed.
Lemma ops_cons i l : ops (i :: l) = (op_init i + ops l)%nat.
Proof. reflexivity. Qed.
Lemma ops_le items : (ops items <= List.length items)%nat.
Proof.
  unfold ops. induction items as [|i items IH]; cbn [map list_sum fold_right List.length]; [lia|].
  change (fold_right Nat.add 0%nat (map op_init items)) with (list_sum (map op_init items)).
  assert (op_init i <= 1)%nat; [|lia]. destruct i as [|d [[]|]|]; cbn; lia.
Qed.
Lemma glob_expr_soft items d e n : rinit_ok e -> soft (glob_expr items e n) (fun r =>
  ginit (RGlobal d (fst (fst r))) /\ (op_init (RGlobal d (fst (fst r))) <= op_init (RGlobal d (Some e)))%nat /\
  (snd (fst r) = true -> (op_init (RGlobal d (fst (fst r))) < op_init (RGlobal d (Some e)))%nat)).
Proof.
  intros H.
  assert (S0 : soft (Ok (Some e, false, n)) (fun r : option rexpr * bool * nat =>
    ginit (RGlobal d (fst (fst r))) /\ (op_init (RGlobal d (fst (fst r))) <= op_init (RGlobal d (Some e)))%nat /\
    (snd (fst r) = true -> (op_init (RGlobal d (fst (fst r))) < op_init (RGlobal d (Some e)))%nat))).
  { cbn [soft fst snd]. split; [exact H|]. split; [lia|discriminate]. }
  destruct e; cbn [glob_expr]; try exact S0.
  - eapply soft_bind; [apply eval_soft; [exact H|reflexivity]|]. intros [v|] _ _; [|exact S0]. cbn. split; [exact Logic.I|]. split; lia.
  - eapply soft_bind; [apply eval_soft; [exact H|reflexivity]|]. intros [v|] _ _; [|exact S0]. cbn. split; [exact Logic.I|]. split; lia.
Qed.
Lemma run_globals_soft todo : forall done ch n, Forall ginit todo -> Forall ginit done ->
  soft (run_globals done todo ch n) (fun r => Forall ginit (fst (fst r)) /\ (ops (fst (fst r)) <= ops (done ++ todo))%nat /\
    (snd (fst r) = true -> ch = true \/ (ops (fst (fst r)) < ops (done ++ todo))%nat)).
Proof.
  induction todo as [|i todo IH]; intros done ch n H1 H2; cbn [run_globals].
  - rewrite app_nil_r. cbn. repeat split; auto.
  - inversion H1; subst.
    assert (S0 : soft (run_globals (done ++ [i]) todo ch n) (fun r => Forall ginit (fst (fst r)) /\ (ops (fst (fst r)) <= ops (done ++ i :: todo))%nat /\
      (snd (fst r) = true -> ch = true \/ (ops (fst (fst r)) < ops (done ++ i :: todo))%nat))).
    { eapply soft_weak; [apply IH; [assumption|apply Forall_app; split; [assumption|repeat constructor; assumption]]|].
      cbv beta. rewrite <- app_assoc. auto. }
    destruct i as [f|d [e|]|f args body lend]; try exact S0.
    eapply soft_bind; [apply (glob_expr_soft _ d); assumption|]. intros [[e' ch'] n'] _ (G & L & C). cbn [fst snd] in *.
    eapply soft_weak; [apply IH; [assumption|apply Forall_app; split; [assumption|constructor; [exact G|constructor]]]|].
    cbv beta. intros [[r c] k]. cbn [fst snd]. rewrite !ops_app, !ops_cons. change (ops []) with 0%nat.
    intros (A & B & D). split; [exact A|]. split; [lia|]. intros E. destruct (D E) as [D1|D1]; [|right; lia].
    apply orb_true_iff in D1. destruct D1 as [D1|D1]; [auto|]. specialize (C D1). right. lia.
Qed.
Lemma glob_loop_soft fuel : forall items n, Forall ginit items -> (ops items < fuel)%nat ->
  soft (glob_loop fuel items n) (fun r => Forall ginit (fst r)).
Proof.
  induction fuel as [|fuel IH]; intros items n H L; [lia|]. cbn [glob_loop].
  eapply soft_bind; [apply run_globals_soft; [exact H|constructor]|]. intros [[r c] k] _ (G & L2 & C). cbn [fst snd app] in *.
  destruct c; [|exact G]. apply IH; [exact G|]. destruct (C eq_refl); [discriminate|lia].
Qed.
Lemma global_vars_soft items n : Forall ginit items -> soft (Sema.global_vars items n) (fun _ => True).
Proof.
  intros H. unfold Sema.global_vars. eapply soft_bind; [apply glob_loop_soft; [exact H|pose proof (ops_le items); lia]|]. intros [r k] _ G.
  eapply soft_bind; [apply run_globals_soft; [exact G|constructor]|]. intros [[r2 c] k2] _ _. exact Logic.I.
Qed.

(** ** The remaining passes *)
Definition any {A} (_ : A) : Prop := True.
Lemma each_settles {A B} (f : A -> res B) l : Forall (fun a => settles (f a) any) l -> settles (each_ f l) any.
Proof.
  induction 1; cbn [each_]; [exact Logic.I|]. eapply settles_bind; [eassumption|]. intros ? _ _. eapply settles_bind; [eassumption|]. intros ? _ _. exact Logic.I.
Qed.
Lemma const_lit_settles cur d l : settles (const_lit cur d l) any.
Proof. unfold const_lit. destruct d as [d|f]; [|exact Logic.I]. destruct (negb _); [exact Logic.I|]. destruct (global_expr _ _) as [[]|]; exact Logic.I. Qed.
Lemma con_expr_settles cur e : settles (con_expr cur e) any.
Proof.
  induction e using rexpr_nested; cbn [con_expr]; try exact Logic.I.
  - eapply settles_bind; [apply const_lit_settles|]. intros [|] _ _; exact Logic.I.
  - eapply settles_bind; [apply each_settles; assumption|]. intros; exact Logic.I.
  - eapply settles_bind; [exact IHe1|]. intros ? _ _. eapply settles_bind; [exact IHe2|]. intros; exact Logic.I.
  - eapply settles_bind; [apply each_settles; assumption|]. intros rs _ _.
    destruct e; try (eapply settles_bind; [exact IHe|intros; exact Logic.I]).
    eapply settles_bind; [apply const_lit_settles|]. intros; exact Logic.I.
  - eapply settles_bind; [exact IHe1|]. intros ? _ _. eapply settles_bind; [exact IHe2|]. intros; exact Logic.I.
  - eapply settles_bind; [exact IHe|]. intros; exact Logic.I.
Qed.
Lemma con_opt_settles cur o : settles (con_opt cur o) any.
Proof. destruct o; cbn [con_opt]; [|exact Logic.I]. eapply settles_bind; [apply con_expr_settles|]. intros; exact Logic.I. Qed.
Lemma con_stmt_settles cur x : settles (con_stmt cur x) any.
Proof.
  assert (O : forall o, oall (fun x => settles (con_stmt cur x) any) o ->
    settles (match o with None => Ok None | Some b => r <- each_ (con_stmt cur) b ;; Ok (Some r) end) any).
  { destruct o; cbn [oall]; intros H; [|exact Logic.I]. eapply settles_bind; [apply each_settles; exact H|]. intros; exact Logic.I. }
  induction x using rstmt_nested; cbn [con_stmt].
  - eapply settles_bind; [apply con_opt_settles|]. intros; exact Logic.I.
  - destruct (vd_const d); [exact Logic.I|]. eapply settles_bind; [apply con_expr_settles|]. intros; exact Logic.I.
  - eapply settles_bind; [apply con_expr_settles|]. intros; exact Logic.I.
  - eapply settles_bind; [apply con_expr_settles|]. intros; eapply settles_bind; [apply con_expr_settles|]. intros; exact Logic.I.
  - eapply (settles_bind _ _ any); [|intros [] _ _; exact Logic.I]. unfold con_call. eapply settles_bind; [apply con_expr_settles|].
    intros r E _. cbn [con_expr] in E. inv_bind E. destruct f; try (inv_bind E; inversion E; subst; exact Logic.I).
  - eapply settles_bind; [apply con_expr_settles|]. intros ? _ _. eapply settles_bind; [apply O; assumption|]. intros ? _ _.
    eapply settles_bind; [apply O; assumption|]. intros; exact Logic.I.
  - eapply settles_bind; [apply con_expr_settles|]. intros ? _ _. eapply settles_bind; [apply O; assumption|]. intros; exact Logic.I.
  - eapply settles_bind; [apply con_expr_settles|]. intros ? _ _. eapply settles_bind; [apply con_expr_settles|]. intros ? _ _.
    eapply settles_bind; [apply each_settles; assumption|]. intros; exact Logic.I.
  - eapply settles_bind; [apply con_opt_settles|]. intros; exact Logic.I.
Qed.
Lemma con_items_settles todo : forall done, settles (con_items done todo) any.
Proof.
  induction todo as [|i todo IH]; intros done; cbn [con_items]; [exact Logic.I|]. eapply (settles_bind _ _ any); [|intros; apply IH].
  destruct i as [f|d oe|f args body lend]; cbn [con_item]; [exact Logic.I| |].
  - eapply settles_bind; [apply con_opt_settles|]. intros [|] _ _; [exact Logic.I|]. destruct (vd_const d); exact Logic.I.
  - eapply settles_bind; [apply each_settles; apply Forall_forall; intros x _; apply con_stmt_settles|]. intros; exact Logic.I.
Qed.
Lemma walk_settles {A S} (f : A -> S -> res S) l : Forall (fun a => forall s, settles (f a s) any) l -> forall s, settles (walk f l s) any.
Proof.
  induction 1 as [|a l Ha Hl IH]; intros s; cbn [walk]; [exact Logic.I|]. eapply settles_bind; [apply Ha|]. intros; apply IH.
Qed.
Lemma multi_var_settles d sc : settles (multi_var d sc) any.
Proof. unfold multi_var. destruct (is_def _ _); exact Logic.I. Qed.
Lemma multi_stmt_settles x : forall sc, settles (multi_stmt x sc) any.
Proof.
  assert (O : forall o sc, oall (fun x => forall sc, settles (multi_stmt x sc) any) o ->
    settles (match o with None => Ok sc | Some b => walk multi_stmt b ([] :: sc) end) any).
  { destruct o; cbn [oall]; intros sc H; [|exact Logic.I]. apply walk_settles. exact H. }
  induction x using rstmt_nested; intros sc; cbn [multi_stmt]; try exact Logic.I.
  - apply multi_var_settles.
  - eapply settles_bind; [apply O; assumption|]. intros ? _ _. eapply settles_bind; [apply O; assumption|]. intros; exact Logic.I.
  - eapply settles_bind; [apply O; assumption|]. intros; exact Logic.I.
  - eapply settles_bind; [apply walk_settles; assumption|]. intros; exact Logic.I.
Qed.
Definition not_sys (d : decl) : Prop := match d with DF f => fd_sys f = false /\ fd_line f <> None | DV _ => True end.
Lemma multi_rest items : forall sc, Forall item_ok items -> Forall not_sys (top_decls items) -> settles (walk multi_item items sc) any.
Proof.
  induction items as [|i items IH]; intros sc H N; cbn [walk]; [exact Logic.I|]. inversion H; subst. unfold top_decls in N. cbn [map] in N. inversion N; subst.
  eapply (settles_bind _ _ any); [|intros; apply IH; assumption].
  destruct i as [f|d oe|f args body lend]; cbn [multi_item top_decl not_sys item_ok] in *.
  - destruct H4; congruence.
  - apply multi_var_settles.
  - destruct (is_def _ _); [destruct H4 as [_ H4]; destruct (fd_line f); [exact Logic.I|congruence]|].
    eapply settles_bind; [apply walk_settles; apply Forall_forall; intros; apply multi_var_settles|]. intros ? _ _.
    eapply settles_bind; [apply walk_settles; apply Forall_forall; intros; apply multi_stmt_settles|]. intros; exact Logic.I.
Qed.
Lemma multi_settles fs : forall items rest sc, Forall item_ok items -> top_decls items = map DF fs ++ rest -> Forall not_sys rest ->
  Forall (fun f => fd_sys f = true) fs ->
  NoDup (map fd_name fs) -> (forall x, In x (map fd_name fs) -> ~ In x (List.concat sc)) -> settles (walk multi_item items sc) any.
Proof.
  induction fs as [|f fs IH]; intros items rest sc H T NS SY ND D.
  - cbn [map app] in T. subst. apply multi_rest; assumption.
  - destruct items as [|i items]; [discriminate|]. unfold top_decls in T. cbn [map app] in T. inversion T; subst. inversion H; subst. inversion SY; subst.
    cbn [map] in ND. inversion ND; subst. cbn [walk].
    destruct i as [g|d oe|g args body lend]; cbn [top_decl] in H1; inversion H1; subst; [|cbn [item_ok] in H4; destruct H4; congruence].
    cbn [multi_item]. assert (X : is_def (fd_name f) sc = false) by (apply is_def_false; apply D; now left). rewrite X. cbn [bind].
    eapply IH; try eassumption; try reflexivity. intros x I0 J. rewrite concat_add in J. destruct J as [<-|J]; [contradiction|].
    eapply D; [right; exact I0|exact J].
Qed.
Lemma all_settles {A} (f : A -> res unit) l : Forall (fun a => settles (f a) any) l -> settles (all_ f l) any.
Proof. induction 1; cbn [all_]; [exact Logic.I|]. eapply settles_bind; [eassumption|]. intros; assumption. Qed.
Lemma args_expr_settles e : settles (args_expr e) any.
Proof.
  induction e using rexpr_nested; cbn [args_expr]; try exact Logic.I; try (eapply settles_bind; [eassumption|]; intros; assumption).
  - apply all_settles. assumption.
  - eapply (settles_bind _ _ any).
    + unfold arity_ok. destruct e as [| | | |[d|f] lf| | | | | |]; try exact Logic.I. destruct (_ && _); [exact Logic.I|].
      destruct (Nat.ltb _ _); [exact Logic.I|]. destruct (Nat.ltb _ _); exact Logic.I.
    + intros _ _ _. eapply settles_bind; [apply all_settles; assumption|]. intros; assumption.
  - exact IHe.
Qed.
Lemma args_opt_settles o : settles (args_opt o) any.
Proof. destruct o; [apply args_expr_settles|exact Logic.I]. Qed.
Lemma args_stmt_settles x : settles (args_stmt x) any.
Proof.
  assert (O : forall o, oall (fun x => settles (args_stmt x) any) o ->
    settles (match o with None => Ok tt | Some b => all_ args_stmt b end) any).
  { destruct o; cbn [oall]; intros H; [|exact Logic.I]. apply all_settles. exact H. }
  pose proof args_expr_settles as AE.
  induction x using rstmt_nested; cbn [args_stmt]; try apply args_opt_settles; try apply AE.
  - eapply settles_bind; [apply AE|]. intros; apply AE.
  - eapply settles_bind; [apply AE|]. intros ? _ _. eapply settles_bind; [apply O; assumption|]. intros; apply O; assumption.
  - eapply settles_bind; [apply AE|]. intros ? _ _. apply O; assumption.
  - eapply settles_bind; [apply AE|]. intros ? _ _. eapply settles_bind; [apply AE|]. intros; apply all_settles; assumption.
Qed.
Lemma num_args_settles items : settles (num_args_ok items) any.
Proof.
  apply all_settles. apply Forall_forall. intros i _. destruct i; cbn [args_item]; [exact Logic.I|apply args_opt_settles|].
  apply all_settles. apply Forall_forall. intros x _. apply args_stmt_settles.
Qed.

(** ** The analysis *)
Lemma annotate_tops addr cs items n : annotate addr cs = Ok (items, n) -> top_decls items = map fst (fst (number cs 0)).
Proof.
  unfold annotate. destruct (number cs 0) as [ds m] eqn:N. intros E. cbn [fst].
  destruct (number_inv _ _ _ _ N) as [HD _].
  assert (X : Forall2 (child_item (map fst ds)) ds items).
  { eapply each_inv; [|exact E]. eapply Forall_impl; [|exact HD]. cbv beta.
    intros dc H ? ? ? H2. eapply ann_child_inv; eassumption. }
  clear -X. revert X. generalize (map fst ds) at 1. intros g F.
  induction F as [|dc i ds items H F IH]; [reflexivity|].
  cbn [top_decls map]. unfold top_decls in IH. rewrite IH. f_equal. apply H.
Qed.
Lemma number_items is : forall n, Forall not_sys (map fst (fst (number (map CItem is) n))).
Proof.
  induction is as [|i is IH]; intros n; cbn [map number]; [constructor|].
  destruct i as [x l oe|x l oe|x l args body lend|p l]; cbn [head_decl]; try apply IH; specialize (IH (Datatypes.S n));
    destruct (number (map CItem is) (Datatypes.S n)); cbn [fst map] in *; constructor; auto; cbn; auto; split; [reflexivity|discriminate].
Qed.
Lemma number_regs (regs : list (bytes * Z)) is : forall n, exists fs rest,
  map fst (fst (number (map (fun x => CSys (fst x) (snd x)) regs ++ map CItem is) n)) = map DF fs ++ rest /\
  Forall not_sys rest /\ Forall (fun f => fd_sys f = true) fs /\ map fd_name fs = map fst regs.
Proof.
  induction regs as [|[x k] regs IH]; intros n; cbn [map app number].
  - exists [], (map fst (fst (number (map CItem is) n))). split; [reflexivity|]. split; [apply number_items|]. split; [constructor|reflexivity].
  - cbn [head_decl]. destruct (IH (Datatypes.S n)) as (fs & rest & E & A & B & C).
    destruct (number _ (Datatypes.S n)) as [r m]. cbn [fst map] in *. exists (sys_decl x k n :: fs), rest. cbn [map app]. rewrite E, C.
    split; [reflexivity|]. split; [exact A|]. split; [constructor; [reflexivity|exact B]|reflexivity].
Qed.

Definition source_children (regs : list (bytes * Z)) (is : list item) : list child :=
  map (fun x => CSys (fst x) (snd x)) regs ++ map CItem is.
Lemma plain_children regs is : plain_source regs is ->
  Forall (child_ok (callable_names regs is) (constant_names is)) (source_children regs is) /\
  Forall (head_known (callable_names regs is) (constant_names is)) (source_children regs is).
Proof.
  intros [R M C G]. unfold source_children.
  assert (EX : forall i e, In i is -> In e (flat_map parts match i with TVar _ _ oe | TConst _ _ oe => opt_list oe | TFunc _ _ _ body _ => flat_map stmt_exprs body | TImport _ _ => [] end) ->
    node_ok (callable_names regs is) (constant_names is) e).
  { intros i e I0 I1.
    assert (J : In e (source_exprs is)).
    { unfold source_exprs. apply in_flat_map in I1. destruct I1 as (y & Y1 & Y2). apply in_flat_map. exists y. split; [|exact Y2]. apply in_flat_map. exists i. auto. }
    assert (V : forall x, In x (variable_use e) -> ~ In x (constant_names is)).
    { intros x IX. apply C. unfold variable_names. apply in_app_iff. left. apply in_flat_map. eauto. }
    destruct e; cbn [node_ok]; auto.
    - split; [eapply M; exact J|apply V; now left].
    - destruct e; auto. apply V. now left. }
  assert (TG : forall x l args body lend s, In (TFunc x l args body lend) is -> In s (flat_map stmt_parts body) -> target_ok (constant_names is) s).
  { intros x l args body lend s I0 I1. unfold target_ok. apply Forall_forall. intros y IY. apply C. unfold variable_names. apply in_app_iff. right.
    apply in_flat_map. exists s. split; [|exact IY]. unfold source_stmts. apply in_flat_map. exists (TFunc x l args body lend). auto. }
  split; apply Forall_app; split.
  - apply Forall_forall. intros c I0. apply in_map_iff in I0. destruct I0 as (r & <- & _). exact Logic.I.
  - apply Forall_forall. intros c I0. apply in_map_iff in I0. destruct I0 as (i & <- & I1). specialize (EX i).
    destruct i as [x l oe|x l oe|x l args body lend|p l]; cbn [child_ok]; auto.
    + split; [apply Forall_forall; auto|]. destruct oe; auto. eapply G. left. exact I1.
    + split; [apply Forall_forall; auto|]. destruct oe; auto. eapply G. right. exact I1.
    + split; apply Forall_forall; eauto.
  - apply Forall_forall. intros c I0. apply in_map_iff in I0. destruct I0 as (r & <- & I1). cbn [head_known]. unfold callable_names. apply in_app_iff. left.
    apply in_map. exact I1.
  - apply Forall_forall. intros c I0. apply in_map_iff in I0. destruct I0 as (i & <- & I1).
    destruct i as [x l oe|x l oe|x l args body lend|p l]; cbn [head_known]; auto.
    + unfold constant_names. apply in_flat_map. eexists. split; [exact I1|now left].
    + unfold callable_names. apply in_app_iff. right. apply in_flat_map. eexists. split; [exact I1|now left].
Qed.
Lemma folded_hard l is js : Forall2 (folded l) is js -> Forall clean_item is -> Forall (fun i => ncs (hard_i i)) js.
Proof.
  induction 1 as [|i j is js H F IH]; intros C; inversion C as [|? ? [N _] C']; subst; constructor; auto. destruct H; cbn [hard_i ohard hard] in *; auto; constructor.
Qed.
Lemma run_sema_soft addr regs is : plain_source regs is ->
  soft (run_sema addr (source_children regs is)) (fun r => no_constant_addressed (fst r)).
Proof.
  intros PS. destruct (plain_children _ _ PS) as [CO HK]. unfold run_sema.
  set (cs := source_children regs is) in *.
  eapply soft_bind; [apply settles_soft; eapply annotate_good; eassumption|]. intros [r n] E0 C0. cbn [fst] in C0.
  eapply soft_bind; [apply global_vars_soft; eapply Forall_impl; [|exact C0]; intros i [_ G]; exact G|]. intros [r1 n1] E1 _.
  eapply soft_bind; [apply settles_soft; apply con_items_settles|]. intros r2 E2 _.
  destruct (annotate_inv _ _ _ _ E0) as [_ I]. destruct (annotate_tree _ _ _ _ E0) as [T B].
  assert (K : consts_known r).
  { split; [|apply uses_settled; [apply T|exact I]]. destruct T as [_ T]. unfold all_ids in T.
    clear -T. revert T. generalize (map decl_id (top_decls r)). intros l T.
    induction l; [constructor|]. cbn [app] in T. inversion T; subst. constructor; [|auto].
    intros X. apply H1. apply in_app_iff. auto. }
  destruct (global_vars_folded _ _ _ _ K E1) as [F Le].
  pose proof (consts_known_folded _ _ _ F K) as K1.
  destruct (consts_inv _ _ K1 E2) as (A1 & A2 & A3 & A4).
  destruct (folded_tree _ _ _ F T) as [T1 Q1].
  destruct (inlined_tree _ _ _ A1 T1) as [T2 Q2].
  assert (TP : top_decls r2 = map fst (fst (number cs 0))).
  { rewrite (inlined_tops _ _ _ A1), (folded_tops _ _ _ F). eapply annotate_tops. exact E0. }
  destruct (number_regs regs is 0) as (fs & rest & NE & NR & NS & NN). change (map _ regs ++ _) with cs in NE. rewrite NE in TP.
  eapply (soft_bind _ _ any).
  { apply settles_soft. unfold multi_decls. eapply settles_bind; [|intros; exact Logic.I].
    eapply multi_settles; try eassumption; [apply T2|rewrite NN; apply (ps_regs _ _ PS)|]. intros x _ []. }
  intros _ _ _. eapply soft_bind; [apply settles_soft; apply num_args_settles|]. intros _ _ _. cbn [soft fst].
  apply (tidy_items r2 0%nat). pose proof (folded_hard _ _ _ F C0) as HH.
  assert (Hlit : forall d e, stands_for r2 d e -> literal e) by (intros d e [L _]; exact L).
  clear -A1 HH Hlit. revert Hlit A1. generalize (stands_for r2). intros lit Hlit A1.
  induction A1 as [|i j is js H F IH]; constructor; inversion HH; subst; auto. eapply inlined_itidy; eassumption.
Qed.

(** ** The optimiser *)
Lemma soft_each {A B} (f : A -> res B) l : Forall (fun a => soft (f a) any) l -> soft (each_ f l) any.
Proof.
  induction 1; cbn [each_]; [exact Logic.I|]. eapply soft_bind; [eassumption|]. intros ? _ _. eapply soft_bind; [eassumption|]. intros ? _ _. exact Logic.I.
Qed.
Lemma fold_bin_soft o x y : soft (fold_bin o x y) any.
Proof.
  destruct o; cbn [fold_bin]; unfold chk32; try exact Logic.I; try (destruct (in_i32 _); cbn; unfold any; auto; fail);
    destruct (y =? 0); cbn; auto; destruct (in_i32 _); cbn; unfold any; auto.
Qed.
Lemma cval_soft e : soft (cval e) any.
Proof.
  induction e using rexpr_nested; cbn [cval]; try exact Logic.I.
  - eapply soft_bind; [apply soft_each; assumption|]. intros; exact Logic.I.
  - eapply soft_bind; [exact IHe1|]. intros ? _ _. eapply soft_bind; [exact IHe2|]. intros; exact Logic.I.
  - eapply soft_bind; [apply soft_each; assumption|]. intros ? _ _. eapply soft_bind; [exact IHe|]. intros; exact Logic.I.
  - eapply soft_bind; [exact IHe1|]. intros oa _ _. eapply soft_bind; [exact IHe2|]. intros ob _ _.
    destruct oa, ob; try exact Logic.I. destruct (_ && _); [exact Logic.I|]. eapply soft_bind; [apply fold_bin_soft|]. intros; exact Logic.I.
  - eapply soft_bind; [exact IHe|]. intros [v|] _ _; [|exact Logic.I]. destruct o; [|exact Logic.I]. unfold chk32. destruct (in_i32 _); cbn; unfold any; auto.
Qed.
Lemma fold_top_soft e n : soft (fold_top e n) any.
Proof. unfold fold_top. eapply soft_bind; [apply cval_soft|]. intros o _ _. destruct e, o; exact Logic.I. Qed.
Lemma visit_opt_soft o : soft (visit_opt o) any.
Proof. destruct o; cbn [visit_opt]; [|exact Logic.I]. eapply soft_bind; [apply cval_soft|]. intros; exact Logic.I. Qed.
Lemma each_soft {A B S} (f : A -> S -> res (B * S)) l : Forall (fun a => forall s, soft (f a s) any) l -> forall s, soft (each f l s) any.
Proof.
  induction 1 as [|a l Ha Hl IH]; intros s; cbn [each]; [exact Logic.I|]. eapply soft_bind; [apply Ha|]. intros [b s1] _ _.
  eapply soft_bind; [apply IH|]. intros [bs s2] _ _. exact Logic.I.
Qed.
Lemma fold_stmt_soft x : forall n, soft (fold_stmt x n) any.
Proof.
  assert (O : forall o n, oall (fun x => forall n, soft (fold_stmt x n) any) o ->
    soft (match o with None => Ok (None, n) | Some b => '(b', m) <- each fold_stmt b n ;; Ok (Some b', m) end) any).
  { destruct o; cbn [oall]; intros n H; [|exact Logic.I]. eapply soft_bind; [apply each_soft; exact H|]. intros [] _ _; exact Logic.I. }
  induction x using rstmt_nested; intros n; cbn [fold_stmt].
  - eapply soft_bind; [apply visit_opt_soft|]. intros; exact Logic.I.
  - eapply soft_bind; [apply fold_top_soft|]. intros [] _ _; exact Logic.I.
  - eapply soft_bind; [apply cval_soft|]. intros; exact Logic.I.
  - eapply soft_bind; [apply cval_soft|]. intros ? _ _. eapply soft_bind; [apply cval_soft|]. intros; exact Logic.I.
  - eapply soft_bind; [apply cval_soft|]. intros; exact Logic.I.
  - eapply soft_bind; [apply cval_soft|]. intros ? _ _. eapply soft_bind; [apply O; assumption|]. intros [] _ _.
    eapply soft_bind; [apply O; assumption|]. intros [] _ _. eapply soft_bind; [apply fold_top_soft|]. intros [] _ _. exact Logic.I.
  - eapply soft_bind; [apply cval_soft|]. intros ? _ _. eapply soft_bind; [apply O; assumption|]. intros [] _ _.
    eapply soft_bind; [apply fold_top_soft|]. intros [] _ _. exact Logic.I.
  - eapply soft_bind; [apply cval_soft|]. intros ? _ _. eapply soft_bind; [apply cval_soft|]. intros ? _ _.
    eapply soft_bind; [apply each_soft; assumption|]. intros [] _ _. exact Logic.I.
  - destruct e; [|exact Logic.I]. eapply soft_bind; [apply fold_top_soft|]. intros [] _ _; exact Logic.I.
Qed.
Lemma run_optimize_soft on items n : soft (run_optimize on items n) any.
Proof.
  unfold run_optimize. destruct on; [|exact Logic.I]. eapply (soft_bind _ _ any); [|intros [] _ _; exact Logic.I].
  unfold const_expr. apply each_soft. apply Forall_forall. intros i _ m. destruct i; cbn [fold_item]; [exact Logic.I| |].
  - eapply soft_bind; [apply visit_opt_soft|]. intros; exact Logic.I.
  - eapply soft_bind; [apply each_soft; apply Forall_forall; intros x _; apply fold_stmt_soft|]. intros [] _ _; exact Logic.I.
Qed.

(** ** The whole compiler *)
Lemma compile_soft addr on regs is : Forall item_fine is -> plain_source regs is -> soft (compile addr on regs is) any.
Proof.
  intros IF PS. unfold compile. fold (source_children regs is). pose proof (run_sema_soft addr _ _ PS) as RS.
  destruct (run_sema addr (source_children regs is)) as [[r n]| |] eqn:E; cbn [bind soft fst] in *; auto.
  eapply soft_bind; [apply run_optimize_soft|]. intros [r1 n1] O _.
  assert (CF : Forall child_fine (source_children regs is)).
  { apply Forall_app. split; apply Forall_forall; intros c I0; apply in_map_iff in I0; destruct I0 as (y & <- & I1); [exact Logic.I|].
    rewrite Forall_forall in IF. exact (IF _ I1). }
  destruct (sema_optimize_generate _ _ _ _ _ _ _ CF E O) as (G1 & _ & G3). destruct (G1 (G3 RS)) as [p ->]. exact Logic.I.
Qed.

(** ** Without constant folding *)
Lemma ann_opt_simple addr sc o n r n' d : ann_opt addr sc o n = Ok (r, n') ->
  match o with Some e => operator_free e | None => True end -> op_init (RGlobal d r) = 0%nat.
Proof.
  destruct o as [e|]; cbn [ann_opt]; intros E H; [|inversion E; reflexivity]. inv_bind E. destruct a as [r0 n0]. inversion E; subst.
  destruct e; cbn [ann_expr operator_free] in *; try contradiction.
  - inversion E0; reflexivity.
  - inversion E0; reflexivity.
  - inversion E0; reflexivity.
  - inversion E0; reflexivity.
  - destruct (find_decl addr x sc); inversion E0; reflexivity.
  - destruct (find_decl addr x sc) as [[|]|]; inversion E0; reflexivity.
  - inv_bind E0. destruct a. inversion E0; reflexivity.
  - inv_bind E0. destruct a. inv_bind E0. destruct a. inversion E0; reflexivity.
  - inv_bind E0. destruct a. inv_bind E0. destruct a. inversion E0; reflexivity.
Qed.
Definition child_simple (c : child) : Prop :=
  match c with CItem (TVar _ _ (Some e) | TConst _ _ (Some e)) => operator_free e | _ => True end.
Lemma annotate_simple addr cs r n : Forall child_simple cs -> annotate addr cs = Ok (r, n) -> ops r = 0%nat.
Proof.
  unfold annotate. destruct (number cs 0) as [ds m] eqn:N. intros H E. pose proof (number_in _ _ _ _ N) as IN.
  assert (D : Forall (fun dc => child_simple (snd dc)) ds). { rewrite Forall_forall in *. auto. }
  clear N IN H cs. revert m r n E. generalize (map fst ds) as g. induction D as [|dc ds D0 D IH]; intros g m r n E; cbn [each] in E; [inversion E; reflexivity|].
  inv_bind E. destruct a as [i n1]. inv_bind E. destruct a as [is n2]. inversion E; subst. rewrite ops_cons, (IH _ _ _ _ E1), Nat.add_0_r.
  destruct dc as [[d|f] c]; cbn [snd] in D0.
  - destruct c as [x k|[x l oe|x l oe|x l args body lend|p l]]; cbn [ann_child] in E0; try (inversion E0; reflexivity);
      (inv_bind E0; destruct a as [r0 n0]; inversion E0; subst; eapply ann_opt_simple; [eassumption|]; cbn [child_simple] in D0; destruct oe; auto).
  - destruct c as [x k|[x l oe|x l oe|x l args body lend|p l]]; cbn [ann_child] in E0; try (inversion E0; reflexivity).
    inv_bind E0. destruct a. inversion E0; reflexivity.
Qed.
Lemma run_globals_plain todo : forall done ch n, ops todo = 0%nat -> exists r, run_globals done todo ch n = Ok (r, ch, n).
Proof.
  induction todo as [|i todo IH]; intros done ch n H; cbn [run_globals]; [eauto|]. rewrite ops_cons in H.
  destruct i as [f|d [e|]|f args body lend]; try (apply IH; lia).
  assert (G : exists e', glob_expr (done ++ RGlobal d (Some e) :: todo) e n = Ok (e', false, n)) by (destruct e; cbn [op_init] in H; try discriminate; eexists; reflexivity).
  destruct G as [e' ->]. cbn [bind]. rewrite orb_false_r. apply IH. lia.
Qed.
Lemma run_globals_ops0 todo : forall done ch n r, ops todo = 0%nat -> ops done = 0%nat -> run_globals done todo ch n = Ok r -> ops (fst (fst r)) = 0%nat.
Proof.
  induction todo as [|i todo IH]; intros done ch n r H D E; cbn [run_globals] in E; [inversion E; exact D|]. rewrite ops_cons in H.
  assert (X : ops (done ++ [i]) = 0%nat) by (rewrite ops_app, ops_cons; change (ops []) with 0%nat; lia).
  destruct i as [f|d [e|]|f args body lend]; try (eapply IH; [| |exact E]; [lia|exact X]).
  inv_bind E. destruct a as [[e' ch'] n']. eapply IH; [| |exact E]; [lia|]. rewrite ops_app, ops_cons. change (ops []) with 0%nat.
  assert (op_init (RGlobal d e') = 0%nat); [|lia]. destruct e; cbn [op_init glob_expr] in *; try discriminate; inversion E0; reflexivity.
Qed.
Lemma global_vars_plain items n : ops items = 0%nat -> settles (Sema.global_vars items n) any.
Proof.
  intros H. unfold Sema.global_vars. cbn [glob_loop]. destruct (run_globals_plain items [] false n H) as [r E].
  pose proof (run_globals_ops0 items [] _ _ _ H (eq_refl : ops [] = 0%nat) E) as H2. cbn [fst] in H2. rewrite E. cbn [bind].
  destruct (run_globals_plain r [] false n H2) as [r2 ->]. exact Logic.I.
Qed.
Lemma compile_settles addr regs is : Forall item_fine is -> plain_source regs is ->
  (forall x l e, In (TVar x l (Some e)) is \/ In (TConst x l (Some e)) is -> operator_free e) ->
  settles (compile addr false regs is) any.
Proof.
  intros IF PS OF. pose proof (compile_soft addr false _ _ IF PS) as CS.
  destruct (compile addr false regs is) as [p|e l|x] eqn:E; [exact Logic.I|exact Logic.I|]. exfalso. cbn [soft] in CS. subst x. revert E.
  pose proof (run_sema_soft addr _ _ PS) as RS. unfold compile. fold (source_children regs is) in *.
  assert (RT : settles (run_sema addr (source_children regs is)) any).
  { destruct (run_sema addr (source_children regs is)) as [[r n]|e l|x] eqn:E; [exact Logic.I|exact Logic.I|]. cbn [soft] in RS. subst x. revert E.
    unfold run_sema. destruct (annotate addr (source_children regs is)) as [[r n]|e l|x] eqn:E0; cbn [bind]; try discriminate.
    - assert (O : ops r = 0%nat).
      { eapply annotate_simple; [|exact E0]. apply Forall_app. split; apply Forall_forall; intros c I0; apply in_map_iff in I0; destruct I0 as (y & <- & I1); [exact Logic.I|].
        cbn [child_simple]. destruct y as [x l [e|]|x l [e|]| |]; auto; eapply OF; eauto. }
      pose proof (global_vars_plain r n O) as G. destruct (Sema.global_vars r n) as [[r1 n1]|e l|x] eqn:E1; cbn [bind settles] in *; try discriminate; try contradiction.
      unfold consts. pose proof (con_items_settles r1 []) as CI. destruct (con_items [] r1) as [r2|e l|x] eqn:E2; cbn [bind settles] in *; try discriminate; try contradiction.
      assert (M : multi_decls r2 <> Stuck SOverflow).
      { unfold multi_decls. intros M.
        assert (W : forall items sc, walk multi_item items sc <> Stuck SOverflow).
        { clear. induction items as [|i items IH]; intros sc; cbn [walk]; [discriminate|].
          assert (MI : multi_item i sc <> Stuck SOverflow).
          { destruct i as [f|d oe|f args body lend]; cbn [multi_item].
            - destruct (is_def _ _); discriminate.
            - unfold multi_var. destruct (is_def _ _); discriminate.
            - destruct (is_def _ _); [destruct (fd_line f); discriminate|].
              pose proof (walk_settles multi_var args ltac:(apply Forall_forall; intros; apply multi_var_settles) ([] :: add_name (fd_name f) sc)) as A.
              destruct (walk multi_var args _) as [s| |]; cbn [bind settles] in *; try discriminate; try contradiction.
              pose proof (walk_settles multi_stmt body ltac:(apply Forall_forall; intros; apply multi_stmt_settles) s) as B.
              destruct (walk multi_stmt body s); cbn [bind settles] in *; try discriminate; try contradiction. }
          destruct (multi_item i sc); cbn [bind]; [apply IH|discriminate|congruence]. }
        specialize (W r2 [[]]). destruct (walk multi_item r2 [[]]); cbn [bind] in M; congruence. }
      destruct (multi_decls r2) as [[]| |]; cbn [bind]; [|discriminate|congruence].
      pose proof (num_args_settles r2) as NA. destruct (num_args_ok r2) as [[]| |]; cbn [bind settles] in *; try discriminate; contradiction.
    - destruct (plain_children _ _ PS) as [CO HK]. pose proof (annotate_good addr _ _ _ CO HK) as AG. rewrite E0 in AG. contradiction. }
  destruct (run_sema addr (source_children regs is)) as [[r n]|e l|x] eqn:E; cbn [bind settles soft fst] in *; try discriminate; try contradiction.
  assert (CF : Forall child_fine (source_children regs is)).
  { apply Forall_app. split; apply Forall_forall; intros c I0; apply in_map_iff in I0; destruct I0 as (y & <- & I1); [exact Logic.I|].
    rewrite Forall_forall in IF. exact (IF _ I1). }
  cbn [run_optimize bind]. destruct (sema_generate _ _ _ _ CF E) as [G _]. destruct (G RS) as [p ->]. discriminate.
Qed.
