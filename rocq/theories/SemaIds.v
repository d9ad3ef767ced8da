(** Proofs that semantic analysis numbers the literals below the next free
    node number. *)
From Coq Require Import ZArith List Bool Lia String ZifyBool.
From Verif Require Import Base BaseFacts F32 Program Ast PrintFacts Sema SemaSpec SemaFacts ConstFacts OptSpec.
Import ListNotations.
Open Scope list_scope.
Open Scope Z_scope.

Definition below (n : nat) (e : rexpr) : Prop := match e with RInt id _ _ => (id < n)%nat | _ => True end.
Definition blit (n : nat) (e : rexpr) : Prop := Forall (below n) (inside e).
Lemma blit_mono n n' e : (n <= n')%nat -> blit n e -> blit n' e.
Proof. intros L H. eapply Forall_impl; [|exact H]. intros []; cbn; try tauto; lia. Qed.
Lemma blits_mono n n' es : (n <= n')%nat -> Forall (blit n) es -> Forall (blit n') es.
Proof. intros L H. eapply Forall_impl; [|exact H]. intros e. now apply blit_mono. Qed.
Lemma blits_flat n es : Forall (blit n) es -> Forall (below n) (flat_map inside es).
Proof. intros H. apply Forall_flat. exact H. Qed.
Definition bopt (n : nat) (o : option rexpr) : Prop := Forall (blit n) (opt_list o).

Section Ann.
  Context (addr : nat -> Z).
  Definition ann_b (e : expr) : Prop := forall sc n r n', ann_expr addr sc e n = Ok (r, n') -> (n <= n')%nat /\ blit n' r.
  Lemma ann_bs es : Forall ann_b es -> forall sc n rs n',
    each (ann_expr addr sc) es n = Ok (rs, n') -> (n <= n')%nat /\ Forall (blit n') rs.
  Proof.
    induction 1 as [|e es He Hes IH]; intros sc n rs n' E; cbn [each] in *.
    - inversion E. split; [lia|constructor].
    - inv_bind E. destruct a. inv_bind E. destruct a. inversion E; subst.
      destruct (He _ _ _ _ E0) as [A1 A2]. destruct (IH _ _ _ _ E1) as [B1 B2]. split; [lia|].
      constructor; [eapply blit_mono; eassumption|assumption].
  Qed.
  Lemma ann_expr_b e : ann_b e.
  Proof.
    induction e using expr_nested; intros sc n r n' E; cbn [ann_expr] in *.
    - inversion E; subst. split; [lia|]. constructor; [cbn; lia|constructor].
    - inversion E; subst. split; [lia|]. constructor; [exact Logic.I|constructor].
    - inversion E; subst. split; [lia|]. constructor; [exact Logic.I|constructor].
    - inversion E; subst. split; [lia|]. constructor; [exact Logic.I|constructor].
    - destruct (find_decl addr x sc); inversion E; subst. split; [lia|]. constructor; [exact Logic.I|constructor].
    - destruct (find_decl addr x sc) as [[]|]; inversion E; subst. split; [lia|]. constructor; [exact Logic.I|constructor].
    - inv_bind E. destruct a. inversion E; subst. destruct (ann_bs _ H _ _ _ _ E0) as [A1 A2]. split; [exact A1|].
      constructor; [exact Logic.I|]. now apply blits_flat.
    - inv_bind E. destruct a. inv_bind E. destruct a. inversion E; subst.
      destruct (IHe1 _ _ _ _ E0) as [A1 A2], (IHe2 _ _ _ _ E1) as [B1 B2]. split; [lia|].
      constructor; [exact Logic.I|]. apply Forall_app. split; [eapply blit_mono; eassumption|exact B2].
    - inv_bind E. destruct a. inv_bind E. destruct a. inversion E; subst.
      destruct (ann_bs _ H _ _ _ _ E0) as [A1 A2], (IHe _ _ _ _ E1) as [B1 B2]. split; [lia|].
      constructor; [exact Logic.I|]. apply Forall_app. split; [exact B2|]. apply blits_flat. eapply blits_mono; eassumption.
    - inv_bind E. destruct a. inv_bind E. destruct a. inversion E; subst.
      destruct (IHe1 _ _ _ _ E0) as [A1 A2], (IHe2 _ _ _ _ E1) as [B1 B2]. split; [lia|].
      constructor; [exact Logic.I|]. apply Forall_app. split; [eapply blit_mono; eassumption|exact B2].
    - inv_bind E. destruct a. inversion E; subst. destruct (IHe _ _ _ _ E0) as [A1 A2]. split; [exact A1|].
      constructor; [exact Logic.I|exact A2].
  Qed.
  Lemma ann_opt_b o sc n r n' : ann_opt addr sc o n = Ok (r, n') -> (n <= n')%nat /\ bopt n' r.
  Proof.
    destruct o; cbn [ann_opt]; intros E.
    - inv_bind E. destruct a. inversion E; subst. destruct (ann_expr_b _ _ _ _ _ E0). split; [assumption|]. constructor; [assumption|constructor].
    - inversion E. split; [lia|constructor].
  Qed.
  Lemma ann_exprs_b es sc n rs n' : each (ann_expr addr sc) es n = Ok (rs, n') -> (n <= n')%nat /\ Forall (blit n') rs.
  Proof. apply ann_bs. apply Forall_forall. intros e _. apply ann_expr_b. Qed.
  Definition ann_sb (s : stmt) : Prop := forall st r st', ann_stmt addr s st = Ok (r, st') ->
    (snd st <= snd st')%nat /\ Forall (blit (snd st')) (exprs_stmt r).
  Lemma ann_block_b b : Forall ann_sb b -> forall st rb st', each (ann_stmt addr) b st = Ok (rb, st') ->
    (snd st <= snd st')%nat /\ Forall (blit (snd st')) (flat_map exprs_stmt rb).
  Proof.
    induction 1 as [|s b Hs Hb IH]; intros st rb st' E; cbn [each] in *.
    - inversion E. split; [lia|constructor].
    - inv_bind E. destruct a. inv_bind E. destruct a. inversion E; subst.
      destruct (Hs _ _ _ E0) as [A1 A2]. destruct (IH _ _ _ E1) as [B1 B2]. split; [lia|]. cbn [flat_map].
      apply Forall_app. split; [eapply blits_mono; eassumption|assumption].
  Qed.
  Lemma ann_stmt_b s : ann_sb s.
  Proof.
    induction s using stmt_nested; intros [sc n] r st' E; cbn [ann_stmt] in *; cbn [snd].
    - inv_bind E. destruct a. inversion E; subst. destruct (ann_opt_b _ _ _ _ _ E0). cbn [snd exprs_stmt]. split; [lia|].
      eapply blits_mono; [|eassumption]. lia.
    - inv_bind E. destruct a. inv_bind E. inversion E; subst. destruct (ann_expr_b _ _ _ _ _ E0). split; [assumption|]. constructor; [assumption|constructor].
    - inv_bind E. destruct a. inv_bind E. inversion E; subst. destruct (ann_expr_b _ _ _ _ _ E0). split; [assumption|]. constructor; [assumption|constructor].
    - inv_bind E. destruct a. inv_bind E. destruct a. inv_bind E. inversion E; subst.
      destruct (ann_expr_b _ _ _ _ _ E0), (ann_expr_b _ _ _ _ _ E1). cbn [snd exprs_stmt]. split; [lia|].
      apply Forall_cons; [eapply blit_mono; eassumption|]. apply Forall_cons; [assumption|constructor].
    - inv_bind E. destruct a. inv_bind E. destruct a. inversion E; subst.
      destruct (ann_exprs_b _ _ _ _ _ E0), (ann_expr_b (EIdent x l) _ _ _ _ E1). cbn [snd exprs_stmt]. split; [lia|].
      constructor; [|constructor]. constructor; [exact Logic.I|]. apply Forall_app. split; [assumption|].
      apply blits_flat. eapply blits_mono; eassumption.
    - inv_bind E. destruct a. inv_bind E. destruct a as [rt [sc2 n2]]. cbn [bind] in E. inversion E; subst.
      destruct (ann_expr_b _ _ _ _ _ E0) as [A1 A2], (ann_block_b _ H _ _ _ E1) as [B1 B2]. cbn [snd exprs_stmt] in *. split; [lia|].
      apply Forall_cons; [eapply blit_mono; eassumption|]. rewrite app_nil_r. assumption.
    - inv_bind E. destruct a. inv_bind E. destruct a as [rt [sc2 n2]]. inv_bind E. destruct a as [rf [sc3 n3]]. inv_bind E2. destruct a as [rg [sc4 n4]].
      inversion E2; subst. inversion E; subst.
      destruct (ann_expr_b _ _ _ _ _ E0) as [A1 A2], (ann_block_b _ H _ _ _ E1) as [B1 B2], (ann_block_b _ H0 _ _ _ E3) as [C1 C2]. cbn [snd fst exprs_stmt] in *. split; [lia|].
      apply Forall_cons; [eapply blit_mono; [|eassumption]; lia|]. apply Forall_app. split; [|assumption]. eapply blits_mono; [|exact B2]. lia.
    - inv_bind E. destruct a. inv_bind E. destruct a as [rt [sc2 n2]]. inversion E; subst.
      destruct (ann_expr_b _ _ _ _ _ E0) as [A1 A2], (ann_block_b _ H _ _ _ E1) as [B1 B2]. cbn [snd fst exprs_stmt] in *. split; [lia|].
      apply Forall_cons; [eapply blit_mono; eassumption|assumption].
    - inv_bind E. inv_bind E. destruct a1. inv_bind E. destruct a1. inv_bind E. destruct a1 as [rt [sc2 n2]]. inversion E; subst.
      destruct (ann_expr_b _ _ _ _ _ E1) as [A1 A2], (ann_expr_b _ _ _ _ _ E2) as [B1 B2], (ann_block_b _ H _ _ _ E3) as [C1 C2]. cbn [snd fst exprs_stmt] in *. split; [lia|].
      apply Forall_cons; [eapply blit_mono; [|eassumption]; lia|]. apply Forall_cons; [eapply blit_mono; [|eassumption]; lia|assumption].
    - inv_bind E. destruct a. inversion E; subst. destruct (ann_opt_b _ _ _ _ _ E0). cbn [snd exprs_stmt]. split; assumption.
  Qed.
  Definition bitem (n : nat) (i : ritem) : Prop := Forall (blit n) (exprs_item i).
  Lemma ann_child_b g dc n i n' : ann_child addr g dc n = Ok (i, n') -> (n <= n')%nat /\ bitem n' i.
  Proof.
    destruct dc as [d c]. intros E. unfold bitem.
    destruct c as [x k|[x l oe|x l oe|x l args body lend|p l]]; destruct d; cbn [ann_child] in *;
      try (inversion E; subst; split; [lia|constructor]).
    - inv_bind E. destruct a. inversion E; subst. apply ann_opt_b in E0. exact E0.
    - inv_bind E. destruct a. inversion E; subst. apply ann_opt_b in E0. exact E0.
    - inv_bind E. destruct a as [rb [sc2 n2]]. inversion E; subst. cbn [exprs_item snd].
      destruct (ann_block_b body (proj2 (Forall_forall _ _) (fun s _ => ann_stmt_b s)) _ _ _ E0) as [A B]. cbn [snd] in *. split; [lia|assumption].
  Qed.
  Lemma bitems_mono n n' is : (n <= n')%nat -> Forall (bitem n) is -> Forall (bitem n') is.
  Proof. intros L H. eapply Forall_impl; [|exact H]. intros i. now apply blits_mono. Qed.
  Lemma ann_children_b g ds : forall n r n', each (ann_child addr g) ds n = Ok (r, n') -> (n <= n')%nat /\ Forall (bitem n') r.
  Proof.
    induction ds as [|d ds IH]; intros n r n' E; cbn [each] in E.
    - inversion E; subst. split; [lia|constructor].
    - inv_bind E. destruct a. inv_bind E. destruct a. inversion E; subst.
      destruct (ann_child_b _ _ _ _ _ E0) as [A1 A2]. destruct (IH _ _ _ E1) as [B1 B2]. split; [lia|].
      constructor; [eapply blits_mono; eassumption|assumption].
  Qed.
End Ann.

(** ** Folding and inlining constants *)
Lemma glob_expr_b items e n o b n' : blit n e -> glob_expr items e n = Ok (o, b, n') -> (n <= n')%nat /\ bopt n' o.
Proof.
  intros L. unfold bopt.
  assert (SE : forall n', (n <= n')%nat -> bopt n' (Some e)) by (intros m M; constructor; [eapply blit_mono; eassumption|constructor]).
  assert (EV : forall e, blit n e ->
    (o0 <- eval items e ;; match o0 with Some v => Ok (Some (RInt n v None), true, S n) | None => Ok (Some e, false, n) end) = Ok (o, b, n') ->
    (n <= n')%nat /\ Forall (blit n') (opt_list o)).
  { clear e L SE. intros e L E. inv_bind E. destruct a as [v|]; inversion E; subst; (split; [lia|]); constructor; try constructor; try assumption; try constructor. }
  destruct e; cbn [glob_expr]; intros E; try (inversion E; subst; split; [lia|apply SE; lia]); try (now apply (EV _ L)).
  inversion E. split; [lia|constructor].
Qed.
Lemma run_globals_b todo : forall done ch n js ch' n', Forall (bitem n) (done ++ todo) ->
  run_globals done todo ch n = Ok (js, ch', n') -> (n <= n')%nat /\ Forall (bitem n') js.
Proof.
  induction todo as [|i todo IH]; intros done ch n js ch' n' H E; cbn [run_globals] in E.
  - inversion E; subst. rewrite app_nil_r in H. split; [lia|assumption].
  - assert (K : forall m i', (n <= m)%nat -> bitem m i' -> Forall (bitem m) ((done ++ [i']) ++ todo)).
    { intros m i' M L. apply (bitems_mono n m) in H; [|assumption]. rewrite <- app_assoc. rewrite Forall_app in *. destruct H as [H1 H2]. inversion H2; subst.
      split; [assumption|]. constructor; assumption. }
    assert (L : bitem n i) by (rewrite Forall_app in H; destruct H as [_ H]; now inversion H).
    destruct i as [f|d [e|]|f args body lend]; try (eapply IH; [|exact E]; apply K; [lia|assumption]).
    inv_bind E. destruct a as [[o b] m]. assert (Le : blit n e) by now inversion L.
    destruct (glob_expr_b _ _ _ _ _ _ Le E0) as [A1 A2].
    destruct (IH _ _ _ _ _ _ (K m (RGlobal d o) A1 A2) E) as [B1 B2]. split; [lia|assumption].
Qed.
Lemma glob_loop_b fuel : forall items n js n', Forall (bitem n) items ->
  glob_loop fuel items n = Ok (js, n') -> (n <= n')%nat /\ Forall (bitem n') js.
Proof.
  induction fuel as [|fuel IH]; intros items n js n' H E; cbn [glob_loop] in E; [discriminate|].
  inv_bind E. destruct a as [[is c] m]. destruct (run_globals_b _ [] _ _ _ _ _ H E0) as [A1 A2].
  destruct c; [|inversion E; subst; auto]. destruct (IH _ _ _ _ A2 E). split; [lia|assumption].
Qed.
Lemma global_vars_b items n js n' : Forall (bitem n) items -> Sema.global_vars items n = Ok (js, n') -> (n <= n')%nat /\ Forall (bitem n') js.
Proof.
  intros H E. unfold Sema.global_vars in E. inv_bind E. destruct a as [is m]. inv_bind E. destruct a as [[is2 c] m2].
  inversion E; subst. destruct (glob_loop_b _ _ _ _ _ H E0) as [A1 A2]. destruct (run_globals_b _ [] _ _ _ _ _ A2 E1). split; [lia|assumption].
Qed.

Section Bounded.
Context (n : nat).
Local Notation lit_in := (blit n).
Local Notation lit_item := (bitem n).
Local Notation lit_opt_in := (bopt n).
Local Notation lits_flat := (blits_flat n).
Lemma global_expr_lit items id e : Forall lit_item items -> global_expr items id = Some e -> lit_in e.
Proof.
  induction 1 as [|i items H F IH]; cbn [global_expr]; [discriminate|].
  destruct i; auto. destruct (Nat.eqb _ _); auto. intros ->. unfold bitem in H. cbn [exprs_item opt_list] in H.
  inversion H; assumption.
Qed.
Lemma lit_in_sub e : lit_in e -> match e with
  | RUn _ _ a => lit_in a
  | RBin _ _ a b => lit_in a /\ lit_in b
  | RIndex _ a b => lit_in a /\ lit_in b
  | RCall _ f es => lit_in f /\ Forall lit_in es
  | RArray _ es => Forall lit_in es
  | _ => True
  end.
Proof.
  unfold blit. destruct e; auto; cbn [inside]; intros H; inversion H as [|? ? _ H']; subst;
    rewrite ?Forall_app, ?Forall_flat in H'; auto.
Qed.

Section Con.
  Context (items : list ritem) (HI : Forall lit_item items).
  Lemma const_lit_in d l e : const_lit items d l = Ok (Some e) -> lit_in e.
  Proof.
    unfold const_lit. destruct d as [d|]; [|discriminate]. destruct (negb (vd_const d)); [discriminate|].
    destruct (global_expr items (vd_id d)) as [e'|] eqn:G; [|discriminate].
    apply global_expr_lit in G; [|assumption]. destruct e'; intros E; inversion E; subst; assumption.
  Qed.
  Lemma con_exprs_lit es : Forall (fun e => forall r, lit_in e -> con_expr items e = Ok r -> lit_in r) es ->
    forall rs, Forall lit_in es -> each_ (con_expr items) es = Ok rs -> Forall lit_in rs.
  Proof.
    induction 1 as [|e es He Hes IH]; intros rs L E; cbn [each_] in E.
    - inversion E. constructor.
    - inversion L; subst. inv_bind E. inv_bind E. inversion E; subst. constructor; auto.
  Qed.
  Lemma con_expr_lit e : forall r, lit_in e -> con_expr items e = Ok r -> lit_in r.
  Proof.
    induction e using rexpr_nested; intros r L E; cbn [con_expr] in E; try (inversion E; subst; assumption);
      pose proof (lit_in_sub _ L) as S; cbn match in S.
    - inv_bind E. destruct a; inversion E; subst; [|assumption]. eapply const_lit_in; eassumption.
    - inv_bind E. inversion E; subst. constructor; [exact Logic.I|]. apply lits_flat. eapply con_exprs_lit; eassumption.
    - destruct S. inv_bind E. inv_bind E. inversion E; subst. constructor; [exact Logic.I|]. apply Forall_app. split; [eapply IHe1|eapply IHe2]; eassumption.
    - destruct S as [S1 S2]. inv_bind E.
      assert (A : Forall lit_in a) by (eapply con_exprs_lit; eassumption).
      assert (G : forall f, lit_in f -> lit_in (RCall l f a)).
      { intros f F. constructor; [exact Logic.I|]. apply Forall_app. split; [exact F|apply lits_flat; exact A]. }
      destruct e; try (inv_bind E; inversion E; subst; apply G; first [eapply IHe; eassumption|assumption]).
    - destruct S. inv_bind E. inv_bind E. inversion E; subst. constructor; [exact Logic.I|]. apply Forall_app. split; [eapply IHe1|eapply IHe2]; eassumption.
    - inv_bind E. inversion E; subst. constructor; [exact Logic.I|]. eapply IHe; eassumption.
  Qed.
  Lemma con_opt_lit o r : lit_opt_in o -> con_opt items o = Ok r -> lit_opt_in r.
  Proof.
    destruct o; cbn [con_opt]; intros L E; [|inversion E; constructor]. inv_bind E. inversion E; subst. inversion L; subst.
    constructor; [eapply con_expr_lit; eassumption|constructor].
  Qed.
  Definition con_slit (s : rstmt) : Prop := forall r, Forall lit_in (exprs_stmt s) -> con_stmt items s = Ok r -> Forall lit_in (exprs_stmt r).
  Lemma con_block_lit b : Forall con_slit b -> forall rb, Forall lit_in (flat_map exprs_stmt b) ->
    each_ (con_stmt items) b = Ok rb -> Forall lit_in (flat_map exprs_stmt rb).
  Proof.
    induction 1 as [|s b Hs Hb IH]; intros rb L E; cbn [each_ flat_map] in *; [inversion E; constructor|].
    apply Forall_app in L. destruct L. inv_bind E. inv_bind E. inversion E; subst. cbn [flat_map]. apply Forall_app. auto.
  Qed.
  Definition oblock_exprs (o : option (list rstmt)) : list rexpr := match o with Some b => flat_map exprs_stmt b | None => [] end.
  Lemma con_oblock_lit o : oall con_slit o -> forall r, Forall lit_in (oblock_exprs o) ->
    match o with None => Ok None | Some b => r <- each_ (con_stmt items) b ;; Ok (Some r) end = Ok r -> Forall lit_in (oblock_exprs r).
  Proof.
    destruct o; cbn [oall oblock_exprs]; intros H r L E; [|inversion E; constructor]. inv_bind E. inversion E; subst.
    eapply con_block_lit; eassumption.
  Qed.
  Lemma con_stmt_lit s : con_slit s.
  Proof.
    induction s using rstmt_nested; intros r L E; cbn [con_stmt exprs_stmt] in *.
    - inv_bind E. inversion E; subst. eapply con_opt_lit; eassumption.
    - destruct (vd_const d); [discriminate|]. inv_bind E. inversion E; subst. inversion L; subst. apply Forall_cons; [|constructor]. eapply con_expr_lit; eassumption.
    - inv_bind E. inversion E; subst. inversion L; subst. apply Forall_cons; [|constructor]. eapply con_expr_lit; eassumption.
    - inv_bind E. inv_bind E. inversion E; subst. inversion L as [|? ? L1 L2]; subst. inversion L2; subst.
      apply Forall_cons; [eapply con_expr_lit; [|exact E0]; assumption|]. apply Forall_cons; [eapply con_expr_lit; [|exact E1]; assumption|constructor].
    - inv_bind E. destruct a as [rf rs]. inversion E; subst. unfold con_call in E0. inv_bind E0. inversion L; subst.
      apply con_expr_lit in E1; [|assumption]. destruct a; inversion E0; subst.
      inversion E1; subst. apply Forall_cons; [constructor; [exact Logic.I|assumption]|constructor].
    - inversion L as [|? ? L1 L2]; subst. apply Forall_app in L2. destruct L2 as [L2 L3].
      inv_bind E. inv_bind E. inv_bind E. inversion E; subst. cbn [exprs_stmt].
      apply Forall_cons; [eapply con_expr_lit; eassumption|]. apply Forall_app. split.
      + eapply (con_oblock_lit t); eassumption.
      + eapply (con_oblock_lit f); eassumption.
    - inversion L as [|? ? L1 L2]; subst. inv_bind E. inv_bind E. inversion E; subst. cbn [exprs_stmt].
      apply Forall_cons; [eapply con_expr_lit; eassumption|]. eapply (con_oblock_lit b); eassumption.
    - inversion L as [|? ? L1 L2]; subst. inversion L2 as [|? ? L3 L4]; subst.
      inv_bind E. inv_bind E. inv_bind E. inversion E; subst. cbn [exprs_stmt].
      apply Forall_cons; [eapply con_expr_lit; [|exact E0]; assumption|]. apply Forall_cons; [eapply con_expr_lit; [|exact E1]; assumption|].
      eapply con_block_lit; eassumption.
    - inv_bind E. inversion E; subst. eapply con_opt_lit; eassumption.
  Qed.
  Lemma con_item_lit i r : lit_item i -> con_item items i = Ok r -> lit_item r.
  Proof.
    unfold bitem. destruct i as [f|d oe|f args body lend]; cbn [con_item exprs_item]; intros L E.
    - inversion E; constructor.
    - inv_bind E. apply con_opt_lit in E0; [|assumption]. destruct a; [inversion E; subst; assumption|].
      destruct (vd_const d); inversion E; constructor.
    - inv_bind E. inversion E; subst. cbn [exprs_item]. eapply con_block_lit; [|exact L|eassumption].
      apply Forall_forall. intros s _. apply con_stmt_lit.
  Qed.
End Con.
Lemma con_items_lit todo : forall done r, Forall lit_item (done ++ todo) -> con_items done todo = Ok r -> Forall lit_item r.
Proof.
  induction todo as [|i todo IH]; intros done r H E; cbn [con_items] in E.
  - inversion E; subst. rewrite app_nil_r in H. assumption.
  - inv_bind E. apply con_item_lit in E0; [|assumption|rewrite Forall_app in H; destruct H as [_ H]; now inversion H].
    eapply IH; [|exact E]. rewrite <- app_assoc. rewrite Forall_app in *. destruct H as [H1 H2]. inversion H2; subst.
    split; [assumption|]. constructor; assumption.
Qed.
End Bounded.
Lemma run_sema_b addr cs r n : run_sema addr cs = Ok (r, n) -> Forall (bitem n) r.
Proof.
  unfold run_sema, annotate. intros E. inv_bind E. destruct a as [r0 n0]. inv_bind E. destruct a as [r1 n1].
  inv_bind E. inv_bind E. inv_bind E. inversion E; subst. destruct (number cs 0) as [ds m].
  destruct (ann_children_b _ _ _ _ _ _ E0) as [_ A]. destruct (global_vars_b _ _ _ _ A E1) as [_ B].
  eapply con_items_lit in E2; [|eassumption]. exact E2.
Qed.
Lemma run_sema_ids addr cs r n id : run_sema addr cs = Ok (r, n) -> In id (literal_nodes r) -> (id < n)%nat.
Proof.
  intros E I. pose proof (run_sema_b _ _ _ _ E) as B. unfold literal_nodes in I.
  apply in_flat_map in I. destruct I as (x & I1 & I2). apply in_flat_map in I1. destruct I1 as (e & I3 & I4).
  apply in_flat_map in I3. destruct I3 as (i & I5 & I6). rewrite Forall_forall in B. specialize (B _ I5). unfold bitem in B.
  assert (I7 : In e (exprs_item i)).
  { destruct i as [f|d oe|f args body lend]; cbn [code_exprs exprs_item] in *; auto. destruct (vd_const d); [contradiction|assumption]. }
  rewrite Forall_forall in B. specialize (B _ I7). unfold blit in B. rewrite Forall_forall in B. specialize (B _ I4).
  destruct x; cbn [literal_node In] in I2; try contradiction. destruct I2 as [<-|[]]. exact B.
Qed.
