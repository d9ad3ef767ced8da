(** Proofs that analysed and optimised programs are what the generator expects. *)
From Coq Require Import ZArith List Bool Lia String ZifyBool.
From Verif Require Import Base BaseFacts F32 Program Ast PrintFacts Sema SemaSpec SemaFacts ConstFacts Optimize OptFacts
  Codegen SrcSem CgSpec BuildSpec.
Import ListNotations.
Open Scope list_scope.
Open Scope Z_scope.

(** ** The annotation keeps literals *)
Definition lit_in (e : rexpr) : Prop := Forall machine_literal (inside e).

Lemma lits_flat es : Forall lit_in es -> Forall machine_literal (flat_map inside es).
Proof. intros H. apply Forall_flat. exact H. Qed.

Lemma each_nonempty {A B S} (f : A -> S -> res (B * S)) l s r s' : each f l s = Ok (r, s') -> l <> [] -> r <> [].
Proof. destruct l; cbn [each]; [congruence|]. intros E _. inv_bind E. destruct a0. inv_bind E. destruct a0. inversion E; subst. discriminate. Qed.
Lemma each__nonempty {A B} (f : A -> res B) l r : each_ f l = Ok r -> l <> [] -> r <> [].
Proof. destruct l; cbn [each_]; [congruence|]. intros E _. inv_bind E. inv_bind E. inversion E; subst. discriminate. Qed.

Section Ann.
  Context (addr : nat -> Z).
  Definition ann_lit (e : expr) : Prop := forall sc n r n',
    Forall number_ok (literals e) -> ann_expr addr sc e n = Ok (r, n') -> lit_in r.
  Lemma ann_lits es : Forall ann_lit es -> forall sc n rs n',
    Forall number_ok (flat_map literals es) -> each (ann_expr addr sc) es n = Ok (rs, n') -> Forall lit_in rs.
  Proof.
    induction 1 as [|e es He Hes IH]; intros sc n rs n' L E; cbn [each flat_map] in *.
    - inversion E. constructor.
    - apply Forall_app in L. destruct L as [L1 L2]. inv_bind E. destruct a. inv_bind E. destruct a.
      inversion E; subst. constructor; [eapply He; eassumption|eapply IH; eassumption].
  Qed.
  Lemma ann_expr_lit e : ann_lit e.
  Proof.
    unfold lit_in.
    induction e using expr_nested; intros sc n r n' L E; cbn [ann_expr literals] in *; unfold lit_in.
    - inversion E; subst. inversion L; subst. constructor; [assumption|constructor].
    - inversion E; subst. inversion L; subst. constructor; [assumption|constructor].
    - inversion E; subst. constructor; [exact Logic.I|constructor].
    - inversion E; subst. constructor; [exact Logic.I|constructor].
    - destruct (find_decl addr x sc); inversion E; subst. constructor; [exact Logic.I|constructor].
    - destruct (find_decl addr x sc) as [[]|]; inversion E; subst. constructor; [exact Logic.I|constructor].
    - inversion L as [|? ? L0 L1]; subst. inv_bind E. destruct a. inversion E; subst. cbn [inside]. constructor.
      + eapply each_nonempty; [exact E0|exact L0].
      + apply lits_flat. eapply ann_lits; eassumption.
    - apply Forall_app in L. destruct L. inv_bind E. destruct a. inv_bind E. destruct a. inversion E; subst.
      cbn [inside]. constructor; [exact Logic.I|]. apply Forall_app. split; [eapply IHe1|eapply IHe2]; eassumption.
    - apply Forall_app in L. destruct L. inv_bind E. destruct a. inv_bind E. destruct a. inversion E; subst.
      cbn [inside]. constructor; [exact Logic.I|]. apply Forall_app.
      split; [eapply IHe; eassumption|apply lits_flat; eapply ann_lits; eassumption].
    - apply Forall_app in L. destruct L. inv_bind E. destruct a. inv_bind E. destruct a. inversion E; subst.
      cbn [inside]. constructor; [exact Logic.I|]. apply Forall_app. split; [eapply IHe1|eapply IHe2]; eassumption.
    - inv_bind E. destruct a. inversion E; subst. cbn [inside]. constructor; [exact Logic.I|]. eapply IHe; eassumption.
  Qed.
  Definition olit (o : option rexpr) : Prop := Forall lit_in (opt_list o).
  Lemma ann_opt_lit o sc n r n' : Forall number_ok (opt_literals o) -> ann_opt addr sc o n = Ok (r, n') -> olit r.
  Proof.
    destruct o; cbn [ann_opt opt_literals]; intros L E.
    - inv_bind E. destruct a. inversion E; subst. constructor; [|constructor]. eapply ann_expr_lit; eassumption.
    - inversion E. constructor.
  Qed.
  Lemma ann_exprs_lit es sc n rs n' : Forall number_ok (flat_map literals es) ->
    each (ann_expr addr sc) es n = Ok (rs, n') -> Forall lit_in rs.
  Proof. apply ann_lits. apply Forall_forall. intros e _. apply ann_expr_lit. Qed.

  Definition lit_stmt (s : rstmt) : Prop := Forall lit_in (exprs_stmt s).
  Definition ann_slit (s : stmt) : Prop := forall st r st',
    Forall number_ok (stmt_literals s) -> ann_stmt addr s st = Ok (r, st') -> lit_stmt r.
  Lemma ann_block_lit b : Forall ann_slit b -> forall st rb st',
    Forall number_ok (flat_map stmt_literals b) -> each (ann_stmt addr) b st = Ok (rb, st') ->
    Forall lit_in (flat_map exprs_stmt rb).
  Proof.
    induction 1 as [|s b Hs Hb IH]; intros st rb st' L E; cbn [each flat_map] in *.
    - inversion E. constructor.
    - apply Forall_app in L. destruct L as [L1 L2]. inv_bind E. destruct a. inv_bind E. destruct a.
      inversion E; subst. cbn [flat_map]. apply Forall_app. split; [eapply Hs; eassumption|eapply IH; eassumption].
  Qed.
  Lemma ann_stmt_lit s : ann_slit s.
  Proof.
    unfold lit_stmt.
    induction s using stmt_nested; intros [sc n] r st' L E; cbn [ann_stmt stmt_literals] in *; unfold lit_stmt;
      rewrite ?Forall_app in L.
    - inv_bind E. destruct a. inversion E; subst. eapply ann_opt_lit; eassumption.
    - inv_bind E. destruct a. inv_bind E. inversion E; subst. constructor; [|constructor]. eapply ann_expr_lit; eassumption.
    - inv_bind E. destruct a. inv_bind E. inversion E; subst. constructor; [|constructor]. eapply ann_expr_lit; eassumption.
    - destruct L. inv_bind E. destruct a. inv_bind E. destruct a. inv_bind E. inversion E; subst.
      cbn [exprs_stmt]. apply Forall_cons; [eapply ann_expr_lit; [|exact E0]; assumption|].
      apply Forall_cons; [eapply ann_expr_lit; [|exact E1]; assumption|apply Forall_nil].
    - inv_bind E. destruct a. inv_bind E. destruct a. inversion E; subst.
      constructor; [|constructor]. unfold lit_in. cbn [inside]. constructor; [exact Logic.I|]. apply Forall_app. split.
      + eapply ann_expr_lit; [|exact E1]. constructor.
      + apply lits_flat. eapply ann_exprs_lit; eassumption.
    - destruct L as (L1 & L2 & _). inv_bind E. destruct a. inv_bind E. destruct a. cbn [bind] in E. inversion E; subst.
      cbn [exprs_stmt]. rewrite app_nil_r. constructor; [eapply ann_expr_lit; eassumption|eapply ann_block_lit; eassumption].
    - destruct L as (L1 & L2 & L3). inv_bind E. destruct a. inv_bind E. destruct a. inv_bind E. destruct a. inv_bind E2. destruct a.
      inversion E2; subst. inversion E; subst.
      cbn [exprs_stmt]. constructor; [eapply ann_expr_lit; eassumption|]. apply Forall_app. split.
      + eapply ann_block_lit; [|exact L2|eassumption]. assumption.
      + eapply ann_block_lit; [|exact L3|eassumption]. assumption.
    - destruct L as (L1 & L2). inv_bind E. destruct a. inv_bind E. destruct a. inversion E; subst.
      cbn [exprs_stmt]. constructor; [eapply ann_expr_lit; eassumption|eapply ann_block_lit; eassumption].
    - destruct L as (L1 & L2 & L3). inv_bind E. inv_bind E. destruct a1. inv_bind E. destruct a1. inv_bind E. destruct a1. inversion E; subst.
      cbn [exprs_stmt]. constructor; [eapply ann_expr_lit; [|eassumption]; assumption|].
      constructor; [eapply ann_expr_lit; [|eassumption]; assumption|]. eapply ann_block_lit; eassumption.
    - inv_bind E. destruct a. inversion E; subst. eapply ann_opt_lit; eassumption.
  Qed.
  Definition lit_item (i : ritem) : Prop := Forall lit_in (exprs_item i).
  Lemma ann_child_lit g dc n i n' : child_fine (snd dc) -> ann_child addr g dc n = Ok (i, n') -> lit_item i.
  Proof.
    destruct dc as [d c]. cbn [snd]. intros F E.
    destruct c as [x k|[x l oe|x l oe|x l args body lend|p l]]; destruct d; cbn [ann_child child_fine] in *;
      try (inversion E; subst; constructor); destruct F as [F _]; cbn [item_literals] in F.
    - inv_bind E. destruct a. inversion E; subst. eapply ann_opt_lit; eassumption.
    - inv_bind E. destruct a. inversion E; subst. eapply ann_opt_lit; eassumption.
    - inv_bind E. destruct a. inversion E; subst. unfold lit_item. cbn [exprs_item].
      eapply ann_block_lit; [|exact F|eassumption]. apply Forall_forall. intros s _. apply ann_stmt_lit.
  Qed.
  Lemma number_children cs : forall n ds m, number cs n = (ds, m) -> forall dc, In dc ds -> In (snd dc) cs.
  Proof.
    induction cs as [|c cs IH]; intros n ds m E dc I0; cbn [number] in E.
    - inversion E; subst. destruct I0.
    - destruct (head_decl c n).
      + destruct (number cs (S n)) eqn:N. inversion E; subst. destruct I0 as [<-|I0]; [now left|right; eauto].
      + right. eauto.
  Qed.
  Lemma annotate_lit cs r n : Forall child_fine cs -> annotate addr cs = Ok (r, n) -> Forall lit_item r.
  Proof.
    unfold annotate. destruct (number cs 0) as [ds m] eqn:N. intros F E.
    assert (H : Forall2 (fun _ i => lit_item i) ds r).
    { eapply each_inv; [|exact E]. apply Forall_forall. intros dc I0 s b s' X. eapply ann_child_lit; [|exact X].
      rewrite Forall_forall in F. apply F. eapply number_children; eassumption. }
    clear -H. induction H; constructor; assumption.
  Qed.
End Ann.

(** ** Folding and inlining constants keep them *)
Definition ranged (vs : list Z) : Prop := Forall (fun v => in_i32 v = true) vs.
Lemma chk32_range z v : chk32 z = Ok v -> in_i32 v = true.
Proof. intros H. destruct (chk32_ok _ _ H) as [-> ?]. assumption. Qed.
Lemma zb_range b : in_i32 (zb b) = true.
Proof. destruct b; reflexivity. Qed.
Lemma fold_bin_range o x y v : in_i32 x = true -> in_i32 y = true -> fold_bin o x y = Ok v -> in_i32 v = true.
Proof.
  intros X Y. destruct o; cbn [fold_bin]; intros E; try (inversion E; apply zb_range); try (now apply chk32_range in E).
  - destruct (y =? 0); [discriminate|]. now apply chk32_range in E.
  - destruct (y =? 0) eqn:Y0; [discriminate|]. inv_bind E. inversion E; subst.
    assert (Z.abs (Z.rem x y) <= Z.abs x).
    { rewrite <- Z.rem_abs by lia. apply Z.rem_le; lia. }
    pose proof (Z.rem_sign_nz x y). unfold in_i32, i32_min, i32_max in *.
    destruct (Z.eq_dec (Z.rem x y) 0); [lia|]. assert (Z.sgn (Z.rem x y) = Z.sgn x) by (apply H0; lia). lia.
Qed.
Definition lit_opt_in (o : option rexpr) : Prop := Forall lit_in (opt_list o).
Lemma global_expr_lit items id e : Forall lit_item items -> global_expr items id = Some e -> lit_in e.
Proof.
  induction 1 as [|i items H F IH]; cbn [global_expr]; [discriminate|].
  destruct i; auto. destruct (Nat.eqb _ _); auto. intros ->. unfold lit_item in H. cbn [exprs_item opt_list] in H.
  inversion H; assumption.
Qed.
Lemma lit_in_sub e : lit_in e -> match e with
  | RUn _ _ a => lit_in a
  | RBin _ _ a b => lit_in a /\ lit_in b
  | RIndex _ a b => lit_in a /\ lit_in b
  | RCall _ f es => lit_in f /\ Forall lit_in es
  | RArray _ es => Forall lit_in es
  | _ => True
  end.
Proof.
  unfold lit_in. destruct e; auto; cbn [inside]; intros H; inversion H as [|? ? _ H']; subst;
    rewrite ?Forall_app, ?Forall_flat in H'; auto.
Qed.

Lemma ev_range items : Forall lit_item items -> forall e vs ok vs' ok', lit_in e -> ranged vs ->
  ev items e (vs, ok) = Ok (vs', ok') -> ranged vs'.
Proof.
  intros HI. unfold ranged.
  induction e using rexpr_nested; intros vs ok vs' ok' L R E; cbn [ev] in E;
    try (inversion E; subst; assumption).
  - inversion E; subst. constructor; [|assumption]. now inversion L.
  - destruct x as [d|f]; [|discriminate].
    destruct (if vd_const d then global_expr items (vd_id d) else None) as [e|] eqn:G;
      [|inversion E; subst; assumption].
    destruct (vd_const d); [|discriminate]. apply global_expr_lit in G; [|assumption].
    destruct e; inversion E; subst; try assumption. constructor; [|assumption]. now inversion G.
  - apply lit_in_sub in L. destruct L as [L1 L2].
    destruct (ev_supported e1 && ev_supported e2); [|inversion E; subst; assumption].
    inv_bind E. destruct a as [vs1 ok1]. inv_bind E. destruct a as [vs2 ok2].
    specialize (IHe1 _ _ _ _ L1 R E0). specialize (IHe2 _ _ _ _ L2 IHe1 E1).
    destruct (negb ok2); [inversion E; subst; constructor; [reflexivity|assumption]|].
    destruct vs2 as [|y [|x vs3]]; try discriminate. destruct ((y =? 0) && is_div o); [discriminate|].
    inv_bind E. inversion E; subst. inversion IHe2 as [|? ? Y IH2]; subst. inversion IH2 as [|? ? X IH3]; subst.
    constructor; [|assumption]. eapply fold_bin_range; [exact X|exact Y|eassumption].
  - apply lit_in_sub in L. destruct (ev_supported e); [|inversion E; subst; assumption].
    inv_bind E. destruct a as [vs1 ok1]. specialize (IHe _ _ _ _ L R E0).
    destruct vs1 as [|v vs2]; [discriminate|]. destruct o; [|discriminate].
    inv_bind E. inversion E; subst. inversion IHe; subst. constructor; [|assumption]. eapply chk32_range; eassumption.
Qed.
Lemma glob_expr_lit items e n o b n' : Forall lit_item items -> lit_in e ->
  glob_expr items e n = Ok (o, b, n') -> lit_opt_in o.
Proof.
  intros HI L. unfold lit_opt_in.
  assert (SE : lit_opt_in (Some e)) by (constructor; [assumption|constructor]).
  assert (EV : forall e, lit_in e ->
    (o0 <- eval items e ;; match o0 with Some v => Ok (Some (RInt n v None), true, S n) | None => Ok (Some e, false, n) end) = Ok (o, b, n') ->
    Forall lit_in (opt_list o)).
  { clear e L SE. intros e L E. inv_bind E. destruct a as [v|]; inversion E; subst; constructor; try constructor; try assumption; [|constructor].
    unfold eval in E0. inv_bind E0. destruct a as [vs ok]. apply ev_range in E1; [|assumption|assumption|constructor].
    destruct vs as [|w [|]]; inversion E0. destruct ok; inversion H0; subst. inversion E1; subst. assumption. }
  destruct e; cbn [glob_expr]; intros E; try (inversion E; subst; assumption); try (now apply (EV _ L)).
  inversion E. constructor.
Qed.
Lemma run_globals_lit todo : forall done ch n js ch' n', Forall lit_item (done ++ todo) ->
  run_globals done todo ch n = Ok (js, ch', n') -> Forall lit_item js.
Proof.
  induction todo as [|i todo IH]; intros done ch n js ch' n' H E; cbn [run_globals] in E.
  - inversion E; subst. rewrite app_nil_r in H. assumption.
  - assert (K : forall i', lit_item i' -> Forall lit_item ((done ++ [i']) ++ todo)).
    { intros i' L. rewrite <- app_assoc. rewrite Forall_app in *. destruct H as [H1 H2]. inversion H2; subst.
      split; [assumption|]. constructor; assumption. }
    assert (L : lit_item i) by (rewrite Forall_app in H; destruct H as [_ H]; now inversion H).
    destruct i as [f|d [e|]|f args body lend]; try (eapply IH; [|exact E]; apply K; assumption).
    inv_bind E. destruct a as [[o b] m]. eapply IH; [|exact E]. apply K.
    eapply glob_expr_lit in E0; [exact E0|assumption|]. now inversion L.
Qed.
Lemma glob_loop_lit fuel : forall items n js n', Forall lit_item items ->
  glob_loop fuel items n = Ok (js, n') -> Forall lit_item js.
Proof.
  induction fuel as [|fuel IH]; intros items n js n' H E; cbn [glob_loop] in E; [discriminate|].
  inv_bind E. destruct a as [[is c] m]. apply run_globals_lit in E0; [|assumption].
  destruct c; [eauto|]. inversion E; subst. assumption.
Qed.
Lemma global_vars_lit items n js n' : Forall lit_item items -> Sema.global_vars items n = Ok (js, n') -> Forall lit_item js.
Proof.
  intros H E. unfold Sema.global_vars in E. inv_bind E. destruct a as [is m]. inv_bind E. destruct a as [[is2 c] m2].
  inversion E; subst. apply glob_loop_lit in E0; [|assumption]. eapply run_globals_lit; [|exact E1]. assumption.
Qed.

Section Con.
  Context (items : list ritem) (HI : Forall lit_item items).
  Lemma const_lit_in d l e : const_lit items d l = Ok (Some e) -> lit_in e.
  Proof.
    unfold const_lit. destruct d as [d|]; [|discriminate]. destruct (negb (vd_const d)); [discriminate|].
    destruct (global_expr items (vd_id d)) as [e'|] eqn:G; [|discriminate].
    apply global_expr_lit in G; [|assumption]. destruct e'; intros E; inversion E; subst; assumption.
  Qed.
  Lemma con_exprs_lit es : Forall (fun e => forall r, lit_in e -> con_expr items e = Ok r -> lit_in r) es ->
    forall rs, Forall lit_in es -> each_ (con_expr items) es = Ok rs -> Forall lit_in rs.
  Proof.
    induction 1 as [|e es He Hes IH]; intros rs L E; cbn [each_] in E.
    - inversion E. constructor.
    - inversion L; subst. inv_bind E. inv_bind E. inversion E; subst. constructor; auto.
  Qed.
  Lemma con_expr_lit e : forall r, lit_in e -> con_expr items e = Ok r -> lit_in r.
  Proof.
    induction e using rexpr_nested; intros r L E; cbn [con_expr] in E; try (inversion E; subst; assumption);
      pose proof (lit_in_sub _ L) as S; cbn match in S.
    - inv_bind E. destruct a; inversion E; subst; [|assumption]. eapply const_lit_in; eassumption.
    - inv_bind E. inversion E; subst. constructor.
      + eapply each__nonempty; [eassumption|]. now inversion L.
      + apply lits_flat. eapply con_exprs_lit; eassumption.
    - destruct S. inv_bind E. inv_bind E. inversion E; subst. constructor; [exact Logic.I|]. apply Forall_app. split; [eapply IHe1|eapply IHe2]; eassumption.
    - destruct S as [S1 S2]. inv_bind E.
      assert (A : Forall lit_in a) by (eapply con_exprs_lit; eassumption).
      assert (G : forall f, lit_in f -> lit_in (RCall l f a)).
      { intros f F. constructor; [exact Logic.I|]. apply Forall_app. split; [exact F|apply lits_flat; exact A]. }
      destruct e; try (inv_bind E; inversion E; subst; apply G; first [eapply IHe; eassumption|assumption]).
    - destruct S. inv_bind E. inv_bind E. inversion E; subst. constructor; [exact Logic.I|]. apply Forall_app. split; [eapply IHe1|eapply IHe2]; eassumption.
    - inv_bind E. inversion E; subst. constructor; [exact Logic.I|]. eapply IHe; eassumption.
  Qed.
  Lemma con_opt_lit o r : lit_opt_in o -> con_opt items o = Ok r -> lit_opt_in r.
  Proof.
    destruct o; cbn [con_opt]; intros L E; [|inversion E; constructor]. inv_bind E. inversion E; subst. inversion L; subst.
    constructor; [eapply con_expr_lit; eassumption|constructor].
  Qed.
  Definition con_slit (s : rstmt) : Prop := forall r, Forall lit_in (exprs_stmt s) -> con_stmt items s = Ok r -> Forall lit_in (exprs_stmt r).
  Lemma con_block_lit b : Forall con_slit b -> forall rb, Forall lit_in (flat_map exprs_stmt b) ->
    each_ (con_stmt items) b = Ok rb -> Forall lit_in (flat_map exprs_stmt rb).
  Proof.
    induction 1 as [|s b Hs Hb IH]; intros rb L E; cbn [each_ flat_map] in *; [inversion E; constructor|].
    apply Forall_app in L. destruct L. inv_bind E. inv_bind E. inversion E; subst. cbn [flat_map]. apply Forall_app. auto.
  Qed.
  Definition oblock_exprs (o : option (list rstmt)) : list rexpr := match o with Some b => flat_map exprs_stmt b | None => [] end.
  Lemma con_oblock_lit o : oall con_slit o -> forall r, Forall lit_in (oblock_exprs o) ->
    match o with None => Ok None | Some b => r <- each_ (con_stmt items) b ;; Ok (Some r) end = Ok r -> Forall lit_in (oblock_exprs r).
  Proof.
    destruct o; cbn [oall oblock_exprs]; intros H r L E; [|inversion E; constructor]. inv_bind E. inversion E; subst.
    eapply con_block_lit; eassumption.
  Qed.
  Lemma con_stmt_lit s : con_slit s.
  Proof.
    induction s using rstmt_nested; intros r L E; cbn [con_stmt exprs_stmt] in *.
    - inv_bind E. inversion E; subst. eapply con_opt_lit; eassumption.
    - destruct (vd_const d); [discriminate|]. inv_bind E. inversion E; subst. inversion L; subst. apply Forall_cons; [|constructor]. eapply con_expr_lit; eassumption.
    - inv_bind E. inversion E; subst. inversion L; subst. apply Forall_cons; [|constructor]. eapply con_expr_lit; eassumption.
    - inv_bind E. inv_bind E. inversion E; subst. inversion L as [|? ? L1 L2]; subst. inversion L2; subst.
      apply Forall_cons; [eapply con_expr_lit; [|exact E0]; assumption|]. apply Forall_cons; [eapply con_expr_lit; [|exact E1]; assumption|constructor].
    - inv_bind E. destruct a as [rf rs]. inversion E; subst. unfold con_call in E0. inv_bind E0. inversion L; subst.
      apply con_expr_lit in E1; [|assumption]. destruct a; inversion E0; subst.
      inversion E1; subst. apply Forall_cons; [constructor; [exact Logic.I|assumption]|constructor].
    - inversion L as [|? ? L1 L2]; subst. apply Forall_app in L2. destruct L2 as [L2 L3].
      inv_bind E. inv_bind E. inv_bind E. inversion E; subst. cbn [exprs_stmt].
      apply Forall_cons; [eapply con_expr_lit; eassumption|]. apply Forall_app. split.
      + eapply (con_oblock_lit t); eassumption.
      + eapply (con_oblock_lit f); eassumption.
    - inversion L as [|? ? L1 L2]; subst. inv_bind E. inv_bind E. inversion E; subst. cbn [exprs_stmt].
      apply Forall_cons; [eapply con_expr_lit; eassumption|]. eapply (con_oblock_lit b); eassumption.
    - inversion L as [|? ? L1 L2]; subst. inversion L2 as [|? ? L3 L4]; subst.
      inv_bind E. inv_bind E. inv_bind E. inversion E; subst. cbn [exprs_stmt].
      apply Forall_cons; [eapply con_expr_lit; [|exact E0]; assumption|]. apply Forall_cons; [eapply con_expr_lit; [|exact E1]; assumption|].
      eapply con_block_lit; eassumption.
    - inv_bind E. inversion E; subst. eapply con_opt_lit; eassumption.
  Qed.
  Lemma con_item_lit i r : lit_item i -> con_item items i = Ok r -> lit_item r.
  Proof.
    unfold lit_item. destruct i as [f|d oe|f args body lend]; cbn [con_item exprs_item]; intros L E.
    - inversion E; constructor.
    - inv_bind E. apply con_opt_lit in E0; [|assumption]. destruct a; [inversion E; subst; assumption|].
      destruct (vd_const d); inversion E; constructor.
    - inv_bind E. inversion E; subst. cbn [exprs_item]. eapply con_block_lit; [|exact L|eassumption].
      apply Forall_forall. intros s _. apply con_stmt_lit.
  Qed.
End Con.
Lemma con_items_lit todo : forall done r, Forall lit_item (done ++ todo) -> con_items done todo = Ok r -> Forall lit_item r.
Proof.
  induction todo as [|i todo IH]; intros done r H E; cbn [con_items] in E.
  - inversion E; subst. rewrite app_nil_r in H. assumption.
  - inv_bind E. apply con_item_lit in E0; [|assumption|rewrite Forall_app in H; destruct H as [_ H]; now inversion H].
    eapply IH; [|exact E]. rewrite <- app_assoc. rewrite Forall_app in *. destruct H as [H1 H2]. inversion H2; subst.
    split; [assumption|]. constructor; assumption.
Qed.
Lemma run_sema_lit addr cs r n : Forall child_fine cs -> run_sema addr cs = Ok (r, n) ->
  Forall machine_literal (program_exprs r).
Proof.
  unfold run_sema. intros F E. inv_bind E. destruct a as [r0 n0]. inv_bind E. destruct a as [r1 n1].
  inv_bind E. inv_bind E. inv_bind E. inversion E; subst.
  apply annotate_lit in E0; [|assumption]. apply global_vars_lit in E1; [|assumption].
  apply con_items_lit in E2; [|assumption]. unfold program_exprs. apply Forall_flat. apply Forall_flat. exact E2.
Qed.

(** ** The rest of [program_ok] *)
Lemma same_child_funs cs r x : Forall child_fine cs -> map plain_item r = flat_map same_child cs ->
  In x (function_names r) -> x <> init_name.
Proof.
  intros F P I0. unfold function_names in I0. apply in_flat_map in I0. destruct I0 as (i & I1 & I2).
  destruct i as [| |f args body lend]; cbn [In] in I2; try contradiction. destruct I2 as [<-|[]].
  apply (in_map plain_item) in I1. rewrite P in I1. apply in_flat_map in I1. destruct I1 as (c & C1 & C2).
  rewrite Forall_forall in F. specialize (F _ C1). cbn [plain_item] in C2.
  destruct c as [y k|[]]; cbn [same_child In] in C2; try contradiction;
    destruct C2 as [C2|[]]; try discriminate; inversion C2; subst.
  cbn [child_fine] in F. destruct F as [_ F]. eapply F. reflexivity.
Qed.

Lemma NoDup_app_inv {A} (l l' : list A) : NoDup (l ++ l') -> NoDup l /\ NoDup l' /\ forall a, In a l -> ~ In a l'.
Proof.
  induction l as [|a l IH]; cbn [app]; intros H; [repeat split; [constructor|assumption|intros ? []]|].
  inversion H; subst. destruct (IH H3) as (A1 & A2 & A3). rewrite in_app_iff in H2. repeat split; [|assumption|].
  - constructor; tauto.
  - intros b [<-|I0]; [tauto|auto].
Qed.
Lemma NoDup_app_intro {A} (l l' : list A) : NoDup l -> NoDup l' -> (forall a, In a l -> ~ In a l') -> NoDup (l ++ l').
Proof.
  induction 1 as [|a l N H IH]; cbn [app]; intros H' D; [assumption|]. constructor.
  - rewrite in_app_iff. intros [X|X]; [contradiction|]. eapply D; [now left|exact X].
  - apply IH; [assumption|]. intros b I0. apply D. now right.
Qed.

(** Sublists *)
Inductive sub {A} : list A -> list A -> Prop :=
| sub_nil : sub [] []
| sub_keep : forall a l l', sub l l' -> sub (a :: l) (a :: l')
| sub_skip : forall a l l', sub l l' -> sub l (a :: l').
Lemma sub_refl {A} (l : list A) : sub l l.
Proof. induction l; constructor; assumption. Qed.
Lemma sub_in {A} (l l' : list A) : sub l l' -> forall a, In a l -> In a l'.
Proof. induction 1; intros b; cbn [In]; [auto| |]; intuition. Qed.
Lemma sub_app {A} (a a' b b' : list A) : sub a a' -> sub b b' -> sub (a ++ b) (a' ++ b').
Proof. induction 1; cbn [app]; intros H'; [assumption| |]; constructor; auto. Qed.
Lemma sub_none {A} (l : list A) : sub [] l.
Proof. induction l; constructor; assumption. Qed.
Lemma sub_trans {A} (a b c : list A) : sub a b -> sub b c -> sub a c.
Proof.
  intros H1 H2. revert a H1. induction H2; intros x H1; [assumption| |].
  - inversion H1; subst; constructor; auto.
  - constructor. auto.
Qed.
Lemma sub_map {A B} (f : A -> B) l l' : sub l l' -> sub (map f l) (map f l').
Proof. induction 1; cbn [map]; constructor; assumption. Qed.
Lemma sub_nodup {A} (l l' : list A) : sub l l' -> NoDup l' -> NoDup l.
Proof.
  induction 1; intros N; [constructor| |]; inversion N; subst; [|auto].
  constructor; [|auto]. intros X. apply H2. eapply sub_in; eassumption.
Qed.

Lemma run_sema_ok addr cs items n : Forall child_fine cs -> run_sema addr cs = Ok (items, n) -> program_ok items n.
Proof.
  intros F E. pose proof (run_sema_lit _ _ _ _ F E) as L. apply run_sema_done in E.
  destruct E as [(r & r1 & n0 & A & FO & IN) [T1 T2] IDS _ ST _ NM _].
  destruct (annotate_inv _ _ _ _ A) as [PL _].
  assert (FN : function_names items = function_names r).
  { unfold function_names. transitivity (flat_map (fun i => match i with RFunc f _ _ _ => [fd_name f] | _ => [] end) r1).
    - clear -IN. induction IN as [|i j is js H IN IH]; [reflexivity|]. cbn [flat_map]. rewrite IH. destruct H; reflexivity.
    - clear -FO. generalize dependent FO. generalize (int_const r1) as Q. intros Q FO.
      induction FO as [|i j is js H FO IH]; [reflexivity|]. cbn [flat_map]. rewrite IH. destruct H; reflexivity. }
  assert (SN : sub (function_names items) (map decl_name (top_decls items))).
  { unfold function_names, top_decls. clear. induction items as [|i items IH]; [constructor|]. cbn [map flat_map].
    destruct i; cbn [app top_decl decl_name]; constructor; assumption. }
  assert (SF : sub (function_nodes items) (map decl_id (top_decls items))).
  { unfold function_nodes, top_decls. clear. induction items as [|i items IH]; [constructor|]. cbn [map flat_map].
    destruct i; cbn [app top_decl decl_id]; constructor; assumption. }
  unfold all_ids in T2, IDS. destruct (NoDup_app_inv _ _ T2) as (N1 & N2 & N3).
  apply Forall_app in IDS. destruct IDS as [B1 B2].
  constructor.
  - constructor.
    + intros I0. rewrite FN in I0. eapply same_child_funs in I0; [|eassumption|eassumption]. apply I0. reflexivity.
    + eapply sub_nodup; [exact SN|]. apply decl_items_nodup in NM. apply NM.
  - assert (G : forall l, Forall item_ok l -> NoDup (map decl_id (top_decls l)) ->
      NoDup (flat_map (fun i => map vd_id (inner_decls i)) l) ->
      (forall a, In a (map decl_id (top_decls l)) -> ~ In a (flat_map (fun i => map vd_id (inner_decls i)) l)) ->
      NoDup (map vd_id (variables l)) /\ (forall a, In a (map vd_id (variables l)) ->
        In a (map decl_id (top_decls l)) \/ In a (flat_map (fun i => map vd_id (inner_decls i)) l))).
    { clear. induction l as [|i l IH]; intros HI M1 M2 M3; [split; [constructor|intros ? []]|].
      inversion HI; subst. unfold top_decls in *. cbn [map flat_map] in *. inversion M1; subst.
      destruct (NoDup_app_inv _ _ M2) as (P1 & P2 & P3).
      destruct IH as [IH1 IH2]; try assumption.
      { intros a I0 X. eapply M3; [right; exact I0|]. apply in_app_iff. now right. }
      unfold variables in *. cbn [flat_map]. rewrite map_app. split.
      - apply NoDup_app_intro; [| assumption |].
        + destruct i; cbn [map]; [constructor|constructor; [intros []|constructor]|]. exact P1.
        + intros a I0 X. apply IH2 in X. destruct i as [f|d oe|f args body lend]; cbn [map In top_decl decl_id] in *.
          * contradiction.
          * destruct I0 as [<-|[]]. destruct X as [X|X]; [apply H3; exact X|]. eapply M3; [left; reflexivity|].
            cbn [inner_decls map app]. exact X.
          * destruct X as [X|X].
            -- eapply M3; [right; exact X|]. apply in_app_iff. left. exact I0.
            -- eapply P3; [exact I0|exact X].
      - intros a I0. apply in_app_iff in I0. destruct I0 as [I0|I0].
        + destruct i as [f|d oe|f args body lend]; cbn [map In top_decl decl_id] in *.
          * contradiction.
          * destruct I0 as [<-|[]]. left. now left.
          * right. apply in_app_iff. left. exact I0.
        + apply IH2 in I0. destruct I0 as [I0|I0]; [left; right; exact I0|right; apply in_app_iff; now right]. }
    apply G; assumption.
  - eapply sub_nodup; [exact SF|exact N1].
  - apply Forall_forall. intros i I0. rewrite Forall_forall in B1. apply B1. eapply sub_in; eassumption.
  - apply Forall_forall. intros e I0. destruct e; try exact Logic.I. destruct d as [d|f]; [exact Logic.I|].
    cbn [declared]. intros NS. apply used_program in I0. destruct I0 as [sc I0]. rewrite Forall_forall in ST.
    specialize (ST _ I0). cbn [fst settled] in ST. unfold top_decls in ST. apply in_map_iff in ST.
    destruct ST as (i & Q & I1). rewrite Forall_forall in T1. specialize (T1 _ I1).
    destruct i as [g|d oe|g args body lend]; cbn [top_decl item_ok] in *; inversion Q; subst; [congruence|eauto].
  - exact L.
Qed.

(** ** The optimiser *)
Section Good.
  Context (F : fdecl -> Prop) (Q : rexpr -> Prop).
  Context (Qint : forall i v l, Q (RInt i v l)) (Qset : forall w e, Q e -> Q (set_expr w e)).
  Definition good (e : rexpr) : Prop :=
    machine_literal e /\ match e with RIdent (DF f) _ => fd_sys f = false -> F f | _ => True end /\ Q e.
  Definition good_in (e : rexpr) : Prop := Forall good (inside e).
  Lemma good_lit e : good_in e -> lit_in e.
  Proof. unfold good_in, lit_in. intros H. eapply Forall_impl; [|exact H]. intros a [A _]. exact A. Qed.
  Lemma cval_range e : forall v, lit_in e -> cval e = Ok (Some v) -> in_i32 v = true.
  Proof.
    induction e using rexpr_nested; intros w L E; cbn [cval] in E; try discriminate; pose proof (lit_in_sub _ L) as S0; cbn match in S0.
    - inversion E; subst. now inversion L.
    - inv_bind E. discriminate.
    - inv_bind E. inv_bind E. discriminate.
    - inv_bind E. inv_bind E. discriminate.
    - destruct S0 as [L1 L2]. inv_bind E. inv_bind E. destruct a as [x|]; [|discriminate]. destruct a0 as [y|]; [|discriminate].
      destruct ((y =? 0) && is_div o); [discriminate|]. inv_bind E. inversion E; subst. eapply fold_bin_range; [| |eassumption]; eauto.
    - inv_bind E. destruct a as [x|]; [|discriminate]. destruct o; [inv_bind E; inversion E; subst; eapply chk32_range; eassumption|].
      inversion E; subst. apply zb_range.
  Qed.
  Lemma good_int i v l : in_i32 v = true -> good_in (RInt i v l).
  Proof. intros H. constructor; [split; [exact H|split; [exact Logic.I|apply Qint]]|constructor]. Qed.
  Lemma fold_top_good e n e' n' : good_in e -> fold_top e n = Ok (e', n') -> good_in e' /\ (n <= n')%nat.
  Proof.
    unfold fold_top. intros G E. inv_bind E.
    assert (R : forall v, a = Some v -> in_i32 v = true) by (intros v ->; eapply cval_range; [apply good_lit; exact G|eassumption]).
    destruct e; try (inversion E; subst; split; [assumption|lia]). destruct a; inversion E; subst; split; try assumption; try lia.
    apply good_int. auto.
  Qed.
  Definition fold_good (s : rstmt) : Prop := forall n s' n', Forall good_in (exprs_stmt s) -> fold_stmt s n = Ok (s', n') ->
    Forall good_in (exprs_stmt s') /\ decls_stmt s' = decls_stmt s /\ (n <= n')%nat.
  Lemma fold_block_good b : Forall fold_good b -> forall n b' n', Forall good_in (flat_map exprs_stmt b) ->
    each fold_stmt b n = Ok (b', n') -> Forall good_in (flat_map exprs_stmt b') /\ decls_block b' = decls_block b /\ (n <= n')%nat.
  Proof.
    unfold decls_block. induction 1 as [|s b Hs Hb IH]; intros n b' n' G E; cbn [each flat_map] in *; [inversion E; subst; auto|].
    apply Forall_app in G. destruct G. inv_bind E. destruct a. inv_bind E. destruct a. inversion E; subst. cbn [flat_map].
    destruct (Hs _ _ _ H E0) as (A1 & A2 & A3). destruct (IH _ _ _ H0 E1) as (B1 & B2 & B3). rewrite A2, B2, Forall_app. repeat split; auto; lia.
  Qed.
  Definition odecls (o : option (list rstmt)) : list vdecl := match o with Some b => flat_map decls_stmt b | None => [] end.
  Lemma fold_oblock_good o : oall fold_good o -> forall n o' n', Forall good_in (oblock_exprs o) ->
    match o with None => Ok (None, n) | Some b => '(b', m) <- each fold_stmt b n ;; Ok (Some b', m) end = Ok (o', n') ->
    Forall good_in (oblock_exprs o') /\ odecls o' = odecls o /\ (n <= n')%nat.
  Proof.
    destruct o; cbn [oall oblock_exprs odecls]; intros H n o' n' G E; [|inversion E; subst; cbn; auto].
    inv_bind E. destruct a. inversion E; subst. eapply fold_block_good in E0; [|assumption|assumption]. exact E0.
  Qed.
  Lemma fold_stmt_good s : fold_good s.
  Proof.
    induction s using rstmt_nested; intros n s' n' G E; cbn [fold_stmt exprs_stmt decls_stmt] in *.
    - inv_bind E. inversion E; subst. auto.
    - inv_bind E. destruct a. inversion E; subst. inversion G; subst. eapply fold_top_good in E0; [|assumption]. destruct E0.
      cbn [exprs_stmt decls_stmt]. repeat split; [apply Forall_cons; [assumption|constructor]|assumption].
    - inv_bind E. inversion E; subst. auto.
    - inv_bind E. inv_bind E. inversion E; subst. auto.
    - inv_bind E. inversion E; subst. auto.
    - inversion G as [|? ? G1 G2]; subst. apply Forall_app in G2. destruct G2 as [G2 G3]. inv_bind E. inv_bind E. destruct a0. inv_bind E. destruct a0.
      inv_bind E. destruct a0. inversion E; subst.
      eapply (fold_oblock_good t) in E1; [|assumption|exact G2]. eapply (fold_oblock_good f) in E2; [|assumption|exact G3].
      apply fold_top_good in E3; [|assumption]. destruct E1 as (A1 & A2 & A3), E2 as (B1 & B2 & B3), E3 as (C1 & C2).
      cbn [exprs_stmt decls_stmt]. fold (odecls t) (odecls f) (odecls o) (odecls o0) (oblock_exprs o) (oblock_exprs o0).
      rewrite A2, B2. repeat split; [|lia]. apply Forall_cons; [assumption|]. apply Forall_app. auto.
    - inversion G as [|? ? G1 G2]; subst. inv_bind E. inv_bind E. destruct a0. inv_bind E. destruct a0. inversion E; subst.
      eapply (fold_oblock_good b) in E1; [|assumption|exact G2].
      apply fold_top_good in E2; [|assumption]. destruct E1 as (A1 & A2 & A3), E2 as (C1 & C2).
      cbn [exprs_stmt decls_stmt]. fold (odecls b) (odecls o) (oblock_exprs o).
      rewrite A2. repeat split; [|lia]. apply Forall_cons; assumption.
    - inversion G as [|? ? G1 G2]; subst. inversion G2 as [|? ? G3 G4]; subst. inv_bind E. inv_bind E. inv_bind E. destruct a2. inversion E; subst.
      eapply fold_block_good in E2; [|assumption|exact G4]. destruct E2 as (A1 & A2 & A3).
      cbn [exprs_stmt decls_stmt]. unfold decls_block in A2. rewrite A2. repeat split; [|lia].
      apply Forall_cons; [assumption|]. apply Forall_cons; assumption.
    - destruct e; [|inversion E; subst; auto]. inv_bind E. destruct a. inversion E; subst. inversion G; subst.
      eapply fold_top_good in E0; [|assumption]. destruct E0.
      cbn [exprs_stmt decls_stmt opt_list]. repeat split; [apply Forall_cons; [assumption|constructor]|assumption].
  Qed.

  Lemma cut_good b : Forall good_in (flat_map exprs_stmt b) ->
    Forall good_in (flat_map exprs_stmt (cut_block b)) /\ sub (decls_block (cut_block b)) (decls_block b).
  Proof.
    unfold decls_block. induction b as [|s b IH]; intros G; [split; constructor|]. cbn [flat_map] in G. apply Forall_app in G. destruct G as [G1 G2].
    destruct (IH G2) as [A1 A2].
    destruct s; cbn [cut_block flat_map]; (split; [first [apply Forall_app; split; assumption|rewrite app_nil_r; assumption]|]);
      try (apply sub_app; [apply sub_refl|assumption]); try (constructor; assumption).
    cbn [decls_stmt app]. apply sub_none.
  Qed.

  (** removing branches *)
  Definition ifr_good (s : rstmt) : Prop := forall w, Forall good_in (exprs_stmt s) ->
    Forall good_in (exprs_stmt (fst (ifr_stmt s w))) /\ sub (decls_stmt (fst (ifr_stmt s w))) (decls_stmt s).
  Lemma ifr_block_good b : Forall ifr_good b -> forall w, Forall good_in (flat_map exprs_stmt b) ->
    Forall good_in (flat_map exprs_stmt (fst (ifr_block b w))) /\ sub (decls_block (fst (ifr_block b w))) (decls_block b).
  Proof.
    unfold decls_block. induction 1 as [|s b Hs Hb IH]; intros w G; cbn [ifr_block]; [split; constructor|].
    cbn [flat_map] in G. apply Forall_app in G. destruct G as [G1 G2]. specialize (Hs w G1).
    destruct (ifr_stmt s w) as [s' w1]. specialize (IH w1 G2). destruct (ifr_block b w1) as [b' w2].
    cbn [fst flat_map] in *. destruct Hs, IH. split; [apply Forall_app; auto|apply sub_app; assumption].
  Qed.
  Lemma ifr_oblock_good o : oall ifr_good o -> forall w, Forall good_in (oblock_exprs o) ->
    Forall good_in (oblock_exprs (fst (ifr_oblock o w))) /\ sub (odecls (fst (ifr_oblock o w))) (odecls o).
  Proof.
    destruct o as [b|]; cbn [oall oblock_exprs odecls]; intros H w G; [|split; constructor].
    apply ifr_block_good with (w := w) in G; [|assumption]. unfold ifr_oblock. destruct (ifr_block b w). exact G.
  Qed.
  Lemma ifr_stmt_good s : ifr_good s.
  Proof.
    induction s using rstmt_nested; intros w G;
      try (cbn [ifr_stmt fst]; split; [assumption|apply sub_refl]).
    - rewrite ifr_if. cbn [exprs_stmt] in G. inversion G as [|? ? G1 G2]; subst. apply Forall_app in G2. destruct G2 as [G2 G3].
      pose proof (ifr_oblock_good t H w G2) as A. destruct (ifr_oblock t w) as [t' w1].
      pose proof (ifr_oblock_good f H0 w1 G3) as B. destruct (ifr_oblock f w1) as [f' w2]. cbn [fst] in A, B.
      destruct A as [A1 A2], B as [B1 B2]. cbn [decls_stmt]. fold (odecls t) (odecls f).
      assert (K : forall tt ff, Forall good_in (oblock_exprs tt) -> Forall good_in (oblock_exprs ff) -> sub (odecls tt ++ odecls ff) (odecls t ++ odecls f) ->
        Forall good_in (exprs_stmt (RIf l c tt ff)) /\ sub (decls_stmt (RIf l c tt ff)) (odecls t ++ odecls f)).
      { intros tt ff T1 F1 S1. split; [|exact S1]. apply Forall_cons; [assumption|]. apply Forall_app. auto. }
      destruct c; try (cbn [fst]; apply K; [assumption|assumption|apply sub_app; assumption]).
      destruct (negb _); cbn [fst]; apply K; try assumption; try (constructor; fail); cbn [odecls].
      + apply sub_app; [assumption|apply sub_none].
      + rewrite app_nil_r. change (odecls f') with ([] ++ odecls f'). apply sub_app; [apply sub_none|assumption].
    - rewrite ifr_while. cbn [exprs_stmt] in G. inversion G as [|? ? G1 G2]; subst.
      pose proof (ifr_oblock_good b H w G2) as A. destruct (ifr_oblock b w) as [b' w1]. cbn [fst] in A. destruct A as [A1 A2].
      cbn [decls_stmt]. fold (odecls b).
      assert (K : forall bb, Forall good_in (oblock_exprs bb) -> sub (odecls bb) (odecls b) ->
        Forall good_in (exprs_stmt (RWhile l c bb)) /\ sub (decls_stmt (RWhile l c bb)) (odecls b)).
      { intros bb T1 S1. split; [|exact S1]. apply Forall_cons; assumption. }
      destruct c; try (cbn [fst]; apply K; assumption).
      destruct (_ =? 0); cbn [fst]; apply K; try assumption; [constructor|apply sub_none].
    - rewrite ifr_for. cbn [exprs_stmt] in G. inversion G as [|? ? G1 G2]; subst. inversion G2 as [|? ? G3 G4]; subst.
      pose proof (ifr_block_good body H w G4) as A. destruct (ifr_block body w) as [b' w1]. cbn [fst] in *. destruct A as [A1 A2].
      split; [|exact A2]. apply Forall_cons; [assumption|]. apply Forall_cons; assumption.
  Qed.

  (** writing 1 into literals *)
  Section Set1.
    Context (w : list nat).
    Lemma set_expr_good e : good_in e -> good_in (set_expr w e).
    Proof.
      unfold good_in.
      assert (L : forall es, Forall (fun e => Forall good (inside e) -> Forall good (inside (set_expr w e))) es ->
        Forall good (flat_map inside es) -> Forall good (flat_map inside (map (set_expr w) es))).
      { induction 1; cbn [flat_map map]; [auto|]. rewrite !Forall_app. intros []; auto. }
      induction e using rexpr_nested; intros G; cbn [set_expr]; try assumption; cbn [inside] in *;
        inversion G as [|? ? G1 G2]; subst; rewrite ?Forall_app in *;
        try (apply Forall_cons; [destruct G1 as (G1 & _ & G1q); apply (Qset w) in G1q; split;
          [first [exact Logic.I|cbn [machine_literal] in *; destruct es; cbn [map] in *; congruence]|split; [exact Logic.I|exact G1q]]|]).
      - apply good_int. unfold read_lit. destruct (existsb _ _); [reflexivity|]. apply G1.
      - apply L; assumption.
      - rewrite Forall_app. destruct G2. auto.
      - rewrite Forall_app. destruct G2. auto.
      - rewrite Forall_app. destruct G2. auto.
      - auto.
    Qed.
    Lemma set_exprs_good es : Forall good_in es -> Forall good_in (map (set_expr w) es).
    Proof. induction 1; cbn [map]; constructor; auto using set_expr_good. Qed.
    Definition set_good (s : rstmt) : Prop := (Forall good_in (exprs_stmt s) -> Forall good_in (exprs_stmt (set_stmt w s))) /\
      decls_stmt (set_stmt w s) = decls_stmt s.
    Lemma set_block_good b : Forall set_good b ->
      (Forall good_in (flat_map exprs_stmt b) -> Forall good_in (flat_map exprs_stmt (map (set_stmt w) b))) /\
      decls_block (map (set_stmt w) b) = decls_block b.
    Proof.
      unfold decls_block. induction 1 as [|s b [S1 S2] Hb [IH1 IH2]]; cbn [flat_map map]; [auto|].
      rewrite S2, IH2, !Forall_app. split; [intros []; auto|reflexivity].
    Qed.
    Lemma set_oblock_good o : oall set_good o ->
      (Forall good_in (oblock_exprs o) -> Forall good_in (oblock_exprs (option_map (map (set_stmt w)) o))) /\
      odecls (option_map (map (set_stmt w)) o) = odecls o.
    Proof. destruct o; cbn [oall oblock_exprs odecls option_map]; [apply set_block_good|auto]. Qed.
    Lemma set_opt_good o : Forall good_in (opt_list o) -> Forall good_in (opt_list (option_map (set_expr w) o)).
    Proof. destruct o; cbn [opt_list option_map]; [|auto]. intros H. inversion H; subst. apply Forall_cons; [apply set_expr_good; assumption|constructor]. Qed.
    Lemma set_stmt_good s : set_good s.
    Proof.
      induction s using rstmt_nested; split; try reflexivity; cbn [exprs_stmt set_stmt].
      - apply set_opt_good.
      - apply (set_exprs_good [e]).
      - apply (set_exprs_good [e]).
      - apply (set_exprs_good [i; e]).
      - apply (set_exprs_good [RCall l f es]).
      - destruct (set_oblock_good _ H) as [A1 A2], (set_oblock_good _ H0) as [B1 B2]. intros G.
        inversion G as [|? ? G1 G2]; subst. apply Forall_app in G2. destruct G2. apply Forall_cons; [apply set_expr_good; assumption|].
        apply Forall_app. split; [apply A1|apply B1]; assumption.
      - destruct (set_oblock_good _ H) as [A1 A2], (set_oblock_good _ H0) as [B1 B2]. cbn [decls_stmt].
        unfold odecls in A2, B2. rewrite A2, B2. reflexivity.
      - destruct (set_oblock_good _ H) as [A1 A2]. intros G.
        inversion G as [|? ? G1 G2]; subst. apply Forall_cons; [apply set_expr_good; assumption|]. apply A1; assumption.
      - destruct (set_oblock_good _ H) as [A1 A2]. exact A2.
      - destruct (set_block_good _ H) as [A1 A2]. intros G.
        inversion G as [|? ? G1 G2]; subst. inversion G2; subst. apply Forall_cons; [apply set_expr_good; assumption|].
        apply Forall_cons; [apply set_expr_good; assumption|]. apply A1; assumption.
      - destruct (set_block_good _ H) as [A1 A2]. exact A2.
      - apply set_opt_good.
    Qed.
  End Set1.

Definition kept (i i' : ritem) : Prop :=
  match i, i' with
  | RSys f, RSys f' => f = f'
  | RGlobal d oe, RGlobal d' oe' => d = d'
  | RFunc f args b l, RFunc f' args' b' l' => f = f' /\ args = args' /\ sub (decls_block b') (decls_block b)
  | _, _ => False
  end /\ Forall good_in (exprs_item i').
Definition fine (i : ritem) : Prop := Forall good_in (exprs_item i).

Lemma post_ret_kept items : Forall fine items -> Forall2 kept items (map post_ret items).
Proof.
  induction 1 as [|i items G H IH]; cbn [map]; constructor; [|assumption]. unfold fine in G.
  destruct i as [f|d oe|f args body lend]; cbn [post_ret kept]; split; auto.
  - cbn [exprs_item] in *. apply cut_good in G. destruct G. auto.
  - cbn [exprs_item] in *. apply cut_good in G. apply G.
Qed.
Lemma const_expr_kept items : Forall fine items -> forall n js n', const_expr items n = Ok (js, n') ->
  Forall2 kept items js /\ (n <= n')%nat.
Proof.
  unfold const_expr. induction 1 as [|i items G H IH]; intros n js n' E; cbn [each] in E.
  - inversion E; subst. split; constructor.
  - inv_bind E. destruct a as [i' m]. inv_bind E. destruct a as [is m2]. inversion E; subst.
    destruct (IH _ _ _ E1) as [A1 A2]. unfold fine in G.
    assert (K : kept i i' /\ (n <= m)%nat).
    { destruct i as [f|d oe|f args body lend]; cbn [fold_item exprs_item] in *.
      - inversion E0; subst. repeat split; auto.
      - inv_bind E0. inversion E0; subst. repeat split; auto.
      - inv_bind E0. destruct a. inversion E0; subst.
        eapply fold_block_good in E2; [|apply Forall_forall; intros s _; apply fold_stmt_good|exact G].
        destruct E2 as (B1 & B2 & B3). split; [split|lia]; [|exact B1]. rewrite B2. auto using sub_refl. }
    destruct K. split; [constructor; assumption|lia].
Qed.
Lemma ifr_items_kept items : Forall fine items -> forall w, Forall2 kept items (fst (ifr_items items w)).
Proof.
  induction 1 as [|i items G H IH]; intros w; cbn [ifr_items]; [constructor|]. unfold fine in G.
  destruct i as [f|d oe|f args body lend]; cbn [exprs_item] in G.
  - specialize (IH w). destruct (ifr_items items w). cbn [fst] in *. constructor; [split; auto|assumption].
  - specialize (IH w). destruct (ifr_items items w). cbn [fst] in *. constructor; [split; auto|assumption].
  - apply ifr_block_good with (w := w) in G; [|apply Forall_forall; intros s _; apply ifr_stmt_good].
    destruct (ifr_block body w) as [b' w1]. specialize (IH w1). destruct (ifr_items items w1). cbn [fst] in *. destruct G.
    constructor; [repeat split; auto|assumption].
Qed.
Lemma set_items_kept w items : Forall fine items -> Forall2 kept items (map (set_item w) items).
Proof.
  induction 1 as [|i items G H IH]; cbn [map]; constructor; [|assumption]. unfold fine in G.
  destruct i as [f|d oe|f args body lend]; cbn [set_item exprs_item] in *; split; cbn [exprs_item]; auto.
  - apply set_opt_good. assumption.
  - destruct (set_block_good w body) as [_ A]; [apply Forall_forall; intros s _; apply set_stmt_good|]. rewrite A. auto using sub_refl.
  - apply set_block_good; [apply Forall_forall; intros s _; apply set_stmt_good|assumption].
Qed.
Lemma kept_fine is js : Forall2 kept is js -> Forall fine js.
Proof. induction 1; constructor; [apply H|assumption]. Qed.
Lemma kept_trans a b c : Forall2 kept a b -> Forall2 kept b c -> Forall2 kept a c.
Proof.
  apply Forall2_trans. intros x y z [H1 _] [H2 G]. split; [|assumption].
  destruct x, y; try contradiction; destruct z; try contradiction; try congruence.
  destruct H1 as (-> & -> & S1), H2 as (-> & -> & S2). repeat split. eapply sub_trans; eassumption.
Qed.
Lemma run_optimize_kept on items n items' n' : Forall fine items ->
  run_optimize on items n = Ok (items', n') -> Forall2 kept items items' /\ (n <= n')%nat.
Proof.
  unfold run_optimize. intros G E. destruct on.
  - inv_bind E. destruct a as [r n1]. inversion E; subst. pose proof (post_ret_kept _ G) as K1.
    destruct (const_expr_kept _ (kept_fine _ _ K1) _ _ _ E0) as [K2 L]. split; [|exact L].
    eapply kept_trans; [exact K1|]. eapply kept_trans; [exact K2|]. unfold if_remove.
    pose proof (ifr_items_kept r (kept_fine _ _ K2) []) as K3. destruct (ifr_items r []) as [r3 w]. cbn [fst] in K3.
    eapply kept_trans; [exact K3|]. apply set_items_kept. eapply kept_fine. exact K3.
  - inversion E; subst. split; [|lia]. clear -G. induction G; constructor; [|assumption].
    split; [|assumption]. destruct x; auto using sub_refl.
Qed.
End Good.

Lemma run_optimize_ok on items n items' n' : program_ok items n -> run_optimize on items n = Ok (items', n') ->
  program_ok items' n'.
Proof.
  intros [N1 N2 N3 N4 N5 N6] E.
  set (F := fun f => exists args body lend, In (RFunc f args body lend) items).
  assert (G : Forall (fine F (fun _ => True)) items).
  { apply Forall_forall. intros i I0. unfold fine. apply Forall_forall. intros e I1. unfold good_in. apply Forall_forall. intros x I2.
    assert (J : In x (program_exprs items)).
    { unfold program_exprs. apply in_flat_map. exists e. split; [|exact I2]. apply in_flat_map. eauto. }
    rewrite Forall_forall in N5, N6. split; [auto|]. split; [|exact Logic.I]. specialize (N5 _ J). destruct x as [| | | |[|]| | | | | |]; try exact Logic.I. exact N5. }
  destruct (run_optimize_kept F (fun _ => True) (fun _ _ _ => Logic.I) (fun _ _ H => H) _ _ _ _ _ G E) as [K L].
  assert (A : function_names items' = function_names items /\ function_nodes items' = function_nodes items /\
    sub (variables items') (variables items) /\
    forall f args body lend, In (RFunc f args body lend) items -> exists b l, In (RFunc f args b l) items').
  { clearbody F. clear -K. unfold function_names, function_nodes, variables.
    induction K as [|i j is js [H _] K (I1 & I2 & I3 & I4)]; cbn [flat_map];
      [split; [reflexivity|split; [reflexivity|split; [constructor|intros ? ? ? ? []]]]|].
    rewrite I1, I2. clear I1 I2.
    assert (J : forall f args body lend, In (RFunc f args body lend) is -> exists b l, In (RFunc f args b l) (j :: js)).
    { intros f args body lend X. destruct (I4 _ _ _ _ X) as (b & l & Y). exists b, l. now right. }
    destruct i, j; try contradiction.
    - repeat split; auto. intros f1 args body lend [X|X]; [discriminate|eauto].
    - subst. repeat split; [apply sub_app; [apply sub_refl|assumption]|]. intros f1 args body lend [X|X]; [discriminate|eauto].
    - destruct H as (-> & -> & S). repeat split.
      + apply sub_app; [apply sub_app; [apply sub_refl|exact S]|assumption].
      + intros f1 args1 body1 lend1 [X|X]; [inversion X; subst; do 2 eexists; now left|eauto]. }
  destruct A as (A1 & A2 & A3 & A4).
  pose proof (kept_fine _ _ _ _ K) as G'.
  assert (G2 : Forall (good F (fun _ => True)) (program_exprs items')).
  { unfold program_exprs. apply Forall_flat. apply Forall_flat. exact G'. }
  constructor.
  - rewrite A1. assumption.
  - eapply sub_nodup; [apply sub_map; exact A3|assumption].
  - rewrite A2. assumption.
  - rewrite A2. eapply Forall_impl; [|exact N4]. cbv beta. lia.
  - eapply Forall_impl; [|exact G2]. intros e (_ & D & _). destruct e; auto. destruct d; auto.
    cbn [declared]. intros NS. destruct (D NS) as (args & body & lend & X). destruct (A4 _ _ _ _ X) as (b & l1 & Y). eauto.
  - eapply Forall_impl; [|exact G2]. intros e [M _]. exact M.
Qed.
