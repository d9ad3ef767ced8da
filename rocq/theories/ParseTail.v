(** The parser consumes its tokens from the front, and the names of the import
    declarations it returns stand behind [import] tokens. *)
From Coq Require Import ZArith List Bool Lia.
From Verif Require Import Base BaseFacts F32 Lexer Ast Source Parser ParseSpec ParseFacts ParseSafe ParseFine.
Import ListNotations.
Open Scope Z_scope.

(** What is left of [ts]. *)
Definition suf (ts : list token) (s : pst) : Prop := exists pre, ts = pre ++ p_toks s.
Definition left1 {A} (ts : list token) (x : A * pst) : Prop := suf ts (snd x).
Definition left0 (ts : list token) (x : pst) : Prop := suf ts x.

Lemma suf_push ts e s : suf ts s -> suf ts (push_exp e s).
Proof. exact (fun H => H). Qed.
Lemma pop_suf ts s : suf ts s -> outs (left1 ts) (pop s).
Proof.
  intros [pre E]. unfold pop. destruct (p_toks s) as [|t r] eqn:T; [exact Logic.I|]. cbn [outs]. exists (pre ++ [t]). cbn [snd p_toks].
  rewrite <- app_assoc. exact E.
Qed.
Lemma found_suf ts k s : suf ts s -> outs (left1 ts) (found k s).
Proof.
  intros H. unfold found. destruct (ptype s) as [k0| |]; cbn [bind]; try exact Logic.I. destruct (kind_eqb k0 k); [|exact H].
  eapply outs_bind; [apply pop_suf; exact H|]. intros [t s1] H1. exact H1.
Qed.
Lemma popk_suf ts k s : suf ts s -> outs (left1 ts) (popk k s).
Proof.
  intros H. unfold popk. eapply outs_bind; [apply found_suf; exact H|]. intros [[t|] s1] H1; [exact H1|].
  destruct (p_toks s); [exact Logic.I|]. destruct k; try apply perr_outs; exact Logic.I.
Qed.
Lemma pop_exp_suf ts x s : suf ts s -> outs (left1 ts) (pop_exp x s).
Proof. intros H. unfold pop_exp. destruct (p_exp s); [exact Logic.I|exact H]. Qed.
Lemma op_push_suf ts op tide s : suf ts s -> outs (left0 ts) (op_push op tide s).
Proof. intros H. unfold op_push. eapply outs_bind; [apply outs_any|]. intros [ops es] _. exact H. Qed.
Lemma op_pop_all_suf ts tide s : suf ts s -> outs (left0 ts) (op_pop_all tide s).
Proof. intros H. unfold op_pop_all. eapply outs_bind; [apply outs_any|]. intros [ops es] _. exact H. Qed.
Lemma skip_eols_suf ts s : suf ts s -> outs (left0 ts) (skip_eols s).
Proof.
  intros [pre E]. unfold skip_eols.
  assert (G : forall l p, outs (fun x => exists q, l = q ++ fst x) (skip_eols_from l p)).
  { induction l as [|t l IH]; intros p; cbn [skip_eols_from]; [exact Logic.I|]. destruct (kind_eqb _ _); [|exists []; reflexivity].
    eapply outs_weaken; [apply IH|]. intros x [q ->]. exists (t :: q). reflexivity. }
  eapply outs_bind; [apply G|]. intros [l p] [q F]. cbn [fst] in F. exists (pre ++ q). cbn [p_toks]. rewrite <- app_assoc, <- F. exact E.
Qed.

Create HintDb suf.
Global Hint Resolve suf_push pop_suf found_suf popk_suf pop_exp_suf op_push_suf op_pop_all_suf skip_eols_suf : suf.
Ltac sufstep := cbv zeta;
  match goal with
  | |- outs _ (bind (peek _) _) => eapply outs_bind; [apply outs_any|]; cbv beta
  | |- outs _ (bind (is_operator _) _) => eapply outs_bind; [apply outs_any|]; cbv beta
  | |- outs _ (bind (ptype _) _) => eapply outs_bind; [apply outs_any|]; cbv beta
  | |- outs _ (bind _ _) => eapply outs_bind; [solve [eauto with suf]|]; cbv beta
  | |- forall x, left0 _ x -> _ => let H := fresh in intros ? H; unfold left0 in H
  | |- forall x : _ * _, _ => let x := fresh "x" in let s := fresh "st" in intros [x s]; unfold left1 at 1; cbn [fst snd]; intros ?
  | |- forall x, _ => intros ?
  | |- outs _ (perr _ _ _) => apply perr_outs
  | |- outs _ (Stuck _) => exact Logic.I
  | |- outs _ (Err _ _) => exact Logic.I
  | |- outs (left1 _) (Ok _) => unfold left1; cbn [outs fst snd]; solve [eauto with suf]
  | |- outs (left0 _) (Ok _) => unfold left0; cbn [outs]; solve [eauto with suf]
  | |- outs _ (match ?x with _ => _ end) => destruct x
  | |- outs _ _ => solve [eauto with suf]
  end.
Ltac sufgo := repeat sufstep.

Lemma expr_suf n ts :
  (forall s, suf ts s -> outs (left1 ts) (parse_expr n s)) /\
  (forall tide s, suf ts s -> outs (left0 ts) (parse_expr_ex n tide s)) /\
  (forall s, suf ts s -> outs (left0 ts) (parse_suffix n s)) /\
  (forall s, suf ts s -> outs (left0 ts) (parse_lhs n s)) /\
  (forall s, suf ts s -> outs (left1 ts) (parse_exprs n s)) /\
  (forall s, suf ts s -> outs (left1 ts) (parse_call n s)).
Proof.
  induction n as [|n (IHe & IHx & IHs & IHl & IHes & IHc)]; [repeat split; intros; exact Logic.I|].
  repeat split; intros.
  - rewrite parse_expr_S. sufgo.
  - rewrite parse_expr_ex_S. sufgo.
  - rewrite parse_suffix_S. sufgo.
  - rewrite parse_lhs_S. sufgo.
  - rewrite parse_exprs_S. sufgo.
  - rewrite parse_call_S. sufgo.
Qed.
Lemma e_suf n ts s : suf ts s -> outs (left1 ts) (parse_expr n s).
Proof. apply expr_suf. Qed.
Lemma c_suf n ts s : suf ts s -> outs (left1 ts) (parse_call n s).
Proof. apply expr_suf. Qed.
Global Hint Resolve e_suf c_suf : suf.
Lemma decl_var_suf n ts s : suf ts s -> outs (left1 ts) (parse_decl_var n s).
Proof. intros H. unfold parse_decl_var. sufgo. Qed.
Lemma ident_stmt_suf n t ts s : suf ts s -> outs (left1 ts) (parse_ident_stmt n t s).
Proof. intros H. unfold parse_ident_stmt, parse_compound, parse_member_assign, parse_array_set. sufgo. Qed.
Lemma return_suf n t ts s : suf ts s -> outs (left1 ts) (parse_return n t s).
Proof. intros H. unfold parse_return. sufgo. Qed.
Global Hint Resolve decl_var_suf ident_stmt_suf return_suf : suf.
Lemma stmt_suf n ts :
  (forall s, suf ts s -> outs (left1 ts) (parse_stmt n s)) /\
  (forall s, suf ts s -> outs (left1 ts) (parse_body n s)) /\
  (forall s, suf ts s -> outs (left1 ts) (parse_then n s)).
Proof.
  induction n as [|n (IHs & IHb & IHt)]; [repeat split; intros; exact Logic.I|]. repeat split; intros.
  - rewrite parse_stmt_S. do 4 sufstep. eapply outs_bind with (P := left1 ts); sufgo.
  - rewrite parse_body_S. sufgo.
  - rewrite parse_then_S. sufgo.
Qed.
Lemma body_suf n ts s : suf ts s -> outs (left1 ts) (parse_body n s).
Proof. apply stmt_suf. Qed.
Lemma args_suf n ts : forall s, suf ts s -> outs (left1 ts) (parse_args n s).
Proof. induction n as [|n IH]; intros s H; [exact Logic.I|]. rewrite parse_args_S. sufgo. Qed.
Global Hint Resolve body_suf args_suf : suf.
Lemma function_suf n ts s : suf ts s -> outs (left1 ts) (parse_function n s).
Proof. intros H. unfold parse_function. do 6 sufstep. eapply outs_bind with (P := left1 ts); sufgo. Qed.
Global Hint Resolve function_suf : suf.

(** ** Import declarations *)
Definition import_of (ts : list token) (name : bytes) : Prop :=
  exists a l1 l2 b, ts = a ++ Token TOK_IMPORT l1 :: Token (TOK_STRING name) l2 :: b.
Definition imports_in (ts : list token) (is : list item) : Prop := forall name l, In (TImport name l) is -> import_of ts name.
Lemma kind_import t : kind_of (tk t) = K_IMPORT -> exists l, t = Token TOK_IMPORT l.
Proof. destruct t as [k l]. destruct k; try discriminate. eauto. Qed.
Lemma items_imports fs src n ts : forall m s, suf ts s ->
  outs (fun x => imports_in ts (fst (fst x))) (parse_items fs src n m s).
Proof.
  induction n as [|n IH]; intros m s H; [exact Logic.I|]. rewrite parse_items_S.
  eapply outs_bind with (P := fun x => suf ts (snd x) /\ (fst x = None -> snd x = s)).
  { unfold found. destruct (ptype s) as [k0| |]; cbn [bind]; try exact Logic.I. destruct (kind_eqb k0 K_EOF); [|split; [exact H|reflexivity]].
    eapply outs_bind; [apply pop_suf; exact H|]. intros [t s1] H1. split; [exact H1|discriminate]. }
  intros [[t0|] s1] [H1 Q]; cbn [fst snd] in *; [intros name l []|]. clear Q.
  unfold pop at 1. destruct H as [pre E]. destruct (p_toks s) as [|t r] eqn:T; [exact Logic.I|]. cbn [bind].
  assert (H2 : suf ts (PSt r (tk_line t) (p_ops s) (p_exp s))) by (exists (pre ++ [t]); cbn [p_toks]; rewrite <- app_assoc; exact E).
  assert (V : forall i, (forall name l, i <> TImport name l) -> forall m s2, suf ts s2 ->
    outs (fun x => imports_in ts (fst (fst x))) ('(r, m1, s3) <- parse_items fs src n m s2 ;; Ok (i :: r, m1, s3))).
  { intros i N m2 s2 H3. eapply outs_bind; [apply IH; exact H3|]. intros [[r0 m1] s3] H4. cbn [fst snd outs] in *.
    intros name l [E0|I0]; [destruct (N _ _ E0)|eapply H4; exact I0]. }
  destruct (kind_of (tk t)) eqn:K;
    try (eapply outs_bind; [apply outs_any|]; intros [t2 s2] _; apply perr_outs).
  - destruct (parse_function n _) as [[f s2]| |] eqn:F; cbn [bind]; try exact Logic.I.
    pose proof (function_suf n ts _ H2) as G. rewrite F in G. apply V; [|exact G].
    intros name l ->. unfold parse_function in F.
    repeat (apply bind_ok in F; destruct F as (? & _ & F);
      repeat match type of F with context [match ?x with (_, _) => _ end] => destruct x end). discriminate.
  - destruct (parse_decl_var n _) as [[[[x l] e] s2]| |] eqn:F; cbn [bind]; try exact Logic.I.
    pose proof (decl_var_suf n ts _ H2) as G. rewrite F in G. apply V; [discriminate|exact G].
  - apply IH. exact H2.
  - destruct (parse_decl_var n _) as [[[[x l] e] s2]| |] eqn:F; cbn [bind]; try exact Logic.I.
    pose proof (decl_var_suf n ts _ H2) as G. rewrite F in G. apply V; [discriminate|exact G].
  - unfold parse_import, popk, found, ptype. cbn [p_toks bind]. destruct r as [|u r]; [exact Logic.I|]. cbn [bind].
    destruct (kind_eqb (kind_of (tk u)) K_STRING) eqn:KU; cbn [bind]; [|exact Logic.I].
    unfold pop. cbn [p_toks bind p_ops p_exp]. destruct (sm_load fs m _) as [[|] m1]; cbn [bind]; [|unfold perr; destruct (kind_of (tk u)); exact Logic.I].
    assert (H3 : suf ts (PSt r (tk_line u) (p_ops s) (p_exp s))) by (exists (pre ++ [t; u]); cbn [p_toks]; rewrite <- app_assoc; exact E).
    eapply outs_bind; [apply IH; exact H3|]. intros [[r0 m2] s3] H4. cbn [fst snd outs] in *.
    intros name l [E0|I0]; [|eapply H4; exact I0]. inversion E0; subst. apply kind_eqb_eq in KU.
    destruct (kind_import _ K) as [l1 ->]. destruct u as [ku lu]. cbn [tk t_str] in *. destruct ku; try discriminate.
    exists pre, l1, lu, r. reflexivity.
Qed.
Lemma parse_imports fs src m left ts is m' st : parse fs src m left ts = Ok (is, m', st) -> imports_in ts is.
Proof.
  intros E. unfold parse in E. pose proof (items_imports fs src (parse_fuel ts) ts m (PSt ts (Line 0 0) [] left)) as H. rewrite E in H.
  apply H. exists []. reflexivity.
Qed.
