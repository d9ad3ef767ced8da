(** Operator chains: the bracketing exists, is unique, and the operator stack of
    the parser computes it. *)
From Coq Require Import ZArith List Bool Lia ZifyBool.
From Verif Require Import Base F32 Lexer Ast Source Parser ParseSpec ParseFacts ParseSafe ParseRound.
Import ListNotations.
Open Scope Z_scope.

(** ** The bracketing *)

(** [t] with one more operator and operand on the right. *)
Fixpoint snoc (t : ptree) (o : binop) (l : line_t) (e : expr) : ptree :=
  if level o <=? strength t then Node o l t (Leaf e)
  else match t with
       | Leaf _ => Node o l t (Leaf e)
       | Node o' l' a b => Node o' l' a (snoc b o l e)
       end.

Lemma snoc_last t o l e : last (snoc t o l e) = e.
Proof.
  induction t as [x|o' l' a _ b IH]; cbn [snoc].
  - destruct (level o <=? _); reflexivity.
  - destruct (level o <=? _); [reflexivity|]. exact IH.
Qed.
Lemma snoc_lefts t o l e : lefts (snoc t o l e) = lefts t ++ [(last t, o, l)].
Proof.
  induction t as [x|o' l' a _ b IH]; cbn [snoc].
  - destruct (level o <=? _); reflexivity.
  - destruct (level o <=? _); [reflexivity|]. cbn [lefts last]. rewrite IH, <- app_assoc. reflexivity.
Qed.
Lemma snoc_strength t o l e : strength (snoc t o l e) = Z.min (level o) (strength t).
Proof.
  pose proof (level_pos o). destruct t as [x|o' l' a b]; cbn [snoc].
  - destruct (level o <=? _) eqn:E; cbn [strength] in *; lia.
  - destruct (level o <=? _) eqn:E; cbn [strength] in *; lia.
Qed.
Lemma snoc_prec t o l e : prec_ok t -> prec_ok (snoc t o l e).
Proof.
  pose proof (level_pos o) as HL. induction t as [x|o' l' a _ b IH]; intros H; cbn [snoc].
  - destruct (level o <=? _) eqn:E; cbn [prec_ok strength] in *; repeat split; lia.
  - destruct (level o <=? _) eqn:E.
    + cbn [strength] in E. change (prec_ok (Node o' l' a b) /\ True /\ level o <= level o' /\ level o < 6).
      split; [exact H|]. split; [exact I|]. split; lia.
    + cbn [strength] in E. cbn [prec_ok] in *. destruct H as (A & B & C & D).
      rewrite snoc_strength. repeat split; auto. lia.
Qed.

Lemma brackets_exists xs : forall z, exists t, brackets t xs z.
Proof.
  induction xs as [|[[e o] l] xs IH] using rev_ind; intros z.
  - exists (Leaf z). repeat split.
  - destruct (IH e) as (t & P & L & E). exists (snoc t o l z).
    repeat split; [now apply snoc_prec| |apply snoc_last]. rewrite snoc_lefts, L, E. reflexivity.
Qed.

Lemma strength_range t : 1 <= strength t <= 6.
Proof. destruct t; cbn [strength]; [lia|]. pose proof (level_pos o). lia. Qed.

(** The root of a bracketing is the last of its weakest operators. *)
Lemma lefts_strength t : prec_ok t -> Forall (fun '(_, o, _) => strength t <= level o) (lefts t).
Proof.
  induction t as [x|o l a IHa b IHb]; cbn [lefts]; [constructor|].
  intros (A & B & C & D). cbn [strength].
  apply Forall_app. split; [|constructor; [lia|]].
  - eapply Forall_impl; [|apply IHa, A]. intros [[? ?] ?] ?; cbv beta iota in *. lia.
  - eapply Forall_impl; [|apply IHb, B]. intros [[? ?] ?] ?; cbv beta iota in *. lia.
Qed.

Lemma split_unique (p : list (expr * binop * line_t)) e o l r p' e' o' l' r' :
  p ++ (e, o, l) :: r = p' ++ (e', o', l') :: r' ->
  Forall (fun '(_, x, _) => level o <= level x) p ->
  Forall (fun '(_, x, _) => level o < level x) r ->
  Forall (fun '(_, x, _) => level o' <= level x) p' ->
  Forall (fun '(_, x, _) => level o' < level x) r' ->
  p = p' /\ (e, o, l) = (e', o', l') /\ r = r'.
Proof.
  intros E. revert p' E. induction p as [|[[e1 o1] l1] p IH]; intros p' E H1 H2 H3 H4.
  - destruct p' as [|x p']; cbn [app] in E; inversion E as [[E1 E2]]; clear E; [subst; auto|].
    exfalso. subst. inversion H3 as [|? ? A B]; subst.
    apply Forall_app in H2 as [_ H2]. inversion H2 as [|? ? C D]; subst.
    cbv beta iota in A, C. lia.
  - destruct p' as [|x p']; cbn [app] in E; inversion E as [[E1 E2]]; clear E.
    + exfalso. subst. inversion H1 as [|? ? A B]; subst.
      apply Forall_app in H4 as [_ H4]. inversion H4 as [|? ? C D]; subst.
      cbv beta iota in A, C. lia.
    + subst. inversion H1; subst. inversion H3; subst.
      destruct (IH p' E2) as (-> & E3 & ->); auto.
Qed.

Lemma brackets_unique t : forall t' xs z, brackets t xs z -> brackets t' xs z -> t = t'.
Proof.
  induction t as [x|o l a IHa b IHb]; intros t' xs z (P & L & E) (P' & L' & E').
  - cbn [lefts last] in L, E. subst xs. destruct t' as [x'|? ? ? ?]; cbn [lefts last] in L', E'.
    + congruence.
    + destruct (lefts t'1); discriminate.
  - destruct t' as [x'|o' l' a' b']; cbn [lefts last] in *.
    + subst xs. destruct (lefts a); discriminate.
    + destruct P as (Pa & Pb & S1 & S2), P' as (Pa' & Pb' & S1' & S2').
      destruct (split_unique (lefts a) (last a) o l (lefts b) (lefts a') (last a') o' l' (lefts b'))
        as (E1 & E2 & E3).
      * congruence.
      * eapply Forall_impl; [|apply lefts_strength, Pa]. intros [[? ?] ?] ?; cbv beta iota in *. lia.
      * eapply Forall_impl; [|apply lefts_strength, Pb]. intros [[? ?] ?] ?; cbv beta iota in *. lia.
      * eapply Forall_impl; [|apply lefts_strength, Pa']. intros [[? ?] ?] ?; cbv beta iota in *. lia.
      * eapply Forall_impl; [|apply lefts_strength, Pb']. intros [[? ?] ?] ?; cbv beta iota in *. lia.
      * injection E2 as E2 -> ->.
        rewrite (IHa a' (lefts a) (last a)) by (repeat split; congruence).
        rewrite (IHb b' (lefts b) (last b)) by (repeat split; congruence). reflexivity.
Qed.

(** ** A chain is a text of its bracketing *)
Lemma lead_app xs ys ts : lead (xs ++ ys) ts ->
  exists ta tb, ts = ta ++ tb /\ lead xs ta /\ lead ys tb.
Proof.
  revert ts. induction xs as [|[[e o] l] xs IH]; intros ts H; cbn [app] in H.
  - exists [], ts. repeat split; [constructor|exact H].
  - inversion H as [|? te ? ? ? ts' P R]; subst.
    destruct (IH _ R) as (ta & tb & -> & A & B).
    exists (te ++ Token (op_token o) l :: ta), tb. split; [rewrite <- app_assoc; reflexivity|].
    split; [constructor; assumption|exact B].
Qed.

Lemma brackets_text t : prec_ok t -> forall ts tz, lead (lefts t) ts -> prim (last t) tz ->
  chain (strength t) false (tree_expr t) (ts ++ tz).
Proof.
  induction t as [x|o l a IHa b IHb]; intros P ts tz HL HZ; cbn [lefts last] in *.
  - inversion HL; subst. constructor. exact HZ.
  - destruct P as (A & B & C & D).
    destruct (lead_app _ _ _ HL) as (ta & tb & -> & La & Lb).
    inversion Lb as [|? te ? ? ? ts' Pe R]; subst.
    cbn [strength tree_expr].
    replace ((ta ++ te ++ Token (op_token o) l :: ts') ++ tz)
      with ((ta ++ te) ++ Token (op_token o) l :: (ts' ++ tz))
      by (repeat (rewrite <- app_assoc; cbn [app]); reflexivity).
    eapply C_bin; [apply IHa; assumption|apply IHb; assumption|assumption|assumption].
Qed.

(** ** The operator stack *)

(** What a lead does to the two stacks. *)
Fixpoint shunt (tide : nat) (xs : list (expr * binop * line_t)) (ops : list token)
    (es : list expr) : res (list token * list expr) :=
  match xs with
  | [] => Ok (ops, es)
  | (e, o, l) :: r =>
      '(ops1, es1) <- reduce_while (level o) tide ops (e :: es) ;;
      shunt tide r (Token (op_token o) l :: ops1) es1
  end.

Lemma shunt_app tide xs ys ops es : shunt tide (xs ++ ys) ops es =
  ('(ops1, es1) <- shunt tide xs ops es ;; shunt tide ys ops1 es1).
Proof.
  revert ops es. induction xs as [|[[e o] l] xs IH]; intros ops es; cbn [app shunt]; [reflexivity|].
  destruct (reduce_while _ _ _ _) as [[o1 e1]| |]; cbn [bind]; auto.
Qed.

Lemma shunt_tree t : prec_ok t -> forall up low es, below (strength t) up ->
  exists up' es', shunt (List.length low) (lefts t) (up ++ low) es = Ok (up' ++ low, es') /\
    forall q, q <= strength t ->
      reduce_while q (List.length low) (up' ++ low) (last t :: es') =
      reduce_while q (List.length low) (up ++ low) (tree_expr t :: es).
Proof.
  induction t as [x|o l a IHa b IHb]; intros P up low es B; cbn [lefts last].
  - exists up, es. split; reflexivity.
  - destruct P as (A & Bb & C & D). cbn [strength] in *.
    destruct (IHa A up low es (below_le _ _ _ B C)) as (up1 & es1 & S1 & R1).
    destruct (IHb Bb (Token (op_token o) l :: up) low (tree_expr a :: es)) as (up2 & es2 & S2 & R2).
    { cbn [below]. rewrite tprec_op. lia. }
    exists up2, es2. split.
    + rewrite shunt_app, S1. cbn [bind shunt]. rewrite (R1 _ C), rw_stop by assumption.
      cbn [bind]. exact S2.
    + intros q Lq. rewrite R2 by lia. rewrite rw_go by (rewrite tprec_op; lia).
      rewrite reduce_op. reflexivity.
Qed.

Lemma shunt_brackets t xs z low es : brackets t xs z ->
  exists ops' es', shunt (List.length low) xs low es = Ok (ops', es') /\
    reduce_while 0 (List.length low) ops' (z :: es') = Ok (low, tree_expr t :: es).
Proof.
  intros (P & <- & <-). destruct (shunt_tree t P [] low es I) as (up' & es' & S & R).
  cbn [app] in *. exists (up' ++ low), es'. split; [exact S|].
  rewrite R by (pose proof (strength_range t); lia).
  apply (rw_stop 0 low [] _ I).
Qed.


(** Reducing a chain for a [not]: what is left, and what it becomes. *)
Lemma shunt_not t xs z l0 low es : brackets t xs z ->
  exists ops' es' ops2 es2, shunt (List.length low) xs low es = Ok (ops', es') /\
    reduce_while 2 (List.length low) ops' (z :: es') = Ok (ops2, es2) /\
    reduce_while 0 (List.length low) (Token TOK_NOT l0 :: ops2) es2 = Ok (low, not_last l0 t :: es).
Proof.
  intros (P & <- & <-).
  destruct (Z.le_gt_cases 2 (strength t)) as [L|L].
  - destruct (shunt_tree t P [] low es I) as (up' & es' & S & R). cbn [app] in *.
    exists (up' ++ low), es', low, (tree_expr t :: es). split; [exact S|]. split.
    + rewrite R by lia. apply (rw_stop 2 low [] _ I).
    + replace (not_last l0 t) with (EUn UNot l0 (tree_expr t))
        by (destruct t as [|[] ? ? ?]; cbn in L; try reflexivity; lia).
      rewrite (rw_go 0 low [] (Token TOK_NOT l0)) by (cbn; lia). cbn [app op_reduce tk kind_of binop_of bind].
      apply (rw_stop 0 low [] _ I).
  - destruct t as [x|o l a b]; [cbn in L; lia|]. cbn [strength] in L.
    destruct P as (A & Bb & C & D). cbn [lefts last].
    destruct (shunt_tree a A [] low es I) as (up1 & es1 & S1 & R1). cbn [app] in *.
    destruct (shunt_tree b Bb [Token (op_token o) l] low (tree_expr a :: es)) as (up2 & es2 & S2 & R2).
    { cbn [below]. rewrite tprec_op. lia. }
    exists (up2 ++ low), es2, ([Token (op_token o) l] ++ low), (tree_expr b :: tree_expr a :: es).
    split; [|split].
    + rewrite shunt_app, S1. cbn [bind shunt]. rewrite (R1 _ C), (rw_stop _ low []) by exact I.
      cbn [bind]. exact S2.
    + assert (strength b <> 2) by (destruct b as [|[] ? ? ?]; discriminate).
      assert (level o = 1) by (pose proof (level_pos o); lia).
      rewrite R2 by lia. apply rw_stop. cbn [below]. rewrite tprec_op. lia.
    + rewrite (rw_go 0 low [Token (op_token o) l] (Token TOK_NOT l0)) by (cbn; lia).
      cbn [op_reduce tk kind_of binop_of bind].
      rewrite (rw_go 0 low [] (Token (op_token o) l)) by (rewrite tprec_op; pose proof (level_pos o); lia).
      rewrite reduce_op. cbn [bind app]. rewrite (rw_stop 0 low [] _ I).
      destruct o; cbn in L; try lia; reflexivity.
Qed.

(** The parser on a lead. *)
Lemma op_head o l rest : head_is not_suffix (Token (op_token o) l :: rest).
Proof. destruct o; stop_tac. Qed.

Lemma operand_run e te tide l ops es rest : prim e te -> head_is not_suffix rest ->
  exists l', forall n r, after n tide (PSt rest l' ops (e :: es)) = Ok r ->
    exists n', parse_expr_ex n' tide (PSt (te ++ rest) l ops es) = Ok r.
Proof.
  intros HP HN. destruct (proj1 (proj2 texts_ok) _ _ HP) as ((t & r & Et & K1 & K2 & _) & H).
  destruct (H l ops es rest (not_suffix_dot _ HN)) as (l' & HQ).
  exists l'. intros n rr HA.
  destruct (HQ 1%nat _ (suffix_stop 0%nat (PSt rest l' ops (e :: es)) HN)) as (n' & E).
  exists (S (n + n')).
  rewrite (expr_ex_prim _ _ (PSt (te ++ rest) l ops es) t (r ++ rest));
    [|rewrite Et; reflexivity|exact K1|exact K2].
  pose proof (prim_run_up n' (n + n')%nat _ _ E ltac:(lia)) as E'.
  apply bind_ok in E' as (s2 & E1 & E2). rewrite E1. cbn [bind]. rewrite E2. cbn [bind].
  eapply after_up; [exact HA|lia].
Qed.

Lemma lead_run xs ts : lead xs ts -> forall tide l ops es ops' es' rest,
  shunt tide xs ops es = Ok (ops', es') ->
  exists l', forall n r, parse_expr_ex n tide (PSt rest l' ops' es') = Ok r ->
    exists n', parse_expr_ex n' tide (PSt (ts ++ rest) l ops es) = Ok r.
Proof.
  induction 1 as [|e te o lo xs ts HP HL IH]; intros tide l ops es ops' es' rest HS; cbn [shunt] in HS.
  - injection HS as -> ->. exists l. cbn [app]. eauto.
  - apply bind_ok in HS as ([ops1 es1] & HR & HS).
    destruct (IH tide lo (Token (op_token o) lo :: ops1) es1 ops' es' rest HS) as (l' & K).
    destruct (operand_run e te tide l ops es (Token (op_token o) lo :: ts ++ rest) HP (op_head _ _ _)) as (l1 & K1).
    exists l'. intros n r HE. destruct (K n r HE) as (n1 & E1).
    replace ((te ++ Token (op_token o) lo :: ts) ++ rest) with (te ++ Token (op_token o) lo :: ts ++ rest)
      by (rewrite <- app_assoc; reflexivity).
    apply (K1 n1). unfold after, is_operator, ptype. cbn [p_toks bind tk].
    assert (H0 : (0 <? op_type (kind_of (op_token o))) = true) by (destruct o; reflexivity).
    rewrite H0. cbn [pop p_toks p_ops p_exp bind tk_line]. unfold op_push. cbn [p_ops p_exp].
    rewrite tprec_op, HR. cbn [bind]. unfold set_stacks. cbn [p_toks p_line]. exact E1.
Qed.

Lemma expr_run n ts l ops es ts1 l1 ops1 es1 ops2 e es2 :
  parse_expr_ex n (List.length ops) (PSt ts l ops es) = Ok (PSt ts1 l1 ops1 es1) ->
  reduce_while 0 (List.length ops) ops1 es1 = Ok (ops2, e :: es2) ->
  parse_expr (S n) (PSt ts l ops es) = Ok (e, PSt ts1 l1 ops2 es2).
Proof.
  intros H R. rewrite parse_expr_S. cbv zeta. cbn [p_ops]. rewrite H. cbn [bind]. unfold op_pop_all.
  cbn [p_ops p_exp]. rewrite R. reflexivity.
Qed.

(** A sign in front of any operand of a chain. *)
Lemma neg_run t xs1 xs2 z l0 ts1 ts2 tz l ops es rest :
  brackets t (xs1 ++ xs2) (EUn UNeg l0 z) -> lead xs1 ts1 -> lead xs2 ts2 -> prim z tz ->
  head_is stop rest ->
  exists n l', parse_expr n (PSt (ts1 ++ Token TOK_SUB l0 :: ts2 ++ tz ++ rest) l ops es)
               = Ok (tree_expr t, PSt rest l' ops es).
Proof.
  intros B L1 L2 HZ HS.
  destruct (shunt_brackets t _ _ ops es B) as (ops2 & es2 & SH & R).
  rewrite shunt_app in SH. apply bind_ok in SH as ([ops1 es1] & S1 & S2).
  destruct (lead_run _ _ L1 (List.length ops) l ops es ops1 es1 (Token TOK_SUB l0 :: ts2 ++ tz ++ rest) S1) as (l1 & K1).
  destruct (lead_run _ _ L2 (List.length ops) l0 ops1 es1 ops2 es2 (tz ++ rest) S2) as (l2 & K2).
  destruct (operand_run z tz (List.length ops) l2 ops2 es2 rest HZ (stop_not_suffix _ HS)) as (l3 & K3).
  destruct (K3 0%nat _ (after_stop 0%nat _ (PSt rest l3 ops2 (z :: es2)) HS)) as (n3 & E3).
  destruct (K2 _ _ E3) as (n2 & E2).
  destruct (K1 (S n2) (PSt rest l3 ops2 (EUn UNeg l0 z :: es2))) as (n1 & E1).
  { rewrite parse_expr_ex_S. pstep. rewrite E2. pstep. reflexivity. }
  exists (S n1), l3. exact (expr_run _ _ _ _ _ _ _ _ _ _ _ _ E1 R).
Qed.

(** A [not] in front of any operand of a chain. *)
Lemma not_run t xs1 xs2 z l0 ts1 ts2 tz l ops es rest :
  brackets t (xs1 ++ xs2) z -> lead xs1 ts1 -> lead xs2 ts2 -> prim z tz ->
  head_is stop rest ->
  exists n l', parse_expr n (PSt (ts1 ++ Token TOK_NOT l0 :: ts2 ++ tz ++ rest) l ops es)
               = Ok (not_last l0 t, PSt rest l' ops es).
Proof.
  intros B L1 L2 HZ HS.
  destruct (shunt_not t _ _ l0 ops es B) as (ops2 & es2 & ops3 & es3 & SH & R2 & R).
  rewrite shunt_app in SH. apply bind_ok in SH as ([ops1 es1] & S1 & S2).
  destruct (lead_run _ _ L1 (List.length ops) l ops es ops1 es1 (Token TOK_NOT l0 :: ts2 ++ tz ++ rest) S1) as (l1 & K1).
  destruct (lead_run _ _ L2 (List.length ops) l0 ops1 es1 ops2 es2 (tz ++ rest) S2) as (l2 & K2).
  destruct (operand_run z tz (List.length ops) l2 ops2 es2 rest HZ (stop_not_suffix _ HS)) as (l3 & K3).
  destruct (K3 0%nat _ (after_stop 0%nat _ (PSt rest l3 ops2 (z :: es2)) HS)) as (n3 & E3).
  destruct (K2 _ _ E3) as (n2 & E2).
  destruct (K1 (S n2) (PSt rest l3 (Token TOK_NOT l0 :: ops3) es3)) as (n1 & E1).
  { rewrite parse_expr_ex_S. pstep. rewrite E2. cbn [bind]. unfold op_push. cbn [p_ops p_exp].
    change (tprec (Token TOK_NOT l0)) with 2. rewrite R2. reflexivity. }
  exists (S n1), l3. exact (expr_run _ _ _ _ _ _ _ _ _ _ _ _ E1 R).
Qed.

(** [not] between two operands. *)
Lemma infix_not_run a b ta tb l0 l ops es rest :
  prim a ta -> prim b tb -> head_is stop rest ->
  exists n l', parse_expr n (PSt (ta ++ Token TOK_NOT l0 :: tb ++ rest) l ops es)
               = Ok (EUn UNot l0 b, PSt rest l' ops (a :: es)).
Proof.
  intros HA HB HS.
  destruct (operand_run a ta (List.length ops) l ops es (Token TOK_NOT l0 :: tb ++ rest) HA ltac:(stop_tac)) as (l1 & K1).
  destruct (operand_run b tb (List.length ops) l0 (Token TOK_NOT l0 :: ops) (a :: es) rest HB (stop_not_suffix _ HS)) as (l2 & K2).
  destruct (K2 0%nat _ (after_stop 0%nat _ (PSt rest l2 (Token TOK_NOT l0 :: ops) (b :: a :: es)) HS)) as (n2 & E2).
  destruct (K1 n2 (PSt rest l2 (Token TOK_NOT l0 :: ops) (b :: a :: es))) as (n1 & E1).
  { unfold after, is_operator, ptype. cbn [p_toks bind tk kind_of op_type]. cbn [Z.ltb Z.compare pop p_toks p_ops p_exp bind tk_line].
    unfold op_push. cbn [p_ops p_exp]. rewrite (rw_stop _ ops [] _ I). cbn [bind]. unfold set_stacks. cbn [p_toks p_line app]. exact E2. }
  exists (S n1), l2.
  apply (expr_run _ _ _ _ _ _ _ _ _ _ _ _ E1).
  rewrite (rw_go 0 ops [] (Token TOK_NOT l0)) by (cbn; lia). cbn [app op_reduce tk kind_of binop_of bind].
  apply (rw_stop 0 ops [] _ I).
Qed.

(** ** No text contains an end of file *)
Definition no_eof (ts : list token) : Prop := ~ In TOK_EOF (map tk ts).
Lemma no_eof_nil : no_eof []. Proof. intros []. Qed.
Lemma no_eof_cons t ts : tk t <> TOK_EOF -> no_eof ts -> no_eof (t :: ts).
Proof. intros A B [C|C]; auto. Qed.
Lemma no_eof_app a b : no_eof a -> no_eof b -> no_eof (a ++ b).
Proof. unfold no_eof. rewrite map_app, in_app_iff. tauto. Qed.
Lemma op_not_eof o l : tk (Token (op_token o) l) <> TOK_EOF.
Proof. destruct o; discriminate. Qed.
Ltac neof := repeat first [ apply no_eof_nil | apply no_eof_app
  | (apply no_eof_cons; [first [discriminate | apply op_not_eof]|]) | assumption ].

Lemma texts_no_eof :
  (forall p op e ts, chain p op e ts -> no_eof ts) /\
  (forall e ts, prim e ts -> no_eof ts) /\
  (forall es ts, elems es ts -> no_eof ts).
Proof. apply text_mind; intros; neof. Qed.

Lemma expr_no_eof e ts : expr_text e ts -> no_eof ts.
Proof. intros (p & o & C). exact (proj1 texts_no_eof _ _ _ _ C). Qed.
Lemma init_no_eof e ts : init_text e ts -> no_eof ts.
Proof.
  destruct e; cbn [init_text]; [|intros ->; apply no_eof_nil].
  intros (l & te & -> & H). apply expr_no_eof in H. neof.
Qed.
Lemma eols_no_eof ts : eols ts -> no_eof ts.
Proof. induction 1 as [|t ts H _ IH]; [apply no_eof_nil|]. apply no_eof_cons; [congruence|assumption]. Qed.
Lemma args_no_eof es ts : args_text es ts -> no_eof ts.
Proof. intros [[_ ->]|H]; [apply no_eof_nil|]. exact (proj2 (proj2 texts_no_eof) _ _ H). Qed.
Ltac neof_hyps := repeat match goal with
  | H : expr_text _ _ |- _ => apply expr_no_eof in H
  | H : init_text _ _ |- _ => apply init_no_eof in H
  | H : eols _ |- _ => apply eols_no_eof in H
  | H : args_text _ _ |- _ => apply args_no_eof in H
  end.
Lemma bodies_no_eof :
  (forall s ts, stmt_text s ts -> no_eof ts) /\ (forall b ts, body_text b ts -> no_eof ts).
Proof. apply stmt_body_mind; intros; neof_hyps; neof. Qed.

Lemma item_no_eof i ts : item_text i ts -> no_eof ts.
Proof.
  destruct 1 as [x l e ts lv H|x l e ts lv H|x l ps tps b tb lend lf l1 l2 l3 Hp Hb|p l li]; neof_hyps; neof.
  - destruct Hp as [[_ ->]|Hp]; [apply no_eof_nil|]. induction Hp; neof.
  - eapply (proj2 bodies_no_eof); exact Hb.
Qed.

Lemma good_app ts le : no_eof ts -> good True (ts ++ [Token TOK_EOF le]).
Proof.
  induction ts as [|t ts IH]; intros H; cbn [app good].
  - split; [auto|reflexivity].
  - split; [auto|]. destruct (kind_eqb (kind_of (tk t)) K_EOF) eqn:K.
    + exfalso. apply H. left. apply kind_eqb_eq in K. destruct (tk t); try discriminate K. reflexivity.
    + apply IH. intros HI. apply H. now right.
Qed.

Lemma program_split is ts : program_text is ts ->
  exists ts' le, ts = ts' ++ [Token TOK_EOF le] /\ no_eof ts'.
Proof.
  induction 1 as [l|l is ts _ (ts' & le & -> & H)|i ti is ts HI _ (ts' & le & -> & H)].
  - exists [], l. split; [reflexivity|apply no_eof_nil].
  - exists (Token TOK_EOL l :: ts'), le. split; [reflexivity|]. neof.
  - exists (ti ++ ts'), le. split; [apply app_assoc|]. apply item_no_eof in HI. neof.
Qed.

Lemma lead_no_eof xs ts : lead xs ts -> no_eof ts.
Proof.
  induction 1 as [|e te o l xs ts HP _ IH]; [apply no_eof_nil|].
  apply (proj1 (proj2 texts_no_eof)) in HP. neof.
Qed.

(** ** A one-line program around an expression *)
Lemma parse_var fs src m left te x lv lx la le e left' :
  no_eof te ->
  (exists n l', parse_expr n (PSt (te ++ [Token TOK_EOF le]) la [] left)
                = Ok (e, PSt [Token TOK_EOF le] l' [] left')) ->
  parse fs src m left (Token TOK_VAR lv :: Token (TOK_IDENT x) lx :: Token TOK_ASSIGN la
                        :: te ++ [Token TOK_EOF le])
  = Ok ([TVar x lx (Some e)], m, PSt [] le [] left').
Proof.
  intros NE (n & l' & E). apply (parse_at _ _ _ _ _ (S (S (S n)))).
  { apply (good_app (Token TOK_VAR lv :: Token (TOK_IDENT x) lx :: Token TOK_ASSIGN la :: te)). neof. }
  rewrite parse_items_S. pstep. unfold parse_decl_var. pstep.
  rewrite (expr_up _ _ _ _ E) by lia. cbn [bind]. rewrite parse_items_S. pstep. reflexivity.
Qed.
