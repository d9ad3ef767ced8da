(** The texts of ParseSpec.v parse to their trees. *)
From Coq Require Import ZArith List Bool Lia ZifyBool.
From Verif Require Import Base F32 Lexer Ast Source Parser ParseSpec ParseFacts ParseSafe.
Import ListNotations.
Open Scope Z_scope.

(** ** Lifting answers to larger depths *)
Lemma expr_up n m s v : parse_expr n s = Ok v -> (n <= m)%nat -> parse_expr m s = Ok v.
Proof.
  intros H L. eapply ler_ok; [|exact H]. apply (mono_le parse_expr); [|exact L].
  intros k t. apply (proj1 (expr_mono k)).
Qed.
Lemma expr_ex_up n m t s v : parse_expr_ex n t s = Ok v -> (n <= m)%nat -> parse_expr_ex m t s = Ok v.
Proof.
  intros H L. eapply ler_ok; [|exact H]. apply (mono_le (fun n s => parse_expr_ex n t s)); [|exact L].
  intros k x. apply (expr_mono k).
Qed.
Lemma suffix_up n m s v : parse_suffix n s = Ok v -> (n <= m)%nat -> parse_suffix m s = Ok v.
Proof.
  intros H L. eapply ler_ok; [|exact H]. apply (mono_le parse_suffix); [|exact L].
  intros k t. apply (expr_mono k).
Qed.
Lemma lhs_up n m s v : parse_lhs n s = Ok v -> (n <= m)%nat -> parse_lhs m s = Ok v.
Proof.
  intros H L. eapply ler_ok; [|exact H]. apply (mono_le parse_lhs); [|exact L].
  intros k t. apply (expr_mono k).
Qed.
Lemma exprs_up n m s v : parse_exprs n s = Ok v -> (n <= m)%nat -> parse_exprs m s = Ok v.
Proof.
  intros H L. eapply ler_ok; [|exact H]. apply (mono_le parse_exprs); [|exact L].
  intros k t. apply (expr_mono k).
Qed.
Lemma call_up n m s v : parse_call n s = Ok v -> (n <= m)%nat -> parse_call m s = Ok v.
Proof.
  intros H L. eapply ler_ok; [|exact H]. apply (mono_le parse_call); [|exact L].
  intros k t. apply (expr_mono k).
Qed.
Lemma stmt_up n m s v : parse_stmt n s = Ok v -> (n <= m)%nat -> parse_stmt m s = Ok v.
Proof.
  intros H L. eapply ler_ok; [|exact H]. apply (mono_le parse_stmt); [|exact L].
  intros k t. apply (stmt_mono k).
Qed.
Lemma body_up n m s v : parse_body n s = Ok v -> (n <= m)%nat -> parse_body m s = Ok v.
Proof.
  intros H L. eapply ler_ok; [|exact H]. apply (mono_le parse_body); [|exact L].
  intros k t. apply (stmt_mono k).
Qed.
Lemma then_up n m s v : parse_then n s = Ok v -> (n <= m)%nat -> parse_then m s = Ok v.
Proof.
  intros H L. eapply ler_ok; [|exact H]. apply (mono_le parse_then); [|exact L].
  intros k t. apply (stmt_mono k).
Qed.
Lemma args_up n m s v : parse_args n s = Ok v -> (n <= m)%nat -> parse_args m s = Ok v.
Proof.
  intros H L. eapply ler_ok; [|exact H]. apply (mono_le parse_args); [|exact L].
  intros k t. apply (args_mono k).
Qed.
Lemma items_up fs src n m sm s v :
  parse_items fs src n sm s = Ok v -> (n <= m)%nat -> parse_items fs src m sm s = Ok v.
Proof.
  intros H L. eapply ler_ok; [|exact H].
  apply (mono_le (fun n s => parse_items fs src n sm s)); [|exact L].
  intros k t. apply items_mono.
Qed.

(** ** What may follow *)
Definition head_is (P : kind -> Prop) (ts : list token) : Prop :=
  match ts with t :: _ => P (kind_of (tk t)) | [] => False end.
Definition not_suffix (k : kind) : Prop := k <> K_LBRACKET /\ k <> K_LPAREN /\ k <> K_DOT.
Definition stop (k : kind) : Prop := not_suffix k /\ op_type k = 0.

Lemma kind_neq a b : a <> b -> kind_eqb a b = false.
Proof.
  intros N. destruct (kind_eqb a b) eqn:E; [|reflexivity]. apply kind_eqb_eq in E. contradiction.
Qed.

Ltac pstep1 :=
  cbn [found ptype pop popk peek bind kind_of tk kind_eqb p_toks p_line p_ops p_exp
       push_exp set_stacks pop_exp t_str t_val t_valf tk_line app].
Ltac pstep := pstep1; unfold push_exp; unfold set_stacks; pstep1.

Lemma found_miss k s t r : p_toks s = t :: r -> kind_of (tk t) <> k -> found k s = Ok (None, s).
Proof. intros E N. unfold found, ptype. rewrite E. cbn [bind]. now rewrite (kind_neq _ _ N). Qed.

(** ** Operator stack *)
Definition below (p : Z) (up : list token) : Prop :=
  match up with [] => True | t :: _ => tprec t < p end.

Lemma tprec_range t : 0 <= tprec t <= 5.
Proof. unfold tprec. destruct (kind_of (tk t)); cbn; lia. Qed.
Lemma below6 up : below 6 up.
Proof. destruct up as [|t r]; cbn; [exact I|]. pose proof (tprec_range t). lia. Qed.
Lemma below_le p q up : below p up -> p <= q -> below q up.
Proof. destruct up; cbn; [auto|lia]. Qed.

Lemma rw_stop q low up es : below q up ->
  reduce_while q (List.length low) (up ++ low) es = Ok (up ++ low, es).
Proof.
  intros B. destruct up as [|t r]; cbn [app].
  - destruct low as [|t r]; [reflexivity|]. cbn [reduce_while].
    replace (Nat.ltb (List.length (t :: r)) (List.length (t :: r))) with false
      by (symmetry; apply Nat.ltb_ge; lia).
    reflexivity.
  - cbn [reduce_while]. cbn [below] in B.
    replace (negb (tprec t <? q)) with false by lia.
    now rewrite andb_false_r.
Qed.

Lemma rw_go q low up t es : q <= tprec t ->
  reduce_while q (List.length low) ((t :: up) ++ low) es =
  (es1 <- op_reduce t es ;; reduce_while q (List.length low) (up ++ low) es1).
Proof.
  intros B. cbn [app reduce_while].
  replace (Nat.ltb (List.length low) (List.length (t :: up ++ low))) with true
    by (symmetry; apply Nat.ltb_lt; cbn [List.length]; rewrite app_length; lia).
  replace (negb (tprec t <? q)) with true by lia. reflexivity.
Qed.

Lemma tprec_op o l : tprec (Token (op_token o) l) = level o.
Proof. destruct o; reflexivity. Qed.
Lemma reduce_op o l a b es :
  op_reduce (Token (op_token o) l) (b :: a :: es) = Ok (EBin o l a b :: es).
Proof. destruct o; reflexivity. Qed.
Lemma level_pos o : 1 <= level o <= 5.
Proof. destruct o; cbn; lia. Qed.

(** The end of parse_expr_ex_, parser.cpp:280-284. *)
Definition after (n : nat) (tide : nat) (s : pst) : res pst :=
  b <- is_operator s ;;
  if b : bool then
    '(op, s4) <- pop s ;;
    s5 <- op_push op tide s4 ;;
    parse_expr_ex n tide s5
  else Ok s.

Lemma after_stop n tide s : head_is stop (p_toks s) -> after n tide s = Ok s.
Proof.
  unfold head_is, after, is_operator, ptype. destruct (p_toks s) as [|t r]; [tauto|].
  intros [_ K]. cbn [bind]. now rewrite K.
Qed.

Lemma after_up n m tide s v : after n tide s = Ok v -> (n <= m)%nat -> after m tide s = Ok v.
Proof.
  unfold after. intros H L.
  destruct (is_operator s) as [b| |]; cbn [bind] in *; try discriminate.
  destruct b; [|exact H].
  destruct (pop s) as [[op s4]| |]; cbn [bind] in *; try discriminate.
  destruct (op_push op tide s4) as [s5| |]; cbn [bind] in *; try discriminate.
  eapply expr_ex_up; eassumption.
Qed.

Lemma suffix_stop n s : head_is not_suffix (p_toks s) -> parse_suffix (S n) s = Ok s.
Proof.
  intros H. rewrite parse_suffix_S. destruct (p_toks s) as [|t r] eqn:E; [destruct H|].
  destruct H as (A & B & C).
  rewrite (found_miss _ _ _ _ E A). cbn [bind]. rewrite (found_miss _ _ _ _ E B). reflexivity.
Qed.

(** ** Expressions *)
Definition chain_ok (p : Z) (op : bool) (e : expr) (ts : list token) : Prop :=
  forall l up low es rest,
    below p up -> head_is not_suffix rest -> (op = true -> head_is stop rest) ->
    exists l' up' es',
      (forall q, q <= p ->
         reduce_while q (List.length low) (up' ++ low) es' =
         reduce_while q (List.length low) (up ++ low) (e :: es)) /\
      (forall n r, after n (List.length low) (PSt rest l' (up' ++ low) es') = Ok r ->
         exists n', parse_expr_ex n' (List.length low) (PSt (ts ++ rest) l (up ++ low) es) = Ok r).

Definition prim_ok (e : expr) (ts : list token) : Prop :=
  (exists t r, ts = t :: r /\ kind_of (tk t) <> K_NOT /\ kind_of (tk t) <> K_SUB
               /\ op_type (kind_of (tk t)) = 0) /\
  forall l ops es rest, head_is (fun k => k <> K_DOT) rest ->
    exists l', forall n r, parse_suffix n (PSt rest l' ops (e :: es)) = Ok r ->
      exists n', (s2 <- parse_lhs n' (PSt (ts ++ rest) l ops es) ;; parse_suffix n' s2) = Ok r.

Definition elems_ok (es : list expr) (ts : list token) : Prop :=
  forall l ops st rest, head_is stop rest -> head_is (fun k => k <> K_COMMA) rest ->
    exists n l', parse_exprs n (PSt (ts ++ rest) l ops st) = Ok (es, PSt rest l' ops st).

Lemma chain_level p op e ts : chain p op e ts -> 0 <= p.
Proof. destruct 1; try lia. pose proof (level_pos o). lia. Qed.

Lemma chain_expr p op e ts : 0 <= p -> chain_ok p op e ts -> forall l ops es rest,
  head_is stop rest ->
  exists n l', parse_expr n (PSt (ts ++ rest) l ops es) = Ok (e, PSt rest l' ops es).
Proof.
  intros L C l ops es rest HS.
  assert (HN : head_is not_suffix rest) by (destruct rest; [destruct HS|apply HS]).
  destruct (C l [] ops es rest I HN (fun _ => HS)) as (l' & up' & es' & R & K).
  destruct (K 0%nat _ (after_stop 0%nat _ (PSt rest l' (up' ++ ops) es') HS)) as (n' & E).
  exists (S n'), l'. rewrite parse_expr_S. cbv zeta. cbn [p_ops].
  change ([] ++ ops) with ops in E. rewrite E. cbn [bind]. unfold op_pop_all. cbn [p_ops p_exp].
  rewrite (R 0 L). rewrite rw_stop by exact I. reflexivity.
Qed.

Lemma expr_ex_prim n tide s t r : p_toks s = t :: r ->
  kind_of (tk t) <> K_NOT -> kind_of (tk t) <> K_SUB ->
  parse_expr_ex (S n) tide s = (s2 <- parse_lhs n s ;; s3 <- parse_suffix n s2 ;; after n tide s3).
Proof.
  intros E A B. rewrite parse_expr_ex_S.
  rewrite (found_miss _ _ _ _ E A). cbn [bind]. rewrite (found_miss _ _ _ _ E B). reflexivity.
Qed.

Lemma bind_ok {A B} (m : res A) (k : A -> res B) r :
  bind m k = Ok r -> exists a, m = Ok a /\ k a = Ok r.
Proof. destruct m; cbn [bind]; [eauto|discriminate|discriminate]. Qed.

Lemma prim_run_up n m s v :
  (s2 <- parse_lhs n s ;; parse_suffix n s2) = Ok v -> (n <= m)%nat ->
  (s2 <- parse_lhs m s ;; parse_suffix m s2) = Ok v.
Proof.
  intros H L. apply bind_ok in H as (s2 & H1 & H2).
  rewrite (lhs_up _ _ _ _ H1 L). cbn [bind]. eapply suffix_up; eassumption.
Qed.

Lemma stop_not_suffix rest : head_is stop rest -> head_is not_suffix rest.
Proof. destruct rest; cbn; [tauto|]. now intros []. Qed.

Lemma not_suffix_dot rest : head_is not_suffix rest -> head_is (fun k => k <> K_DOT) rest.
Proof. destruct rest; cbn; [tauto|]. now intros (_ & _ & ?). Qed.

Lemma head_app (P : kind -> Prop) t ts rest : P (kind_of (tk t)) -> head_is P ((t :: ts) ++ rest).
Proof. auto. Qed.

Ltac stop_tac := first [ assumption | (cbn; unfold stop, not_suffix; cbn; repeat split; congruence) ].

Lemma texts_ok :
  (forall p op e ts, chain p op e ts -> chain_ok p op e ts) /\
  (forall e ts, prim e ts -> prim_ok e ts) /\
  (forall es ts, elems es ts -> elems_ok es ts).
Proof.
  apply text_mind.
  - (* operand *)
    intros e ts _ ((t & r & Et & K1 & K2 & _) & H) l up low es rest B HN _.
    destruct (H l (up ++ low) es rest (not_suffix_dot _ HN)) as (l' & HP).
    exists l', up, (e :: es). split; [reflexivity|].
    intros n rr HA.
    destruct (HP 1%nat _ (suffix_stop 0%nat (PSt rest l' (up ++ low) (e :: es)) HN)) as (n' & E).
    exists (S (n + n')).
    rewrite (expr_ex_prim _ _ (PSt (ts ++ rest) l (up ++ low) es) t (r ++ rest)); try assumption.
    2: { cbn [p_toks]. now rewrite Et. }
    assert (E2 := prim_run_up _ (n + n')%nat _ _ E ltac:(lia)).
    apply bind_ok in E2 as (s2 & F1 & F2). rewrite F1. cbn [bind]. rewrite F2. cbn [bind].
    eapply after_up; [exact HA|lia].
  - (* unary minus *)
    intros l0 o e ts _ C l up low es rest B HN HS. specialize (HS eq_refl).
    destruct (C l0 up low es rest (below6 up) HN (fun _ => HS)) as (l' & up' & es' & R & K).
    specialize (R 6 ltac:(lia)). rewrite !rw_stop in R by apply below6.
    injection R as RU RE. apply app_inv_tail in RU. subst up' es'.
    exists l', up, (EUn UNeg l0 e :: es). split; [reflexivity|].
    intros n r HA. rewrite after_stop in HA by exact HS.
    destruct (K 0%nat _ (after_stop 0%nat _ (PSt rest l' (up ++ low) (e :: es)) HS)) as (n' & E).
    exists (S n'). rewrite parse_expr_ex_S. pstep. rewrite E. pstep. exact HA.
  - (* not *)
    intros l0 p o e ts _ C Hp l up low es rest B HN HS. specialize (HS eq_refl).
    destruct (C l0 up low es rest (below_le _ _ _ B Hp) HN (fun _ => HS)) as (l' & up' & es' & R & K).
    exists l', (Token TOK_NOT l0 :: up), (e :: es). split.
    + intros q Lq. rewrite rw_go by (cbn; lia). reflexivity.
    + intros n r HA. rewrite after_stop in HA by exact HS.
      destruct (K 0%nat _ (after_stop 0%nat _ (PSt rest l' (up' ++ low) es') HS)) as (n' & E).
      exists (S n'). rewrite parse_expr_ex_S. pstep. rewrite E. pstep.
      unfold op_push. cbn [p_ops p_exp]. change (tprec (Token TOK_NOT l0)) with 2.
      rewrite (R 2 Hp), rw_stop by exact B. pstep. exact HA.
  - (* binary operator *)
    intros o l0 a b p q op ta tb _ Ca _ Cb Hp Hq l up low es rest B HN HS.
    assert (HNa : head_is not_suffix (Token (op_token o) l0 :: tb ++ rest)).
    { destruct o; cbn; unfold not_suffix; repeat split; congruence. }
    destruct (Ca l up low es (Token (op_token o) l0 :: tb ++ rest)
                (below_le _ _ _ B Hp) HNa ltac:(discriminate)) as (la & ua & ea & Ra & Ka).
    assert (Bb : below q (Token (op_token o) l0 :: up)).
    { cbn [below]. rewrite tprec_op. exact Hq. }
    destruct (Cb l0 (Token (op_token o) l0 :: up) low (a :: es) rest Bb HN HS) as (lb & ub & eb & Rb & Kb).
    exists lb, ub, eb. split.
    + intros q' Lq'. rewrite Rb by lia. rewrite rw_go by (rewrite tprec_op; exact Lq').
      rewrite reduce_op. reflexivity.
    + intros n r HA. destruct (Kb _ _ HA) as (n1 & E1).
      replace ((ta ++ Token (op_token o) l0 :: tb) ++ rest)
        with (ta ++ Token (op_token o) l0 :: tb ++ rest) by (rewrite <- app_assoc; reflexivity).
      apply (Ka n1). unfold after, is_operator, ptype. cbn [p_toks bind].
      replace (0 <? op_type (kind_of (tk (Token (op_token o) l0)))) with true
        by (destruct o; reflexivity).
      cbn [pop bind p_toks]. unfold op_push. cbn [p_ops p_exp].
      rewrite tprec_op, (Ra _ Hp), rw_stop by exact B. cbn [bind].
      exact E1.
  - (* int *)
    intros v l0. split; [do 2 eexists; split; [reflexivity|]; cbn; repeat split; discriminate|].
    intros l ops es rest HR. exists l0. intros n r H. exists (S n).
    rewrite parse_lhs_S. pstep. eapply suffix_up; [exact H|lia].
  - (* float *)
    intros v l0. split; [do 2 eexists; split; [reflexivity|]; cbn; repeat split; discriminate|].
    intros l ops es rest HR. exists l0. intros n r H. exists (S n).
    rewrite parse_lhs_S. pstep. eapply suffix_up; [exact H|lia].
  - (* string *)
    intros v l0. split; [do 2 eexists; split; [reflexivity|]; cbn; repeat split; discriminate|].
    intros l ops es rest HR. exists l0. intros n r H. exists (S n).
    rewrite parse_lhs_S. pstep. eapply suffix_up; [exact H|lia].
  - (* none *)
    intros l0. split; [do 2 eexists; split; [reflexivity|]; cbn; repeat split; discriminate|].
    intros l ops es rest HR. exists l0. intros n r H. exists (S n).
    rewrite parse_lhs_S. pstep. eapply suffix_up; [exact H|lia].
  - (* identifier *)
    intros x l0. split; [do 2 eexists; split; [reflexivity|]; cbn; repeat split; discriminate|].
    intros l ops es rest HR. exists l0. intros n r H. exists (S n).
    rewrite parse_lhs_S. pstep. destruct rest as [|t rest]; [destruct HR|]. cbn [head_is] in HR.
    rewrite (found_miss K_DOT (PSt (t :: rest) l0 ops es) t rest eq_refl HR).
    pstep. eapply suffix_up; [exact H|lia].
  - (* member *)
    intros x l0 m lm ld. split; [do 2 eexists; split; [reflexivity|]; cbn; repeat split; discriminate|].
    intros l ops es rest HR. exists lm. intros n r H. exists (S n).
    rewrite parse_lhs_S. pstep. eapply suffix_up; [exact H|lia].
  - (* parentheses *)
    intros e p o ts l1 l2 Hc C. split; [do 2 eexists; split; [reflexivity|]; cbn; repeat split; discriminate|].
    intros l ops es rest HR. exists l2. intros n r H.
    destruct (chain_expr p o e ts (chain_level _ _ _ _ Hc) C l1 ops es (Token TOK_RPAREN l2 :: rest))
      as (n1 & l' & E); [stop_tac|].
    exists (S (n + n1)). rewrite parse_lhs_S. pstep.
    replace ((ts ++ [Token TOK_RPAREN l2]) ++ rest) with (ts ++ Token TOK_RPAREN l2 :: rest)
      by (rewrite <- app_assoc; reflexivity).
    rewrite (expr_up _ (n + n1)%nat _ _ E) by lia. pstep.
    eapply suffix_up; [exact H|lia].
  - (* array literal *)
    intros l0 es0 ts l2 He E0. split; [do 2 eexists; split; [reflexivity|]; cbn; repeat split; discriminate|].
    intros l ops es rest HR. exists l2. intros n r H.
    destruct (E0 l0 ops es (Token TOK_RBRACKET l2 :: rest)) as (n1 & l' & E); [stop_tac|stop_tac|].
    exists (S (n + n1)). rewrite parse_lhs_S. pstep.
    replace ((ts ++ [Token TOK_RBRACKET l2]) ++ rest) with (ts ++ Token TOK_RBRACKET l2 :: rest)
      by (rewrite <- app_assoc; reflexivity).
    rewrite (exprs_up _ (n + n1)%nat _ _ E) by lia. pstep.
    eapply suffix_up; [exact H|lia].
  - (* subscript *)
    intros l0 a i p o ta ti l2 _ (Hh & Ha) Hc C. split.
    { destruct Hh as (t & r & -> & Hh). exists t. eexists. split; [reflexivity|exact Hh]. }
    intros l ops es rest HR.
    destruct (Ha l ops es (Token TOK_LBRACKET l0 :: ti ++ Token TOK_RBRACKET l2 :: rest)) as (la & HA); [cbn; discriminate|].
    exists l2. intros n r H.
    destruct (chain_expr p o i ti (chain_level _ _ _ _ Hc) C l0 ops es (Token TOK_RBRACKET l2 :: rest))
      as (n1 & l' & E); [stop_tac|].
    replace ((ta ++ Token TOK_LBRACKET l0 :: ti ++ [Token TOK_RBRACKET l2]) ++ rest)
      with (ta ++ Token TOK_LBRACKET l0 :: ti ++ Token TOK_RBRACKET l2 :: rest)
      by (rewrite <- !app_assoc; cbn [app]; rewrite <- app_assoc; reflexivity).
    apply (HA (S (n + n1))). rewrite parse_suffix_S. pstep.
    rewrite (expr_up _ (n + n1)%nat _ _ E) by lia. pstep.
    eapply suffix_up; [exact H|lia].
  - (* call without arguments *)
    intros l0 f tf l2 _ (Hh & Ha). split.
    { destruct Hh as (t & r & -> & Hh). exists t. eexists. split; [reflexivity|exact Hh]. }
    intros l ops es rest HR.
    destruct (Ha l ops es (Token TOK_LPAREN l0 :: Token TOK_RPAREN l2 :: rest)) as (la & HA); [cbn; discriminate|].
    exists l2. intros n r H.
    replace ((tf ++ [Token TOK_LPAREN l0; Token TOK_RPAREN l2]) ++ rest)
      with (tf ++ Token TOK_LPAREN l0 :: Token TOK_RPAREN l2 :: rest)
      by (rewrite <- !app_assoc; reflexivity).
    apply (HA (S (S n))). rewrite parse_suffix_S. pstep. rewrite parse_call_S. pstep.
    eapply suffix_up; [exact H|lia].
  - (* call with arguments *)
    intros l0 f es0 tf ts l2 _ (Hh & Ha) _ E0. split.
    { destruct Hh as (t & r & -> & Hh). exists t. eexists. split; [reflexivity|exact Hh]. }
    intros l ops es rest HR.
    destruct (Ha l ops es (Token TOK_LPAREN l0 :: ts ++ Token TOK_RPAREN l2 :: rest)) as (la & HA); [cbn; discriminate|].
    exists l2. intros n r H.
    replace ((tf ++ Token TOK_LPAREN l0 :: ts ++ [Token TOK_RPAREN l2]) ++ rest)
      with (tf ++ Token TOK_LPAREN l0 :: ts ++ Token TOK_RPAREN l2 :: rest)
      by (rewrite <- !app_assoc; cbn [app]; rewrite <- app_assoc; reflexivity).
    destruct (E0 l0 ops (f :: es) (Token TOK_RPAREN l2 :: rest)) as (n1 & l' & E); [stop_tac|stop_tac|].
    apply (HA (S (S (n + n1)))). rewrite parse_suffix_S. pstep. rewrite parse_call_S.
    (* the argument list does not start with a closing parenthesis *)
    assert (HF : found K_RPAREN (PSt (ts ++ Token TOK_RPAREN l2 :: rest) l0 ops (f :: es))
                 = Ok (None, PSt (ts ++ Token TOK_RPAREN l2 :: rest) l0 ops (f :: es))).
    { destruct (ts ++ Token TOK_RPAREN l2 :: rest) as [|t r'] eqn:ET.
      - destruct ts; discriminate.
      - apply (found_miss _ (PSt (t :: r') l0 ops (f :: es)) t r' eq_refl). intros K. clear HA.
        destruct n1; [discriminate E|]. rewrite parse_exprs_S in E.
        apply bind_ok in E as (x1 & E & _). destruct n1; [discriminate E|]. rewrite parse_expr_S in E.
        cbv zeta in E. apply bind_ok in E as (x2 & E & _). destruct n1; [discriminate E|].
        rewrite (expr_ex_prim _ _ (PSt (t :: r') l0 ops (f :: es)) t r' eq_refl) in E by (rewrite K; discriminate).
        apply bind_ok in E as (x3 & E & _). destruct n1; [discriminate E|]. rewrite parse_lhs_S in E.
        repeat (rewrite (found_miss _ (PSt (t :: r') l0 ops (f :: es)) t r' eq_refl) in E by (rewrite K; discriminate); cbn [bind] in E).
        cbn [pop p_toks bind] in E. unfold perr in E. rewrite K in E. discriminate E. }
    rewrite HF. cbn [bind].
    rewrite (exprs_up _ (n + n1)%nat _ _ E) by lia. pstep.
    eapply suffix_up; [exact H|lia].
  - (* one element *)
    intros e p o ts Hc C l ops st rest HS HC.
    destruct (chain_expr p o e ts (chain_level _ _ _ _ Hc) C l ops st rest HS) as (n1 & l' & E).
    exists (S n1), l'. rewrite parse_exprs_S, E. cbn [bind].
    destruct rest as [|t rest]; [destruct HS|].
    rewrite (found_miss _ (PSt (t :: rest) l' ops st) t rest eq_refl HC). reflexivity.
  - (* more elements *)
    intros e p o ts l0 es0 tes Hc C _ E0 l ops st rest HS HC.
    destruct (chain_expr p o e ts (chain_level _ _ _ _ Hc) C l ops st (Token TOK_COMMA l0 :: tes ++ rest))
      as (n1 & l' & E); [stop_tac|].
    destruct (E0 l0 ops st rest HS HC) as (n2 & l'' & E2).
    exists (S (n1 + n2)), l''. rewrite parse_exprs_S.
    replace ((ts ++ Token TOK_COMMA l0 :: tes) ++ rest) with (ts ++ Token TOK_COMMA l0 :: tes ++ rest)
      by (rewrite <- app_assoc; reflexivity).
    rewrite (expr_up _ (n1 + n2)%nat _ _ E) by lia. pstep.
    rewrite (exprs_up _ (n1 + n2)%nat _ _ E2) by lia. reflexivity.
Qed.

Lemma expr_ok e ts l ops es rest : expr_text e ts -> head_is stop rest ->
  exists n l', parse_expr n (PSt (ts ++ rest) l ops es) = Ok (e, PSt rest l' ops es).
Proof.
  intros (p & o & C) HS.
  exact (chain_expr p o e ts (chain_level _ _ _ _ C) (proj1 texts_ok _ _ _ _ C) l ops es rest HS).
Qed.

Lemma call_ok es ts l ops st rest l2 : args_text es ts ->
  exists n, parse_call n (PSt (ts ++ Token TOK_RPAREN l2 :: rest) l ops st) = Ok (es, PSt rest l2 ops st).
Proof.
  intros [[-> ->]|E].
  - exists 1%nat. rewrite parse_call_S. pstep. reflexivity.
  - destruct (proj2 (proj2 texts_ok) _ _ E l ops st (Token TOK_RPAREN l2 :: rest)) as (n & l' & H);
      [stop_tac|stop_tac|].
    exists (S n). rewrite parse_call_S.
    assert (HF : found K_RPAREN (PSt (ts ++ Token TOK_RPAREN l2 :: rest) l ops st)
                 = Ok (None, PSt (ts ++ Token TOK_RPAREN l2 :: rest) l ops st)).
    { destruct (ts ++ Token TOK_RPAREN l2 :: rest) as [|t r'] eqn:ET.
      - destruct ts; discriminate.
      - apply (found_miss _ (PSt (t :: r') l ops st) t r' eq_refl). intros K.
        destruct n as [|n]; [discriminate H|]. rewrite parse_exprs_S in H.
        apply bind_ok in H as (x1 & H & _). destruct n as [|n]; [discriminate H|]. rewrite parse_expr_S in H.
        cbv zeta in H. apply bind_ok in H as (x2 & H & _). destruct n as [|n]; [discriminate H|].
        rewrite (expr_ex_prim _ _ (PSt (t :: r') l ops st) t r' eq_refl) in H by (rewrite K; discriminate).
        apply bind_ok in H as (x3 & H & _). destruct n as [|n]; [discriminate H|]. rewrite parse_lhs_S in H.
        repeat (rewrite (found_miss _ (PSt (t :: r') l ops st) t r' eq_refl) in H by (rewrite K; discriminate); cbn [bind] in H).
        cbn [pop p_toks bind] in H. unfold perr in H. rewrite K in H. discriminate H. }
    rewrite HF. cbn [bind]. rewrite H. pstep. reflexivity.
Qed.

Lemma decl_ok e ti x lx l ops es rest : init_text e ti -> head_is stop rest ->
  head_is (fun k => k <> K_ASSIGN) rest ->
  exists n l', forall m, (n <= m)%nat ->
    parse_decl_var m (PSt (Token (TOK_IDENT x) lx :: ti ++ rest) l ops es)
    = Ok (x, lx, e, PSt rest l' ops es).
Proof.
  intros HI HS HA. destruct e as [e|]; cbn [init_text] in HI.
  - destruct HI as (la & te & -> & HE).
    destruct (expr_ok e te la ops es rest HE HS) as (n & l' & E).
    exists n, l'. intros m Lm. unfold parse_decl_var. pstep.
    rewrite (expr_up _ m _ _ E) by lia. reflexivity.
  - subst ti. exists 0%nat, lx. intros m _. unfold parse_decl_var. pstep.
    destruct rest as [|t rest]; [destruct HS|].
    rewrite (found_miss _ (PSt (t :: rest) lx ops es) t rest eq_refl HA). reflexivity.
Qed.

(** ** Line ends *)
Lemma skip_eols_app pre rest l ops es : eols pre -> head_is (fun k => k <> K_EOL) rest ->
  exists l', skip_eols (PSt (pre ++ rest) l ops es) = Ok (PSt rest l' ops es).
Proof.
  intros HP HR. unfold skip_eols. cbn [p_toks p_line p_ops p_exp].
  revert l. induction HP as [|t pre Ht HP IH]; intros l; cbn [app].
  - destruct rest as [|t rest]; [destruct HR|]. cbn [head_is] in HR.
    exists l. cbn [skip_eols_from]. now rewrite (kind_neq _ _ HR).
  - cbn [skip_eols_from]. rewrite Ht. cbn [kind_of kind_eqb]. apply IH.
Qed.

Lemma split_eols ts : exists a b, ts = a ++ b /\ eols a /\ (b = [] \/ head_is (fun k => k <> K_EOL) b).
Proof.
  induction ts as [|t r (a & b & E & Ha & Hb)].
  - exists [], []. repeat split; [constructor|now left].
  - destruct (kind_eqb (kind_of (tk t)) K_EOL) eqn:K.
    + exists (t :: a), b. split; [now rewrite E|]. split; [|exact Hb].
      constructor; [|exact Ha]. apply kind_eqb_eq in K. destruct (tk t); try discriminate K. reflexivity.
    + exists [], (t :: r). split; [reflexivity|]. split; [constructor|]. right. cbn.
      intros E'. rewrite E' in K. discriminate K.
Qed.

Lemma stmt_head s ts : stmt_text s ts -> exists t r, ts = t :: r /\ kind_of (tk t) <> K_EOL
  /\ kind_of (tk t) <> K_END /\ kind_of (tk t) <> K_ELSE.
Proof.
  destruct 1; do 2 eexists; (split; [reflexivity|]); cbn; repeat split; discriminate.
Qed.

Lemma eols_prefix pre pre' t r tb : eols pre -> eols pre' -> kind_of (tk t) <> K_EOL ->
  pre ++ t :: r = pre' ++ tb -> exists pre'', pre = pre' ++ pre'' /\ tb = pre'' ++ t :: r.
Proof.
  intros HP. revert pre'. induction HP as [|a pre Ha HP IH]; intros pre' HP' K E; cbn [app] in E.
  - destruct HP' as [|b pre' Hb HP']; [exists []; now rewrite E|].
    injection E as -> _. rewrite Hb in K. now contradiction K.
  - destruct HP' as [|b pre' Hb HP']; cbn [app] in E.
    + exists (a :: pre). now rewrite <- E.
    + injection E as -> E. destruct (IH _ HP' K E) as (pre'' & -> & ->). exists pre''. auto.
Qed.

(** ** Statements *)

(** The statement proper: parse_stmt_ between its two runs of line ends. *)
Definition stmt_ok (s : stmt) (ts : list token) : Prop :=
  forall l ops es pre l1 post rest, eols pre -> eols post ->
    head_is (fun k => k <> K_EOL) rest ->
    exists n l', parse_stmt n (PSt (pre ++ ts ++ Token TOK_EOL l1 :: post ++ rest) l ops es)
                 = Ok (s, PSt rest l' ops es).

Definition body_ok (b : list stmt) (tb0 : list token) : Prop :=
  forall pre tb, eols pre -> tb0 = pre ++ tb -> forall l ops es rest,
    (forall le, exists n l', parse_body n (PSt (tb ++ Token TOK_END le :: rest) l ops es)
       = Ok (b, Token TOK_END le, PSt rest l' ops es)) /\
    (forall le, exists n l', parse_then n (PSt (tb ++ Token TOK_END le :: rest) l ops es)
       = Ok (b, false, PSt rest l' ops es)) /\
    (forall le ll, exists n l',
       parse_then n (PSt (tb ++ Token TOK_ELSE le :: Token TOK_EOL ll :: rest) l ops es)
       = Ok (b, true, PSt rest l' ops es)).

(** parse_stmt_ runs [f] on the token after the blank lines. *)
Lemma stmt_frame s t r l1 : kind_of (tk t) <> K_EOL ->
  (forall l ops es rest, exists n l', forall m, (n <= m)%nat ->
     match kind_of (tk t) with
     | K_VAR => '(x, l, e, s2) <- parse_decl_var m (PSt (r ++ Token TOK_EOL l1 :: rest) l ops es) ;; Ok (SVar x l e, s2)
     | K_IDENT => parse_ident_stmt m t (PSt (r ++ Token TOK_EOL l1 :: rest) l ops es)
     | K_IF =>
         '(_, s2) <- popk K_LPAREN (PSt (r ++ Token TOK_EOL l1 :: rest) l ops es) ;;
         '(c, s3) <- parse_expr m s2 ;;
         '(_, s4) <- popk K_RPAREN s3 ;;
         '(_, s5) <- popk K_EOL s4 ;;
         '(b, els, s6) <- parse_then m s5 ;;
         if els : bool then
           '(f, _, s7) <- parse_body m s6 ;; Ok (SIf (tk_line t) c b (Some f), s7)
         else Ok (SIf (tk_line t) c b None, s6)
     | K_WHILE =>
         '(_, s2) <- popk K_LPAREN (PSt (r ++ Token TOK_EOL l1 :: rest) l ops es) ;;
         '(c, s3) <- parse_expr m s2 ;;
         '(_, s4) <- popk K_RPAREN s3 ;;
         '(_, s5) <- popk K_EOL s4 ;;
         '(b, _, s6) <- parse_body m s5 ;;
         Ok (SWhile (tk_line t) c b, s6)
     | K_FOR =>
         '(_, s2) <- popk K_LPAREN (PSt (r ++ Token TOK_EOL l1 :: rest) l ops es) ;;
         '(x, s3) <- popk K_IDENT s2 ;;
         '(_, s4) <- popk K_ASSIGN s3 ;;
         '(a, s5) <- parse_expr m s4 ;;
         '(_, s6) <- popk K_TO s5 ;;
         '(b, s7) <- parse_expr m s6 ;;
         '(_, s8) <- popk K_RPAREN s7 ;;
         '(_, s9) <- popk K_EOL s8 ;;
         '(body, _, s10) <- parse_body m s9 ;;
         Ok (SFor (tk_line t) (t_str x) (tk_line x) a b body, s10)
     | K_RETURN => parse_return m t (PSt (r ++ Token TOK_EOL l1 :: rest) l ops es)
     | _ => perr E_statement_expected l t
     end = Ok (s, PSt (Token TOK_EOL l1 :: rest) l' ops es)) ->
  forall l ops es pre post rest, eols pre -> eols post ->
    head_is (fun k => k <> K_EOL) rest ->
    exists n l', parse_stmt n (PSt (pre ++ (t :: r) ++ Token TOK_EOL l1 :: post ++ rest) l ops es)
                 = Ok (s, PSt rest l' ops es).
Proof.
  intros K H l ops es pre post rest HP HQ HR.
  destruct (H (tk_line t) ops es (post ++ rest)) as (n & l' & E).
  destruct (skip_eols_app pre ((t :: r) ++ Token TOK_EOL l1 :: post ++ rest) l ops es HP) as (la & E1);
    [exact K|].
  destruct (skip_eols_app post rest l1 ops es HQ HR) as (lb & E2).
  exists (S n), lb. rewrite parse_stmt_S, E1. cbn [bind app pop p_toks p_ops p_exp].
  specialize (E n (le_n n)).
  eapply eq_trans.
  { apply (f_equal (fun x => bind x (fun x : stmt * pst => match x with (st, s2) =>
       '(_, s3) <- popk K_EOL s2 ;; s4 <- skip_eols s3 ;; Ok (st, s4) end))). exact E. }
  cbn [bind]. pstep. rewrite E2. reflexivity.
Qed.

Ltac eolstop := first [ stop_tac | (cbn; discriminate) ].

Lemma bodies_ok :
  (forall s ts, stmt_text s ts -> stmt_ok s ts) /\
  (forall b tb, body_text b tb -> body_ok b tb).
Proof.
  apply stmt_body_mind.
  - (* var *)
    intros x lx e ts lv HI l ops es pre l1 post rest. revert l ops es pre post rest.
    apply stmt_frame; [discriminate|]. intros l ops es rest. cbn [kind_of tk app].
    destruct (decl_ok e ts x lx l ops es (Token TOK_EOL l1 :: rest) HI) as (n & l' & E); [eolstop|eolstop|].
    exists n, l'. intros m Lm. rewrite (E m Lm). reflexivity.
  - (* assignment *)
    intros x lx e ts la HE l ops es pre l1 post rest. revert l ops es pre post rest.
    apply stmt_frame; [discriminate|]. intros l ops es rest. cbn [kind_of tk app].
    destruct (expr_ok e ts la ops es (Token TOK_EOL l1 :: rest) HE) as (n & l' & E); [eolstop|].
    exists n, l'. intros m Lm. unfold parse_ident_stmt. pstep.
    rewrite (expr_up _ m _ _ E Lm). reflexivity.
  - (* compound assignment *)
    intros x lx o lo e ts la HC HE l ops es pre l1 post rest. revert l ops es pre post rest.
    apply stmt_frame; [discriminate|]. intros l ops es rest. cbn [kind_of tk app].
    destruct (expr_ok e ts la ops es (Token TOK_EOL l1 :: rest) HE) as (n & l' & E); [eolstop|].
    exists n, l'. intros m Lm. unfold parse_ident_stmt, parse_compound.
    destruct HC as [<-|[<-|[<-|[<-|[]]]]]; cbn [op_token]; pstep;
      rewrite (expr_up _ m _ _ E Lm); reflexivity.
  - (* member assignment *)
    intros x lx mm lm e ts ld la HE l ops es pre l1 post rest. revert l ops es pre post rest.
    apply stmt_frame; [discriminate|]. intros l ops es rest. cbn [kind_of tk app].
    destruct (expr_ok e ts la ops es (Token TOK_EOL l1 :: rest) HE) as (n & l' & E); [eolstop|].
    exists n, l'. intros m Lm. unfold parse_ident_stmt, parse_member_assign. pstep.
    rewrite (expr_up _ m _ _ E Lm). reflexivity.
  - (* element assignment *)
    intros x lx i e ti te l2 l3 l4 Hi HE l ops es pre l1 post rest. revert l ops es pre post rest.
    apply stmt_frame; [discriminate|]. intros l ops es rest. cbn [kind_of tk app].
    replace ((ti ++ Token TOK_RBRACKET l3 :: Token TOK_ASSIGN l4 :: te) ++ Token TOK_EOL l1 :: rest)
      with (ti ++ Token TOK_RBRACKET l3 :: Token TOK_ASSIGN l4 :: te ++ Token TOK_EOL l1 :: rest)
      by (rewrite <- app_assoc; reflexivity).
    destruct (expr_ok i ti l2 ops es (Token TOK_RBRACKET l3 :: Token TOK_ASSIGN l4 :: te ++ Token TOK_EOL l1 :: rest) Hi)
      as (n1 & l1' & E1); [eolstop|].
    destruct (expr_ok e te l4 ops es (Token TOK_EOL l1 :: rest) HE) as (n & l' & E); [eolstop|].
    exists (n + n1)%nat, l'. intros m Lm. unfold parse_ident_stmt, parse_array_set. pstep.
    rewrite (expr_up _ m _ _ E1) by lia. pstep.
    rewrite (expr_up _ m _ _ E) by lia. reflexivity.
  - (* call *)
    intros x lx lc es0 ts l2 HA l ops es pre l1 post rest. revert l ops es pre post rest.
    apply stmt_frame; [discriminate|]. intros l ops es rest. cbn [kind_of tk app].
    replace ((ts ++ [Token TOK_RPAREN l2]) ++ Token TOK_EOL l1 :: rest)
      with (ts ++ Token TOK_RPAREN l2 :: Token TOK_EOL l1 :: rest) by (rewrite <- app_assoc; reflexivity).
    destruct (call_ok es0 ts lc ops es (Token TOK_EOL l1 :: rest) l2 HA) as (n & E).
    exists n, l2. intros m Lm. unfold parse_ident_stmt. pstep.
    rewrite (call_up _ m _ _ E Lm). reflexivity.
  - (* if *)
    intros l0 c tc b tb l2 l3 l4 l5 Hc _ Hb l ops es pre l1 post rest. revert l ops es pre post rest.
    apply stmt_frame; [discriminate|]. intros l ops es rest. cbn [kind_of tk app].
    replace ((tc ++ Token TOK_RPAREN l3 :: Token TOK_EOL l4 :: tb ++ [Token TOK_END l5]) ++ Token TOK_EOL l1 :: rest)
      with (tc ++ Token TOK_RPAREN l3 :: Token TOK_EOL l4 :: tb ++ Token TOK_END l5 :: Token TOK_EOL l1 :: rest)
      by (repeat (rewrite <- app_assoc; cbn [app]); reflexivity).
    destruct (expr_ok c tc l2 ops es (Token TOK_RPAREN l3 :: Token TOK_EOL l4 :: tb ++ Token TOK_END l5 :: Token TOK_EOL l1 :: rest) Hc)
      as (n1 & l1' & E1); [eolstop|].
    destruct (Hb [] tb ltac:(constructor) eq_refl l4 ops es (Token TOK_EOL l1 :: rest)) as (_ & B & _).
    destruct (B l5) as (n2 & l' & E2).
    exists (n1 + n2)%nat, l'. intros m Lm. pstep.
    rewrite (expr_up _ m _ _ E1) by lia. pstep.
    rewrite (then_up _ m _ _ E2) by lia. reflexivity.
  - (* if else *)
    intros l0 c tc b tb f tf l2 l3 l4 l5 l6 l7 Hc _ Hb _ Hf l ops es pre l1 post rest. revert l ops es pre post rest.
    apply stmt_frame; [discriminate|]. intros l ops es rest. cbn [kind_of tk app].
    replace ((tc ++ Token TOK_RPAREN l3 :: Token TOK_EOL l4 :: tb ++ Token TOK_ELSE l5 :: Token TOK_EOL l6 :: tf ++ [Token TOK_END l7]) ++ Token TOK_EOL l1 :: rest)
      with (tc ++ Token TOK_RPAREN l3 :: Token TOK_EOL l4 :: tb ++ Token TOK_ELSE l5 :: Token TOK_EOL l6 :: tf ++ Token TOK_END l7 :: Token TOK_EOL l1 :: rest)
      by (repeat (rewrite <- app_assoc; cbn [app]); reflexivity).
    destruct (expr_ok c tc l2 ops es (Token TOK_RPAREN l3 :: Token TOK_EOL l4 :: tb ++ Token TOK_ELSE l5 :: Token TOK_EOL l6 :: tf ++ Token TOK_END l7 :: Token TOK_EOL l1 :: rest) Hc)
      as (n1 & l1' & E1); [eolstop|].
    destruct (Hb [] tb ltac:(constructor) eq_refl l4 ops es (tf ++ Token TOK_END l7 :: Token TOK_EOL l1 :: rest)) as (_ & _ & B).
    destruct (B l5 l6) as (n2 & l2' & E2).
    destruct (Hf [] tf ltac:(constructor) eq_refl l2' ops es (Token TOK_EOL l1 :: rest)) as (F & _ & _).
    destruct (F l7) as (n3 & l' & E3).
    exists (n1 + n2 + n3)%nat, l'. intros m Lm. pstep.
    rewrite (expr_up _ m _ _ E1) by lia. pstep.
    rewrite (then_up _ m _ _ E2) by lia. pstep.
    rewrite (body_up _ m _ _ E3) by lia. reflexivity.
  - (* while *)
    intros l0 c tc b tb l2 l3 l4 l5 Hc _ Hb l ops es pre l1 post rest. revert l ops es pre post rest.
    apply stmt_frame; [discriminate|]. intros l ops es rest. cbn [kind_of tk app].
    replace ((tc ++ Token TOK_RPAREN l3 :: Token TOK_EOL l4 :: tb ++ [Token TOK_END l5]) ++ Token TOK_EOL l1 :: rest)
      with (tc ++ Token TOK_RPAREN l3 :: Token TOK_EOL l4 :: tb ++ Token TOK_END l5 :: Token TOK_EOL l1 :: rest)
      by (repeat (rewrite <- app_assoc; cbn [app]); reflexivity).
    destruct (expr_ok c tc l2 ops es (Token TOK_RPAREN l3 :: Token TOK_EOL l4 :: tb ++ Token TOK_END l5 :: Token TOK_EOL l1 :: rest) Hc)
      as (n1 & l1' & E1); [eolstop|].
    destruct (Hb [] tb ltac:(constructor) eq_refl l4 ops es (Token TOK_EOL l1 :: rest)) as (B & _ & _).
    destruct (B l5) as (n2 & l' & E2).
    exists (n1 + n2)%nat, l'. intros m Lm. pstep.
    rewrite (expr_up _ m _ _ E1) by lia. pstep.
    rewrite (body_up _ m _ _ E2) by lia. reflexivity.
  - (* for *)
    intros l0 x lx a ta b tb body tbody l2 l3 l4 l5 l6 l7 Ha Hb _ Hd l ops es pre l1 post rest.
    revert l ops es pre post rest.
    apply stmt_frame; [discriminate|]. intros l ops es rest. cbn [kind_of tk app].
    replace ((ta ++ Token TOK_TO l4 :: tb ++ Token TOK_RPAREN l5 :: Token TOK_EOL l6 :: tbody ++ [Token TOK_END l7]) ++ Token TOK_EOL l1 :: rest)
      with (ta ++ Token TOK_TO l4 :: tb ++ Token TOK_RPAREN l5 :: Token TOK_EOL l6 :: tbody ++ Token TOK_END l7 :: Token TOK_EOL l1 :: rest)
      by (repeat (rewrite <- app_assoc; cbn [app]); reflexivity).
    destruct (expr_ok a ta l3 ops es (Token TOK_TO l4 :: tb ++ Token TOK_RPAREN l5 :: Token TOK_EOL l6 :: tbody ++ Token TOK_END l7 :: Token TOK_EOL l1 :: rest) Ha)
      as (n1 & l1' & E1); [eolstop|].
    destruct (expr_ok b tb l4 ops es (Token TOK_RPAREN l5 :: Token TOK_EOL l6 :: tbody ++ Token TOK_END l7 :: Token TOK_EOL l1 :: rest) Hb)
      as (n2 & l2' & E2); [eolstop|].
    destruct (Hd [] tbody ltac:(constructor) eq_refl l6 ops es (Token TOK_EOL l1 :: rest)) as (B & _ & _).
    destruct (B l7) as (n3 & l' & E3).
    exists (n1 + n2 + n3)%nat, l'. intros m Lm. pstep.
    rewrite (expr_up _ m _ _ E1) by lia. pstep.
    rewrite (expr_up _ m _ _ E2) by lia. pstep.
    rewrite (body_up _ m _ _ E3) by lia. reflexivity.
  - (* return *)
    intros l0 l ops es pre l1 post rest. revert l ops es pre post rest.
    apply stmt_frame; [discriminate|]. intros l ops es rest. cbn [kind_of tk app].
    exists 0%nat, l. intros m _. reflexivity.
  - (* return e *)
    intros l0 e ts HE l ops es pre l1 post rest. revert l ops es pre post rest.
    apply stmt_frame; [discriminate|]. intros l ops es rest. cbn [kind_of tk app].
    destruct (expr_ok e ts l ops es (Token TOK_EOL l1 :: rest) HE) as (n & l' & E); [eolstop|].
    exists n, l'. intros m Lm. unfold parse_return.
    assert (HP : exists k, peek (PSt (ts ++ Token TOK_EOL l1 :: rest) l ops es) = Ok k /\ k <> K_EOL).
    { unfold peek. cbn [p_toks]. destruct (ts ++ Token TOK_EOL l1 :: rest) as [|t r'] eqn:ET.
      - destruct ts; discriminate.
      - exists (kind_of (tk t)). split; [reflexivity|]. intros K. 
        destruct n as [|n]; [discriminate E|]. rewrite parse_expr_S in E.
        cbv zeta in E. apply bind_ok in E as (x2 & E & _). destruct n as [|n]; [discriminate E|].
        rewrite (expr_ex_prim _ _ (PSt (t :: r') l ops es) t r' eq_refl) in E by (rewrite K; discriminate).
        apply bind_ok in E as (x3 & E & _). destruct n as [|n]; [discriminate E|]. rewrite parse_lhs_S in E.
        repeat (rewrite (found_miss _ (PSt (t :: r') l ops es) t r' eq_refl) in E by (rewrite K; discriminate); cbn [bind] in E).
        cbn [pop p_toks bind] in E. unfold perr in E. rewrite K in E. discriminate E. }
    destruct HP as (k & HP & NK). rewrite HP. cbn [bind].
    rewrite (expr_up _ m _ _ E Lm). cbn [bind]. destruct k; try reflexivity. now contradiction NK.
  - (* empty body *)
    intros pre tb HP E l ops es rest. destruct pre; [|discriminate E]. cbn [app] in E. subst tb.
    repeat split.
    + intros le. exists 1%nat, le. rewrite parse_body_S. pstep. reflexivity.
    + intros le. exists 1%nat, le. rewrite parse_then_S. pstep. reflexivity.
    + intros le ll. exists 1%nat, ll. rewrite parse_then_S. pstep. reflexivity.
  - (* statement and body *)
    intros s ts pre0 l1 post b tb0 HP0 Hst Hs HQ _ Hb pre tb HP E.
    destruct (stmt_head _ _ Hst) as (t & r & Et & K1 & K2 & K3).
    assert (E' : pre0 ++ t :: r ++ Token TOK_EOL l1 :: post ++ tb0 = pre ++ tb)
      by (rewrite <- E, Et; reflexivity).
    destruct (eols_prefix _ _ _ _ _ HP0 HP K1 E') as (pre'' & Epre & Etb).
    assert (HP'' : eols pre'').
    { unfold eols in *. rewrite Epre in HP0. apply Forall_app in HP0. tauto. }
    clear E E' Epre HP0 HP.
    destruct (split_eols tb0) as (pb & tb' & Etb0 & Hpb & Htb').
    assert (HQ' : eols (post ++ pb)) by (apply Forall_app; auto).
    intros l ops es rest.
    (* what the parser sees first is not [end] or [else] *)
    assert (HF : forall k tail, (k = K_END \/ k = K_ELSE) ->
        found k (PSt (tb ++ tail) l ops es) = Ok (None, PSt (tb ++ tail) l ops es)).
    { intros k tail Hk. rewrite Etb. destruct pre'' as [|p pre'']; cbn [app].
      - eapply found_miss; [reflexivity|]. destruct Hk; subst k; assumption.
      - eapply found_miss; [reflexivity|]. inversion HP'' as [|? ? Hp ?]; subst. cbv beta in Hp.
        rewrite Hp. destruct Hk; subst k; discriminate. }
    assert (HS : forall tail, head_is (fun k => k <> K_EOL) (tb' ++ tail) ->
        exists n l', parse_stmt n (PSt (tb ++ tail) l ops es) = Ok (s, PSt (tb' ++ tail) l' ops es)).
    { intros tail Ht.
      destruct (Hs l ops es pre'' l1 (post ++ pb) (tb' ++ tail) HP'' HQ' Ht) as (n & l' & H).
      exists n, l'. rewrite <- H. f_equal. f_equal. rewrite Etb, Etb0, Et.
      repeat (rewrite <- app_assoc; cbn [app]). reflexivity. }
    assert (HT : forall k tail, k <> K_EOL -> head_is (fun x => x = k) tail ->
        head_is (fun k => k <> K_EOL) (tb' ++ tail)).
    { intros k tail Nk Ht. destruct Htb' as [-> |Htb'].
      - cbn [app]. destruct tail as [|x tail]; [destruct Ht|]. cbn in *. congruence.
      - destruct tb'; [destruct Htb'|]. exact Htb'. }
    split; [|split].
    + intros le.
      destruct (HS (Token TOK_END le :: rest)) as (n1 & l2 & E1).
      { apply (HT K_END); [discriminate|reflexivity]. }
      destruct (Hb pb tb' Hpb Etb0 l2 ops es rest) as (B & _ & _).
      destruct (B le) as (n2 & l3 & E2).
      exists (S (n1 + n2)), l3. rewrite parse_body_S, HF by auto. cbn [bind].
      rewrite (stmt_up _ (n1 + n2)%nat _ _ E1) by lia. cbn [bind].
      rewrite (body_up _ (n1 + n2)%nat _ _ E2) by lia. reflexivity.
    + intros le.
      destruct (HS (Token TOK_END le :: rest)) as (n1 & l2 & E1).
      { apply (HT K_END); [discriminate|reflexivity]. }
      destruct (Hb pb tb' Hpb Etb0 l2 ops es rest) as (_ & B & _).
      destruct (B le) as (n2 & l3 & E2).
      exists (S (n1 + n2)), l3. rewrite parse_then_S, HF by auto. cbn [bind]. rewrite HF by auto. cbn [bind].
      rewrite (stmt_up _ (n1 + n2)%nat _ _ E1) by lia. cbn [bind].
      rewrite (then_up _ (n1 + n2)%nat _ _ E2) by lia. reflexivity.
    + intros le ll.
      destruct (HS (Token TOK_ELSE le :: Token TOK_EOL ll :: rest)) as (n1 & l2 & E1).
      { apply (HT K_ELSE); [discriminate|reflexivity]. }
      destruct (Hb pb tb' Hpb Etb0 l2 ops es rest) as (_ & _ & B).
      destruct (B le ll) as (n2 & l3 & E2).
      exists (S (n1 + n2)), l3. rewrite parse_then_S, HF by auto. cbn [bind]. rewrite HF by auto. cbn [bind].
      rewrite (stmt_up _ (n1 + n2)%nat _ _ E1) by lia. cbn [bind].
      rewrite (then_up _ (n1 + n2)%nat _ _ E2) by lia. reflexivity.
Qed.

(** ** Programs *)
Lemma params_ok ps ts : params_text ps ts -> forall l ops es rest,
  head_is (fun k => k <> K_COMMA) rest ->
  exists n l', parse_args n (PSt (ts ++ rest) l ops es) = Ok (ps, PSt rest l' ops es).
Proof.
  induction 1 as [x lx|x lx lc ps ts H IH]; intros l ops es rest HR.
  - exists 1%nat, lx. rewrite parse_args_S. pstep. destruct rest as [|t rest]; [destruct HR|].
    rewrite (found_miss _ (PSt (t :: rest) lx ops es) t rest eq_refl HR). reflexivity.
  - destruct (IH lc ops es rest HR) as (n & l' & E). exists (S n), l'. rewrite parse_args_S. pstep.
    rewrite E. reflexivity.
Qed.

Lemma func_ok x lx ps tps b tb lend l1 l2 l3 l ops es rest :
  (ps = [] /\ tps = []) \/ params_text ps tps -> body_text b tb ->
  exists n l', forall m, (n <= m)%nat ->
    parse_function m (PSt (Token (TOK_IDENT x) lx :: Token TOK_LPAREN l1 :: tps
       ++ Token TOK_RPAREN l2 :: Token TOK_EOL l3 :: tb ++ Token TOK_END lend :: rest) l ops es)
    = Ok (TFunc x lx ps b lend, PSt rest l' ops es).
Proof.
  intros HP HB.
  destruct (proj2 bodies_ok _ _ HB [] tb ltac:(constructor) eq_refl l3 ops es rest) as (B & _ & _).
  destruct (B lend) as (n2 & l' & E2).
  destruct HP as [[-> ->]|HP].
  - exists n2, l'. intros m Lm. unfold parse_function. pstep.
    rewrite (body_up _ m _ _ E2 Lm). reflexivity.
  - destruct (params_ok _ _ HP l1 ops es (Token TOK_RPAREN l2 :: Token TOK_EOL l3 :: tb ++ Token TOK_END lend :: rest)) as (n1 & l1' & E1);
      [cbn; discriminate|].
    exists (n1 + n2)%nat, l'. intros m Lm. unfold parse_function. pstep.
    assert (HF : found K_RPAREN (PSt (tps ++ Token TOK_RPAREN l2 :: Token TOK_EOL l3 :: tb ++ Token TOK_END lend :: rest) l1 ops es)
       = Ok (None, PSt (tps ++ Token TOK_RPAREN l2 :: Token TOK_EOL l3 :: tb ++ Token TOK_END lend :: rest) l1 ops es)).
    { destruct HP; cbn [app]; (eapply found_miss; [reflexivity|discriminate]). }
    rewrite HF. cbn [bind]. rewrite (args_up _ m _ _ E1) by lia. pstep.
    rewrite (body_up _ m _ _ E2) by lia. reflexivity.
Qed.

(** The source manager after the imports of a program, if they all succeed. *)
Fixpoint load_all (fs : bytes -> option bytes) (src : source_t) (m : list source_t)
    (is : list item) : option (list source_t) :=
  match is with
  | [] => Some m
  | TImport p _ :: r =>
      let (ok, m1) := sm_load fs m (imported_path src p) in
      if ok : bool then load_all fs src m1 r else None
  | _ :: r => load_all fs src m r
  end.

(** What starts an item, a blank line or the end of the file ends an expression. *)
Lemma program_head is ts : program_text is ts ->
  head_is stop ts /\ head_is (fun k => k <> K_ASSIGN) ts.
Proof.
  destruct 1 as [l|l is ts _|i ti is ts Hi _]; [split; eolstop|split; eolstop|].
  destruct Hi; split; eolstop.
Qed.

Lemma program_ok fs src is ts : program_text is ts -> forall m m' l es,
  load_all fs src m is = Some m' ->
  exists n l', parse_items fs src n m (PSt ts l [] es) = Ok (is, m', PSt [] l' [] es).
Proof.
  induction 1 as [le|le is ts HT IH|i ti is ts HI HT IH]; intros m m' l es HL.
  - cbn [load_all] in HL. injection HL as <-.
    exists 1%nat, le. rewrite parse_items_S. pstep. reflexivity.
  - destruct (IH m m' le es HL) as (n & l' & E). exists (S n), l'. rewrite parse_items_S. pstep. exact E.
  - destruct (program_head _ _ HT) as [HS HA].
    destruct HI as [x lx e te lv He|x lx e te lv He|x lx ps tps b tb lend lf l1 l2 l3 Hp Hb|p lp li]; cbn [load_all] in HL.
    + destruct (decl_ok e te x lx lv [] es ts He HS HA) as (n1 & l1 & E1).
      destruct (IH m m' l1 es HL) as (n2 & l2 & E2).
      exists (S (n1 + n2)), l2. rewrite parse_items_S. pstep.
      rewrite E1 by lia. pstep. rewrite (items_up _ _ _ (n1 + n2)%nat _ _ _ E2) by lia. reflexivity.
    + destruct (decl_ok e te x lx lv [] es ts He HS HA) as (n1 & l1 & E1).
      destruct (IH m m' l1 es HL) as (n2 & l2 & E2).
      exists (S (n1 + n2)), l2. rewrite parse_items_S. pstep.
      rewrite E1 by lia. pstep. rewrite (items_up _ _ _ (n1 + n2)%nat _ _ _ E2) by lia. reflexivity.
    + destruct (func_ok x lx ps tps b tb lend l1 l2 l3 lf [] es ts Hp Hb) as (n1 & l1' & E1).
      destruct (IH m m' l1' es HL) as (n2 & l2' & E2).
      exists (S (n1 + n2)), l2'. rewrite parse_items_S. pstep.
      replace ((tps ++ Token TOK_RPAREN l2 :: Token TOK_EOL l3 :: tb ++ [Token TOK_END lend]) ++ ts)
        with (tps ++ Token TOK_RPAREN l2 :: Token TOK_EOL l3 :: tb ++ Token TOK_END lend :: ts)
        by (repeat (rewrite <- app_assoc; cbn [app]); reflexivity).
      rewrite E1 by lia. pstep. rewrite (items_up _ _ _ (n1 + n2)%nat _ _ _ E2) by lia. reflexivity.
    + destruct (sm_load fs m (imported_path src p)) as [ok m1] eqn:EL. destruct ok; [|discriminate HL].
      destruct (IH m1 m' lp es HL) as (n2 & l2 & E2).
      exists (S n2), l2. rewrite parse_items_S. pstep. unfold parse_import. pstep. rewrite EL. pstep.
      rewrite E2. reflexivity.
Qed.

(** Depth [parse_fuel] suffices for any answer. *)
Lemma parse_at fs src m left ts n r : good True ts ->
  parse_items fs src n m (PSt ts (Line 0 0) [] left) = Ok r -> parse fs src m left ts = Ok r.
Proof.
  intros G H. unfold parse.
  set (s := PSt ts (Line 0 0) [] left) in *.
  assert (SF : okout True (fun '(_, _, s') => p_toks s' = [] /\ p_ops s' = p_ops s)
                 (parse_items fs src (parse_fuel ts) m s)).
  { apply items_safe; [exact G|]. unfold parse_fuel, len. cbn [s p_toks]. lia. }
  destruct (Nat.le_gt_cases n (parse_fuel ts)) as [L|L].
  - eapply items_up; eassumption.
  - assert (LR : ler (parse_items fs src (parse_fuel ts) m s) (parse_items fs src n m s)).
    { apply (mono_le (fun n s => parse_items fs src n m s)); [intros k x; apply items_mono|lia]. }
    destruct LR as [E| ->]; [|exact H]. rewrite E in SF. destruct SF. discriminate.
Qed.
