(** Proofs that what the parser makes of a text has machine numbers for literals
    and no function with a reserved name. *)
From Coq Require Import ZArith List Bool Lia String ZifyBool.
From Verif Require Import Base BaseFacts F32 F32Facts FloatValid Source Lexer LexSpec LexFacts Ast Parser ParseFacts ParseSafe
  Sema Codegen Build SrcSem CgSpec BuildSpec Optimize CgWell.
Import ListNotations.
Open Scope list_scope.
Open Scope Z_scope.

Definition tok_fine (t : token) : Prop :=
  match tk t with
  | TOK_INT v => in_i32 v = true
  | TOK_FLOAT f => f_valid f = true
  | TOK_IDENT x => x <> init_name
  | _ => True
  end.
Definition efine (e : expr) : Prop := Forall number_ok (literals e).
Record pfine (s : pst) : Prop := PFine { pf_toks : Forall tok_fine (p_toks s); pf_exp : Forall efine (p_exp s) }.
Definition outs {A} (P : A -> Prop) (r : res A) : Prop := match r with Ok a => P a | _ => True end.
Lemma outs_bind {A B} (P : A -> Prop) (Q : B -> Prop) m (k : A -> res B) :
  outs P m -> (forall a, P a -> outs Q (k a)) -> outs Q (bind m k).
Proof. destruct m; cbn [outs bind]; auto. Qed.
Lemma outs_any {A} (m : res A) : outs (fun _ => True) m.
Proof. destruct m; exact Logic.I. Qed.
Lemma outs_weaken {A} (P Q : A -> Prop) m : outs P m -> (forall a, P a -> Q a) -> outs Q m.
Proof. destruct m; cbn [outs]; auto. Qed.
Lemma perr_outs {A} (P : A -> Prop) e l t : outs P (perr e l t).
Proof. unfold perr. destruct (kind_of (tk t)); exact Logic.I. Qed.

Definition pair_fine {A} (P : A -> Prop) (x : A * pst) : Prop := P (fst x) /\ pfine (snd x).
Lemma pop_fine s : pfine s -> outs (pair_fine tok_fine) (pop s).
Proof.
  intros [T E]. unfold pop. destruct (p_toks s); [exact Logic.I|]. inversion T; subst. split; [assumption|]. split; assumption.
Qed.
Definition opt_fine (k : kind) (o : option token) : Prop :=
  match o with Some t => tok_fine t /\ kind_of (tk t) = k | None => True end.
Lemma found_fine k s : pfine s -> outs (pair_fine (opt_fine k)) (found k s).
Proof.
  intros H. destruct H as [T E]. unfold found, ptype. destruct (p_toks s) as [|t r] eqn:P; [exact Logic.I|]. cbn [bind].
  destruct (kind_eqb (kind_of (tk t)) k) eqn:K.
  - unfold pop. rewrite P. cbn [bind outs]. inversion T; subst. split; cbn [fst snd opt_fine].
    + split; [assumption|]. apply kind_eqb_eq. exact K.
    + split; assumption.
  - split; [exact Logic.I|]. split; [cbn [snd]; rewrite P|]; assumption.
Qed.
Lemma popk_fine k s : pfine s -> outs (pair_fine (fun t => tok_fine t /\ kind_of (tk t) = k)) (popk k s).
Proof.
  intros H. unfold popk. eapply outs_bind; [apply found_fine; exact H|]. intros [[t|] s1] [A B]; cbn [fst snd] in *.
  - split; assumption.
  - destruct (p_toks s); [exact Logic.I|]. destruct k; try apply perr_outs; exact Logic.I.
Qed.
Lemma skip_eols_fine s : pfine s -> outs pfine (skip_eols s).
Proof.
  intros [T E]. unfold skip_eols.
  assert (G : forall ts l, Forall tok_fine ts -> outs (fun x => Forall tok_fine (fst x)) (skip_eols_from ts l)).
  { induction ts as [|t ts IH]; intros l F; cbn [skip_eols_from]; [exact Logic.I|]. inversion F; subst.
    destruct (kind_eqb _ _); [auto|]. cbn [outs fst]. assumption. }
  eapply outs_bind; [apply G; exact T|]. intros [ts l] F. split; assumption.
Qed.
Lemma pop_exp_fine x s : pfine s -> outs (pair_fine efine) (pop_exp x s).
Proof.
  intros [T E]. unfold pop_exp. destruct (p_exp s); [exact Logic.I|]. inversion E; subst. split; [assumption|]. split; assumption.
Qed.
Lemma push_fine e s : efine e -> pfine s -> pfine (push_exp e s).
Proof. intros F [T E]. split; [exact T|]. constructor; assumption. Qed.
Lemma op_reduce_fine op es : Forall efine es -> outs (Forall efine) (op_reduce op es).
Proof.
  intros F. unfold op_reduce. destruct (binop_of _).
  - destruct es as [|b' [|a r]]; try exact Logic.I. inversion F as [|? ? F1 F2]; subst. inversion F2; subst. constructor; [|assumption].
    unfold efine. cbn [literals]. apply Forall_app. auto.
  - destruct (kind_of (tk op)); try exact F. destruct es; [exact Logic.I|]. inversion F; subst. constructor; assumption.
Qed.
Lemma reduce_while_fine q tide : forall ops es, Forall efine es -> outs (fun x => Forall efine (snd x)) (reduce_while q tide ops es).
Proof.
  induction ops as [|t ops IH]; intros es F; cbn [reduce_while]; [exact F|].
  destruct (_ && _); [|exact F]. eapply outs_bind; [apply op_reduce_fine; exact F|]. intros es1 F1. apply IH. exact F1.
Qed.
Lemma op_push_fine op tide s : pfine s -> outs pfine (op_push op tide s).
Proof.
  intros [T E]. unfold op_push. eapply outs_bind; [apply reduce_while_fine; exact E|]. intros [ops es] F. split; assumption.
Qed.
Lemma op_pop_all_fine tide s : pfine s -> outs pfine (op_pop_all tide s).
Proof.
  intros [T E]. unfold op_pop_all. eapply outs_bind; [apply reduce_while_fine; exact E|]. intros [ops es] F. split; assumption.
Qed.

Definition expr_fine_at (n : nat) : Prop :=
  (forall s, pfine s -> outs (pair_fine efine) (parse_expr n s)) /\
  (forall tide s, pfine s -> outs pfine (parse_expr_ex n tide s)) /\
  (forall s, pfine s -> outs pfine (parse_suffix n s)) /\
  (forall s, pfine s -> outs pfine (parse_lhs n s)) /\
  (forall s, pfine s -> outs (pair_fine (fun es => Forall efine es /\ es <> [])) (parse_exprs n s)) /\
  (forall s, pfine s -> outs (pair_fine (Forall efine)) (parse_call n s)).

Lemma expr_fine n : expr_fine_at n.
Proof.
  induction n as [|n (IHe & IHx & IHs & IHl & IHes & IHc)]; [repeat split; intros; exact Logic.I|].
  repeat split.
  - intros s H. rewrite parse_expr_S. cbv zeta. eapply outs_bind; [apply IHx; exact H|]. intros s1 H1.
    eapply outs_bind; [apply op_pop_all_fine; exact H1|]. intros s2 H2. apply pop_exp_fine. exact H2.
  - intros tide s H. rewrite parse_expr_ex_S. eapply outs_bind; [apply (found_fine K_NOT); exact H|]. intros [[t|] s1] [A B]; cbn [fst snd] in A, B.
    { eapply outs_bind; [apply IHx; exact B|]. intros s2 H2. apply op_push_fine. exact H2. }
    eapply outs_bind; [apply (found_fine K_SUB); exact H|]. clear s1 A B. intros [[t|] s1] [A B]; cbn [fst snd] in A, B.
    { eapply outs_bind; [apply IHx; exact B|]. intros s2 H2. eapply outs_bind; [apply pop_exp_fine; exact H2|].
      intros [e s3] [F3 H3]; cbn [fst snd] in *. apply push_fine; assumption. }
    eapply outs_bind; [apply IHl; exact H|]. intros s2 H2. eapply outs_bind; [apply IHs; exact H2|]. intros s3 H3.
    eapply outs_bind; [apply outs_any|]. intros [|] _; [|exact H3].
    eapply outs_bind; [apply pop_fine; exact H3|]. intros [op s4] [F4 H4]; cbn [fst snd] in *.
    eapply outs_bind; [apply op_push_fine; exact H4|]. intros s5 H5. apply IHx. exact H5.
  - intros s H. rewrite parse_suffix_S. eapply outs_bind; [apply (found_fine K_LBRACKET); exact H|]. intros [[t|] s1] [A B]; cbn [fst snd] in A, B.
    { eapply outs_bind; [apply pop_exp_fine; exact B|]. intros [a s2] [Fa H2]; cbn [fst snd] in *.
      eapply outs_bind; [apply IHe; exact H2|]. intros [i s3] [Fi H3]; cbn [fst snd] in *.
      eapply outs_bind; [apply popk_fine; apply push_fine; [|exact H3]; unfold efine; cbn [literals]; apply Forall_app; auto|].
      intros [u s4] [_ H4]; cbn [fst snd] in *. apply IHs. exact H4. }
    eapply outs_bind; [apply (found_fine K_LPAREN); exact H|]. clear s1 A B. intros [[t|] s1] [A B]; cbn [fst snd] in A, B.
    { eapply outs_bind; [apply IHc; exact B|]. intros [es s2] [Fa H2]; cbn [fst snd] in *.
      eapply outs_bind; [apply pop_exp_fine; exact H2|]. intros [f s3] [Fi H3]; cbn [fst snd] in *.
      apply IHs. apply push_fine; [|exact H3]. unfold efine; cbn [literals]. apply Forall_app. split; [exact Fi|].
      clear -Fa. induction Fa; cbn [flat_map]; [constructor|]. apply Forall_app. auto. }
    exact H.
  - intros s H. rewrite parse_lhs_S. eapply outs_bind; [apply (found_fine K_LBRACKET); exact H|]. intros [[t|] s1] [A B]; cbn [fst snd] in A, B.
    { eapply outs_bind; [apply IHes; exact B|]. intros [es s2] [[Fa Ne] H2]; cbn [fst snd] in *.
      eapply outs_bind; [apply popk_fine; apply push_fine; [|exact H2]|].
      - unfold efine; cbn [literals]. constructor; [exact Ne|]. clear -Fa. induction Fa; cbn [flat_map]; [constructor|]. apply Forall_app. auto.
      - intros [u s4] [_ H4]. exact H4. }
    clear s1 A B. eapply outs_bind; [apply (found_fine K_LPAREN); exact H|]. intros [[t|] s1] [A B]; cbn [fst snd] in A, B.
    { eapply outs_bind; [apply IHe; exact B|]. intros [e s2] [Fa H2]; cbn [fst snd] in *.
      eapply outs_bind; [apply popk_fine; apply push_fine; [exact Fa|exact H2]|]. intros [u s4] [_ H4]. exact H4. }
    clear s1 A B. eapply outs_bind; [apply (found_fine K_IDENT); exact H|]. intros [[t|] s1] [A B]; cbn [fst snd] in A, B.
    { eapply outs_bind; [apply (found_fine K_DOT); exact B|]. intros [[d|] s2] [Fa H2]; cbn [fst snd] in *.
      - eapply outs_bind; [apply popk_fine; exact H2|]. intros [u s4] [_ H4]; cbn [fst snd] in *. apply push_fine; [constructor|exact H4].
      - apply push_fine; [constructor|exact H2]. }
    clear s1 A B. eapply outs_bind; [apply (found_fine K_INT); exact H|]. intros [[t|] s1] [A B]; cbn [fst snd] in A, B.
    { apply push_fine; [|exact B]. destruct A as [A K]. unfold efine. cbn [literals]. constructor; [|constructor].
      unfold tok_fine, t_val in *. cbn [number_ok]. destruct (tk t); try discriminate. exact A. }
    clear s1 A B. eapply outs_bind; [apply (found_fine K_FLOAT); exact H|]. intros [[t|] s1] [A B]; cbn [fst snd] in A, B.
    { apply push_fine; [|exact B]. destruct A as [A K]. unfold efine. cbn [literals]. constructor; [|constructor].
      unfold tok_fine, t_valf in *. cbn [number_ok]. destruct (tk t); try discriminate. exact A. }
    clear s1 A B. eapply outs_bind; [apply (found_fine K_STRING); exact H|]. intros [[t|] s1] [A B]; cbn [fst snd] in A, B.
    { apply push_fine; [constructor|exact B]. }
    clear s1 A B. eapply outs_bind; [apply (found_fine K_NONE); exact H|]. intros [[t|] s1] [A B]; cbn [fst snd] in A, B.
    { apply push_fine; [constructor|exact B]. }
    eapply outs_bind; [apply outs_any|]. intros [t s2] _. apply perr_outs.
  - intros s H. rewrite parse_exprs_S. eapply outs_bind; [apply IHe; exact H|]. intros [e s1] [Fe H1]; cbn [fst snd] in *.
    eapply outs_bind; [apply (found_fine K_COMMA); exact H1|]. intros [[t|] s2] [A B]; cbn [fst snd] in A, B.
    + eapply outs_bind; [apply IHes; exact B|]. intros [es s3] [[Fes _] H3]; cbn [fst snd] in *. split; [split; [constructor; assumption|discriminate]|assumption].
    + split; [split; [constructor; [assumption|constructor]|discriminate]|assumption].
  - intros s H. rewrite parse_call_S. eapply outs_bind; [apply (found_fine K_RPAREN); exact H|]. intros [[t|] s1] [A B]; cbn [fst snd] in A, B.
    + split; [constructor|assumption].
    + eapply outs_bind; [apply IHes; exact H|]. intros [es s3] [[Fes _] H3]; cbn [fst snd] in *.
      eapply outs_bind; [apply popk_fine; exact H3|]. intros [u s4] [_ H4]. split; assumption.
Qed.

(** ** Statements *)
Definition sfine (s : stmt) : Prop := Forall number_ok (stmt_literals s).
Definition bfine (b : list stmt) : Prop := Forall number_ok (flat_map stmt_literals b).
Definition call_lits es : Forall efine es -> Forall number_ok (flat_map literals es).
Proof. induction 1; cbn [flat_map]; [constructor|]. apply Forall_app. auto. Qed.

Ltac bo L := eapply outs_bind; [apply L; eassumption|]; cbv beta;
  let F := fresh "F" in let P := fresh "P" in intros [? ?] [F P]; cbn [fst snd] in F, P.
Lemma e_fine n s : pfine s -> outs (pair_fine efine) (parse_expr n s).
Proof. apply expr_fine. Qed.
Lemma c_fine n s : pfine s -> outs (pair_fine (Forall efine)) (parse_call n s).
Proof. apply expr_fine. Qed.

Lemma decl_var_fine n s : pfine s ->
  outs (fun x => Forall number_ok (opt_literals (snd (fst x))) /\ pfine (snd x)) (parse_decl_var n s).
Proof.
  intros H. unfold parse_decl_var. bo popk_fine. bo (found_fine K_ASSIGN). destruct o.
  - bo e_fine. split; assumption.
  - split; [constructor|assumption].
Qed.
Lemma ident_stmt_fine n t s : pfine s -> outs (pair_fine sfine) (parse_ident_stmt n t s).
Proof.
  intros H. unfold parse_ident_stmt. eapply outs_bind; [apply outs_any|]. intros k _.
  assert (C : outs (pair_fine sfine) (parse_compound n t s)).
  { unfold parse_compound. bo pop_fine. bo (found_fine K_ASSIGN). destruct o; [|exact Logic.I]. bo e_fine.
    destruct (binop_of _); [|exact Logic.I]. split; assumption. }
  destruct k; try apply perr_outs; try exact C.
  - bo pop_fine. bo c_fine. split; [|assumption]. apply call_lits. assumption.
  - bo pop_fine. unfold parse_array_set. bo e_fine. bo popk_fine. bo popk_fine. bo e_fine. split; [|assumption].
    unfold sfine. cbn [stmt_literals fst]. apply Forall_app. auto.
  - bo pop_fine. bo e_fine. split; assumption.
  - unfold parse_member_assign. bo popk_fine. bo popk_fine. bo popk_fine. bo e_fine. split; assumption.
Qed.
Lemma return_fine n t s : pfine s -> outs (pair_fine sfine) (parse_return n t s).
Proof.
  intros H. unfold parse_return. eapply outs_bind; [apply outs_any|]. intros k _.
  destruct k; try (bo e_fine; split; assumption). split; [constructor|assumption].
Qed.
Lemma stmt_fine n :
  (forall s, pfine s -> outs (pair_fine sfine) (parse_stmt n s)) /\
  (forall s, pfine s -> outs (fun x => bfine (fst (fst x)) /\ pfine (snd x)) (parse_body n s)) /\
  (forall s, pfine s -> outs (fun x => bfine (fst (fst x)) /\ pfine (snd x)) (parse_then n s)).
Proof.
  induction n as [|n (IHs & IHb & IHt)]; [repeat split; intros; exact Logic.I|]. repeat split.
  - intros s H. rewrite parse_stmt_S. eapply outs_bind; [apply skip_eols_fine; exact H|]. intros s0 H0. bo pop_fine.
    eapply outs_bind with (P := pair_fine sfine).
    + destruct (kind_of (tk t)); try apply perr_outs.
      * bo popk_fine. bo e_fine. bo popk_fine. bo popk_fine. eapply outs_bind; [apply IHt; eassumption|].
        intros [[b els] s6] [BB6 PP6]; cbn [fst snd] in *. destruct els.
        -- eapply outs_bind; [apply IHb; eassumption|]. intros [[f u] s7] [B7 P7]; cbn [fst snd] in *. split; [|assumption].
           unfold sfine. cbn [stmt_literals fst]. rewrite !Forall_app. auto.
        -- split; [|assumption]. unfold sfine. cbn [stmt_literals fst]. rewrite !Forall_app. repeat split; auto.
      * bo popk_fine. bo e_fine. bo popk_fine. bo popk_fine. eapply outs_bind; [apply IHb; eassumption|].
        intros [[b u] s6] [BB6 PP6]; cbn [fst snd] in *. split; [|assumption]. unfold sfine. cbn [stmt_literals fst]. rewrite !Forall_app. auto.
      * eapply outs_bind; [apply decl_var_fine; eassumption|]. intros [[[x l] e] s2] [B2 P2]; cbn [fst snd] in *. split; assumption.
      * bo popk_fine. bo popk_fine. bo popk_fine. bo e_fine. bo popk_fine. bo e_fine. bo popk_fine. bo popk_fine.
        eapply outs_bind; [apply IHb; eassumption|].
        intros [[b u] s10] [BB6 PP6]; cbn [fst snd] in *. split; [|assumption]. unfold sfine. cbn [stmt_literals fst]. rewrite !Forall_app. auto.
      * apply ident_stmt_fine. assumption.
      * apply return_fine. assumption.
    + intros [st s2] [Fs H2]; cbn [fst snd] in *. bo popk_fine. eapply outs_bind; [apply skip_eols_fine; eassumption|].
      intros s4 H4. split; assumption.
  - intros s H. rewrite parse_body_S. bo (found_fine K_END). destruct o; [split; [constructor|assumption]|].
    bo IHs. eapply outs_bind; [apply IHb; eassumption|]. intros [[b u] s6] [BB6 PP6]; cbn [fst snd] in *.
    split; [|assumption]. unfold bfine. cbn [fst flat_map]. apply Forall_app. auto.
  - intros s H. rewrite parse_then_S. bo (found_fine K_END). destruct o; [split; [constructor|assumption]|].
    bo (found_fine K_ELSE). destruct o; [bo popk_fine; split; [constructor|assumption]|].
    eapply outs_bind; [apply IHs; exact H|]. intros [st s2] [Fs H2]; cbn [fst snd] in *.
    eapply outs_bind; [apply IHt; eassumption|]. intros [[b u] s6] [BB6 PP6]; cbn [fst snd] in *.
    split; [|assumption]. unfold bfine. cbn [fst flat_map]. apply Forall_app. auto.
Qed.
Lemma args_fine n : forall s, pfine s -> outs (pair_fine (fun _ => True)) (parse_args n s).
Proof.
  induction n as [|n IH]; intros s H; [exact Logic.I|]. rewrite parse_args_S. bo popk_fine. bo (found_fine K_COMMA). destruct o.
  - bo IH. split; [exact Logic.I|assumption].
  - split; [exact Logic.I|assumption].
Qed.
Lemma function_fine n s : pfine s -> outs (pair_fine item_fine) (parse_function n s).
Proof.
  intros H. unfold parse_function. bo popk_fine. bo popk_fine. bo (found_fine K_RPAREN).
  eapply outs_bind with (P := pair_fine (fun _ => True)).
  - destruct o; [split; [exact Logic.I|assumption]|]. bo args_fine. bo popk_fine. split; [exact Logic.I|assumption].
  - intros [args s4] [_ H4]; cbn [fst snd] in *. bo popk_fine.
    eapply outs_bind; [apply stmt_fine; eassumption|]. intros [[b u] s6] [BB6 PP6]; cbn [fst snd] in *. split; [|assumption].
    constructor; [exact BB6|]. intros x l args' body lend E. inversion E; subst. destruct F as [F K]. unfold tok_fine, t_str in *.
    destruct (tk t); try discriminate. exact F.
Qed.
Lemma items_fine fs src n : forall m s, pfine s ->
  outs (fun x => Forall item_fine (fst (fst x)) /\ Forall efine (p_exp (snd x))) (parse_items fs src n m s).
Proof.
  induction n as [|n IH]; intros m s H; [exact Logic.I|]. rewrite parse_items_S. bo (found_fine K_EOF).
  destruct o; [split; [constructor|apply P]|]. eapply outs_bind; [apply pop_fine; exact H|]. intros [t s1] [Ft H1]; cbn [fst snd] in *.
  assert (V : forall k, (forall x l e, item_literals (k x l e) = opt_literals e) ->
      (forall x l e y l' a b c, k x l e <> TFunc y l' a b c) -> forall s, pfine s ->
    outs (fun x => Forall item_fine (fst (fst x)) /\ Forall efine (p_exp (snd x)))
      ('(x, l, e, s2) <- parse_decl_var n s ;; '(r, m1, s3) <- parse_items fs src n m s2 ;; Ok (k x l e :: r, m1, s3))).
  { intros k K1 K2 s' H'. eapply outs_bind; [apply decl_var_fine; exact H'|]. intros [[[x l] e] s2] [B2 P2]; cbn [fst snd] in *.
    eapply outs_bind; [apply IH; exact P2|]. intros [[r m1] s3] [B3 P3]; cbn [fst snd] in *. split; [|assumption].
    constructor; [|assumption]. constructor; [rewrite K1; assumption|]. intros ? ? ? ? ? E. destruct (K2 _ _ _ _ _ _ _ _ E). }
  destruct (kind_of (tk t));
    try (eapply outs_bind; [apply outs_any|]; intros [t2 s2] _; apply perr_outs).
  - eapply outs_bind; [apply function_fine; exact H1|]. intros [f s2] [Ff H2]; cbn [fst snd] in *.
    eapply outs_bind; [apply IH; exact H2|]. intros [[r m1] s3] [B3 P3]; cbn [fst snd] in *. split; [constructor; assumption|assumption].
  - apply (V TVar); [reflexivity|discriminate|exact H1].
  - apply IH. exact H1.
  - apply (V TConst); [reflexivity|discriminate|exact H1].
  - unfold parse_import. eapply outs_bind with (P := fun x => item_fine (fst (fst x)) /\ pfine (snd x)).
    + bo popk_fine. destruct (sm_load fs m _) as [[|] m1]; [|apply perr_outs]. split; [|assumption].
      constructor; [constructor|discriminate].
    + intros [[i m1] s2] [Fi H2]; cbn [fst snd] in *. eapply outs_bind; [apply IH; exact H2|].
      intros [[r m2] s3] [B3 P3]; cbn [fst snd] in *. split; [constructor; assumption|assumption].
Qed.

(** ** Tokens *)
Lemma lexeme_fine u t l : lexeme u (Some t) -> tok_fine (Token t l).
Proof.
  intros H. unfold tok_fine. cbn [tk]. remember (Some t) as o eqn:O. destruct H as [c B| |b N|b N1 N2|w N|u t0 Sy|ds R D|ds fs R F D D2];
    inversion O; subst; try exact Logic.I.
  - unfold word_tok. destruct (find _ reserved) as [p|] eqn:E.
    + apply find_some in E. destruct E as [E _]. unfold reserved in E. cbn [In] in E.
      repeat (destruct E as [<-|E]; [exact Logic.I|]). destruct E.
    + intros X. subst w. destruct N as (c & r & X & L & _). inversion X; subst. unfold letter in L. lia.
  - unfold symbols in Sy. cbn [In] in Sy. repeat (destruct Sy as [Sy|Sy]; [inversion Sy; subst; exact Logic.I|]). destruct Sy.
  - unfold in_i32, i32_min, i32_max. assert (0 <= decimal ds); [|lia].
    destruct R as [_ R]. unfold decimal. assert (G : forall l v, Forall digit l -> 0 <= v -> 0 <= fold_left (fun v d => 10 * v + (d - 48)) l v).
    { clear. induction l as [|c l IH]; intros v Fo V; cbn [fold_left]; [assumption|]. inversion Fo as [|? ? Dc Fo']; subst. apply IH; [assumption|]. unfold digit in Dc. lia. }
    apply G; [assumption|lia].
  - apply f_div_valid.
Qed.
Lemma lex_fine file s ts : lex file s = Ok ts -> Forall tok_fine ts.
Proof.
  unfold lex. intros E. apply lex_from_lexemes in E. revert E. generalize (cstr s) as x. generalize 1 as line.
  intros line x E. induction E; [constructor; [exact Logic.I|constructor]|assumption|].
  constructor; [eapply lexeme_fine; eassumption|assumption].
Qed.
Lemma parse_sources_fine fuel fs : forall m index left acc items m', Forall efine left -> Forall item_fine acc ->
  parse_sources fuel fs m index left acc = Ok (items, m') -> Forall item_fine items.
Proof.
  induction fuel as [|fuel IH]; intros m index left acc items m' L A E; cbn [parse_sources] in E;
    (destruct (znth m index) as [src|]; [|inversion E; subst; assumption]); [discriminate|].
  destruct (so_data src) as [data|]; [|discriminate].
  apply bind_ok in E. destruct E as (ts & E1 & E). apply bind_ok in E. destruct E as ([[is m1] st] & E2 & E).
  unfold parse in E2. apply lex_fine in E1.
  pose proof (items_fine fs src (parse_fuel ts) m (PSt ts (Line 0 0) [] left)) as G. rewrite E2 in G. cbn [outs fst snd] in G.
  destruct G as [G1 G2]; [split; assumption|]. eapply IH; [exact G2| |exact E]. apply Forall_app. auto.
Qed.

(** ** Builds *)
Lemma build_parts fuel fs addr on regs m p : build fuel fs addr on regs m = Ok (Some p) ->
  exists src m' items n items' n',
    parse_sources fuel fs m 0 [] [] = Ok (src, m') /\
    run_sema addr (map (fun x => CSys (fst x) (snd x)) regs ++ map CItem src) = Ok (items, n) /\
    program_ok items n /\ run_optimize on items n = Ok (items', n') /\ program_ok items' n' /\
    generate items' n' = Ok p.
Proof.
  unfold build. destruct m as [|s0 m0]; [discriminate|]. intros E. apply bind_ok in E. destruct E as ([src m'] & E1 & E).
  apply bind_ok in E. destruct E as (p' & E2 & E). inversion E; subst p'. unfold compile in E2.
  apply bind_ok in E2. destruct E2 as ([items n] & E2 & E3). apply bind_ok in E3. destruct E3 as ([items' n'] & E3 & E4).
  assert (P : program_ok items n).
  { eapply run_sema_ok; [|exact E2]. apply Forall_app. split.
    - apply Forall_forall. intros c I. apply in_map_iff in I. destruct I as (x & <- & _). exact Logic.I.
    - apply Forall_forall. intros c I. apply in_map_iff in I. destruct I as (x & <- & I).
      apply (proj1 (Forall_forall _ _) (parse_sources_fine _ _ _ _ _ _ _ _ (Forall_nil _) (Forall_nil _) E1) _ I). }
  exists src, m', items, n, items', n'. repeat (split; [assumption|]). split; [eapply run_optimize_ok; eassumption|assumption].
Qed.
