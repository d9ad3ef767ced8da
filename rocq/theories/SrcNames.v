(** Proof support for C105: the texts in a program are words of its sources.  The
    lists of texts have an empty text wherever a tree has no text of its own. *)
From Coq Require Import ZArith List Bool Lia String ZifyBool.
From Verif Require Import Base BaseFacts F32 Instr Program CgCode Source SourceProofs Lexer LexSpec LexFacts Ast Parser ParseFacts ParseSafe PrintFacts
  Sema SemaSpec SemaFacts ConstFacts Optimize OptFacts Codegen SrcSem CgSpec BuildSpec CgWell ParseFine ImportFacts Build Events CgLayout CgLink CgFlow TextSpec Host.
From Verif Require SrcLines.
Import ListNotations.
Open Scope list_scope.
Open Scope Z_scope.

(** ** The lines kept in a tree *)
Fixpoint e_texts (e : expr) : list bytes :=
  match e with
  | EInt _ _ | EFloat _ _ | ENone _ | EIdent _ _ => [[]]
  | EStr x _ => [x]
  | EMember _ _ f _ => [[]; f]
  | EArray _ es => [] :: flat_map e_texts es
  | EIndex _ a i => [] :: e_texts a ++ e_texts i
  | ECall _ f es => [] :: e_texts f ++ flat_map e_texts es
  | EBin _ _ a b => [] :: e_texts a ++ e_texts b
  | EUn _ _ a => [] :: e_texts a
  end.
Definition oe_texts (o : option expr) : list bytes := match o with Some e => e_texts e | None => [] end.
Fixpoint s_texts (s : stmt) : list bytes :=
  match s with
  | SVar x _ oe => x :: oe_texts oe
  | SAssign _ _ e => [] :: e_texts e
  | SSetMem _ _ f _ e => [] :: f :: e_texts e
  | SSetIdx _ _ i e => [] :: e_texts i ++ e_texts e
  | SCall _ _ _ es => [] :: [] :: flat_map e_texts es
  | SIf _ c t f => [] :: e_texts c ++ flat_map s_texts t ++ match f with Some b => flat_map s_texts b | None => [] end
  | SWhile _ c b => [] :: e_texts c ++ flat_map s_texts b
  | SFor _ _ _ a b body => [] :: [] :: e_texts a ++ e_texts b ++ flat_map s_texts body
  | SReturn _ oe => [] :: oe_texts oe
  end.
Definition i_texts (i : item) : list bytes :=
  match i with
  | TVar x _ oe | TConst x _ oe => x :: oe_texts oe
  | TFunc x _ args body _ => x :: map fst args ++ flat_map s_texts body
  | TImport x _ => [x]
  end.
Fixpoint re_texts (e : rexpr) : list bytes :=
  match e with
  | RInt _ _ l => match l with Some _ => [[]] | None => [] end
  | RFloat _ _ | RNone _ | RIdent _ _ => [[]]
  | RStr x _ => [x]
  | RMember _ _ f _ => [[]; f]
  | RArray _ es => [] :: flat_map re_texts es
  | RIndex _ a i => [] :: re_texts a ++ re_texts i
  | RCall _ f es => [] :: re_texts f ++ flat_map re_texts es
  | RBin _ _ a b => [] :: re_texts a ++ re_texts b
  | RUn _ _ a => [] :: re_texts a
  end.
Definition ore_texts (o : option rexpr) : list bytes := match o with Some e => re_texts e | None => [] end.
Fixpoint rs_texts (s : rstmt) : list bytes :=
  let block o := match o with Some b => flat_map rs_texts b | None => [] end in
  match s with
  | RVar d oe => vd_name d :: ore_texts oe
  | RAssign _ _ e => [] :: re_texts e
  | RSetMem _ _ f _ e => [] :: f :: re_texts e
  | RSetIdx _ _ i e => [] :: re_texts i ++ re_texts e
  | RCallS _ f es => [] :: re_texts f ++ flat_map re_texts es
  | RIf _ c t f => [] :: re_texts c ++ block t ++ block f
  | RWhile _ c b => [] :: re_texts c ++ block b
  | RFor _ _ _ a b body => [] :: [] :: re_texts a ++ re_texts b ++ flat_map rs_texts body
  | RReturn _ oe => [] :: ore_texts oe
  end.
Definition rob_texts (o : option (list rstmt)) : list bytes := match o with Some b => flat_map rs_texts b | None => [] end.
Definition ri_texts (i : ritem) : list bytes :=
  match i with
  | RSys _ => []
  | RGlobal d oe => vd_name d :: ore_texts oe
  | RFunc f args body _ => (fd_name f :: map vd_name args) ++ flat_map rs_texts body
  end.

Section Texts.
  Variable L : bytes -> Prop.
  Hypothesis L0 : L [].
  Notation ok := (Forall L).

  Lemma ok_flat {A} (g : A -> list bytes) l : ok (flat_map g l) <-> Forall (fun a => ok (g a)) l.
  Proof.
    induction l as [|a l IH]; cbn [flat_map]; [split; constructor|]. rewrite Forall_app, IH. split.
    - intros [H1 H2]. constructor; assumption.
    - intros H. now inversion H.
  Qed.
  Lemma ok_cons l ls : ok (l :: ls) <-> L l /\ ok ls.
  Proof. split; [intros H; now inversion H|intros [? ?]; now constructor]. Qed.

  (** ** Parsing *)
  Definition tok_l (t : token) : Prop := L (t_str t).
  Definition is_op (k : kind) : Prop := op_type k <> 0.
  Record pl (s : pst) : Prop := Pl {
    pl_toks : Forall tok_l (p_toks s);
    pl_ops : Forall (fun t => L (t_str t)) (p_ops s);
    pl_exp : Forall (fun e => ok (e_texts e)) (p_exp s) }.
  Definition pair_l {A} (P : A -> Prop) (x : A * pst) : Prop := P (fst x) /\ pl (snd x).
  Definition real (k : kind) : bool := match k with K_EOL | K_EOF => false | _ => true end.
  Lemma tok_real t : tok_l t -> real (kind_of (tk t)) = true -> L (t_str t).
  Proof. intros T R. exact T. Qed.

  Lemma pop_l s : pl s -> outs (pair_l tok_l) (pop s).
  Proof. intros [T O E]. unfold pop. destruct (p_toks s); [exact Logic.I|]. inversion T; subst. split; [assumption|]. split; assumption. Qed.
  (** after a look at the next token *)
  Lemma pop_k s k : pl s -> ptype s = Ok k -> real k = true -> outs (pair_l (fun t => L (t_str t))) (pop s).
  Proof.
    intros H P R. unfold ptype in P. pose proof (pop_l s H) as Q. unfold pop in *. destruct (p_toks s) as [|t r]; [discriminate|]. inversion P; subst.
    destruct Q as [Q1 Q2]. split; [apply tok_real; [exact Q1|exact R]|exact Q2].
  Qed.
  Lemma peek_type s : outs (fun k => ptype s = Ok k) (peek s).
  Proof. unfold peek, ptype. destruct (p_toks s); [exact Logic.I|reflexivity]. Qed.
  Definition opt_l (k : kind) (o : option token) : Prop := match o with Some t => real k = true -> L (t_str t) | None => True end.
  Lemma found_l k s : pl s -> outs (pair_l (opt_l k)) (found k s).
  Proof.
    intros H. destruct H as [T O E]. unfold found, ptype. destruct (p_toks s) as [|t r] eqn:P; [exact Logic.I|]. cbn [bind].
    destruct (kind_eqb (kind_of (tk t)) k) eqn:K.
    - unfold pop. rewrite P. cbn [bind outs]. inversion T; subst. split; cbn [fst snd opt_l].
      + apply kind_eqb_eq in K. intros R. apply tok_real; [assumption|]. now rewrite K.
      + split; assumption.
    - split; [exact Logic.I|]. split; [cbn [snd]; rewrite P| |]; assumption.
  Qed.
  Lemma popk_l k s : pl s -> outs (pair_l (fun t => real k = true -> L (t_str t))) (popk k s).
  Proof.
    intros H. unfold popk. eapply outs_bind; [apply found_l; exact H|]. intros [[t|] s1] [A B]; cbn [fst snd] in *.
    - split; assumption.
    - destruct (p_toks s); [exact Logic.I|]. destruct k; try apply perr_outs; exact Logic.I.
  Qed.
  Lemma skip_eols_l s : pl s -> outs pl (skip_eols s).
  Proof.
    intros [T O E]. unfold skip_eols.
    assert (G : forall ts l, Forall tok_l ts -> outs (fun x => Forall tok_l (fst x)) (skip_eols_from ts l)).
    { induction ts as [|t ts IH]; intros l F; cbn [skip_eols_from]; [exact Logic.I|]. inversion F; subst.
      destruct (kind_eqb _ _); [auto|]. cbn [outs fst]. assumption. }
    eapply outs_bind; [apply G; exact T|]. intros [ts l] F. split; assumption.
  Qed.
  Lemma pop_exp_l x s : pl s -> outs (pair_l (fun e => ok (e_texts e))) (pop_exp x s).
  Proof. intros [T O E]. unfold pop_exp. destruct (p_exp s); [exact Logic.I|]. inversion E; subst. split; [assumption|]. split; assumption. Qed.
  Lemma push_l e s : ok (e_texts e) -> pl s -> pl (push_exp e s).
  Proof. intros F [T O E]. split; [exact T|exact O|]. constructor; assumption. Qed.
  Lemma op_reduce_l op es : L (t_str op) -> Forall (fun e => ok (e_texts e)) es -> outs (Forall (fun e => ok (e_texts e))) (op_reduce op es).
  Proof.
    intros Lo F. unfold op_reduce. destruct (binop_of _).
    - destruct es as [|b' [|a r]]; try exact Logic.I. inversion F as [|? ? F1 F2]; subst. inversion F2; subst. constructor; [|assumption].
      cbn [e_texts]. rewrite ok_cons, Forall_app. auto.
    - destruct (kind_of (tk op)); try exact F. destruct es; [exact Logic.I|]. inversion F; subst. constructor; [|assumption].
      cbn [e_texts]. rewrite ok_cons. auto.
  Qed.
  Definition stacks_l (x : list token * list expr) : Prop := Forall (fun t => L (t_str t)) (fst x) /\ Forall (fun e => ok (e_texts e)) (snd x).
  Lemma reduce_while_l q tide : forall ops es, stacks_l (ops, es) -> outs stacks_l (reduce_while q tide ops es).
  Proof.
    induction ops as [|t ops IH]; intros es F; cbn [reduce_while]; [exact F|]. destruct F as [F1 F2]; cbn [fst snd] in *.
    destruct (_ && _); [|split; assumption]. inversion F1; subst. eapply outs_bind; [apply op_reduce_l; assumption|]. intros es1 F3. apply IH. split; assumption.
  Qed.
  Lemma op_push_l op tide s : L (t_str op) -> pl s -> outs pl (op_push op tide s).
  Proof.
    intros Lo [T O E]. unfold op_push. eapply outs_bind; [apply reduce_while_l; split; assumption|]. intros [ops es] [F1 F2]; cbn [fst snd] in *.
    split; [exact T| |exact F2]. constructor; assumption.
  Qed.
  Lemma op_pop_all_l tide s : pl s -> outs pl (op_pop_all tide s).
  Proof.
    intros [T O E]. unfold op_pop_all. eapply outs_bind; [apply reduce_while_l; split; assumption|]. intros [ops es] [F1 F2]. split; assumption.
  Qed.

  Notation el := (fun e => ok (e_texts e)).
  Definition expr_l_at (n : nat) : Prop :=
    (forall s, pl s -> outs (pair_l el) (parse_expr n s)) /\
    (forall tide s, pl s -> outs pl (parse_expr_ex n tide s)) /\
    (forall s, pl s -> outs pl (parse_suffix n s)) /\
    (forall s, pl s -> outs pl (parse_lhs n s)) /\
    (forall s, pl s -> outs (pair_l (Forall el)) (parse_exprs n s)) /\
    (forall s, pl s -> outs (pair_l (Forall el)) (parse_call n s)).
  Lemma els es : Forall el es -> ok (flat_map e_texts es).
  Proof. intros H. apply ok_flat. exact H. Qed.

  Lemma expr_l n : expr_l_at n.
  Proof.
    induction n as [|n (IHe & IHx & IHs & IHl & IHes & IHc)]; [repeat split; intros; exact Logic.I|].
    repeat split.
    - intros s H. rewrite parse_expr_S. cbv zeta. eapply outs_bind; [apply IHx; exact H|]. intros s1 H1.
      eapply outs_bind; [apply op_pop_all_l; exact H1|]. intros s2 H2. apply pop_exp_l. exact H2.
    - intros tide s H. rewrite parse_expr_ex_S. eapply outs_bind; [apply (found_l K_NOT); exact H|]. intros [[t|] s1] [A B]; cbn [fst snd] in A, B.
      { eapply outs_bind; [apply IHx; exact B|]. intros s2 H2. apply op_push_l; [apply A; reflexivity|exact H2]. }
      eapply outs_bind; [apply (found_l K_SUB); exact H|]. clear s1 A B. intros [[t|] s1] [A B]; cbn [fst snd] in A, B.
      { eapply outs_bind; [apply IHx; exact B|]. intros s2 H2. eapply outs_bind; [apply pop_exp_l; exact H2|].
        intros [e s3] [F3 H3]; cbn [fst snd] in *. apply push_l; [|assumption]. cbn [e_texts]. rewrite ok_cons. auto. }
      eapply outs_bind; [apply IHl; exact H|]. intros s2 H2. eapply outs_bind; [apply IHs; exact H2|]. intros s3 H3.
      unfold is_operator. destruct (ptype s3) as [k| |] eqn:K; try exact Logic.I. cbn [bind].
      destruct (0 <? op_type k) eqn:OT; [|exact H3].
      eapply outs_bind; [eapply pop_k; [exact H3|exact K|destruct k; (reflexivity || discriminate)]|]. intros [op s4] [F4 H4]; cbn [fst snd] in *.
      eapply outs_bind; [apply op_push_l; [exact F4|exact H4]|]. intros s5 H5. apply IHx. exact H5.
    - intros s H. rewrite parse_suffix_S. eapply outs_bind; [apply (found_l K_LBRACKET); exact H|]. intros [[t|] s1] [A B]; cbn [fst snd] in A, B.
      { eapply outs_bind; [apply pop_exp_l; exact B|]. intros [a s2] [Fa H2]; cbn [fst snd] in *.
        eapply outs_bind; [apply IHe; exact H2|]. intros [i s3] [Fi H3]; cbn [fst snd] in *.
        eapply outs_bind; [apply popk_l; apply push_l; [|exact H3]; cbn [e_texts]; rewrite ok_cons, Forall_app; auto|].
        intros [u s4] [_ H4]; cbn [fst snd] in *. apply IHs. exact H4. }
      eapply outs_bind; [apply (found_l K_LPAREN); exact H|]. clear s1 A B. intros [[t|] s1] [A B]; cbn [fst snd] in A, B.
      { eapply outs_bind; [apply IHc; exact B|]. intros [es s2] [Fa H2]; cbn [fst snd] in *.
        eapply outs_bind; [apply pop_exp_l; exact H2|]. intros [f s3] [Fi H3]; cbn [fst snd] in *.
        apply IHs. apply push_l; [|exact H3]. cbn [e_texts]. rewrite ok_cons, Forall_app. split; [auto|]. split; [exact Fi|]. now apply els. }
      exact H.
    - intros s H. rewrite parse_lhs_S. eapply outs_bind; [apply (found_l K_LBRACKET); exact H|]. intros [[t|] s1] [A B]; cbn [fst snd] in A, B.
      { eapply outs_bind; [apply IHes; exact B|]. intros [es s2] [Fa H2]; cbn [fst snd] in *.
        eapply outs_bind; [apply popk_l; apply push_l; [|exact H2]|].
        - cbn [e_texts]. rewrite ok_cons. split; [auto|]. now apply els.
        - intros [u s4] [_ H4]. exact H4. }
      clear s1 A B. eapply outs_bind; [apply (found_l K_LPAREN); exact H|]. intros [[t|] s1] [A B]; cbn [fst snd] in A, B.
      { eapply outs_bind; [apply IHe; exact B|]. intros [e s2] [Fa H2]; cbn [fst snd] in *.
        eapply outs_bind; [apply popk_l; apply push_l; [exact Fa|exact H2]|]. intros [u s4] [_ H4]. exact H4. }
      clear s1 A B. eapply outs_bind; [apply (found_l K_IDENT); exact H|]. intros [[t|] s1] [A B]; cbn [fst snd] in A, B.
      { eapply outs_bind; [apply (found_l K_DOT); exact B|]. intros [[d|] s2] [Fa H2]; cbn [fst snd] in *.
        - eapply outs_bind; [apply popk_l; exact H2|]. intros [u s4] [Fu H4]; cbn [fst snd] in *. apply push_l; [|exact H4].
          cbn [e_texts]. repeat constructor; [exact L0|apply Fu; reflexivity].
        - apply push_l; [|exact H2]. cbn [e_texts]. repeat constructor. exact L0. }
      clear s1 A B. eapply outs_bind; [apply (found_l K_INT); exact H|]. intros [[t|] s1] [A B]; cbn [fst snd] in A, B.
      { apply push_l; [|exact B]. repeat constructor. exact L0. }
      clear s1 A B. eapply outs_bind; [apply (found_l K_FLOAT); exact H|]. intros [[t|] s1] [A B]; cbn [fst snd] in A, B.
      { apply push_l; [|exact B]. repeat constructor. exact L0. }
      clear s1 A B. eapply outs_bind; [apply (found_l K_STRING); exact H|]. intros [[t|] s1] [A B]; cbn [fst snd] in A, B.
      { apply push_l; [|exact B]. repeat constructor. apply A. reflexivity. }
      clear s1 A B. eapply outs_bind; [apply (found_l K_NONE); exact H|]. intros [[t|] s1] [A B]; cbn [fst snd] in A, B.
      { apply push_l; [|exact B]. repeat constructor. exact L0. }
      eapply outs_bind; [apply outs_any|]. intros [t s2] _. apply perr_outs.
    - intros s H. rewrite parse_exprs_S. eapply outs_bind; [apply IHe; exact H|]. intros [e s1] [Fe H1]; cbn [fst snd] in *.
      eapply outs_bind; [apply (found_l K_COMMA); exact H1|]. intros [[t|] s2] [A B]; cbn [fst snd] in A, B.
      + eapply outs_bind; [apply IHes; exact B|]. intros [es s3] [Fes H3]; cbn [fst snd] in *. split; [constructor; assumption|assumption].
      + split; [constructor; [assumption|constructor]|assumption].
    - intros s H. rewrite parse_call_S. eapply outs_bind; [apply (found_l K_RPAREN); exact H|]. intros [[t|] s1] [A B]; cbn [fst snd] in A, B.
      + split; [constructor|assumption].
      + eapply outs_bind; [apply IHes; exact H|]. intros [es s3] [Fes H3]; cbn [fst snd] in *.
        eapply outs_bind; [apply popk_l; exact H3|]. intros [u s4] [_ H4]. split; assumption.
  Qed.

  Ltac bo K := eapply outs_bind; [apply K; eassumption|]; cbv beta;
    let F := fresh "F" in let P := fresh "P" in intros [? ?] [F P]; cbn [fst snd] in F, P.
  Ltac fin := cbn [s_texts oe_texts e_texts fst snd]; repeat (rewrite ok_cons || rewrite Forall_app); repeat match goal with |- _ /\ _ => split end;
    first [assumption | now apply els | apply Forall_nil | match goal with H : real _ = true -> L ?l |- L ?l => apply H; reflexivity end | idtac].
  Lemma e_l n s : pl s -> outs (pair_l el) (parse_expr n s).
  Proof. apply expr_l. Qed.
  Lemma c_l n s : pl s -> outs (pair_l (Forall el)) (parse_call n s).
  Proof. apply expr_l. Qed.
  Notation sl := (fun s => ok (s_texts s)).
  Lemma decl_var_l n s : pl s ->
    outs (fun x => L (fst (fst (fst x))) /\ ok (oe_texts (snd (fst x))) /\ pl (snd x)) (parse_decl_var n s).
  Proof.
    intros H. unfold parse_decl_var. bo popk_l. bo (found_l K_ASSIGN). destruct o.
    - bo e_l. cbn [outs fst snd]. fin.
    - cbn [outs fst snd]. fin.
  Qed.
  Lemma ident_stmt_l n t s : L (t_str t) -> pl s -> outs (pair_l sl) (parse_ident_stmt n t s).
  Proof.
    intros Lt H. unfold parse_ident_stmt. eapply outs_bind; [apply peek_type|]. intros k Pk. cbn beta in Pk.
    assert (C : real k = true -> outs (pair_l sl) (parse_compound n t s)).
    { intros R. unfold parse_compound. eapply outs_bind; [eapply pop_k; eassumption|]. intros [op s1] [Fo H1]; cbn [fst snd] in *.
      bo (found_l K_ASSIGN). destruct o; [|exact Logic.I]. bo e_l.
      destruct (binop_of _); [|exact Logic.I]. split; [|assumption]. fin. }
    destruct k; try apply perr_outs; try (apply C; reflexivity).
    - eapply outs_bind; [eapply pop_k; [exact H|exact Pk|reflexivity]|]. intros [op s1] [Fo H1]; cbn [fst snd] in *. bo c_l. split; [|assumption]. fin.
    - bo pop_l. unfold parse_array_set. bo e_l. bo popk_l. bo popk_l. bo e_l. split; [|assumption]. fin.
    - bo pop_l. bo e_l. split; [|assumption]. fin.
    - unfold parse_member_assign. bo popk_l. bo popk_l. bo popk_l. bo e_l. split; [|assumption]. fin.
  Qed.
  Lemma return_l n t s : L (t_str t) -> pl s -> outs (pair_l sl) (parse_return n t s).
  Proof.
    intros Lt H. unfold parse_return. eapply outs_bind; [apply outs_any|]. intros k _.
    destruct k; try (bo e_l; split; [|assumption]; fin). split; [|assumption]. fin.
  Qed.
  Notation bl := (fun b => ok (flat_map s_texts b)).
  Lemma stmt_l n :
    (forall s, pl s -> outs (pair_l sl) (parse_stmt n s)) /\
    (forall s, pl s -> outs (fun x => bl (fst (fst x)) /\ L (t_str (snd (fst x))) /\ pl (snd x)) (parse_body n s)) /\
    (forall s, pl s -> outs (fun x => bl (fst (fst x)) /\ pl (snd x)) (parse_then n s)).
  Proof.
    induction n as [|n (IHs & IHb & IHt)]; [repeat split; intros; exact Logic.I|]. repeat split.
    - intros s H. rewrite parse_stmt_S. eapply outs_bind; [apply skip_eols_l; exact H|]. intros s0 H0. bo pop_l.
      eapply outs_bind with (P := pair_l sl).
      + assert (Lt : real (kind_of (tk t)) = true -> L (t_str t)) by (apply tok_real; exact F).
        destruct (kind_of (tk t)); try apply perr_outs; specialize (Lt eq_refl).
        * bo popk_l. bo e_l. bo popk_l. bo popk_l. eapply outs_bind; [apply IHt; eassumption|].
          intros [[b els'] s6] [BB6 PP6]; cbn [fst snd] in *. destruct els'.
          -- eapply outs_bind; [apply IHb; eassumption|]. intros [[f u] s7] (B7 & _ & P7); cbn [fst snd] in *. split; [|assumption]. fin.
          -- split; [|assumption]. fin.
        * bo popk_l. bo e_l. bo popk_l. bo popk_l. eapply outs_bind; [apply IHb; eassumption|].
          intros [[b u] s6] (BB6 & _ & PP6); cbn [fst snd] in *. split; [|assumption]. fin.
        * eapply outs_bind; [apply decl_var_l; eassumption|]. intros [[[x l] e] s2] (B1 & B2 & P2); cbn [fst snd] in *. split; [|assumption]. fin.
        * bo popk_l. bo popk_l. bo popk_l. bo e_l. bo popk_l. bo e_l. bo popk_l. bo popk_l.
          eapply outs_bind; [apply IHb; eassumption|].
          intros [[b u] s10] (BB6 & _ & PP6); cbn [fst snd] in *. split; [|assumption]. fin.
        * apply ident_stmt_l; assumption.
        * apply return_l; assumption.
      + intros [st s2] [Fs H2]; cbn [fst snd] in *. bo popk_l. eapply outs_bind; [apply skip_eols_l; eassumption|].
        intros s4 H4. split; assumption.
    - intros s H. rewrite parse_body_S. bo (found_l K_END). destruct o; [split; [constructor|split; [apply F; reflexivity|assumption]]|].
      bo IHs. eapply outs_bind; [apply IHb; eassumption|]. intros [[b u] s6] (BB6 & Lu & PP6); cbn [fst snd] in *.
      split; [|split; assumption]. cbn [fst flat_map]. apply Forall_app. auto.
    - intros s H. rewrite parse_then_S. bo (found_l K_END). destruct o; [split; [constructor|assumption]|].
      bo (found_l K_ELSE). destruct o; [bo popk_l; split; [constructor|assumption]|].
      eapply outs_bind; [apply IHs; exact H|]. intros [st s2] [Fs H2]; cbn [fst snd] in *.
      eapply outs_bind; [apply IHt; eassumption|]. intros [[b u] s6] [BB6 PP6]; cbn [fst snd] in *.
      split; [|assumption]. cbn [fst flat_map]. apply Forall_app. auto.
  Qed.
  Notation al := (fun args : list (bytes * line_t) => ok (map fst args)).
  Lemma args_l n : forall s, pl s -> outs (pair_l al) (parse_args n s).
  Proof.
    induction n as [|n IH]; intros s H; [exact Logic.I|]. rewrite parse_args_S. bo popk_l. bo (found_l K_COMMA). destruct o.
    - bo IH. split; [|assumption]. cbn [fst map]. constructor; [apply F; reflexivity|assumption].
    - split; [|assumption]. cbn [fst map]. constructor; [apply F; reflexivity|constructor].
  Qed.
  Notation il := (fun i => ok (i_texts i)).
  Lemma function_l n s : pl s -> outs (pair_l il) (parse_function n s).
  Proof.
    intros H. unfold parse_function. bo popk_l. bo popk_l. bo (found_l K_RPAREN).
    eapply outs_bind with (P := pair_l al).
    - destruct o; [split; [constructor|assumption]|]. bo args_l. bo popk_l. split; assumption.
    - intros [args s4] [Fa H4]; cbn [fst snd] in *. bo popk_l.
      eapply outs_bind; [apply stmt_l; eassumption|]. intros [[b u] s6] (BB6 & Lu & PP6); cbn [fst snd] in *. split; [|assumption].
      cbn [fst i_texts]. rewrite !ok_cons, Forall_app. auto.
  Qed.
  Lemma items_l fs src n : forall m s, pl s ->
    outs (fun x => Forall il (fst (fst x)) /\ Forall el (p_exp (snd x))) (parse_items fs src n m s).
  Proof.
    induction n as [|n IH]; intros m s H; [exact Logic.I|]. rewrite parse_items_S. bo (found_l K_EOF).
    destruct o; [split; [constructor|apply P]|]. eapply outs_bind; [apply pop_l; exact H|]. intros [t s1] [Ft H1]; cbn [fst snd] in *.
    assert (V : forall k, (forall x l e, i_texts (k x l e) = x :: oe_texts e) -> forall s, pl s ->
      outs (fun x => Forall il (fst (fst x)) /\ Forall el (p_exp (snd x)))
        ('(x, l, e, s2) <- parse_decl_var n s ;; '(r, m1, s3) <- parse_items fs src n m s2 ;; Ok (k x l e :: r, m1, s3))).
    { intros k K1 s' H'. eapply outs_bind; [apply decl_var_l; exact H'|]. intros [[[x l] e] s2] (B1 & B2 & P2); cbn [fst snd] in *.
      eapply outs_bind; [apply IH; exact P2|]. intros [[r m1] s3] [B3 P3]; cbn [fst snd] in *. split; [|assumption].
      constructor; [|assumption]. rewrite K1, ok_cons. auto. }
    destruct (kind_of (tk t));
      try (eapply outs_bind; [apply outs_any|]; intros [t2 s2] _; apply perr_outs).
    - eapply outs_bind; [apply function_l; exact H1|]. intros [f s2] [Ff H2]; cbn [fst snd] in *.
      eapply outs_bind; [apply IH; exact H2|]. intros [[r m1] s3] [B3 P3]; cbn [fst snd] in *. split; [constructor; assumption|assumption].
    - apply (V TVar); [reflexivity|exact H1].
    - apply IH. exact H1.
    - apply (V TConst); [reflexivity|exact H1].
    - unfold parse_import. eapply outs_bind with (P := fun x => il (fst (fst x)) /\ pl (snd x)).
      + bo popk_l. destruct (sm_load fs m _) as [[|] m1]; [|apply perr_outs]. split; [|assumption].
        repeat constructor. apply F0. reflexivity.
      + intros [[i m1] s2] [Fi H2]; cbn [fst snd] in *. eapply outs_bind; [apply IH; exact H2|].
        intros [[r m2] s3] [B3 P3]; cbn [fst snd] in *. split; [constructor; assumption|assumption].
  Qed.

  (** ** Analysis *)
  Notation rel := (fun e => ok (re_texts e)).
  Notation rsl := (fun s => ok (rs_texts s)).
  Notation ril := (fun i => ok (ri_texts i)).
  Section Ann.
    Variable addr : nat -> Z.
    Definition ann_l (e : expr) : Prop := forall sc n r n', el e -> ann_expr addr sc e n = Ok (r, n') -> rel r.
    Lemma ann_ls es : Forall ann_l es -> forall sc n rs n',
      Forall el es -> each (ann_expr addr sc) es n = Ok (rs, n') -> Forall rel rs.
    Proof.
      induction 1 as [|e es He Hes IH]; intros sc n rs n' F E; cbn [each] in *.
      - inversion E. constructor.
      - inversion F; subst. inv_bind E. destruct a. inv_bind E. destruct a.
        inversion E; subst. constructor; [eapply He; eassumption|eapply IH; eassumption].
    Qed.
    Lemma ann_expr_l e : ann_l e.
    Proof.
      induction e using expr_nested; intros sc n r n' F E; cbn [ann_expr e_texts] in *.
      - inversion E; subst. exact F.
      - inversion E; subst. exact F.
      - inversion E; subst. exact F.
      - inversion E; subst. exact F.
      - destruct (find_decl addr x sc); inversion E; subst. exact F.
      - destruct (find_decl addr x sc) as [[]|]; inversion E; subst. exact F.
      - rewrite ok_cons, ok_flat in F. destruct F as [F1 F2]. inv_bind E. destruct a. inversion E; subst. cbn [re_texts]. rewrite ok_cons, ok_flat.
        split; [exact F1|]. eapply ann_ls; eassumption.
      - rewrite ok_cons, Forall_app in F. destruct F as (F1 & F2 & F3). inv_bind E. destruct a. inv_bind E. destruct a. inversion E; subst.
        cbn [re_texts]. rewrite ok_cons, Forall_app. split; [exact F1|]. split; [eapply IHe1|eapply IHe2]; eassumption.
      - rewrite ok_cons, Forall_app, ok_flat in F. destruct F as (F1 & F2 & F3). inv_bind E. destruct a. inv_bind E. destruct a. inversion E; subst.
        cbn [re_texts]. rewrite ok_cons, Forall_app, ok_flat. split; [exact F1|]. split; [eapply IHe; eassumption|eapply ann_ls; eassumption].
      - rewrite ok_cons, Forall_app in F. destruct F as (F1 & F2 & F3). inv_bind E. destruct a. inv_bind E. destruct a. inversion E; subst.
        cbn [re_texts]. rewrite ok_cons, Forall_app. split; [exact F1|]. split; [eapply IHe1|eapply IHe2]; eassumption.
      - rewrite ok_cons in F. destruct F as (F1 & F2). inv_bind E. destruct a. inversion E; subst.
        cbn [re_texts]. rewrite ok_cons. split; [exact F1|]. eapply IHe; eassumption.
    Qed.
    Lemma ann_exprs_l es sc n rs n' : ok (flat_map e_texts es) -> each (ann_expr addr sc) es n = Ok (rs, n') -> ok (flat_map re_texts rs).
    Proof. rewrite !ok_flat. apply ann_ls. apply Forall_forall. intros e _. apply ann_expr_l. Qed.
    Lemma ann_opt_l o sc n r n' : ok (oe_texts o) -> ann_opt addr sc o n = Ok (r, n') -> ok (ore_texts r).
    Proof.
      destruct o; cbn [ann_opt oe_texts]; intros F E.
      - inv_bind E. destruct a. inversion E; subst. eapply ann_expr_l; eassumption.
      - inversion E. constructor.
    Qed.
    Definition ann_sl (s : stmt) : Prop := forall st r st', sl s -> ann_stmt addr s st = Ok (r, st') -> rsl r.
    Lemma ann_block_l b : Forall ann_sl b -> forall st rb st',
      ok (flat_map s_texts b) -> each (ann_stmt addr) b st = Ok (rb, st') -> ok (flat_map rs_texts rb).
    Proof.
      induction 1 as [|s b Hs Hb IH]; intros st rb st' F E; cbn [each flat_map] in *.
      - inversion E. constructor.
      - apply Forall_app in F. destruct F as [F1 F2]. inv_bind E. destruct a. inv_bind E. destruct a.
        inversion E; subst. cbn [flat_map]. apply Forall_app. split; [eapply Hs; eassumption|eapply IH; eassumption].
    Qed.
    Ltac split_all := repeat (rewrite ok_cons || rewrite Forall_app); repeat match goal with |- _ /\ _ => split end; try assumption.
    Ltac split_k := repeat (rewrite ok_cons || rewrite Forall_app); repeat match goal with |- _ /\ _ => split end; try (lazymatch goal with |- L [] => fail | |- _ => assumption end).
    Lemma ann_stmt_l s : ann_sl s.
    Proof.
      induction s using stmt_nested; intros [sc n] r st' F E; cbn [ann_stmt s_texts] in *;
        repeat (rewrite ok_cons in F || rewrite Forall_app in F).
      - inv_bind E. destruct a. inversion E; subst. cbn [rs_texts vd_name]. split_k; [tauto|]. eapply ann_opt_l; [|eassumption]. tauto.
      - inv_bind E. destruct a. inv_bind E. inversion E; subst. cbn [rs_texts]. split_k; [tauto|]. eapply ann_expr_l; [|eassumption]. tauto.
      - inv_bind E. destruct a. inv_bind E. inversion E; subst. cbn [rs_texts]. split_all; try tauto. eapply ann_expr_l; [|eassumption]. tauto.
      - inv_bind E. destruct a. inv_bind E. destruct a. inv_bind E. inversion E; subst. cbn [rs_texts]. split_k; [tauto| |].
        + eapply ann_expr_l; [|exact E0]. tauto.
        + eapply ann_expr_l; [|exact E1]. tauto.
      - inv_bind E. destruct a. inv_bind E. destruct a. inversion E; subst. cbn [rs_texts]. split_k; [tauto| |].
        + eapply (ann_expr_l (EIdent x l)); [|exact E1]. constructor; [tauto|constructor].
        + eapply ann_exprs_l; [|eassumption]. tauto.
      - destruct F as (F1 & F2 & F3 & _). inv_bind E. destruct a. inv_bind E. destruct a. cbn [bind] in E. inversion E; subst.
        cbn [rs_texts]. split_all; [eapply ann_expr_l; eassumption|eapply ann_block_l; eassumption|constructor].
      - destruct F as (F1 & F2 & F3 & F4). inv_bind E. destruct a. inv_bind E. destruct a. inv_bind E. destruct a. inv_bind E2. destruct a.
        inversion E2; subst. inversion E; subst. cbn [rs_texts]. split_all; [eapply ann_expr_l; eassumption| |].
        + eapply ann_block_l; [|exact F3|eassumption]. assumption.
        + eapply ann_block_l; [|exact F4|eassumption]. assumption.
      - destruct F as (F1 & F2 & F3). inv_bind E. destruct a. inv_bind E. destruct a. inversion E; subst.
        cbn [rs_texts]. split_all; [eapply ann_expr_l; eassumption|eapply ann_block_l; eassumption].
      - destruct F as (F1 & F2 & F3 & F4 & F5). inv_bind E. inv_bind E. destruct a1. inv_bind E. destruct a1. inv_bind E. destruct a1. inversion E; subst.
        cbn [rs_texts]. split_all.
        + eapply ann_expr_l; [|exact E1]. assumption.
        + eapply ann_expr_l; [|exact E2]. assumption.
        + eapply ann_block_l; eassumption.
      - inv_bind E. destruct a. inversion E; subst. cbn [rs_texts]. split_k; [tauto|]. eapply ann_opt_l; [|eassumption]. tauto.
    Qed.
    Definition child_l (c : child) : Prop := match c with CSys _ _ => True | CItem i => il i end.
    Definition decl_l (d : decl) (c : child) : Prop :=
      match d with DV d => L (vd_name d) | DF f => match c with CSys _ _ => True | _ => L (fd_name f) end end.
    Lemma ann_args_names args : forall n, map vd_name (ann_args args n) = map fst args.
    Proof. induction args as [|[x l] args IH]; intros n; cbn [ann_args map vd_name fst]; [reflexivity|]. now rewrite IH. Qed.
    Lemma ann_child_l g dc n i n' : child_l (snd dc) -> decl_l (fst dc) (snd dc) -> ann_child addr g dc n = Ok (i, n') -> ril i.
    Proof.
      destruct dc as [d c]. cbn [fst snd]. intros F D E.
      assert (G : forall d, L (vd_name d) -> ok (vd_name d :: [])) by (intros; constructor; [assumption|constructor]).
      destruct c as [x k|[x l oe|x l oe|x l args body lend|p l]]; destruct d; cbn [ann_child child_l i_texts] in *;
        try (inversion E; subst; cbn [ri_texts ore_texts]; first [apply G; assumption|constructor]).
      - inv_bind E. destruct a. inversion E; subst. cbn [ri_texts]. rewrite ok_cons in *. split; [exact D|]. eapply ann_opt_l; [|eassumption]. tauto.
      - inv_bind E. destruct a. inversion E; subst. cbn [ri_texts]. rewrite ok_cons in *. split; [exact D|]. eapply ann_opt_l; [|eassumption]. tauto.
      - inv_bind E. destruct a. inversion E; subst. cbn [ri_texts]. rewrite !ok_cons, Forall_app in F. rewrite Forall_app, ok_cons. destruct F as (F1 & F2 & F3). split; [split; [exact D|]|].
        + rewrite ann_args_names. exact F2.
        + eapply ann_block_l; [|apply F3|eassumption]. apply Forall_forall. intros s _. apply ann_stmt_l.
    Qed.
    Lemma number_l cs : Forall child_l cs -> forall n ds m, number cs n = (ds, m) -> Forall (fun dc => child_l (snd dc) /\ decl_l (fst dc) (snd dc)) ds.
    Proof.
      induction 1 as [|c cs H F IH]; intros n ds m E; cbn [number] in E; [inversion E; constructor|].
      destruct (head_decl c n) as [d|] eqn:D.
      - destruct (number cs (S n)) eqn:N. inversion E; subst. constructor; [|eauto]. cbn [fst snd]. split; [exact H|].
        destruct c as [x k|[]]; cbn [head_decl child_l i_texts] in *; inversion D; subst; cbn [decl_l vd_name fd_name sys_decl];
          try exact Logic.I; apply ok_cons in H; tauto.
      - eauto.
    Qed.
    Lemma annotate_l cs r n : Forall child_l cs -> annotate addr cs = Ok (r, n) -> Forall ril r.
    Proof.
      unfold annotate. destruct (number cs 0) as [ds m] eqn:N. intros F E.
      assert (H : Forall2 (fun _ i => ril i) ds r).
      { eapply each_inv; [|exact E]. apply Forall_forall. intros dc I0 s b s' X.
        pose proof (number_l _ F _ _ _ N) as K. rewrite Forall_forall in K. destruct (K _ I0).
        eapply ann_child_l; [| |exact X]; assumption. }
      clear -H. induction H; constructor; assumption.
    Qed.
  End Ann.

  Lemma global_expr_l items id e : Forall ril items -> global_expr items id = Some e -> rel e.
  Proof.
    induction 1 as [|i items H F IH]; cbn [global_expr]; [discriminate|].
    destruct i; auto. destruct (Nat.eqb _ _); auto. intros ->. cbn [ri_texts ore_texts] in H. now inversion H.
  Qed.
  Lemma glob_expr_l items e n o b n' : rel e -> glob_expr items e n = Ok (o, b, n') -> ok (ore_texts o).
  Proof.
    intros F.
    assert (EV : forall e, rel e ->
      (o0 <- eval items e ;; match o0 with Some v => Ok (Some (RInt n v None), true, S n) | None => Ok (Some e, false, n) end) = Ok (o, b, n') ->
      ok (ore_texts o)).
    { clear e F. intros e F E. inv_bind E. destruct a as [v|]; inversion E; subst; [constructor|exact F]. }
    destruct e; cbn [glob_expr]; intros E; try (inversion E; subst; exact F); try (now apply (EV _ F)).
    inversion E. constructor.
  Qed.
  Lemma run_globals_l todo : forall done ch n js ch' n', Forall ril (done ++ todo) ->
    run_globals done todo ch n = Ok (js, ch', n') -> Forall ril js.
  Proof.
    induction todo as [|i todo IH]; intros done ch n js ch' n' H E; cbn [run_globals] in E.
    - inversion E; subst. rewrite app_nil_r in H. assumption.
    - assert (K : forall i', ril i' -> Forall ril ((done ++ [i']) ++ todo)).
      { intros i' G. rewrite <- app_assoc. rewrite Forall_app in *. destruct H as [H1 H2]. inversion H2; subst.
        split; [assumption|]. constructor; assumption. }
      assert (G : ril i) by (rewrite Forall_app in H; destruct H as [_ H]; now inversion H).
      destruct i as [f|d [e|]|f args body lend]; try (eapply IH; [|exact E]; apply K; assumption).
      inv_bind E. destruct a as [[o b] m]. eapply IH; [|exact E]. apply K. cbn [ri_texts ore_texts] in *. rewrite ok_cons in *.
      split; [tauto|]. eapply glob_expr_l; [|eassumption]. tauto.
  Qed.
  Lemma glob_loop_l fuel : forall items n js n', Forall ril items -> glob_loop fuel items n = Ok (js, n') -> Forall ril js.
  Proof.
    induction fuel as [|fuel IH]; intros items n js n' H E; cbn [glob_loop] in E; [discriminate|].
    inv_bind E. destruct a as [[is c] m]. apply run_globals_l in E0; [|assumption].
    destruct c; [eauto|]. inversion E; subst. assumption.
  Qed.
  Lemma global_vars_l items n js n' : Forall ril items -> Sema.global_vars items n = Ok (js, n') -> Forall ril js.
  Proof.
    intros H E. unfold Sema.global_vars in E. inv_bind E. destruct a as [is m]. inv_bind E. destruct a as [[is2 c] m2].
    inversion E; subst. apply glob_loop_l in E0; [|assumption]. eapply run_globals_l; [|exact E1]. assumption.
  Qed.

  Section Con.
    Variable items : list ritem.
    Hypothesis HI : Forall ril items.
    Lemma const_lit_l d l e : const_lit items d l = Ok (Some e) -> rel e.
    Proof.
      unfold const_lit. destruct d as [d|]; [|discriminate]. destruct (negb (vd_const d)); [discriminate|].
      destruct (global_expr items (vd_id d)) as [e'|] eqn:G; [|discriminate].
      apply global_expr_l in G; [|assumption]. destruct e'; intros E; inversion E; subst; assumption.
    Qed.
    Lemma con_exprs_l es : Forall (fun e => forall r, rel e -> con_expr items e = Ok r -> rel r) es ->
      forall rs, Forall rel es -> each_ (con_expr items) es = Ok rs -> Forall rel rs.
    Proof.
      induction 1 as [|e es He Hes IH]; intros rs F E; cbn [each_] in E.
      - inversion E. constructor.
      - inversion F; subst. inv_bind E. inv_bind E. inversion E; subst. constructor; auto.
    Qed.
    Lemma con_expr_l e : forall r, rel e -> con_expr items e = Ok r -> rel r.
    Proof.
      induction e using rexpr_nested; intros r F E; cbn [con_expr] in E; try (inversion E; subst; assumption);
        cbn [re_texts] in F; repeat (rewrite ok_cons in F || rewrite Forall_app in F); rewrite ?ok_flat in F.
      - inv_bind E. destruct a; inversion E; subst; [|exact (proj2 (ok_cons _ _) F)]. eapply const_lit_l; eassumption.
      - inv_bind E. inversion E; subst. cbn [re_texts]. rewrite ok_cons, ok_flat. split; [tauto|]. eapply con_exprs_l; [eassumption|apply F|eassumption].
      - destruct F as (F1 & F2 & F3). inv_bind E. inv_bind E. inversion E; subst. cbn [re_texts]. rewrite ok_cons, Forall_app.
        split; [exact F1|]. split; [eapply IHe1|eapply IHe2]; eassumption.
      - destruct F as (F1 & F2 & F3). inv_bind E.
        assert (A : Forall rel a) by (eapply con_exprs_l; eassumption).
        assert (G : forall f, rel f -> rel (RCall l f a)).
        { intros f F. cbn [re_texts]. rewrite ok_cons, Forall_app, ok_flat. auto. }
        destruct e; try (inv_bind E; inversion E; subst; apply G; first [eapply IHe; eassumption|assumption]).
      - destruct F as (F1 & F2 & F3). inv_bind E. inv_bind E. inversion E; subst. cbn [re_texts]. rewrite ok_cons, Forall_app.
        split; [exact F1|]. split; [eapply IHe1|eapply IHe2]; eassumption.
      - inv_bind E. inversion E; subst. cbn [re_texts]. rewrite ok_cons. split; [tauto|]. eapply IHe; [|eassumption]. tauto.
    Qed.
    Lemma con_opt_l o r : ok (ore_texts o) -> con_opt items o = Ok r -> ok (ore_texts r).
    Proof.
      destruct o; cbn [con_opt]; intros F E; [|inversion E; constructor]. inv_bind E. inversion E; subst.
      eapply con_expr_l; eassumption.
    Qed.
    Definition con_sl (s : rstmt) : Prop := forall r, rsl s -> con_stmt items s = Ok r -> rsl r.
    Lemma con_block_l b : Forall con_sl b -> forall rb, ok (flat_map rs_texts b) ->
      each_ (con_stmt items) b = Ok rb -> ok (flat_map rs_texts rb).
    Proof.
      induction 1 as [|s b Hs Hb IH]; intros rb F E; cbn [each_ flat_map] in *; [inversion E; constructor|].
      apply Forall_app in F. destruct F. inv_bind E. inv_bind E. inversion E; subst. cbn [flat_map]. apply Forall_app. auto.
    Qed.
    Lemma con_oblock_l o : oall con_sl o -> forall r, ok (rob_texts o) ->
      match o with None => Ok None | Some b => r <- each_ (con_stmt items) b ;; Ok (Some r) end = Ok r -> ok (rob_texts r).
    Proof.
      destruct o; cbn [oall rob_texts]; intros H r F E; [|inversion E; constructor]. inv_bind E. inversion E; subst.
      eapply con_block_l; eassumption.
    Qed.
    Ltac split_all := repeat (rewrite ok_cons || rewrite Forall_app); repeat match goal with |- _ /\ _ => split end; try assumption.
    Ltac split_k := repeat (rewrite ok_cons || rewrite Forall_app); repeat match goal with |- _ /\ _ => split end; try (lazymatch goal with |- L [] => fail | |- _ => assumption end).
    Lemma con_stmt_l s : con_sl s.
    Proof.
      induction s using rstmt_nested; intros r F E; cbn [con_stmt rs_texts] in *; repeat (rewrite ok_cons in F || rewrite Forall_app in F).
      - inv_bind E. inversion E; subst. cbn [rs_texts]. split_k; [tauto|]. eapply con_opt_l; [|eassumption]; tauto.
      - destruct (vd_const d); [discriminate|]. inv_bind E. inversion E; subst. cbn [rs_texts]. split_k; [tauto|]. eapply con_expr_l; [|eassumption]; tauto.
      - inv_bind E. inversion E; subst. cbn [rs_texts]. split_all; try tauto. eapply con_expr_l; [|eassumption]; tauto.
      - inv_bind E. inv_bind E. inversion E; subst. cbn [rs_texts]. split_k; [tauto| |].
        + eapply con_expr_l; [|exact E0]; tauto.
        + eapply con_expr_l; [|exact E1]; tauto.
      - inv_bind E. destruct a as [rf rs]. inversion E; subst. unfold con_call in E0. inv_bind E0.
        apply con_expr_l in E1; [|cbn [re_texts]; split_all; tauto]. destruct a; inversion E0; subst.
        cbn [re_texts] in E1. rewrite ok_cons, Forall_app in E1. cbn [rs_texts]. split_all; tauto.
      - destruct F as (F1 & F2 & F3 & F4). inv_bind E. inv_bind E. inv_bind E. inversion E; subst. cbn [rs_texts]. split_all.
        + eapply con_expr_l; eassumption.
        + eapply (con_oblock_l t); eassumption.
        + eapply (con_oblock_l f); eassumption.
      - destruct F as (F1 & F2 & F3). inv_bind E. inv_bind E. inversion E; subst. cbn [rs_texts]. split_all.
        + eapply con_expr_l; eassumption.
        + eapply (con_oblock_l b); eassumption.
      - destruct F as (F1 & F2 & F3 & F4 & F5). inv_bind E. inv_bind E. inv_bind E. inversion E; subst. cbn [rs_texts]. split_all.
        + eapply con_expr_l; [|exact E0]; assumption.
        + eapply con_expr_l; [|exact E1]; assumption.
        + eapply con_block_l; eassumption.
      - inv_bind E. inversion E; subst. cbn [rs_texts]. split_k; [tauto|]. eapply con_opt_l; [|eassumption]; tauto.
    Qed.
    Lemma con_item_l i r : ril i -> con_item items i = Ok r -> ril r.
    Proof.
      destruct i as [f|d oe|f args body lend]; cbn [con_item ri_texts]; intros F E.
      - inversion E; constructor.
      - rewrite ok_cons in F. destruct F as [F1 F2]. inv_bind E. apply con_opt_l in E0; [|assumption]. destruct a.
        + inversion E; subst. cbn [ri_texts]. rewrite ok_cons. auto.
        + destruct (vd_const d); inversion E; subst. cbn [ri_texts ore_texts]. constructor; [exact F1|constructor].
      - inv_bind E. inversion E; subst. cbn [ri_texts] in *. rewrite Forall_app in *. split; [tauto|].
        eapply con_block_l; [|apply F|eassumption]. apply Forall_forall. intros s _. apply con_stmt_l.
    Qed.
  End Con.
  Lemma con_items_l todo : forall done r, Forall ril (done ++ todo) -> con_items done todo = Ok r -> Forall ril r.
  Proof.
    induction todo as [|i todo IH]; intros done r H E; cbn [con_items] in E.
    - inversion E; subst. rewrite app_nil_r in H. assumption.
    - inv_bind E. apply con_item_l in E0; [|assumption|rewrite Forall_app in H; destruct H as [_ H]; now inversion H].
      eapply IH; [|exact E]. rewrite <- app_assoc. rewrite Forall_app in *. destruct H as [H1 H2]. inversion H2; subst.
      split; [assumption|]. constructor; assumption.
  Qed.
  Lemma run_sema_l addr cs r n : Forall child_l cs -> run_sema addr cs = Ok (r, n) -> Forall ril r.
  Proof.
    unfold run_sema. intros F E. inv_bind E. destruct a as [r0 n0]. inv_bind E. destruct a as [r1 n1].
    inv_bind E. inv_bind E. inv_bind E. inversion E; subst.
    apply annotate_l in E0; [|assumption]. apply global_vars_l in E1; [|assumption].
    apply con_items_l in E2; assumption.
  Qed.
End Texts.

(** ** Optimiser *)
Section Opt.
  Variable L : bytes -> Prop.
  Hypothesis L0 : L [].
  Notation ok := (Forall L).
  Notation rel := (fun e => ok (re_texts e)).
  Notation rsl := (fun s => ok (rs_texts s)).
  Notation ril := (fun i => ok (ri_texts i)).
  Ltac split_all := repeat (rewrite ok_cons || rewrite Forall_app); repeat match goal with |- _ /\ _ => split end; try assumption; try tauto.
  Lemma cut_block_l b : ok (flat_map rs_texts b) -> ok (flat_map rs_texts (cut_block b)).
  Proof.
    induction b as [|s b IH]; intros F; [exact F|]. cbn [flat_map] in F. apply Forall_app in F. destruct F as [F1 F2].
    destruct s; cbn [cut_block flat_map]; apply Forall_app; (split; [assumption|]); first [constructor|auto].
  Qed.
  Lemma post_ret_l i : ril i -> ril (post_ret i).
  Proof.
    destruct i; cbn [post_ret ri_texts]; auto. rewrite !(Forall_app L). intros (A & C). split; [assumption|].
    now apply cut_block_l.
  Qed.
  Lemma fold_top_l e n r n' : rel e -> fold_top e n = Ok (r, n') -> rel r.
  Proof.
    intros F E. unfold fold_top in E. inv_bind E.
    destruct e; try (inversion E; subst; exact F); destruct a; inversion E; subst; first [exact F|constructor].
  Qed.
  Definition fold_l (s : rstmt) : Prop := forall n r n', rsl s -> fold_stmt s n = Ok (r, n') -> rsl r.
  Lemma fold_block_l b : Forall fold_l b -> forall n rb n', ok (flat_map rs_texts b) ->
    each fold_stmt b n = Ok (rb, n') -> ok (flat_map rs_texts rb).
  Proof.
    induction 1 as [|s b Hs Hb IH]; intros n rb n' F E; cbn [each flat_map] in *; [inversion E; constructor|].
    apply Forall_app in F. destruct F. inv_bind E. destruct a. inv_bind E. destruct a. inversion E; subst. cbn [flat_map]. apply Forall_app.
    split; [eapply Hs; eassumption|eapply IH; eassumption].
  Qed.
  Lemma fold_oblock_l o : oall fold_l o -> forall n r n', ok (rob_texts o) ->
    match o with None => Ok (None, n) | Some b => '(b', m) <- each fold_stmt b n ;; Ok (Some b', m) end = Ok (r, n') -> ok (rob_texts r).
  Proof.
    destruct o; cbn [oall rob_texts]; intros H n r n' F E; [|inversion E; constructor]. inv_bind E. destruct a. inversion E; subst.
    eapply fold_block_l; eassumption.
  Qed.
  Lemma fold_stmt_l s : fold_l s.
  Proof.
    induction s using rstmt_nested; intros n r n' F E; cbn [fold_stmt] in E.
    - inv_bind E. inversion E; subst. exact F.
    - inv_bind E. destruct a. inversion E; subst. cbn [rs_texts] in *. rewrite ok_cons in *. split; [tauto|]. eapply fold_top_l; [|eassumption]. tauto.
    - inv_bind E. inversion E; subst. exact F.
    - inv_bind E. inv_bind E. inversion E; subst. exact F.
    - inv_bind E. inversion E; subst. exact F.
    - cbn [rs_texts] in *. rewrite ok_cons, !Forall_app in F. destruct F as (F1 & F2 & F3 & F4).
      inv_bind E. inv_bind E. destruct a0. inv_bind E. destruct a0. inv_bind E. destruct a0. inversion E; subst. cbn [rs_texts]. split_all.
      + eapply fold_top_l; eassumption.
      + eapply (fold_oblock_l t); eassumption.
      + eapply (fold_oblock_l f); eassumption.
    - cbn [rs_texts] in *. rewrite ok_cons, !Forall_app in F. destruct F as (F1 & F2 & F3).
      inv_bind E. inv_bind E. destruct a0. inv_bind E. destruct a0. inversion E; subst. cbn [rs_texts]. split_all.
      + eapply fold_top_l; eassumption.
      + eapply (fold_oblock_l b); eassumption.
    - cbn [rs_texts] in *. rewrite !ok_cons, !Forall_app in F. destruct F as (F1 & F2 & F3 & F4 & F5).
      inv_bind E. inv_bind E. inv_bind E. destruct a2. inversion E; subst. cbn [rs_texts]. split_all. eapply fold_block_l; eassumption.
    - destruct e as [e|]; [|inversion E; subst; exact F]. inv_bind E. destruct a. inversion E; subst. cbn [rs_texts ore_texts] in *.
      rewrite ok_cons in *. split; [tauto|]. eapply fold_top_l; [|eassumption]. tauto.
  Qed.
  Lemma fold_item_l i n r n' : ril i -> fold_item i n = Ok (r, n') -> ril r.
  Proof.
    destruct i; cbn [fold_item]; intros F E.
    - inversion E; subst. exact F.
    - inv_bind E. inversion E; subst. exact F.
    - inv_bind E. destruct a. inversion E; subst. cbn [ri_texts] in *. rewrite Forall_app in *. split; [tauto|].
      eapply fold_block_l; [|apply F|eassumption]. apply Forall_forall. intros s _. apply fold_stmt_l.
  Qed.
  Lemma set_expr_texts w e : re_texts (set_expr w e) = re_texts e.
  Proof.
    assert (G : forall es, Forall (fun e => re_texts (set_expr w e) = re_texts e) es -> flat_map re_texts (map (set_expr w) es) = flat_map re_texts es).
    { induction 1; cbn [map flat_map]; congruence. }
    induction e using rexpr_nested; cbn [set_expr re_texts]; rewrite ?G by assumption; congruence.
  Qed.
  Lemma set_exprs_texts w es : flat_map re_texts (map (set_expr w) es) = flat_map re_texts es.
  Proof. induction es; cbn [map flat_map]; [reflexivity|]. now rewrite set_expr_texts, IHes. Qed.
  Lemma set_opt_texts w o : ore_texts (option_map (set_expr w) o) = ore_texts o.
  Proof. destruct o; [apply set_expr_texts|reflexivity]. Qed.
  Lemma set_stmt_texts w s : rs_texts (set_stmt w s) = rs_texts s.
  Proof.
    assert (G : forall b, Forall (fun s => rs_texts (set_stmt w s) = rs_texts s) b -> flat_map rs_texts (map (set_stmt w) b) = flat_map rs_texts b).
    { induction 1; cbn [map flat_map]; congruence. }
    assert (GO : forall o, oall (fun s => rs_texts (set_stmt w s) = rs_texts s) o ->
      match option_map (map (set_stmt w)) o with Some b => flat_map rs_texts b | None => [] end = rob_texts o).
    { intros [b|] H; [apply G; exact H|reflexivity]. }
    induction s using rstmt_nested; cbn [set_stmt rs_texts]; rewrite ?set_expr_texts, ?set_opt_texts, ?set_exprs_texts, ?G by assumption; try reflexivity.
    - rewrite (GO t), (GO f) by assumption. reflexivity.
    - rewrite (GO b) by assumption. reflexivity.
  Qed.
  Lemma set_item_texts w i : ri_texts (set_item w i) = ri_texts i.
  Proof.
    destruct i; cbn [set_item ri_texts]; rewrite ?set_opt_texts; try reflexivity. f_equal.
    induction body; cbn [map flat_map]; [reflexivity|]. now rewrite set_stmt_texts, IHbody.
  Qed.
  Definition ifr_l (s : rstmt) : Prop := forall w, rsl s -> rsl (fst (ifr_stmt s w)).
  Let block := fix go (l : list rstmt) (w : list nat) : list rstmt * list nat :=
    match l with
    | [] => ([], w)
    | a :: t => let (a', w1) := ifr_stmt a w in
                let (t', w2) := go t w1 in (a' :: t', w2)
    end.
  Lemma ifr_block_l b : Forall ifr_l b -> forall w, ok (flat_map rs_texts b) -> ok (flat_map rs_texts (fst (block b w))).
  Proof.
    induction 1 as [|s b Hs Hb IH]; intros w F; cbn [block flat_map fst] in *; [constructor|].
    apply Forall_app in F. destruct F as [F1 F2]. specialize (Hs w F1). destruct (ifr_stmt s w) as [s' w1]. specialize (IH w1 F2).
    change ((fix go (l : list rstmt) (w : list nat) : list rstmt * list nat :=
      match l with [] => ([], w) | a :: t => let (a', w1) := ifr_stmt a w in let (t', w2) := go t w1 in (a' :: t', w2) end) b w1) with (block b w1).
    destruct (block b w1) as [b' w2]. cbn [fst flat_map] in *. apply Forall_app. auto.
  Qed.
  Definition oblock (o : option (list rstmt)) (w : list nat) :=
      match o with
      | None => (None, w)
      | Some b => let (b', w1) := block b w in (Some b', w1)
      end.
  Lemma ifr_oblock_l o : oall ifr_l o -> forall w, ok (rob_texts o) -> ok (rob_texts (fst (oblock o w))).
  Proof.
    destruct o as [b|]; cbn [oall rob_texts oblock]; intros H w F; [|constructor].
    pose proof (ifr_block_l b H w F) as G. destruct (block b w). exact G.
  Qed.
  Lemma ifr_stmt_l s : ifr_l s.
  Proof.
    induction s using rstmt_nested; intros w F; try exact F.
    - cbn [rs_texts] in F. fold (rob_texts t) in F. fold (rob_texts f) in F. rewrite ok_cons, !Forall_app in F. destruct F as (F1 & F2 & F3 & F4).
      change (ifr_stmt (RIf l c t f) w) with (
        let (t', w1) := oblock t w in let (f', w2) := oblock f w1 in
        match c with
        | RInt id v _ => if negb (read_lit w2 id v =? 0) then (RIf l c t' None, w2) else (RIf l c f' None, id :: w2)
        | _ => (RIf l c t' f', w2)
        end).
      pose proof (ifr_oblock_l t H w F3) as Gt. destruct (oblock t w) as [t' w1].
      pose proof (ifr_oblock_l f H0 w1 F4) as Gf. destruct (oblock f w1) as [f' w2]. cbn [fst] in *.
      destruct c; try (cbn [fst rs_texts]; fold (rob_texts t'); fold (rob_texts f'); split_all).
      destruct (negb _); cbn [fst rs_texts]; fold (rob_texts t'); fold (rob_texts f'); split_all; constructor.
    - cbn [rs_texts] in F. fold (rob_texts b) in F. rewrite ok_cons, !Forall_app in F. destruct F as (F1 & F2 & F3).
      change (ifr_stmt (RWhile l c b) w) with (
        let (b', w1) := oblock b w in
        match c with
        | RInt id v _ => if read_lit w1 id v =? 0 then (RWhile l c None, w1) else (RWhile l c b', w1)
        | _ => (RWhile l c b', w1)
        end).
      pose proof (ifr_oblock_l b H w F3) as Gb. destruct (oblock b w) as [b' w1]. cbn [fst] in *.
      destruct c; try (cbn [fst rs_texts]; fold (rob_texts b'); split_all).
      destruct (_ =? 0); cbn [fst rs_texts]; fold (rob_texts b'); split_all; constructor.
    - cbn [rs_texts] in F. rewrite !ok_cons, !Forall_app in F. destruct F as (F1 & F2 & F3 & F4 & F5).
      change (ifr_stmt (RFor l d lx a b body) w) with (let (body', w1) := block body w in (RFor l d lx a b body', w1)).
      pose proof (ifr_block_l body H w F5) as G. destruct (block body w). cbn [fst rs_texts] in *. split_all.
  Qed.
  Lemma ifr_body_l b : forall w, ok (flat_map rs_texts b) -> ok (flat_map rs_texts (fst (ifr_block b w))).
  Proof.
    induction b as [|s b IH]; intros w F; cbn [ifr_block flat_map fst] in *; [constructor|].
    apply Forall_app in F. destruct F as [F1 F2]. pose proof (ifr_stmt_l s w F1) as G. destruct (ifr_stmt s w) as [s' w1]. specialize (IH w1 F2).
    destruct (ifr_block b w1). cbn [fst flat_map] in *. apply Forall_app. auto.
  Qed.
  Lemma ifr_items_l l : forall w, Forall ril l -> Forall ril (fst (ifr_items l w)).
  Proof.
    induction l as [|i l IH]; intros w F; cbn [ifr_items fst]; [constructor|]. inversion F as [|? ? F1 F2]; subst.
    destruct i; try (specialize (IH w F2); destruct (ifr_items l w); cbn [fst] in *; constructor; assumption).
    cbn [ri_texts] in F1. rewrite (Forall_app L) in F1. destruct F1 as (A & C). pose proof (ifr_body_l body w C) as G.
    destruct (ifr_block body w) as [b w1]. specialize (IH w1 F2). destruct (ifr_items l w1). cbn [fst] in *. constructor; [|assumption].
    cbn [ri_texts]. apply Forall_app. split; assumption.
  Qed.
  Lemma run_optimize_l on items n r n' : Forall ril items -> run_optimize on items n = Ok (r, n') -> Forall ril r.
  Proof.
    intros F E. unfold run_optimize in E. destruct on; [|inversion E; subst; exact F]. inv_bind E. destruct a as [r0 n1]. inversion E; subst.
    assert (G : Forall ril r0).
    { unfold const_expr in E0. assert (H : Forall2 (fun _ i => ril i) (map post_ret items) r0).
      { eapply each_inv; [|exact E0]. apply Forall_forall. intros i I0 s b s' X. eapply fold_item_l; [|exact X].
        apply in_map_iff in I0. destruct I0 as (j & <- & I0). apply post_ret_l. rewrite Forall_forall in F. apply F. exact I0. }
      clear -H. induction H; constructor; assumption. }
    unfold if_remove. pose proof (ifr_items_l r0 [] G) as K. destruct (ifr_items r0 []) as [r1 w]. cbn [fst] in K.
    apply Forall_forall. intros i I0. apply in_map_iff in I0. destruct I0 as (j & <- & I0). rewrite set_item_texts.
    rewrite Forall_forall in K. apply K. exact I0.
  Qed.

End Opt.

(** ** The generator *)
Section Generator.
  Variable L : bytes -> Prop.
  Notation ok := (Forall L).

  Lemma flat_l {A} (g h : A -> list bytes) l : Forall (fun a => ok (g a) -> ok (h a)) l -> ok (flat_map g l) -> ok (flat_map h l).
  Proof. intros F. induction F as [|a l H F IH]; cbn [flat_map]; intros K; [constructor|]. rewrite Forall_app in *. tauto. Qed.
  Ltac conjs := repeat match goal with H : _ /\ _ |- _ => destruct H end.
  Ltac heads := repeat match goal with H : ok (_ :: _) |- _ => inversion H; clear H; subst end.

  Lemma estrs_l : forall e, ok (re_texts e) -> ok (estrs e).
  Proof.
    induction e using rexpr_nested; cbn [re_texts estrs]; intros K; try (constructor; fail); heads; rewrite ?Forall_app in *;
      conjs; try (split; auto; fail); auto.
    - eapply flat_l; eassumption.
    - split; auto. eapply flat_l; eassumption.
  Qed.
  Lemma estrs_all es : ok (flat_map re_texts es) -> ok (flat_map estrs es).
  Proof. apply flat_l. apply Forall_forall. intros e _. apply estrs_l. Qed.
  Lemma oestrs_l o : ok (ore_texts o) -> ok (match o with Some e => estrs e | None => [] end).
  Proof. destruct o; cbn [ore_texts]; [apply estrs_l|auto]. Qed.
  Lemma sstrs_l : forall s, ok (rs_texts s) -> ok (sstrs s).
  Proof.
    assert (O : forall o, oall (fun s => ok (rs_texts s) -> ok (sstrs s)) o ->
      ok (match o with Some b => flat_map rs_texts b | None => [] end) -> ok (match o with Some b => flat_map sstrs b | None => [] end)).
    { intros [b|] H K; [eapply flat_l; eassumption|constructor]. }
    induction s using rstmt_nested; cbn [rs_texts sstrs estrs]; intros K; heads; rewrite ?Forall_app in *; conjs.
    - destruct (vd_kind d); try constructor. destruct (vd_const d); [constructor|]. now apply oestrs_l.
    - auto using estrs_l.
    - split; auto using estrs_l.
    - split; auto using estrs_l.
    - split; auto using estrs_l, estrs_all.
    - repeat split; auto using estrs_l.
    - split; auto using estrs_l.
    - repeat split; auto using estrs_l. eapply flat_l; eassumption.
    - now apply oestrs_l.
  Qed.
  Lemma local_names_l : forall s, ok (rs_texts s) -> ok (map vd_name (local_decls s)).
  Proof.
    assert (B : forall b, Forall (fun s => ok (rs_texts s) -> ok (map vd_name (local_decls s))) b ->
      ok (flat_map rs_texts b) -> ok (map vd_name (flat_map local_decls b))).
    { intros b F. induction F as [|s b H F IH]; cbn [flat_map map]; intros K; [constructor|]. rewrite map_app, Forall_app in *. tauto. }
    assert (O : forall o, oall (fun s => ok (rs_texts s) -> ok (map vd_name (local_decls s))) o ->
      ok (match o with Some b => flat_map rs_texts b | None => [] end) -> ok (map vd_name (match o with None => [] | Some b => flat_map local_decls b end))).
    { intros [b|] H K; [eapply B; eassumption|constructor]. }
    induction s using rstmt_nested; cbn [rs_texts local_decls map]; intros K; heads; rewrite ?Forall_app in *; conjs; auto.
    - rewrite map_app, Forall_app. auto.
  Qed.
  Lemma body_names_l b : ok (flat_map rs_texts b) -> ok (map vd_name (flat_map local_decls b)).
  Proof.
    induction b as [|s b IH]; cbn [flat_map map]; intros K; [constructor|]. rewrite map_app, Forall_app in *. destruct K. auto using local_names_l.
  Qed.

  Hypothesis L0 : L [].
  Hypothesis LI : L init_name.
  Lemma add_init_l items n : Forall (fun i => ok (ri_texts i)) items -> Forall (fun i => ok (ri_texts i)) (add_init items n).
  Proof.
    intros F. unfold add_init. apply Forall_app. split; [exact F|]. constructor; [|constructor]. cbn [ri_texts fd_name map app].
    constructor; [exact LI|]. induction F as [|i l H F IH]; cbn [flat_map]; [constructor|]. rewrite flat_map_app, Forall_app. split; [|exact IH].
    destruct i as [f|d [e|]|f args body lend]; cbn [init_assign]; try constructor. destruct (vd_const d); [constructor|].
    cbn [ri_texts ore_texts] in H. inversion H; subst. cbn [flat_map rs_texts app]. rewrite app_nil_r. constructor; [exact L0|assumption].
  Qed.

  (** The texts of a program: its strings, and the names of its functions with
      those of their parameters and locals. *)
  Lemma generate_l items n p : program_ok items n -> Forall (fun i => ok (ri_texts i)) items -> generate items n = Ok p ->
    ok (p_strings p) /\
    Forall (fun f => L (f_name f) /\ ok (map i_name (f_args f)) /\ ok (map i_name (f_locals f))) (p_functions p).
  Proof.
    intros Pok F Gen. destruct (made items n p p Gen Pok (bound_self p)) as [_ Fu St _ _ _]. pose proof (add_init_l items n F) as G. fold (g_items items n) in G.
    rewrite Fu, St. split.
    - clear Fu St. induction G as [|i l H G IH]; cbn [flat_map]; [constructor|]. apply Forall_app. split; [|exact IH].
      destruct i; cbn [item_strs]; try constructor. cbn [ri_texts] in H. rewrite Forall_app in H. destruct H as [_ H].
      eapply flat_l; [|exact H]. apply Forall_forall. intros s _. apply sstrs_l.
    - apply Forall_forall. intros f I0. apply in_map_iff in I0. destruct I0 as (q & <- & I0). clear Fu St.
      unfold g_layout in I0. destruct (in_layout _ _ _ _ _ _ _ _ I0) as (lend & I1). rewrite Forall_forall in G. specialize (G _ I1).
      cbn [ri_texts] in G. rewrite Forall_app in G. destruct G as [G1 G2]. inversion G1; subst. cbn [placed_function f_name f_args f_locals].
      assert (M : forall m ds, map i_name (map (ident_of m) ds) = map vd_name ds) by (intros; rewrite map_map; reflexivity).
      rewrite !M. auto using body_names_l.
  Qed.
End Generator.

(** ** The sources *)
Lemma token_text t : t_str t = [] \/ tk t = TOK_IDENT (t_str t) \/ tk t = TOK_STRING (t_str t).
Proof. unfold t_str. destruct (tk t); auto. Qed.
Lemma symbols_no_text u t x : In (u, t) symbols -> t <> TOK_IDENT x /\ t <> TOK_STRING x.
Proof. intros I0. unfold symbols in I0. cbn [In] in I0. repeat (destruct I0 as [I0|I0]; [inversion I0; split; discriminate|]). contradiction. Qed.
Lemma word_no_string w x : word_tok w <> TOK_STRING x /\ (word_tok w = TOK_IDENT x -> w = x).
Proof.
  unfold word_tok. destruct (find _ reserved) as [[u t]|] eqn:E; [|split; [discriminate|congruence]]. apply find_some in E. destruct E as [I0 _].
  cbn [snd]. unfold reserved in I0. cbn [In] in I0. repeat (destruct I0 as [I0|I0]; [inversion I0; split; discriminate|]). contradiction.
Qed.
Lemma lexeme_name w x : lexeme w (Some (TOK_IDENT x)) -> w = x.
Proof.
  intros H. inversion H as [| | | |w0 N E1 E2|u t I0 E1 E2| |]; subst.
  - apply (word_no_string w x). assumption.
  - destruct (symbols_no_text _ _ x I0). congruence.
Qed.
Lemma lexeme_string w x : lexeme w (Some (TOK_STRING x)) -> w = 34 :: x ++ [34].
Proof.
  intros H. inversion H as [| | | |w0 N E1 E2|u t I0 E1 E2| |]; subst; try reflexivity.
  - destruct (word_no_string w x). congruence.
  - destruct (symbols_no_text _ _ x I0). congruence.
Qed.

Definition text_in (m : list source_t) (x : bytes) : Prop := x = [] \/ written m x.
Lemma text_in_more m new x : text_in m x -> text_in (m ++ new) x.
Proof.
  intros [H|(s & data & b & w & a & I0 & R)]; [now left|right]. exists s, data, b, w, a. split; [apply in_or_app; now left|exact R].
Qed.
Lemma lex_texts m index s data ts : znth m index = Some s -> so_data s = Some data -> lex index data = Ok ts -> Forall (tok_l (text_in m)) ts.
Proof.
  intros Z0 D E. pose proof E as E1. unfold lex in E1. apply lex_from_lexemes in E1. apply Forall_forall. intros t I0. unfold tok_l.
  destruct (token_text t) as [H|H]; [left; exact H|right].
  destruct t as [t l]. cbn [tk] in H. assert (N : t <> TOK_EOL /\ t <> TOK_EOF) by (split; intros ->; destruct H; discriminate).
  destruct (SrcLines.lexemes_word _ _ _ _ E1 t l I0 (proj1 N) (proj2 N)) as (b & w & a & C & Lx & _).
  exists s, data, b, w, a. split; [eapply znth_In; exact Z0|]. split; [exact D|]. split; [exact C|].
  set (x := t_str (Token t l)) in *. clearbody x. destruct H; subst t; [left|right]; (split; [|exact Lx]); [now apply lexeme_name|now apply lexeme_string].
Qed.
Lemma parse_sources_texts fuel fs : forall m index left acc items m', 0 <= index ->
  Forall (fun e => Forall (text_in m) (e_texts e)) left -> Forall (fun i => Forall (text_in m) (i_texts i)) acc ->
  parse_sources fuel fs m index left acc = Ok (items, m') ->
  Forall (fun i => Forall (text_in m') (i_texts i)) items.
Proof.
  induction fuel as [|fuel IH]; intros m index left acc items m' I0 F A E; cbn [parse_sources] in E;
    (destruct (znth m index) as [src|] eqn:Z0; [|inversion E; subst; assumption]); [discriminate|].
  destruct (so_data src) as [data|] eqn:D; [|discriminate].
  apply bind_ok in E. destruct E as (ts & E1 & E). apply bind_ok in E. destruct E as ([[is m1] st] & E2 & E).
  pose proof (lex_texts _ _ _ _ _ Z0 D E1) as Tl. unfold parse in E2.
  assert (L0 : text_in m []) by now left.
  pose proof (items_l (text_in m) L0 fs src (parse_fuel ts) m (PSt ts (Line 0 0) [] left)) as G.
  pose proof (items_loads _ _ _ _ _ _ _ _ E2) as LD. destruct (loads_grown _ _ _ _ _ LD) as (new & -> & _).
  rewrite E2 in G. cbn [outs fst snd] in G. destruct G as [G1 G2]; [split; [exact Tl|constructor|exact F]|].
  assert (M : forall l, Forall (text_in m) l -> Forall (text_in (m ++ new)) l).
  { intros l H. eapply Forall_impl; [|exact H]. intros x. apply text_in_more. }
  eapply IH; [| | |exact E]; [lia| |].
  - eapply Forall_impl; [|exact G2]. intros e. apply M.
  - apply Forall_app. split; [eapply Forall_impl; [|exact A]|eapply Forall_impl; [|exact G1]]; intros i; apply M.
Qed.

(** ** Builds *)
Lemma build_texts fuel fs addr on regs m src m' p :
  parse_sources fuel fs m 0 [] [] = Ok (src, m') -> build fuel fs addr on regs m = Ok (Some p) ->
  Forall (text_in m') (p_strings p) /\
  Forall (fun x => x = init_name \/ text_in m' x) (names_in p).
Proof.
  intros P B.
  destruct (build_parts _ _ _ _ _ _ _ B) as (src' & m2 & items & n & items' & n' & E1 & E2 & P1 & E3 & P2 & E4).
  rewrite P in E1. inversion E1; subst src' m2. clear E1.
  pose proof (parse_sources_texts fuel fs m 0 [] [] src m' (Z.le_refl 0) (Forall_nil _) (Forall_nil _) P) as Li.
  assert (G : forall L : bytes -> Prop, (forall x, text_in m' x -> L x) -> Forall (fun i => Forall L (ri_texts i)) items').
  { intros L H. assert (L0 : L []) by (apply H; now left).
    assert (C : Forall (child_l L) (map (fun x => CSys (fst x) (snd x)) regs ++ map CItem src)).
    { apply Forall_app. split; apply Forall_forall; intros c Ic; apply in_map_iff in Ic; destruct Ic as (x & <- & Ic); [exact Logic.I|].
      cbn [child_l]. rewrite Forall_forall in Li. eapply Forall_impl; [|exact (Li x Ic)]. exact H. }
    eapply run_optimize_l; [|exact E3]. eapply run_sema_l; [exact L0|exact C|exact E2]. }
  set (L' := fun x => x = init_name \/ text_in m' x).
  assert (S1 : Forall (text_in m') (p_strings p)).
  { pose proof (G (text_in m') (fun x H => H)) as S. pose proof (made items' n' p p E4 P2 (bound_self p)) as Mk.
    rewrite (gd_strs _ _ _ _ Mk). assert (L0 : text_in m' []) by now left. clear Mk. unfold g_items, add_init. rewrite flat_map_app. apply Forall_app.
    assert (K : forall f args body lend, Forall (text_in m') (flat_map rs_texts body) -> Forall (text_in m') (item_strs (RFunc f args body lend))).
    { intros f args body lend H. cbn [item_strs]. eapply flat_l; [|exact H]. apply Forall_forall. intros s _. apply sstrs_l. }
    split.
    - clear -S K. induction S as [|i l H S IH]; cbn [flat_map]; [constructor|]. apply Forall_app. split; [|exact IH].
      destruct i; try constructor. apply K. cbn [ri_texts] in H. rewrite Forall_app in H. tauto.
    - cbn [flat_map]. rewrite app_nil_r. apply K. clear -S L0. induction S as [|i l H S IH]; cbn [flat_map]; [constructor|].
      rewrite flat_map_app, Forall_app. split; [|exact IH].
      destruct i as [f|d [e|]|f args body lend]; cbn [init_assign]; try constructor. destruct (vd_const d); [constructor|].
      cbn [ri_texts ore_texts] in H. inversion H; subst. cbn [flat_map rs_texts app]. rewrite app_nil_r. constructor; [exact L0|assumption]. }
  split; [exact S1|].
  destruct (generate_l L' (or_intror (or_introl eq_refl)) (or_introl eq_refl) items' n' p P2 (G L' (fun x H => or_intror H)) E4) as [_ S2].
  unfold names_in. clear -S2. induction S2 as [|f l (A & B & C) S2 IH]; cbn [flat_map]; [constructor|].
  apply Forall_app. split; [|exact IH]. constructor; [exact A|]. apply Forall_app. auto.
Qed.

(** The bytes of a text come from the sources it stands in. *)
Lemma written_bytes (P : Z -> Prop) m x : (forall s data, In s m -> so_data s = Some data -> Forall P (cstr data)) -> text_in m x -> Forall P x.
Proof.
  intros H [->|(s & data & b & w & a & I0 & D & C & K)]; [constructor|]. specialize (H s data I0 D). rewrite C, !Forall_app in H. destruct H as (_ & H & _).
  destruct K as [[-> _]|[-> _]]; [exact H|]. inversion H; subst. rewrite Forall_app in H3. tauto.
Qed.
Lemma cstr_no_nul s : Forall (fun c => c <> 0) (cstr s).
Proof. induction s as [|c s IH]; cbn [cstr]; [constructor|]. destruct (c =? 0) eqn:E; constructor; [lia|exact IH]. Qed.
Lemma build_nonul fuel fs addr on regs m p : build fuel fs addr on regs m = Ok (Some p) -> prog_nonul p.
Proof.
  intros B. destruct (build_parts _ _ _ _ _ _ _ B) as (src & m' & _ & _ & _ & _ & P & _).
  destruct (build_texts _ _ _ _ _ _ _ _ _ P B) as [S _]. unfold prog_nonul. eapply Forall_impl; [|exact S].
  intros x H I0. pose proof (written_bytes (fun c => c <> 0) m' x (fun s d _ _ => cstr_no_nul d) H) as K. rewrite Forall_forall in K. exact (K 0 I0 eq_refl).
Qed.
Lemma bound_nonul fuel fs addr on regs m p q : build fuel fs addr on regs m = Ok (Some p) -> bound p q -> prog_nonul q.
Proof. intros B Bo. unfold prog_nonul. rewrite (bo_strings _ _ Bo). eapply build_nonul. exact B. Qed.
