(** Proof support for C98: the lines in a program are lines of tokens of its sources. *)
From Coq Require Import ZArith List Bool Lia String ZifyBool.
From Verif Require Import Base BaseFacts F32 Instr Program CgCode Source SourceProofs Lexer LexSpec LexFacts Ast Parser ParseFacts ParseSafe PrintFacts
  Sema SemaSpec SemaFacts ConstFacts Optimize OptFacts Codegen SrcSem CgSpec BuildSpec CgWell ParseFine ImportFacts Build LineSpec LineFacts Events LineOrigin.
Import ListNotations.
Open Scope list_scope.
Open Scope Z_scope.

(** ** The lines kept in a tree *)
Fixpoint e_lines (e : expr) : list line_t :=
  match e with
  | EInt _ l | EFloat _ l | EStr _ l | ENone l | EIdent _ l => [l]
  | EMember _ l _ lm => [l; lm]
  | EArray l es => l :: flat_map e_lines es
  | EIndex l a i => l :: e_lines a ++ e_lines i
  | ECall l f es => l :: e_lines f ++ flat_map e_lines es
  | EBin _ l a b => l :: e_lines a ++ e_lines b
  | EUn _ l a => l :: e_lines a
  end.
Definition oe_lines (o : option expr) : list line_t := match o with Some e => e_lines e | None => [] end.
Fixpoint s_lines (s : stmt) : list line_t :=
  match s with
  | SVar _ l oe => l :: oe_lines oe
  | SAssign _ l e => l :: e_lines e
  | SSetMem _ l _ lm e => l :: lm :: e_lines e
  | SSetIdx _ l i e => l :: e_lines i ++ e_lines e
  | SCall _ l lc es => l :: lc :: flat_map e_lines es
  | SIf l c t f => l :: e_lines c ++ flat_map s_lines t ++ match f with Some b => flat_map s_lines b | None => [] end
  | SWhile l c b => l :: e_lines c ++ flat_map s_lines b
  | SFor l _ lx a b body => l :: lx :: e_lines a ++ e_lines b ++ flat_map s_lines body
  | SReturn l oe => l :: oe_lines oe
  end.
Definition i_lines (i : item) : list line_t :=
  match i with
  | TVar _ l oe | TConst _ l oe => l :: oe_lines oe
  | TFunc _ l args body lend => l :: lend :: flat_map s_lines body
  | TImport _ l => [l]
  end.
Fixpoint re_lines (e : rexpr) : list line_t :=
  match e with
  | RInt _ _ l => match l with Some l => [l] | None => [] end
  | RFloat _ l | RStr _ l | RNone l | RIdent _ l => [l]
  | RMember _ l _ lm => [l; lm]
  | RArray l es => l :: flat_map re_lines es
  | RIndex l a i => l :: re_lines a ++ re_lines i
  | RCall l f es => l :: re_lines f ++ flat_map re_lines es
  | RBin _ l a b => l :: re_lines a ++ re_lines b
  | RUn _ l a => l :: re_lines a
  end.
Definition ore_lines (o : option rexpr) : list line_t := match o with Some e => re_lines e | None => [] end.
Fixpoint rs_lines (s : rstmt) : list line_t :=
  let block o := match o with Some b => flat_map rs_lines b | None => [] end in
  match s with
  | RVar d oe => vd_line d :: ore_lines oe
  | RAssign _ l e => l :: re_lines e
  | RSetMem _ l _ lm e => l :: lm :: re_lines e
  | RSetIdx _ l i e => l :: re_lines i ++ re_lines e
  | RCallS l f es => l :: re_lines f ++ flat_map re_lines es
  | RIf l c t f => l :: re_lines c ++ block t ++ block f
  | RWhile l c b => l :: re_lines c ++ block b
  | RFor l _ lx a b body => l :: lx :: re_lines a ++ re_lines b ++ flat_map rs_lines body
  | RReturn l oe => l :: ore_lines oe
  end.
Definition rob_lines (o : option (list rstmt)) : list line_t := match o with Some b => flat_map rs_lines b | None => [] end.
Definition ri_lines (i : ritem) : list line_t :=
  match i with
  | RSys _ => []
  | RGlobal d oe => vd_line d :: ore_lines oe
  | RFunc f _ body lend => match fd_line f with Some l => [l] | None => [] end ++ lend :: flat_map rs_lines body
  end.

Section Lines.
  Variable L : line_t -> Prop.
  Notation ok := (Forall L).

  Lemma ok_flat {A} (g : A -> list line_t) l : ok (flat_map g l) <-> Forall (fun a => ok (g a)) l.
  Proof.
    induction l as [|a l IH]; cbn [flat_map]; [split; constructor|]. rewrite Forall_app, IH. split.
    - intros [H1 H2]. constructor; assumption.
    - intros H. now inversion H.
  Qed.
  Lemma ok_cons l ls : ok (l :: ls) <-> L l /\ ok ls.
  Proof. split; [intros H; now inversion H|intros [? ?]; now constructor]. Qed.

  (** ** Parsing *)
  Definition tok_l (t : token) : Prop := kind_of (tk t) <> K_EOL -> kind_of (tk t) <> K_EOF -> L (tk_line t).
  Definition is_op (k : kind) : Prop := op_type k <> 0.
  Record pl (s : pst) : Prop := Pl {
    pl_toks : Forall tok_l (p_toks s);
    pl_ops : Forall (fun t => L (tk_line t)) (p_ops s);
    pl_exp : Forall (fun e => ok (e_lines e)) (p_exp s) }.
  Definition pair_l {A} (P : A -> Prop) (x : A * pst) : Prop := P (fst x) /\ pl (snd x).
  Definition real (k : kind) : bool := match k with K_EOL | K_EOF => false | _ => true end.
  Lemma tok_real t : tok_l t -> real (kind_of (tk t)) = true -> L (tk_line t).
  Proof. intros T R. apply T; intros E; rewrite E in R; discriminate. Qed.

  Lemma pop_l s : pl s -> outs (pair_l tok_l) (pop s).
  Proof. intros [T O E]. unfold pop. destruct (p_toks s); [exact Logic.I|]. inversion T; subst. split; [assumption|]. split; assumption. Qed.
  (** after a look at the next token *)
  Lemma pop_k s k : pl s -> ptype s = Ok k -> real k = true -> outs (pair_l (fun t => L (tk_line t))) (pop s).
  Proof.
    intros H P R. unfold ptype in P. pose proof (pop_l s H) as Q. unfold pop in *. destruct (p_toks s) as [|t r]; [discriminate|]. inversion P; subst.
    destruct Q as [Q1 Q2]. split; [apply tok_real; [exact Q1|exact R]|exact Q2].
  Qed.
  Lemma peek_type s : outs (fun k => ptype s = Ok k) (peek s).
  Proof. unfold peek, ptype. destruct (p_toks s); [exact Logic.I|reflexivity]. Qed.
  Definition opt_l (k : kind) (o : option token) : Prop := match o with Some t => real k = true -> L (tk_line t) | None => True end.
  Lemma found_l k s : pl s -> outs (pair_l (opt_l k)) (found k s).
  Proof.
    intros H. destruct H as [T O E]. unfold found, ptype. destruct (p_toks s) as [|t r] eqn:P; [exact Logic.I|]. cbn [bind].
    destruct (kind_eqb (kind_of (tk t)) k) eqn:K.
    - unfold pop. rewrite P. cbn [bind outs]. inversion T; subst. split; cbn [fst snd opt_l].
      + apply kind_eqb_eq in K. intros R. apply tok_real; [assumption|]. now rewrite K.
      + split; assumption.
    - split; [exact Logic.I|]. split; [cbn [snd]; rewrite P| |]; assumption.
  Qed.
  Lemma popk_l k s : pl s -> outs (pair_l (fun t => real k = true -> L (tk_line t))) (popk k s).
  Proof.
    intros H. unfold popk. eapply outs_bind; [apply found_l; exact H|]. intros [[t|] s1] [A B]; cbn [fst snd] in *.
    - split; assumption.
    - destruct (p_toks s); [exact Logic.I|]. destruct k; try apply perr_outs; exact Logic.I.
  Qed.
  Lemma skip_eols_l s : pl s -> outs pl (skip_eols s).
  Proof.
    intros [T O E]. unfold skip_eols.
    assert (G : forall ts l, Forall tok_l ts -> outs (fun x => Forall tok_l (fst x)) (skip_eols_from ts l)).
    { induction ts as [|t ts IH]; intros l F; cbn [skip_eols_from]; [exact Logic.I|]. inversion F; subst.
      destruct (kind_eqb _ _); [auto|]. cbn [outs fst]. assumption. }
    eapply outs_bind; [apply G; exact T|]. intros [ts l] F. split; assumption.
  Qed.
  Lemma pop_exp_l x s : pl s -> outs (pair_l (fun e => ok (e_lines e))) (pop_exp x s).
  Proof. intros [T O E]. unfold pop_exp. destruct (p_exp s); [exact Logic.I|]. inversion E; subst. split; [assumption|]. split; assumption. Qed.
  Lemma push_l e s : ok (e_lines e) -> pl s -> pl (push_exp e s).
  Proof. intros F [T O E]. split; [exact T|exact O|]. constructor; assumption. Qed.
  Lemma op_reduce_l op es : L (tk_line op) -> Forall (fun e => ok (e_lines e)) es -> outs (Forall (fun e => ok (e_lines e))) (op_reduce op es).
  Proof.
    intros Lo F. unfold op_reduce. destruct (binop_of _).
    - destruct es as [|b' [|a r]]; try exact Logic.I. inversion F as [|? ? F1 F2]; subst. inversion F2; subst. constructor; [|assumption].
      cbn [e_lines]. rewrite ok_cons, Forall_app. auto.
    - destruct (kind_of (tk op)); try exact F. destruct es; [exact Logic.I|]. inversion F; subst. constructor; [|assumption].
      cbn [e_lines]. rewrite ok_cons. auto.
  Qed.
  Definition stacks_l (x : list token * list expr) : Prop := Forall (fun t => L (tk_line t)) (fst x) /\ Forall (fun e => ok (e_lines e)) (snd x).
  Lemma reduce_while_l q tide : forall ops es, stacks_l (ops, es) -> outs stacks_l (reduce_while q tide ops es).
  Proof.
    induction ops as [|t ops IH]; intros es F; cbn [reduce_while]; [exact F|]. destruct F as [F1 F2]; cbn [fst snd] in *.
    destruct (_ && _); [|split; assumption]. inversion F1; subst. eapply outs_bind; [apply op_reduce_l; assumption|]. intros es1 F3. apply IH. split; assumption.
  Qed.
  Lemma op_push_l op tide s : L (tk_line op) -> pl s -> outs pl (op_push op tide s).
  Proof.
    intros Lo [T O E]. unfold op_push. eapply outs_bind; [apply reduce_while_l; split; assumption|]. intros [ops es] [F1 F2]; cbn [fst snd] in *.
    split; [exact T| |exact F2]. constructor; assumption.
  Qed.
  Lemma op_pop_all_l tide s : pl s -> outs pl (op_pop_all tide s).
  Proof.
    intros [T O E]. unfold op_pop_all. eapply outs_bind; [apply reduce_while_l; split; assumption|]. intros [ops es] [F1 F2]. split; assumption.
  Qed.

  Notation el := (fun e => ok (e_lines e)).
  Definition expr_l_at (n : nat) : Prop :=
    (forall s, pl s -> outs (pair_l el) (parse_expr n s)) /\
    (forall tide s, pl s -> outs pl (parse_expr_ex n tide s)) /\
    (forall s, pl s -> outs pl (parse_suffix n s)) /\
    (forall s, pl s -> outs pl (parse_lhs n s)) /\
    (forall s, pl s -> outs (pair_l (Forall el)) (parse_exprs n s)) /\
    (forall s, pl s -> outs (pair_l (Forall el)) (parse_call n s)).
  Lemma els es : Forall el es -> ok (flat_map e_lines es).
  Proof. intros H. apply ok_flat. exact H. Qed.

  Lemma expr_l n : expr_l_at n.
  Proof.
    induction n as [|n (IHe & IHx & IHs & IHl & IHes & IHc)]; [repeat split; intros; exact Logic.I|].
    repeat split.
    - intros s H. rewrite parse_expr_S. cbv zeta. eapply outs_bind; [apply IHx; exact H|]. intros s1 H1.
      eapply outs_bind; [apply op_pop_all_l; exact H1|]. intros s2 H2. apply pop_exp_l. exact H2.
    - intros tide s H. rewrite parse_expr_ex_S. eapply outs_bind; [apply (found_l K_NOT); exact H|]. intros [[t|] s1] [A B]; cbn [fst snd] in A, B.
      { eapply outs_bind; [apply IHx; exact B|]. intros s2 H2. apply op_push_l; [apply A; reflexivity|exact H2]. }
      eapply outs_bind; [apply (found_l K_SUB); exact H|]. clear s1 A B. intros [[t|] s1] [A B]; cbn [fst snd] in A, B.
      { eapply outs_bind; [apply IHx; exact B|]. intros s2 H2. eapply outs_bind; [apply pop_exp_l; exact H2|].
        intros [e s3] [F3 H3]; cbn [fst snd] in *. apply push_l; [|assumption]. cbn [e_lines]. rewrite ok_cons. auto. }
      eapply outs_bind; [apply IHl; exact H|]. intros s2 H2. eapply outs_bind; [apply IHs; exact H2|]. intros s3 H3.
      unfold is_operator. destruct (ptype s3) as [k| |] eqn:K; try exact Logic.I. cbn [bind].
      destruct (0 <? op_type k) eqn:OT; [|exact H3].
      eapply outs_bind; [eapply pop_k; [exact H3|exact K|destruct k; (reflexivity || discriminate)]|]. intros [op s4] [F4 H4]; cbn [fst snd] in *.
      eapply outs_bind; [apply op_push_l; [exact F4|exact H4]|]. intros s5 H5. apply IHx. exact H5.
    - intros s H. rewrite parse_suffix_S. eapply outs_bind; [apply (found_l K_LBRACKET); exact H|]. intros [[t|] s1] [A B]; cbn [fst snd] in A, B.
      { eapply outs_bind; [apply pop_exp_l; exact B|]. intros [a s2] [Fa H2]; cbn [fst snd] in *.
        eapply outs_bind; [apply IHe; exact H2|]. intros [i s3] [Fi H3]; cbn [fst snd] in *.
        eapply outs_bind; [apply popk_l; apply push_l; [|exact H3]; cbn [e_lines]; rewrite ok_cons, Forall_app; auto|].
        intros [u s4] [_ H4]; cbn [fst snd] in *. apply IHs. exact H4. }
      eapply outs_bind; [apply (found_l K_LPAREN); exact H|]. clear s1 A B. intros [[t|] s1] [A B]; cbn [fst snd] in A, B.
      { eapply outs_bind; [apply IHc; exact B|]. intros [es s2] [Fa H2]; cbn [fst snd] in *.
        eapply outs_bind; [apply pop_exp_l; exact H2|]. intros [f s3] [Fi H3]; cbn [fst snd] in *.
        apply IHs. apply push_l; [|exact H3]. cbn [e_lines]. rewrite ok_cons, Forall_app. split; [auto|]. split; [exact Fi|]. now apply els. }
      exact H.
    - intros s H. rewrite parse_lhs_S. eapply outs_bind; [apply (found_l K_LBRACKET); exact H|]. intros [[t|] s1] [A B]; cbn [fst snd] in A, B.
      { eapply outs_bind; [apply IHes; exact B|]. intros [es s2] [Fa H2]; cbn [fst snd] in *.
        eapply outs_bind; [apply popk_l; apply push_l; [|exact H2]|].
        - cbn [e_lines]. rewrite ok_cons. split; [auto|]. now apply els.
        - intros [u s4] [_ H4]. exact H4. }
      clear s1 A B. eapply outs_bind; [apply (found_l K_LPAREN); exact H|]. intros [[t|] s1] [A B]; cbn [fst snd] in A, B.
      { eapply outs_bind; [apply IHe; exact B|]. intros [e s2] [Fa H2]; cbn [fst snd] in *.
        eapply outs_bind; [apply popk_l; apply push_l; [exact Fa|exact H2]|]. intros [u s4] [_ H4]. exact H4. }
      clear s1 A B. eapply outs_bind; [apply (found_l K_IDENT); exact H|]. intros [[t|] s1] [A B]; cbn [fst snd] in A, B.
      { eapply outs_bind; [apply (found_l K_DOT); exact B|]. intros [[d|] s2] [Fa H2]; cbn [fst snd] in *.
        - eapply outs_bind; [apply popk_l; exact H2|]. intros [u s4] [Fu H4]; cbn [fst snd] in *. apply push_l; [|exact H4].
          cbn [e_lines]. repeat constructor; [apply A|apply Fu]; reflexivity.
        - apply push_l; [|exact H2]. cbn [e_lines]. repeat constructor. apply A. reflexivity. }
      clear s1 A B. eapply outs_bind; [apply (found_l K_INT); exact H|]. intros [[t|] s1] [A B]; cbn [fst snd] in A, B.
      { apply push_l; [|exact B]. repeat constructor. apply A. reflexivity. }
      clear s1 A B. eapply outs_bind; [apply (found_l K_FLOAT); exact H|]. intros [[t|] s1] [A B]; cbn [fst snd] in A, B.
      { apply push_l; [|exact B]. repeat constructor. apply A. reflexivity. }
      clear s1 A B. eapply outs_bind; [apply (found_l K_STRING); exact H|]. intros [[t|] s1] [A B]; cbn [fst snd] in A, B.
      { apply push_l; [|exact B]. repeat constructor. apply A. reflexivity. }
      clear s1 A B. eapply outs_bind; [apply (found_l K_NONE); exact H|]. intros [[t|] s1] [A B]; cbn [fst snd] in A, B.
      { apply push_l; [|exact B]. repeat constructor. apply A. reflexivity. }
      eapply outs_bind; [apply outs_any|]. intros [t s2] _. apply perr_outs.
    - intros s H. rewrite parse_exprs_S. eapply outs_bind; [apply IHe; exact H|]. intros [e s1] [Fe H1]; cbn [fst snd] in *.
      eapply outs_bind; [apply (found_l K_COMMA); exact H1|]. intros [[t|] s2] [A B]; cbn [fst snd] in A, B.
      + eapply outs_bind; [apply IHes; exact B|]. intros [es s3] [Fes H3]; cbn [fst snd] in *. split; [constructor; assumption|assumption].
      + split; [constructor; [assumption|constructor]|assumption].
    - intros s H. rewrite parse_call_S. eapply outs_bind; [apply (found_l K_RPAREN); exact H|]. intros [[t|] s1] [A B]; cbn [fst snd] in A, B.
      + split; [constructor|assumption].
      + eapply outs_bind; [apply IHes; exact H|]. intros [es s3] [Fes H3]; cbn [fst snd] in *.
        eapply outs_bind; [apply popk_l; exact H3|]. intros [u s4] [_ H4]. split; assumption.
  Qed.

  Ltac bo K := eapply outs_bind; [apply K; eassumption|]; cbv beta;
    let F := fresh "F" in let P := fresh "P" in intros [? ?] [F P]; cbn [fst snd] in F, P.
  Ltac fin := cbn [s_lines oe_lines e_lines fst snd]; repeat (rewrite ok_cons || rewrite Forall_app); repeat match goal with |- _ /\ _ => split end;
    first [assumption | now apply els | apply Forall_nil | match goal with H : real _ = true -> L ?l |- L ?l => apply H; reflexivity end | idtac].
  Lemma e_l n s : pl s -> outs (pair_l el) (parse_expr n s).
  Proof. apply expr_l. Qed.
  Lemma c_l n s : pl s -> outs (pair_l (Forall el)) (parse_call n s).
  Proof. apply expr_l. Qed.
  Notation sl := (fun s => ok (s_lines s)).
  Lemma decl_var_l n s : pl s ->
    outs (fun x => L (snd (fst (fst x))) /\ ok (oe_lines (snd (fst x))) /\ pl (snd x)) (parse_decl_var n s).
  Proof.
    intros H. unfold parse_decl_var. bo popk_l. bo (found_l K_ASSIGN). destruct o.
    - bo e_l. cbn [outs fst snd]. fin.
    - cbn [outs fst snd]. fin.
  Qed.
  Lemma ident_stmt_l n t s : L (tk_line t) -> pl s -> outs (pair_l sl) (parse_ident_stmt n t s).
  Proof.
    intros Lt H. unfold parse_ident_stmt. eapply outs_bind; [apply peek_type|]. intros k Pk. cbn beta in Pk.
    assert (C : real k = true -> outs (pair_l sl) (parse_compound n t s)).
    { intros R. unfold parse_compound. eapply outs_bind; [eapply pop_k; eassumption|]. intros [op s1] [Fo H1]; cbn [fst snd] in *.
      bo (found_l K_ASSIGN). destruct o; [|exact Logic.I]. bo e_l.
      destruct (binop_of _); [|exact Logic.I]. split; [|assumption]. fin. }
    destruct k; try apply perr_outs; try (apply C; reflexivity).
    - eapply outs_bind; [eapply pop_k; [exact H|exact Pk|reflexivity]|]. intros [op s1] [Fo H1]; cbn [fst snd] in *. bo c_l. split; [|assumption]. fin.
    - bo pop_l. unfold parse_array_set. bo e_l. bo popk_l. bo popk_l. bo e_l. split; [|assumption]. fin.
    - bo pop_l. bo e_l. split; [|assumption]. fin.
    - unfold parse_member_assign. bo popk_l. bo popk_l. bo popk_l. bo e_l. split; [|assumption]. fin.
  Qed.
  Lemma return_l n t s : L (tk_line t) -> pl s -> outs (pair_l sl) (parse_return n t s).
  Proof.
    intros Lt H. unfold parse_return. eapply outs_bind; [apply outs_any|]. intros k _.
    destruct k; try (bo e_l; split; [|assumption]; fin). split; [|assumption]. fin.
  Qed.
  Notation bl := (fun b => ok (flat_map s_lines b)).
  Lemma stmt_l n :
    (forall s, pl s -> outs (pair_l sl) (parse_stmt n s)) /\
    (forall s, pl s -> outs (fun x => bl (fst (fst x)) /\ L (tk_line (snd (fst x))) /\ pl (snd x)) (parse_body n s)) /\
    (forall s, pl s -> outs (fun x => bl (fst (fst x)) /\ pl (snd x)) (parse_then n s)).
  Proof.
    induction n as [|n (IHs & IHb & IHt)]; [repeat split; intros; exact Logic.I|]. repeat split.
    - intros s H. rewrite parse_stmt_S. eapply outs_bind; [apply skip_eols_l; exact H|]. intros s0 H0. bo pop_l.
      eapply outs_bind with (P := pair_l sl).
      + assert (Lt : real (kind_of (tk t)) = true -> L (tk_line t)) by (apply tok_real; exact F).
        destruct (kind_of (tk t)); try apply perr_outs; specialize (Lt eq_refl).
        * bo popk_l. bo e_l. bo popk_l. bo popk_l. eapply outs_bind; [apply IHt; eassumption|].
          intros [[b els'] s6] [BB6 PP6]; cbn [fst snd] in *. destruct els'.
          -- eapply outs_bind; [apply IHb; eassumption|]. intros [[f u] s7] (B7 & _ & P7); cbn [fst snd] in *. split; [|assumption]. fin.
          -- split; [|assumption]. fin.
        * bo popk_l. bo e_l. bo popk_l. bo popk_l. eapply outs_bind; [apply IHb; eassumption|].
          intros [[b u] s6] (BB6 & _ & PP6); cbn [fst snd] in *. split; [|assumption]. fin.
        * eapply outs_bind; [apply decl_var_l; eassumption|]. intros [[[x l] e] s2] (B1 & B2 & P2); cbn [fst snd] in *. split; [|assumption]. fin.
        * bo popk_l. bo popk_l. bo popk_l. bo e_l. bo popk_l. bo e_l. bo popk_l. bo popk_l.
          eapply outs_bind; [apply IHb; eassumption|].
          intros [[b u] s10] (BB6 & _ & PP6); cbn [fst snd] in *. split; [|assumption]. fin.
        * apply ident_stmt_l; assumption.
        * apply return_l; assumption.
      + intros [st s2] [Fs H2]; cbn [fst snd] in *. bo popk_l. eapply outs_bind; [apply skip_eols_l; eassumption|].
        intros s4 H4. split; assumption.
    - intros s H. rewrite parse_body_S. bo (found_l K_END). destruct o; [split; [constructor|split; [apply F; reflexivity|assumption]]|].
      bo IHs. eapply outs_bind; [apply IHb; eassumption|]. intros [[b u] s6] (BB6 & Lu & PP6); cbn [fst snd] in *.
      split; [|split; assumption]. cbn [fst flat_map]. apply Forall_app. auto.
    - intros s H. rewrite parse_then_S. bo (found_l K_END). destruct o; [split; [constructor|assumption]|].
      bo (found_l K_ELSE). destruct o; [bo popk_l; split; [constructor|assumption]|].
      eapply outs_bind; [apply IHs; exact H|]. intros [st s2] [Fs H2]; cbn [fst snd] in *.
      eapply outs_bind; [apply IHt; eassumption|]. intros [[b u] s6] [BB6 PP6]; cbn [fst snd] in *.
      split; [|assumption]. cbn [fst flat_map]. apply Forall_app. auto.
  Qed.
  Lemma args_l n : forall s, pl s -> outs (pair_l (fun _ => True)) (parse_args n s).
  Proof.
    induction n as [|n IH]; intros s H; [exact Logic.I|]. rewrite parse_args_S. bo popk_l. bo (found_l K_COMMA). destruct o.
    - bo IH. split; [exact Logic.I|assumption].
    - split; [exact Logic.I|assumption].
  Qed.
  Notation il := (fun i => ok (i_lines i)).
  Lemma function_l n s : pl s -> outs (pair_l il) (parse_function n s).
  Proof.
    intros H. unfold parse_function. bo popk_l. bo popk_l. bo (found_l K_RPAREN).
    eapply outs_bind with (P := pair_l (fun _ => True)).
    - destruct o; [split; [exact Logic.I|assumption]|]. bo args_l. bo popk_l. split; [exact Logic.I|assumption].
    - intros [args s4] [_ H4]; cbn [fst snd] in *. bo popk_l.
      eapply outs_bind; [apply stmt_l; eassumption|]. intros [[b u] s6] (BB6 & Lu & PP6); cbn [fst snd] in *. split; [|assumption].
      cbn [fst i_lines]. rewrite !ok_cons. auto.
  Qed.
  Lemma items_l fs src n : forall m s, pl s ->
    outs (fun x => Forall il (fst (fst x)) /\ Forall el (p_exp (snd x))) (parse_items fs src n m s).
  Proof.
    induction n as [|n IH]; intros m s H; [exact Logic.I|]. rewrite parse_items_S. bo (found_l K_EOF).
    destruct o; [split; [constructor|apply P]|]. eapply outs_bind; [apply pop_l; exact H|]. intros [t s1] [Ft H1]; cbn [fst snd] in *.
    assert (V : forall k, (forall x l e, i_lines (k x l e) = l :: oe_lines e) -> forall s, pl s ->
      outs (fun x => Forall il (fst (fst x)) /\ Forall el (p_exp (snd x)))
        ('(x, l, e, s2) <- parse_decl_var n s ;; '(r, m1, s3) <- parse_items fs src n m s2 ;; Ok (k x l e :: r, m1, s3))).
    { intros k K1 s' H'. eapply outs_bind; [apply decl_var_l; exact H'|]. intros [[[x l] e] s2] (B1 & B2 & P2); cbn [fst snd] in *.
      eapply outs_bind; [apply IH; exact P2|]. intros [[r m1] s3] [B3 P3]; cbn [fst snd] in *. split; [|assumption].
      constructor; [|assumption]. rewrite K1, ok_cons. auto. }
    destruct (kind_of (tk t));
      try (eapply outs_bind; [apply outs_any|]; intros [t2 s2] _; apply perr_outs).
    - eapply outs_bind; [apply function_l; exact H1|]. intros [f s2] [Ff H2]; cbn [fst snd] in *.
      eapply outs_bind; [apply IH; exact H2|]. intros [[r m1] s3] [B3 P3]; cbn [fst snd] in *. split; [constructor; assumption|assumption].
    - apply (V TVar); [reflexivity|exact H1].
    - apply IH. exact H1.
    - apply (V TConst); [reflexivity|exact H1].
    - unfold parse_import. eapply outs_bind with (P := fun x => il (fst (fst x)) /\ pl (snd x)).
      + bo popk_l. destruct (sm_load fs m _) as [[|] m1]; [|apply perr_outs]. split; [|assumption].
        repeat constructor. apply F0. reflexivity.
      + intros [[i m1] s2] [Fi H2]; cbn [fst snd] in *. eapply outs_bind; [apply IH; exact H2|].
        intros [[r m2] s3] [B3 P3]; cbn [fst snd] in *. split; [constructor; assumption|assumption].
  Qed.

  (** ** Analysis *)
  Notation rel := (fun e => ok (re_lines e)).
  Notation rsl := (fun s => ok (rs_lines s)).
  Notation ril := (fun i => ok (ri_lines i)).
  Section Ann.
    Variable addr : nat -> Z.
    Definition ann_l (e : expr) : Prop := forall sc n r n', el e -> ann_expr addr sc e n = Ok (r, n') -> rel r.
    Lemma ann_ls es : Forall ann_l es -> forall sc n rs n',
      Forall el es -> each (ann_expr addr sc) es n = Ok (rs, n') -> Forall rel rs.
    Proof.
      induction 1 as [|e es He Hes IH]; intros sc n rs n' F E; cbn [each] in *.
      - inversion E. constructor.
      - inversion F; subst. inv_bind E. destruct a. inv_bind E. destruct a.
        inversion E; subst. constructor; [eapply He; eassumption|eapply IH; eassumption].
    Qed.
    Lemma ann_expr_l e : ann_l e.
    Proof.
      induction e using expr_nested; intros sc n r n' F E; cbn [ann_expr e_lines] in *.
      - inversion E; subst. exact F.
      - inversion E; subst. exact F.
      - inversion E; subst. exact F.
      - inversion E; subst. exact F.
      - destruct (find_decl addr x sc); inversion E; subst. exact F.
      - destruct (find_decl addr x sc) as [[]|]; inversion E; subst. exact F.
      - rewrite ok_cons, ok_flat in F. destruct F as [F1 F2]. inv_bind E. destruct a. inversion E; subst. cbn [re_lines]. rewrite ok_cons, ok_flat.
        split; [exact F1|]. eapply ann_ls; eassumption.
      - rewrite ok_cons, Forall_app in F. destruct F as (F1 & F2 & F3). inv_bind E. destruct a. inv_bind E. destruct a. inversion E; subst.
        cbn [re_lines]. rewrite ok_cons, Forall_app. split; [exact F1|]. split; [eapply IHe1|eapply IHe2]; eassumption.
      - rewrite ok_cons, Forall_app, ok_flat in F. destruct F as (F1 & F2 & F3). inv_bind E. destruct a. inv_bind E. destruct a. inversion E; subst.
        cbn [re_lines]. rewrite ok_cons, Forall_app, ok_flat. split; [exact F1|]. split; [eapply IHe; eassumption|eapply ann_ls; eassumption].
      - rewrite ok_cons, Forall_app in F. destruct F as (F1 & F2 & F3). inv_bind E. destruct a. inv_bind E. destruct a. inversion E; subst.
        cbn [re_lines]. rewrite ok_cons, Forall_app. split; [exact F1|]. split; [eapply IHe1|eapply IHe2]; eassumption.
      - rewrite ok_cons in F. destruct F as (F1 & F2). inv_bind E. destruct a. inversion E; subst.
        cbn [re_lines]. rewrite ok_cons. split; [exact F1|]. eapply IHe; eassumption.
    Qed.
    Lemma ann_exprs_l es sc n rs n' : ok (flat_map e_lines es) -> each (ann_expr addr sc) es n = Ok (rs, n') -> ok (flat_map re_lines rs).
    Proof. rewrite !ok_flat. apply ann_ls. apply Forall_forall. intros e _. apply ann_expr_l. Qed.
    Lemma ann_opt_l o sc n r n' : ok (oe_lines o) -> ann_opt addr sc o n = Ok (r, n') -> ok (ore_lines r).
    Proof.
      destruct o; cbn [ann_opt oe_lines]; intros F E.
      - inv_bind E. destruct a. inversion E; subst. eapply ann_expr_l; eassumption.
      - inversion E. constructor.
    Qed.
    Definition ann_sl (s : stmt) : Prop := forall st r st', sl s -> ann_stmt addr s st = Ok (r, st') -> rsl r.
    Lemma ann_block_l b : Forall ann_sl b -> forall st rb st',
      ok (flat_map s_lines b) -> each (ann_stmt addr) b st = Ok (rb, st') -> ok (flat_map rs_lines rb).
    Proof.
      induction 1 as [|s b Hs Hb IH]; intros st rb st' F E; cbn [each flat_map] in *.
      - inversion E. constructor.
      - apply Forall_app in F. destruct F as [F1 F2]. inv_bind E. destruct a. inv_bind E. destruct a.
        inversion E; subst. cbn [flat_map]. apply Forall_app. split; [eapply Hs; eassumption|eapply IH; eassumption].
    Qed.
    Ltac split_all := repeat (rewrite ok_cons || rewrite Forall_app); repeat match goal with |- _ /\ _ => split end; try assumption.
    Lemma ann_stmt_l s : ann_sl s.
    Proof.
      induction s using stmt_nested; intros [sc n] r st' F E; cbn [ann_stmt s_lines] in *;
        repeat (rewrite ok_cons in F || rewrite Forall_app in F).
      - inv_bind E. destruct a. inversion E; subst. cbn [rs_lines vd_line]. split_all; [tauto|]. eapply ann_opt_l; [|eassumption]. tauto.
      - inv_bind E. destruct a. inv_bind E. inversion E; subst. cbn [rs_lines]. split_all; [tauto|]. eapply ann_expr_l; [|eassumption]. tauto.
      - inv_bind E. destruct a. inv_bind E. inversion E; subst. cbn [rs_lines]. split_all; try tauto. eapply ann_expr_l; [|eassumption]. tauto.
      - inv_bind E. destruct a. inv_bind E. destruct a. inv_bind E. inversion E; subst. cbn [rs_lines]. split_all; [tauto| |].
        + eapply ann_expr_l; [|exact E0]. tauto.
        + eapply ann_expr_l; [|exact E1]. tauto.
      - inv_bind E. destruct a. inv_bind E. destruct a. inversion E; subst. cbn [rs_lines]. split_all; [tauto| |].
        + eapply (ann_expr_l (EIdent x l)); [|exact E1]. constructor; [tauto|constructor].
        + eapply ann_exprs_l; [|eassumption]. tauto.
      - destruct F as (F1 & F2 & F3 & _). inv_bind E. destruct a. inv_bind E. destruct a. cbn [bind] in E. inversion E; subst.
        cbn [rs_lines]. split_all; [eapply ann_expr_l; eassumption|eapply ann_block_l; eassumption|constructor].
      - destruct F as (F1 & F2 & F3 & F4). inv_bind E. destruct a. inv_bind E. destruct a. inv_bind E. destruct a. inv_bind E2. destruct a.
        inversion E2; subst. inversion E; subst. cbn [rs_lines]. split_all; [eapply ann_expr_l; eassumption| |].
        + eapply ann_block_l; [|exact F3|eassumption]. assumption.
        + eapply ann_block_l; [|exact F4|eassumption]. assumption.
      - destruct F as (F1 & F2 & F3). inv_bind E. destruct a. inv_bind E. destruct a. inversion E; subst.
        cbn [rs_lines]. split_all; [eapply ann_expr_l; eassumption|eapply ann_block_l; eassumption].
      - destruct F as (F1 & F2 & F3 & F4 & F5). inv_bind E. inv_bind E. destruct a1. inv_bind E. destruct a1. inv_bind E. destruct a1. inversion E; subst.
        cbn [rs_lines]. split_all.
        + eapply ann_expr_l; [|exact E1]. assumption.
        + eapply ann_expr_l; [|exact E2]. assumption.
        + eapply ann_block_l; eassumption.
      - inv_bind E. destruct a. inversion E; subst. cbn [rs_lines]. split_all; [tauto|]. eapply ann_opt_l; [|eassumption]. tauto.
    Qed.
    Definition child_l (c : child) : Prop := match c with CSys _ _ => True | CItem i => il i end.
    Definition decl_l (d : decl) : Prop :=
      match d with DV d => L (vd_line d) | DF f => match fd_line f with Some l => L l | None => True end end.
    Lemma ann_child_l g dc n i n' : child_l (snd dc) -> decl_l (fst dc) -> ann_child addr g dc n = Ok (i, n') -> ril i.
    Proof.
      destruct dc as [d c]. cbn [fst snd]. intros F D E.
      assert (G : forall d, decl_l (DV d) -> ok (vd_line d :: [])) by (intros; constructor; [assumption|constructor]).
      destruct c as [x k|[x l oe|x l oe|x l args body lend|p l]]; destruct d; cbn [ann_child child_l i_lines] in *;
        try (inversion E; subst; cbn [ri_lines ore_lines]; first [apply G; assumption|constructor]).
      - inv_bind E. destruct a. inversion E; subst. cbn [ri_lines]. rewrite ok_cons in *. split; [exact D|]. eapply ann_opt_l; [|eassumption]. tauto.
      - inv_bind E. destruct a. inversion E; subst. cbn [ri_lines]. rewrite ok_cons in *. split; [exact D|]. eapply ann_opt_l; [|eassumption]. tauto.
      - inv_bind E. destruct a. inversion E; subst. cbn [ri_lines]. rewrite !ok_cons in F. rewrite Forall_app, ok_cons. split; [|split; [tauto|]].
        + cbn [decl_l] in D. destruct (fd_line f); [constructor; [exact D|constructor]|constructor].
        + eapply ann_block_l; [|apply F|eassumption]. apply Forall_forall. intros s _. apply ann_stmt_l.
    Qed.
    Lemma number_l cs : Forall child_l cs -> forall n ds m, number cs n = (ds, m) -> Forall (fun dc => child_l (snd dc) /\ decl_l (fst dc)) ds.
    Proof.
      induction 1 as [|c cs H F IH]; intros n ds m E; cbn [number] in E; [inversion E; constructor|].
      destruct (head_decl c n) as [d|] eqn:D.
      - destruct (number cs (S n)) eqn:N. inversion E; subst. constructor; [|eauto]. cbn [fst snd]. split; [exact H|].
        destruct c as [x k|[]]; cbn [head_decl child_l i_lines] in *; inversion D; subst; cbn [decl_l vd_line fd_line sys_decl];
          try exact Logic.I; apply ok_cons in H; tauto.
      - eauto.
    Qed.
    Lemma annotate_l cs r n : Forall child_l cs -> annotate addr cs = Ok (r, n) -> Forall ril r.
    Proof.
      unfold annotate. destruct (number cs 0) as [ds m] eqn:N. intros F E.
      assert (H : Forall2 (fun _ i => ril i) ds r).
      { eapply each_inv; [|exact E]. apply Forall_forall. intros dc I0 s b s' X.
        pose proof (number_l _ F _ _ _ N) as K. rewrite Forall_forall in K. destruct (K _ I0).
        eapply ann_child_l; [| |exact X]; assumption. }
      clear -H. induction H; constructor; assumption.
    Qed.
  End Ann.

  Lemma global_expr_l items id e : Forall ril items -> global_expr items id = Some e -> rel e.
  Proof.
    induction 1 as [|i items H F IH]; cbn [global_expr]; [discriminate|].
    destruct i; auto. destruct (Nat.eqb _ _); auto. intros ->. cbn [ri_lines ore_lines] in H. now inversion H.
  Qed.
  Lemma glob_expr_l items e n o b n' : rel e -> glob_expr items e n = Ok (o, b, n') -> ok (ore_lines o).
  Proof.
    intros F.
    assert (EV : forall e, rel e ->
      (o0 <- eval items e ;; match o0 with Some v => Ok (Some (RInt n v None), true, S n) | None => Ok (Some e, false, n) end) = Ok (o, b, n') ->
      ok (ore_lines o)).
    { clear e F. intros e F E. inv_bind E. destruct a as [v|]; inversion E; subst; [constructor|exact F]. }
    destruct e; cbn [glob_expr]; intros E; try (inversion E; subst; exact F); try (now apply (EV _ F)).
    inversion E. constructor.
  Qed.
  Lemma run_globals_l todo : forall done ch n js ch' n', Forall ril (done ++ todo) ->
    run_globals done todo ch n = Ok (js, ch', n') -> Forall ril js.
  Proof.
    induction todo as [|i todo IH]; intros done ch n js ch' n' H E; cbn [run_globals] in E.
    - inversion E; subst. rewrite app_nil_r in H. assumption.
    - assert (K : forall i', ril i' -> Forall ril ((done ++ [i']) ++ todo)).
      { intros i' G. rewrite <- app_assoc. rewrite Forall_app in *. destruct H as [H1 H2]. inversion H2; subst.
        split; [assumption|]. constructor; assumption. }
      assert (G : ril i) by (rewrite Forall_app in H; destruct H as [_ H]; now inversion H).
      destruct i as [f|d [e|]|f args body lend]; try (eapply IH; [|exact E]; apply K; assumption).
      inv_bind E. destruct a as [[o b] m]. eapply IH; [|exact E]. apply K. cbn [ri_lines ore_lines] in *. rewrite ok_cons in *.
      split; [tauto|]. eapply glob_expr_l; [|eassumption]. tauto.
  Qed.
  Lemma glob_loop_l fuel : forall items n js n', Forall ril items -> glob_loop fuel items n = Ok (js, n') -> Forall ril js.
  Proof.
    induction fuel as [|fuel IH]; intros items n js n' H E; cbn [glob_loop] in E; [discriminate|].
    inv_bind E. destruct a as [[is c] m]. apply run_globals_l in E0; [|assumption].
    destruct c; [eauto|]. inversion E; subst. assumption.
  Qed.
  Lemma global_vars_l items n js n' : Forall ril items -> Sema.global_vars items n = Ok (js, n') -> Forall ril js.
  Proof.
    intros H E. unfold Sema.global_vars in E. inv_bind E. destruct a as [is m]. inv_bind E. destruct a as [[is2 c] m2].
    inversion E; subst. apply glob_loop_l in E0; [|assumption]. eapply run_globals_l; [|exact E1]. assumption.
  Qed.

  Section Con.
    Variable items : list ritem.
    Hypothesis HI : Forall ril items.
    Lemma const_lit_l d l e : const_lit items d l = Ok (Some e) -> rel e.
    Proof.
      unfold const_lit. destruct d as [d|]; [|discriminate]. destruct (negb (vd_const d)); [discriminate|].
      destruct (global_expr items (vd_id d)) as [e'|] eqn:G; [|discriminate].
      apply global_expr_l in G; [|assumption]. destruct e'; intros E; inversion E; subst; assumption.
    Qed.
    Lemma con_exprs_l es : Forall (fun e => forall r, rel e -> con_expr items e = Ok r -> rel r) es ->
      forall rs, Forall rel es -> each_ (con_expr items) es = Ok rs -> Forall rel rs.
    Proof.
      induction 1 as [|e es He Hes IH]; intros rs F E; cbn [each_] in E.
      - inversion E. constructor.
      - inversion F; subst. inv_bind E. inv_bind E. inversion E; subst. constructor; auto.
    Qed.
    Lemma con_expr_l e : forall r, rel e -> con_expr items e = Ok r -> rel r.
    Proof.
      induction e using rexpr_nested; intros r F E; cbn [con_expr] in E; try (inversion E; subst; assumption);
        cbn [re_lines] in F; repeat (rewrite ok_cons in F || rewrite Forall_app in F); rewrite ?ok_flat in F.
      - inv_bind E. destruct a; inversion E; subst; [|exact (proj2 (ok_cons _ _) F)]. eapply const_lit_l; eassumption.
      - inv_bind E. inversion E; subst. cbn [re_lines]. rewrite ok_cons, ok_flat. split; [tauto|]. eapply con_exprs_l; [eassumption|apply F|eassumption].
      - destruct F as (F1 & F2 & F3). inv_bind E. inv_bind E. inversion E; subst. cbn [re_lines]. rewrite ok_cons, Forall_app.
        split; [exact F1|]. split; [eapply IHe1|eapply IHe2]; eassumption.
      - destruct F as (F1 & F2 & F3). inv_bind E.
        assert (A : Forall rel a) by (eapply con_exprs_l; eassumption).
        assert (G : forall f, rel f -> rel (RCall l f a)).
        { intros f F. cbn [re_lines]. rewrite ok_cons, Forall_app, ok_flat. auto. }
        destruct e; try (inv_bind E; inversion E; subst; apply G; first [eapply IHe; eassumption|assumption]).
      - destruct F as (F1 & F2 & F3). inv_bind E. inv_bind E. inversion E; subst. cbn [re_lines]. rewrite ok_cons, Forall_app.
        split; [exact F1|]. split; [eapply IHe1|eapply IHe2]; eassumption.
      - inv_bind E. inversion E; subst. cbn [re_lines]. rewrite ok_cons. split; [tauto|]. eapply IHe; [|eassumption]. tauto.
    Qed.
    Lemma con_opt_l o r : ok (ore_lines o) -> con_opt items o = Ok r -> ok (ore_lines r).
    Proof.
      destruct o; cbn [con_opt]; intros F E; [|inversion E; constructor]. inv_bind E. inversion E; subst.
      eapply con_expr_l; eassumption.
    Qed.
    Definition con_sl (s : rstmt) : Prop := forall r, rsl s -> con_stmt items s = Ok r -> rsl r.
    Lemma con_block_l b : Forall con_sl b -> forall rb, ok (flat_map rs_lines b) ->
      each_ (con_stmt items) b = Ok rb -> ok (flat_map rs_lines rb).
    Proof.
      induction 1 as [|s b Hs Hb IH]; intros rb F E; cbn [each_ flat_map] in *; [inversion E; constructor|].
      apply Forall_app in F. destruct F. inv_bind E. inv_bind E. inversion E; subst. cbn [flat_map]. apply Forall_app. auto.
    Qed.
    Lemma con_oblock_l o : oall con_sl o -> forall r, ok (rob_lines o) ->
      match o with None => Ok None | Some b => r <- each_ (con_stmt items) b ;; Ok (Some r) end = Ok r -> ok (rob_lines r).
    Proof.
      destruct o; cbn [oall rob_lines]; intros H r F E; [|inversion E; constructor]. inv_bind E. inversion E; subst.
      eapply con_block_l; eassumption.
    Qed.
    Ltac split_all := repeat (rewrite ok_cons || rewrite Forall_app); repeat match goal with |- _ /\ _ => split end; try assumption.
    Lemma con_stmt_l s : con_sl s.
    Proof.
      induction s using rstmt_nested; intros r F E; cbn [con_stmt rs_lines] in *; repeat (rewrite ok_cons in F || rewrite Forall_app in F).
      - inv_bind E. inversion E; subst. cbn [rs_lines]. split_all; [tauto|]. eapply con_opt_l; [|eassumption]; tauto.
      - destruct (vd_const d); [discriminate|]. inv_bind E. inversion E; subst. cbn [rs_lines]. split_all; [tauto|]. eapply con_expr_l; [|eassumption]; tauto.
      - inv_bind E. inversion E; subst. cbn [rs_lines]. split_all; try tauto. eapply con_expr_l; [|eassumption]; tauto.
      - inv_bind E. inv_bind E. inversion E; subst. cbn [rs_lines]. split_all; [tauto| |].
        + eapply con_expr_l; [|exact E0]; tauto.
        + eapply con_expr_l; [|exact E1]; tauto.
      - inv_bind E. destruct a as [rf rs]. inversion E; subst. unfold con_call in E0. inv_bind E0.
        apply con_expr_l in E1; [|cbn [re_lines]; split_all; tauto]. destruct a; inversion E0; subst.
        cbn [re_lines] in E1. rewrite ok_cons, Forall_app in E1. cbn [rs_lines]. split_all; tauto.
      - destruct F as (F1 & F2 & F3 & F4). inv_bind E. inv_bind E. inv_bind E. inversion E; subst. cbn [rs_lines]. split_all.
        + eapply con_expr_l; eassumption.
        + eapply (con_oblock_l t); eassumption.
        + eapply (con_oblock_l f); eassumption.
      - destruct F as (F1 & F2 & F3). inv_bind E. inv_bind E. inversion E; subst. cbn [rs_lines]. split_all.
        + eapply con_expr_l; eassumption.
        + eapply (con_oblock_l b); eassumption.
      - destruct F as (F1 & F2 & F3 & F4 & F5). inv_bind E. inv_bind E. inv_bind E. inversion E; subst. cbn [rs_lines]. split_all.
        + eapply con_expr_l; [|exact E0]; assumption.
        + eapply con_expr_l; [|exact E1]; assumption.
        + eapply con_block_l; eassumption.
      - inv_bind E. inversion E; subst. cbn [rs_lines]. split_all; [tauto|]. eapply con_opt_l; [|eassumption]; tauto.
    Qed.
    Lemma con_item_l i r : ril i -> con_item items i = Ok r -> ril r.
    Proof.
      destruct i as [f|d oe|f args body lend]; cbn [con_item ri_lines]; intros F E.
      - inversion E; constructor.
      - rewrite ok_cons in F. destruct F as [F1 F2]. inv_bind E. apply con_opt_l in E0; [|assumption]. destruct a.
        + inversion E; subst. cbn [ri_lines]. rewrite ok_cons. auto.
        + destruct (vd_const d); inversion E; subst. cbn [ri_lines ore_lines]. constructor; [exact F1|constructor].
      - inv_bind E. inversion E; subst. cbn [ri_lines]. rewrite Forall_app, ok_cons in *. split; [tauto|]. split; [tauto|].
        eapply con_block_l; [|apply F|eassumption]. apply Forall_forall. intros s _. apply con_stmt_l.
    Qed.
  End Con.
  Lemma con_items_l todo : forall done r, Forall ril (done ++ todo) -> con_items done todo = Ok r -> Forall ril r.
  Proof.
    induction todo as [|i todo IH]; intros done r H E; cbn [con_items] in E.
    - inversion E; subst. rewrite app_nil_r in H. assumption.
    - inv_bind E. apply con_item_l in E0; [|assumption|rewrite Forall_app in H; destruct H as [_ H]; now inversion H].
      eapply IH; [|exact E]. rewrite <- app_assoc. rewrite Forall_app in *. destruct H as [H1 H2]. inversion H2; subst.
      split; [assumption|]. constructor; assumption.
  Qed.
  Lemma run_sema_l addr cs r n : Forall child_l cs -> run_sema addr cs = Ok (r, n) -> Forall ril r.
  Proof.
    unfold run_sema. intros F E. inv_bind E. destruct a as [r0 n0]. inv_bind E. destruct a as [r1 n1].
    inv_bind E. inv_bind E. inv_bind E. inversion E; subst.
    apply annotate_l in E0; [|assumption]. apply global_vars_l in E1; [|assumption].
    apply con_items_l in E2; assumption.
  Qed.
End Lines.

(** ** Optimiser *)
Section Opt.
  Variable L : line_t -> Prop.
  Notation ok := (Forall L).
  Notation rel := (fun e => ok (re_lines e)).
  Notation rsl := (fun s => ok (rs_lines s)).
  Notation ril := (fun i => ok (ri_lines i)).
  Ltac split_all := repeat (rewrite ok_cons || rewrite Forall_app); repeat match goal with |- _ /\ _ => split end; try assumption; try tauto.
  Lemma cut_block_l b : ok (flat_map rs_lines b) -> ok (flat_map rs_lines (cut_block b)).
  Proof.
    induction b as [|s b IH]; intros F; [exact F|]. cbn [flat_map] in F. apply Forall_app in F. destruct F as [F1 F2].
    destruct s; cbn [cut_block flat_map]; apply Forall_app; (split; [assumption|]); first [constructor|auto].
  Qed.
  Lemma post_ret_l i : ril i -> ril (post_ret i).
  Proof.
    destruct i; cbn [post_ret ri_lines]; auto. rewrite !Forall_app, !ok_cons. intros (A & B & C). split; [assumption|]. split; [assumption|].
    now apply cut_block_l.
  Qed.
  Lemma fold_top_l e n r n' : rel e -> fold_top e n = Ok (r, n') -> rel r.
  Proof.
    intros F E. unfold fold_top in E. inv_bind E.
    destruct e; try (inversion E; subst; exact F); destruct a; inversion E; subst; first [exact F|constructor].
  Qed.
  Definition fold_l (s : rstmt) : Prop := forall n r n', rsl s -> fold_stmt s n = Ok (r, n') -> rsl r.
  Lemma fold_block_l b : Forall fold_l b -> forall n rb n', ok (flat_map rs_lines b) ->
    each fold_stmt b n = Ok (rb, n') -> ok (flat_map rs_lines rb).
  Proof.
    induction 1 as [|s b Hs Hb IH]; intros n rb n' F E; cbn [each flat_map] in *; [inversion E; constructor|].
    apply Forall_app in F. destruct F. inv_bind E. destruct a. inv_bind E. destruct a. inversion E; subst. cbn [flat_map]. apply Forall_app.
    split; [eapply Hs; eassumption|eapply IH; eassumption].
  Qed.
  Lemma fold_oblock_l o : oall fold_l o -> forall n r n', ok (rob_lines o) ->
    match o with None => Ok (None, n) | Some b => '(b', m) <- each fold_stmt b n ;; Ok (Some b', m) end = Ok (r, n') -> ok (rob_lines r).
  Proof.
    destruct o; cbn [oall rob_lines]; intros H n r n' F E; [|inversion E; constructor]. inv_bind E. destruct a. inversion E; subst.
    eapply fold_block_l; eassumption.
  Qed.
  Lemma fold_stmt_l s : fold_l s.
  Proof.
    induction s using rstmt_nested; intros n r n' F E; cbn [fold_stmt] in E.
    - inv_bind E. inversion E; subst. exact F.
    - inv_bind E. destruct a. inversion E; subst. cbn [rs_lines] in *. rewrite ok_cons in *. split; [tauto|]. eapply fold_top_l; [|eassumption]. tauto.
    - inv_bind E. inversion E; subst. exact F.
    - inv_bind E. inv_bind E. inversion E; subst. exact F.
    - inv_bind E. inversion E; subst. exact F.
    - cbn [rs_lines] in *. rewrite ok_cons, !Forall_app in F. destruct F as (F1 & F2 & F3 & F4).
      inv_bind E. inv_bind E. destruct a0. inv_bind E. destruct a0. inv_bind E. destruct a0. inversion E; subst. cbn [rs_lines]. split_all.
      + eapply fold_top_l; eassumption.
      + eapply (fold_oblock_l t); eassumption.
      + eapply (fold_oblock_l f); eassumption.
    - cbn [rs_lines] in *. rewrite ok_cons, !Forall_app in F. destruct F as (F1 & F2 & F3).
      inv_bind E. inv_bind E. destruct a0. inv_bind E. destruct a0. inversion E; subst. cbn [rs_lines]. split_all.
      + eapply fold_top_l; eassumption.
      + eapply (fold_oblock_l b); eassumption.
    - cbn [rs_lines] in *. rewrite !ok_cons, !Forall_app in F. destruct F as (F1 & F2 & F3 & F4 & F5).
      inv_bind E. inv_bind E. inv_bind E. destruct a2. inversion E; subst. cbn [rs_lines]. split_all. eapply fold_block_l; eassumption.
    - destruct e as [e|]; [|inversion E; subst; exact F]. inv_bind E. destruct a. inversion E; subst. cbn [rs_lines ore_lines] in *.
      rewrite ok_cons in *. split; [tauto|]. eapply fold_top_l; [|eassumption]. tauto.
  Qed.
  Lemma fold_item_l i n r n' : ril i -> fold_item i n = Ok (r, n') -> ril r.
  Proof.
    destruct i; cbn [fold_item]; intros F E.
    - inversion E; subst. exact F.
    - inv_bind E. inversion E; subst. exact F.
    - inv_bind E. destruct a. inversion E; subst. cbn [ri_lines] in *. rewrite Forall_app, ok_cons in *. split; [tauto|]. split; [tauto|].
      eapply fold_block_l; [|apply F|eassumption]. apply Forall_forall. intros s _. apply fold_stmt_l.
  Qed.
  Lemma set_expr_lines w e : re_lines (set_expr w e) = re_lines e.
  Proof.
    assert (G : forall es, Forall (fun e => re_lines (set_expr w e) = re_lines e) es -> flat_map re_lines (map (set_expr w) es) = flat_map re_lines es).
    { induction 1; cbn [map flat_map]; congruence. }
    induction e using rexpr_nested; cbn [set_expr re_lines]; rewrite ?G by assumption; congruence.
  Qed.
  Lemma set_exprs_lines w es : flat_map re_lines (map (set_expr w) es) = flat_map re_lines es.
  Proof. induction es; cbn [map flat_map]; [reflexivity|]. now rewrite set_expr_lines, IHes. Qed.
  Lemma set_opt_lines w o : ore_lines (option_map (set_expr w) o) = ore_lines o.
  Proof. destruct o; [apply set_expr_lines|reflexivity]. Qed.
  Lemma set_stmt_lines w s : rs_lines (set_stmt w s) = rs_lines s.
  Proof.
    assert (G : forall b, Forall (fun s => rs_lines (set_stmt w s) = rs_lines s) b -> flat_map rs_lines (map (set_stmt w) b) = flat_map rs_lines b).
    { induction 1; cbn [map flat_map]; congruence. }
    assert (GO : forall o, oall (fun s => rs_lines (set_stmt w s) = rs_lines s) o ->
      match option_map (map (set_stmt w)) o with Some b => flat_map rs_lines b | None => [] end = rob_lines o).
    { intros [b|] H; [apply G; exact H|reflexivity]. }
    induction s using rstmt_nested; cbn [set_stmt rs_lines]; rewrite ?set_expr_lines, ?set_opt_lines, ?set_exprs_lines, ?G by assumption; try reflexivity.
    - rewrite (GO t), (GO f) by assumption. reflexivity.
    - rewrite (GO b) by assumption. reflexivity.
  Qed.
  Lemma set_item_lines w i : ri_lines (set_item w i) = ri_lines i.
  Proof.
    destruct i; cbn [set_item ri_lines]; rewrite ?set_opt_lines; try reflexivity. do 2 f_equal.
    induction body; cbn [map flat_map]; [reflexivity|]. now rewrite set_stmt_lines, IHbody.
  Qed.
  Definition ifr_l (s : rstmt) : Prop := forall w, rsl s -> rsl (fst (ifr_stmt s w)).
  Let block := fix go (l : list rstmt) (w : list nat) : list rstmt * list nat :=
    match l with
    | [] => ([], w)
    | a :: t => let (a', w1) := ifr_stmt a w in
                let (t', w2) := go t w1 in (a' :: t', w2)
    end.
  Lemma ifr_block_l b : Forall ifr_l b -> forall w, ok (flat_map rs_lines b) -> ok (flat_map rs_lines (fst (block b w))).
  Proof.
    induction 1 as [|s b Hs Hb IH]; intros w F; cbn [block flat_map fst] in *; [constructor|].
    apply Forall_app in F. destruct F as [F1 F2]. specialize (Hs w F1). destruct (ifr_stmt s w) as [s' w1]. specialize (IH w1 F2).
    change ((fix go (l : list rstmt) (w : list nat) : list rstmt * list nat :=
      match l with [] => ([], w) | a :: t => let (a', w1) := ifr_stmt a w in let (t', w2) := go t w1 in (a' :: t', w2) end) b w1) with (block b w1).
    destruct (block b w1) as [b' w2]. cbn [fst flat_map] in *. apply Forall_app. auto.
  Qed.
  Definition oblock (o : option (list rstmt)) (w : list nat) :=
      match o with
      | None => (None, w)
      | Some b => let (b', w1) := block b w in (Some b', w1)
      end.
  Lemma ifr_oblock_l o : oall ifr_l o -> forall w, ok (rob_lines o) -> ok (rob_lines (fst (oblock o w))).
  Proof.
    destruct o as [b|]; cbn [oall rob_lines oblock]; intros H w F; [|constructor].
    pose proof (ifr_block_l b H w F) as G. destruct (block b w). exact G.
  Qed.
  Lemma ifr_stmt_l s : ifr_l s.
  Proof.
    induction s using rstmt_nested; intros w F; try exact F.
    - cbn [rs_lines] in F. fold (rob_lines t) in F. fold (rob_lines f) in F. rewrite ok_cons, !Forall_app in F. destruct F as (F1 & F2 & F3 & F4).
      change (ifr_stmt (RIf l c t f) w) with (
        let (t', w1) := oblock t w in let (f', w2) := oblock f w1 in
        match c with
        | RInt id v _ => if negb (read_lit w2 id v =? 0) then (RIf l c t' None, w2) else (RIf l c f' None, id :: w2)
        | _ => (RIf l c t' f', w2)
        end).
      pose proof (ifr_oblock_l t H w F3) as Gt. destruct (oblock t w) as [t' w1].
      pose proof (ifr_oblock_l f H0 w1 F4) as Gf. destruct (oblock f w1) as [f' w2]. cbn [fst] in *.
      destruct c; try (cbn [fst rs_lines]; fold (rob_lines t'); fold (rob_lines f'); split_all).
      destruct (negb _); cbn [fst rs_lines]; fold (rob_lines t'); fold (rob_lines f'); split_all; constructor.
    - cbn [rs_lines] in F. fold (rob_lines b) in F. rewrite ok_cons, !Forall_app in F. destruct F as (F1 & F2 & F3).
      change (ifr_stmt (RWhile l c b) w) with (
        let (b', w1) := oblock b w in
        match c with
        | RInt id v _ => if read_lit w1 id v =? 0 then (RWhile l c None, w1) else (RWhile l c b', w1)
        | _ => (RWhile l c b', w1)
        end).
      pose proof (ifr_oblock_l b H w F3) as Gb. destruct (oblock b w) as [b' w1]. cbn [fst] in *.
      destruct c; try (cbn [fst rs_lines]; fold (rob_lines b'); split_all).
      destruct (_ =? 0); cbn [fst rs_lines]; fold (rob_lines b'); split_all; constructor.
    - cbn [rs_lines] in F. rewrite !ok_cons, !Forall_app in F. destruct F as (F1 & F2 & F3 & F4 & F5).
      change (ifr_stmt (RFor l d lx a b body) w) with (let (body', w1) := block body w in (RFor l d lx a b body', w1)).
      pose proof (ifr_block_l body H w F5) as G. destruct (block body w). cbn [fst rs_lines] in *. split_all.
  Qed.
  Lemma ifr_body_l b : forall w, ok (flat_map rs_lines b) -> ok (flat_map rs_lines (fst (ifr_block b w))).
  Proof.
    induction b as [|s b IH]; intros w F; cbn [ifr_block flat_map fst] in *; [constructor|].
    apply Forall_app in F. destruct F as [F1 F2]. pose proof (ifr_stmt_l s w F1) as G. destruct (ifr_stmt s w) as [s' w1]. specialize (IH w1 F2).
    destruct (ifr_block b w1). cbn [fst flat_map] in *. apply Forall_app. auto.
  Qed.
  Lemma ifr_items_l l : forall w, Forall ril l -> Forall ril (fst (ifr_items l w)).
  Proof.
    induction l as [|i l IH]; intros w F; cbn [ifr_items fst]; [constructor|]. inversion F as [|? ? F1 F2]; subst.
    destruct i; try (specialize (IH w F2); destruct (ifr_items l w); cbn [fst] in *; constructor; assumption).
    cbn [ri_lines] in F1. rewrite Forall_app, ok_cons in F1. destruct F1 as (A & B & C). pose proof (ifr_body_l body w C) as G.
    destruct (ifr_block body w) as [b w1]. specialize (IH w1 F2). destruct (ifr_items l w1). cbn [fst] in *. constructor; [|assumption].
    cbn [ri_lines]. split_all.
  Qed.
  Lemma run_optimize_l on items n r n' : Forall ril items -> run_optimize on items n = Ok (r, n') -> Forall ril r.
  Proof.
    intros F E. unfold run_optimize in E. destruct on; [|inversion E; subst; exact F]. inv_bind E. destruct a as [r0 n1]. inversion E; subst.
    assert (G : Forall ril r0).
    { unfold const_expr in E0. assert (H : Forall2 (fun _ i => ril i) (map post_ret items) r0).
      { eapply each_inv; [|exact E0]. apply Forall_forall. intros i I0 s b s' X. eapply fold_item_l; [|exact X].
        apply in_map_iff in I0. destruct I0 as (j & <- & I0). apply post_ret_l. rewrite Forall_forall in F. apply F. exact I0. }
      clear -H. induction H; constructor; assumption. }
    unfold if_remove. pose proof (ifr_items_l r0 [] G) as K. destruct (ifr_items r0 []) as [r1 w]. cbn [fst] in K.
    apply Forall_forall. intros i I0. apply in_map_iff in I0. destruct I0 as (j & <- & I0). rewrite set_item_lines.
    rewrite Forall_forall in K. apply K. exact I0.
  Qed.

  (** ** Generator *)
  Definition note_l (x : note) : Prop := match snd x with Some l => L l | None => True end.
  Notation nok := (Forall note_l).
  Lemma notes_flat {A} (g : A -> list line_t) (h : A -> list note) l :
    Forall (fun a => ok (g a) -> nok (h a)) l -> ok (flat_map g l) -> nok (flat_map h l).
  Proof. induction 1; cbn [flat_map]; [constructor|]. rewrite !Forall_app. tauto. Qed.
  Lemma nok_one o l : L l -> nok [(o, Some l)].
  Proof. constructor; [assumption|constructor]. Qed.
  Lemma nok_cons x l : nok (x :: l) <-> note_l x /\ nok l.
  Proof. split; [intros H; now inversion H|intros [? ?]; now constructor]. Qed.
  Ltac nsplit := repeat (rewrite nok_cons || rewrite Forall_app); repeat match goal with |- _ /\ _ => split end;
    first [assumption | constructor | tauto | idtac].
  Lemma expr_notes_l e : rel e -> nok (expr_notes e).
  Proof.
    induction e using rexpr_nested; cbn [re_lines expr_notes]; intros F; repeat (rewrite ok_cons in F || rewrite Forall_app in F).
    - destruct l; [apply nok_one; now inversion F|constructor; [exact Logic.I|constructor]].
    - now apply nok_one.
    - now apply nok_one.
    - now apply nok_one.
    - destruct x; now apply nok_one.
    - repeat constructor; cbn; tauto.
    - rewrite Forall_app. split; [eapply notes_flat; [eassumption|tauto]|now apply nok_one].
    - rewrite !Forall_app. split; [tauto|]. split; [tauto|now apply nok_one].
    - rewrite Forall_app. split; [eapply notes_flat; [eassumption|tauto]|].
      assert (G : nok (expr_notes e ++ [(INS_ICALL, Some l)])) by (rewrite Forall_app; split; [tauto|now apply nok_one]).
      destruct e as [| | | |[d|f] lf| | | | | |]; try exact G. cbn [re_lines] in F. destruct F as (F1 & F2 & F3). inversion F2; subst.
      destruct (fd_sys f); now apply nok_one.
    - rewrite !Forall_app. split; [tauto|]. split; [tauto|now apply nok_one].
    - rewrite !Forall_app. split; [tauto|now apply nok_one].
  Qed.
  Lemma oexpr_notes_l o : ok (ore_lines o) -> nok (match o with Some e => expr_notes e | None => [] end).
  Proof. destruct o; [apply expr_notes_l|constructor]. Qed.
  Ltac nrun := repeat (rewrite nok_cons || rewrite Forall_app); repeat match goal with |- _ /\ _ => split end;
    first [apply Forall_nil | exact Logic.I | now apply expr_notes_l | assumption | cbn [note_l snd]; tauto | idtac].
  Lemma stmt_notes_l s : rsl s -> nok (stmt_notes s).
  Proof.
    assert (B : forall b, Forall (fun s => rsl s -> nok (stmt_notes s)) b -> ok (flat_map rs_lines b) -> nok (flat_map stmt_notes b)).
    { intros b. apply notes_flat. }
    assert (BO : forall o, oall (fun s => rsl s -> nok (stmt_notes s)) o -> ok (rob_lines o) ->
      nok (match o with Some b => flat_map stmt_notes b | None => [] end)).
    { intros [b|] H F; [apply B; assumption|constructor]. }
    induction s using rstmt_nested; cbn [rs_lines stmt_notes]; intros F; repeat (rewrite ok_cons in F || rewrite Forall_app in F).
    - destruct e as [e|]; [|constructor]. destruct (takes_slot d); [|constructor]. cbn [ore_lines] in F. nrun; tauto.
    - nrun; tauto.
    - nrun; tauto.
    - nrun; try tauto; apply expr_notes_l; tauto.
    - pose proof (expr_notes_l (RCall l f es)) as G. cbn [re_lines] in G. rewrite ok_cons, Forall_app in G. nrun.
    - destruct F as (F1 & F2 & F3 & F4). nrun; [apply BO; assumption|]. destruct f as [b|]; [|constructor]. nrun. apply B; assumption.
    - destruct F as (F1 & F2 & F3). nrun. apply BO; assumption.
    - destruct F as (F1 & F2 & F3 & F4 & F5). nrun. apply B; assumption.
    - destruct F as (F1 & F2). nrun. destruct e; [now apply expr_notes_l|]. now apply nok_one.
  Qed.
  Lemma item_notes_l sizes i : (forall f args body lend, i = RFunc f args body lend -> is_init f = true -> ok (flat_map rs_lines body)) ->
    (forall f args body lend, i = RFunc f args body lend -> is_init f = false -> ril i) -> nok (item_notes sizes i).
  Proof.
    intros HI HF. destruct i as [f|d oe|f args body lend]; cbn [item_notes]; try constructor.
    assert (B : forall b, ok (flat_map rs_lines b) -> nok (flat_map stmt_notes b)).
    { intros b. apply notes_flat. apply Forall_forall. intros s _. apply stmt_notes_l. }
    destruct (is_init f) eqn:I0.
    - specialize (HI f args body lend eq_refl I0). nrun. apply B. exact HI.
    - specialize (HF f args body lend eq_refl I0). cbn [ri_lines] in HF. rewrite Forall_app, ok_cons in HF. destruct HF as (F1 & F2 & F3). nrun.
      + destruct (0 <? _); [|constructor]. nrun. unfold note_l. cbn [snd]. destruct (fd_line f); [now inversion F1|exact Logic.I].
      + apply B. exact F3.
      + destruct (ends_in_return body); [constructor|]. nrun.
  Qed.
  Lemma marks_l notes : nok notes -> forall a, Forall (fun x => L (snd x)) (marks a notes).
  Proof.
    induction 1 as [|[o t] notes H F IH]; intros a; cbn [marks]; [constructor|]. apply Forall_app. split; [|apply IH].
    destruct t; [constructor; [exact H|constructor]|constructor].
  Qed.
  Lemma generate_l items n p : Forall ril items -> generate items n = Ok p -> Forall (fun x => L (snd x)) (p_lines p).
  Proof.
    intros F E. rewrite (generate_lines _ _ _ E). apply marks_l. unfold all_notes. set (sz := snd (offsets (add_init items n))). clearbody sz.
    assert (G : Forall (fun i => nok (item_notes sz i)) (add_init items n)).
    { unfold add_init. apply Forall_app. split.
      - eapply Forall_impl; [|exact F]. cbn beta. intros i H. apply item_notes_l; intros; subst; [|exact H].
        cbn [ri_lines] in H. rewrite Forall_app, ok_cons in H. tauto.
      - constructor; [|constructor]. apply item_notes_l.
        + intros f args body lend X _. inversion X; subst. clear -F. induction F as [|i l H F IH]; cbn [flat_map]; [constructor|].
          rewrite flat_map_app, Forall_app. split; [|exact IH]. destruct i as [|d [e|]|]; try constructor. cbn [init_assign].
          destruct (vd_const d); [constructor|]. cbn [flat_map rs_lines app]. rewrite app_nil_r. exact H.
        + intros f args body lend X Y. inversion X; subst. discriminate. }
    clear -G. induction G; cbn [flat_map]; [constructor|]. apply Forall_app. auto.
  Qed.
End Opt.

(** ** Tokens *)
Lemma lexeme_one_line u t : lexeme u (Some t) -> t <> TOK_EOL -> ~ In 10 u /\ t <> TOK_EOF.
Proof.
  intros H N. remember (Some t) as o eqn:O. destruct H as [c B| |b Nb|b N1 N2|w Nm|u t0 Sy|ds R D|ds fs R F D D2]; inversion O; subst; try congruence.
  - split; [|discriminate]. intros [E|I]; [discriminate|]. apply in_app_or in I. destruct I as [I|[E|[]]]; [auto|discriminate].
  - split.
    + destruct Nm as (c & r & -> & Lc & F). intros [E|I]; [unfold letter in Lc; lia|]. rewrite Forall_forall in F. specialize (F _ I).
      unfold name_char, letter, digit in F. lia.
    + unfold word_tok. destruct (find _ reserved) as [p|] eqn:E; [|discriminate].
      apply find_some in E. destruct E as [E _]. unfold reserved in E. cbn [In] in E.
      repeat (destruct E as [<-|E]; [discriminate|]). destruct E.
  - unfold symbols in Sy. cbn [In] in Sy.
    repeat (destruct Sy as [Sy|Sy]; [inversion Sy; subst; split; [cbn; intros I; repeat destruct I as [I|I]; try discriminate; contradiction|discriminate]|]). destruct Sy.
  - split; [|discriminate]. intros I. destruct R as [_ R]. rewrite Forall_forall in R. specialize (R _ I). unfold digit in R. lia.
  - split; [|discriminate]. intros I. destruct R as [_ R]. rewrite Forall_forall in R, F. apply in_app_or in I. destruct I as [I|[I|I]]; [|discriminate|].
    + specialize (R _ I). unfold digit in R. lia.
    + specialize (F _ I). unfold digit in F. lia.
Qed.
Lemma newlines_app a b : newlines (a ++ b) = newlines a + newlines b.
Proof. unfold newlines. now rewrite filter_app, zlen_app. Qed.
Lemma newlines_none a : ~ In 10 a -> newlines a = 0.
Proof.
  unfold newlines. induction a as [|c a IH]; intros N; [reflexivity|]. cbn [filter]. destruct (c =? 10) eqn:E.
  - exfalso. apply N. left. lia.
  - apply IH. intros I. apply N. now right.
Qed.
Lemma lexemes_word file line s ts : lexemes file line s ts -> forall t l, In (Token t l) ts -> t <> TOK_EOL -> t <> TOK_EOF ->
  exists before word after, s = before ++ word ++ after /\ lexeme word (Some t) /\ l = Line file (line + newlines before).
Proof.
  induction 1 as [line|line u s ts Lx H IH|line u t0 s ts Lx Ex H IH]; intros t l I N1 N2.
  - destruct I as [E|[]]. inversion E; subst. congruence.
  - destruct (IH t l I N1 N2) as (b & w & a & -> & A & ->). exists (u ++ b), w, a. split; [now rewrite app_assoc|]. split; [exact A|].
    f_equal. rewrite newlines_app. lia.
  - destruct I as [E|I].
    + inversion E; subst. exists [], u, s. split; [reflexivity|]. split; [exact Lx|]. f_equal.
      rewrite (newlines_none u); [reflexivity|]. eapply lexeme_one_line; eassumption.
    + destruct (IH t l I N1 N2) as (b & w & a & -> & A & ->). exists (u ++ b), w, a. split; [now rewrite app_assoc|]. split; [exact A|].
      f_equal. rewrite newlines_app. lia.
Qed.

(** ** Source texts *)
Lemma cstr_split d : exists rest, d = cstr d ++ rest /\ (forall u, ~ In 0 u -> cstr (u ++ rest) = u) /\ ~ In 0 (cstr d).
Proof.
  induction d as [|c d (rest & E & H & N)]; cbn [cstr].
  - exists []. split; [reflexivity|]. split; [|intros []]. intros u Nu. rewrite app_nil_r. now apply cstr_nonul.
  - destruct (c =? 0) eqn:C.
    + exists (c :: d). split; [reflexivity|]. split; [|intros []]. intros u Nu. induction u as [|x u IH]; cbn [app cstr]; [now rewrite C|].
      destruct (x =? 0) eqn:X; [exfalso; apply Nu; left; lia|]. f_equal. apply IH. intros I. apply Nu. now right.
    + exists rest. split; [cbn [app]; now rewrite <- E|]. split; [exact H|]. intros [I|I]; [lia|contradiction].
Qed.
Lemma get_line_data s d k : so_data s = Some d -> so_lines s = gen_lines d -> 1 <= k ->
  Source.get_line s k = Ok (znth (split_nl (cstr d)) (k - 1)).
Proof.
  intros D G K. unfold Source.get_line. rewrite D, G. unfold assert_. destruct (1 <=? k) eqn:E; [|lia]. cbn [bind].
  unfold gen_lines. rewrite gen_lines_starts, zlen_starts. destruct (cstr_split d) as (rest & Ed & Hc & Nd). set (t := cstr d) in *.
  set (ls := split_nl t). destruct (znth ls (k - 1)) as [l|] eqn:Z0.
  - destruct (starts_get ls 0 (k - 1) l Z0) as (a & pre & post & A & B & C & D' & F).
    pose proof (znth_some _ _ _ Z0) as R.
    assert (T : t = pre ++ l ++ post) by (rewrite <- B; symmetry; apply concat_split_nl).
    rewrite A. destruct (k - 1 + 1 =? zlen ls) eqn:E2.
    + rewrite F in T by lia. rewrite app_nil_r in T. rewrite Ed, T, C.
      replace (0 + zlen pre) with (zlen pre) by lia. rewrite <- app_assoc, zskipn_app.
      rewrite Hc; auto. intros Q. apply Nd. rewrite T. apply in_or_app. now right.
    + destruct (k - 1 <? zlen ls) eqn:E3; [|lia]. rewrite D' by lia.
      rewrite Ed, T, C. replace (0 + zlen pre) with (zlen pre) by lia. rewrite <- !app_assoc, zskipn_app.
      replace (zlen pre + zlen l - zlen pre) with (zlen l) by lia. now rewrite zfirstn_app.
  - pose proof (proj1 (znth_none _ _) Z0) as R.
    destruct (k - 1 + 1 =? zlen ls) eqn:E2; [lia|].
    destruct (k - 1 <? zlen ls) eqn:E3; [lia|]. reflexivity.
Qed.
Lemma split_head after : forall w, ~ In 10 w -> exists y a ls, split_nl (w ++ after) = (w ++ y) :: ls /\ after = y ++ a /\
  ((~ In 10 y /\ a = []) \/ exists y', y = y' ++ [10] /\ ~ In 10 y').
Proof.
  assert (G : exists y a ls, split_nl after = y :: ls /\ after = y ++ a /\ ((~ In 10 y /\ a = []) \/ exists y', y = y' ++ [10] /\ ~ In 10 y')).
  { induction after as [|c r (y & a & ls & E & A & H)]; cbn [split_nl].
    - exists [], [], []. split; [reflexivity|]. split; [reflexivity|]. left. auto.
    - destruct (c =? 10) eqn:C.
      + exists [c], r, (split_nl r). split; [reflexivity|]. split; [reflexivity|]. right. exists []. split; [cbn; f_equal; lia|intros []].
      + rewrite E. exists (c :: y), a, ls. split; [reflexivity|]. split; [cbn; now rewrite A|]. destruct H as [[H1 H2]|(y' & H1 & H2)].
        * left. split; [|exact H2]. intros [I|I]; [lia|contradiction].
        * right. exists (c :: y'). split; [cbn; now rewrite H1|]. intros [I|I]; [lia|contradiction]. }
  destruct G as (y & a & ls & E & A & H). induction w as [|c w IH]; intros N.
  - exists y, a, ls. auto.
  - destruct IH as (y' & a' & ls' & E' & A' & H'); [intros I; apply N; now right|]. exists y', a', ls'. split; [|auto].
    cbn [app split_nl]. destruct (c =? 10) eqn:C; [exfalso; apply N; left; lia|]. now rewrite E'.
Qed.
Lemma split_line word after : ~ In 10 word -> forall before,
  exists text, znth (split_nl (before ++ word ++ after)) (newlines before) = Some text /\ line_around before word after text.
Proof.
  intros Nw before. induction before as [|c before (text & Z0 & b & x & y & a & E1 & Nx & Hb & E2 & Hy & ->)]; cbn [app].
  - destruct (split_head after word Nw) as (y & a & ls & E & A & H). exists (word ++ y). rewrite E. split; [reflexivity|].
    exists [], [], y, a. split; [reflexivity|]. split; [intros []|]. split; [now left|]. auto.
  - cbn [split_nl]. unfold newlines. cbn [filter]. destruct (c =? 10) eqn:C.
    + assert (c = 10) by lia. subst c. exists (x ++ word ++ y). rewrite zlen_cons. fold (newlines before). split.
      { cbn [znth]. destruct (newlines before + 1 =? 0) eqn:Q; [pose proof (zlen_nonneg (filter (fun c => c =? 10) before)); unfold newlines in Q; lia|].
        replace (newlines before + 1 - 1) with (newlines before) by lia. exact Z0. }
      exists (10 :: b), x, y, a. split; [cbn; now rewrite E1|]. split; [exact Nx|]. split; [|auto]. right.
      destruct Hb as [->|(b' & ->)]; [exists []|exists (10 :: b')]; reflexivity.
    + fold (newlines before). destruct (split_nl (before ++ word ++ after)) as [|l ls] eqn:Sp; [discriminate|].
      cbn [znth] in *. destruct (newlines before =? 0) eqn:Q.
      * inversion Z0; subst l. exists (c :: x ++ word ++ y). split; [reflexivity|].
        assert (b = []).
        { destruct Hb as [->|(b' & ->)]; [reflexivity|]. exfalso. rewrite E1, !newlines_app in Q. change (newlines [10]) with 1 in Q.
          pose proof (zlen_nonneg (filter (fun c => c =? 10) b')). pose proof (zlen_nonneg (filter (fun c => c =? 10) x)). unfold newlines in Q. lia. }
        subst b. exists [], (c :: x), y, a. split; [cbn; cbn in E1; now rewrite E1|]. split; [intros [I|I]; [lia|contradiction]|]. split; [now left|]. auto.
      * exists (x ++ word ++ y). split; [exact Z0|]. exists (c :: b), x, y, a. split; [cbn; now rewrite E1|]. split; [exact Nx|]. split; [|auto].
        right. destruct Hb as [->|(b' & ->)]; [|exists (c :: b'); reflexivity]. exfalso. cbn in E1. subst before. rewrite (newlines_none x Nx) in Q. discriminate.
Qed.
Definition text_ok (s : source_t) : Prop := forall d, so_data s = Some d -> so_lines s = gen_lines d.
Lemma load_file_text fs p : text_ok (snd (load_from_file fs p)).
Proof. unfold load_from_file. destruct (fs p) as [[|c d]|]; intros x E; cbn in E |- *; try discriminate. inversion E; subst. reflexivity. Qed.
Lemma sm_load_text fs m p : Forall text_ok m -> Forall text_ok (snd (sm_load fs m p)).
Proof.
  intros F. unfold sm_load. destruct (existsb _ m); [exact F|]. pose proof (load_file_text fs p) as T. destruct (load_from_file fs p).
  cbn [snd] in *. apply Forall_app. auto.
Qed.
Lemma loaded_text_ok m : loaded m -> Forall text_ok m.
Proof.
  induction 1 as [|m text H IH|m fs path H IH].
  - constructor.
  - unfold sm_load_from_string, load_from_string. destruct (cstr text) eqn:C; cbn [snd]; apply Forall_app; split; auto; constructor; try constructor; intros d E; cbn in E |- *.
    + discriminate.
    + inversion E; subst. reflexivity.
  - now apply sm_load_text.
Qed.
Lemma loads_text fs src m is m' : ImportFacts.loads fs src m is m' -> Forall text_ok m -> Forall text_ok m'.
Proof.
  induction 1 as [m|m name l m1 is m2 H HL IH|m i is m2 N HL IH]; auto. intros F. apply IH. pose proof (sm_load_text fs m (imported_path src name) F) as G.
  rewrite H in G. exact G.
Qed.

(** ** Builds *)
Definition token_line (m : list source_t) (l : line_t) : Prop :=
  exists s data t ts, znth m (l_file l) = Some s /\ so_data s = Some data /\ lex (l_file l) data = Ok ts /\ In (Token t l) ts /\
    t <> TOK_EOL /\ t <> TOK_EOF.
Lemma token_line_more m new l : token_line m l -> token_line (m ++ new) l.
Proof.
  intros (s & data & t & ts & A & B). exists s, data, t, ts. split; [|exact B]. rewrite znth_app1; [exact A|]. apply znth_some in A. lia.
Qed.
Lemma lexemes_file file line s ts : lexemes file line s ts -> Forall (fun t => l_file (tk_line t) = file) ts.
Proof. induction 1; try assumption; constructor; try reflexivity; try assumption. constructor. Qed.
Lemma lex_lines m index s data ts : znth m index = Some s -> so_data s = Some data -> lex index data = Ok ts -> Forall (tok_l (token_line m)) ts.
Proof.
  intros Z0 D E. pose proof E as E1. unfold lex in E1. apply lex_from_lexemes in E1. apply lexemes_file in E1. rewrite Forall_forall in E1.
  apply Forall_forall. intros t I N1 N2. pose proof (E1 t I) as K. exists s, data, (tk t), ts. rewrite K. repeat (split; [assumption|]).
  split; [destruct t; exact I|]. split; intros X; rewrite X in *; [apply N1|apply N2]; reflexivity.
Qed.
Lemma parse_sources_lines fuel fs : forall m index left acc items m', 0 <= index ->
  Forall text_ok m ->
  Forall (fun e => Forall (token_line m) (e_lines e)) left -> Forall (fun i => Forall (token_line m) (i_lines i)) acc ->
  parse_sources fuel fs m index left acc = Ok (items, m') ->
  Forall text_ok m' /\ Forall (fun i => Forall (token_line m') (i_lines i)) items.
Proof.
  induction fuel as [|fuel IH]; intros m index left acc items m' I0 T F A E; cbn [parse_sources] in E;
    (destruct (znth m index) as [src|] eqn:Z0; [|inversion E; subst; split; assumption]); [discriminate|].
  destruct (so_data src) as [data|] eqn:D; [|discriminate].
  apply bind_ok in E. destruct E as (ts & E1 & E). apply bind_ok in E. destruct E as ([[is m1] st] & E2 & E).
  pose proof (lex_lines _ _ _ _ _ Z0 D E1) as Tl. unfold parse in E2.
  pose proof (items_l (token_line m) fs src (parse_fuel ts) m (PSt ts (Line 0 0) [] left)) as G.
  pose proof (items_loads _ _ _ _ _ _ _ _ E2) as LD. destruct (loads_grown _ _ _ _ _ LD) as (new & -> & _).
  rewrite E2 in G. cbn [outs fst snd] in G. destruct G as [G1 G2]; [split; [exact Tl|constructor|exact F]|].
  assert (M : forall l, Forall (token_line m) l -> Forall (token_line (m ++ new)) l).
  { intros l H. eapply Forall_impl; [|exact H]. intros x. apply token_line_more. }
  eapply IH; [|eapply loads_text; eassumption| | |exact E]; [lia| |].
  - eapply Forall_impl; [|exact G2]. intros e. apply M.
  - apply Forall_app. split; [eapply Forall_impl; [|exact A]|eapply Forall_impl; [|exact G1]]; intros i; apply M.
Qed.
Lemma token_line_word m l : Forall text_ok m -> Forall (fun s => forall d, so_data s = Some d -> zlen d < 2 ^ 31) m ->
  token_line m l -> line_of_word m l.
Proof.
  intros T Sz (s & data & t & ts & Z0 & D & E & I & N1 & N2). pose proof E as E1. unfold lex in E1. apply lex_from_lexemes in E1.
  destruct (lexemes_word _ _ _ _ E1 t l I N1 N2) as (b & w & a & C & Lx & El).
  destruct (lexeme_one_line _ _ Lx N1) as [Nw _]. destruct (split_line w a Nw b) as (text & Zt & Ar).
  exists s, data, b, w, a, t, ts, text. repeat (split; [assumption|]). rewrite El. cbn [l_line l_file]. split; [reflexivity|]. split; [|exact Ar].
  pose proof (znth_some _ _ _ Z0) as R. assert (Is : In s m) by (eapply znth_In; exact Z0). rewrite Forall_forall in T, Sz.
  assert (Nn : 0 <= newlines b <= zlen data).
  { destruct (cstr_split data) as (rest & Ed & _). rewrite Ed, C, !zlen_app. pose proof (zlen_nonneg w). pose proof (zlen_nonneg a). pose proof (zlen_nonneg rest).
    assert (G : forall b, 0 <= newlines b <= zlen b).
    { clear. induction b as [|c b IH]; [change (0 <= 0 <= 0); lia|]. unfold newlines in *. cbn [filter]. destruct (c =? 10); rewrite ?zlen_cons; lia. }
    specialize (G b). lia. }
  pose proof (Sz s Is data D) as Sd. rewrite El in Z0, R. cbn [l_file] in Z0, R. unfold sm_line. cbn [l_file l_line].
  rewrite El in R. cbn [l_file] in R. rewrite El. cbn [l_file]. unfold assert_. destruct ((0 <=? _) && _) eqn:Q; [|lia]. cbn [bind]. rewrite Z0.
  replace (to_u32 (1 + newlines b)) with (1 + newlines b) by (unfold to_u32; rewrite Z.mod_small; lia).
  rewrite (get_line_data s data _ D (T s Is data D)) by lia. replace (1 + newlines b - 1) with (newlines b) by lia. rewrite C, Zt. reflexivity.
Qed.
