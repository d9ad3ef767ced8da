(** Proofs about the optimiser. *)
From Coq Require Import ZArith List Bool Lia ZifyBool.
From Verif Require Import Base BaseFacts F32 Program VM AbsHeap Ast Sema SemaFacts Optimize SrcSem SrcFacts.
Import ListNotations.
Open Scope Z_scope.

(** ** One program behaves like another *)

(** The same answer, unless the bound was too small for the first one. *)
Definition tol {A} (o o' : outcome A) : Prop := o = Timeout \/ o = o'.

Lemma tol_refl {A} (o : outcome A) : tol o o. Proof. now right. Qed.
Lemma tol_bind {A B} (m m' : outcome A) (k k' : A -> outcome B) :
  tol m m' -> (forall a, tol (k a) (k' a)) -> tol (obind m k) (obind m' k').
Proof.
  intros [->| ->] K; [now left|]. destruct m'; cbn [obind]; try apply tol_refl. apply K.
Qed.

Inductive ebetter : rexpr -> rexpr -> Prop :=
| eb_same e : ebetter e e
| eb_fold o l a b v id lo : cval (RBin o l a b) = Ok (Some v) ->
    ebetter (RBin o l a b) (RInt id v lo).
Inductive oebetter : option rexpr -> option rexpr -> Prop :=
| oeb_none : oebetter None None
| oeb_some e e' : ebetter e e' -> oebetter (Some e) (Some e').

Inductive better : rstmt -> rstmt -> Prop :=
| b_same s : better s s
| b_assign d l e e' : ebetter e e' -> better (RAssign d l e) (RAssign d l e')
| b_if l c c' t t' f f' : ebetter c c' -> obetter t t' -> obetter f f' ->
    better (RIf l c t f) (RIf l c' t' f')
| b_if_true l id v lo t t' f : v <> 0 -> obetter t t' ->
    better (RIf l (RInt id v lo) t f) (RIf l (RInt id v lo) t' None)
| b_if_false l id v lo t f f' : v <> 0 -> obetter f f' ->
    better (RIf l (RInt id 0 lo) t f) (RIf l (RInt id v lo) f' None)
| b_while l c c' b b' : ebetter c c' -> obetter b b' -> better (RWhile l c b) (RWhile l c' b')
| b_while_false l id lo b : better (RWhile l (RInt id 0 lo) b) (RWhile l (RInt id 0 lo) None)
| b_for l d lx a b body body' : bbetter body body' ->
    better (RFor l d lx a b body) (RFor l d lx a b body')
| b_return l e e' : oebetter e e' -> better (RReturn l e) (RReturn l e')
with bbetter : list rstmt -> list rstmt -> Prop :=
| bb_nil : bbetter [] []
| bb_cons s s' t t' : better s s' -> bbetter t t' -> bbetter (s :: t) (s' :: t')
| bb_cut l e t : bbetter (RReturn l e :: t) [RReturn l e]
with obetter : option (list rstmt) -> option (list rstmt) -> Prop :=
| ob_none : obetter None None
| ob_some b b' : bbetter b b' -> obetter (Some b) (Some b').

Definition fbetter (x y : fdecl * list vdecl * list rstmt) : Prop :=
  fst x = fst y /\ bbetter (snd x) (snd y).
Inductive ibetter : ritem -> ritem -> Prop :=
| ib_same i : (forall f args body lend, i <> RFunc f args body lend) -> ibetter i i
| ib_const d e e' : vd_const d = true -> ibetter (RGlobal d e) (RGlobal d e')
| ib_func f args body body' lend : bbetter body body' ->
    ibetter (RFunc f args body lend) (RFunc f args body' lend).

Lemma bbetter_refl b : bbetter b b.
Proof. induction b; constructor; [constructor|assumption]. Qed.
Lemma obetter_refl o : obetter o o.
Proof. destruct o; constructor. apply bbetter_refl. Qed.
Lemma ibetter_refl i : ibetter i i.
Proof. destruct i; try (apply ib_same; discriminate). apply ib_func, bbetter_refl. Qed.

Lemma find_fbetter p l l' : Forall2 fbetter l l' ->
  (forall x y, fst x = fst y -> p x = p y) ->
  match find p l, find p l' with
  | Some x, Some y => fbetter x y
  | None, None => True
  | _, _ => False
  end.
Proof.
  intros F P. induction F as [|x y l l' B F IH]; [exact I|]. cbn [find].
  rewrite (P x y) by apply B. destruct (p y); [exact B|exact IH].
Qed.

Section Better.
  Variable items items' : list ritem.
  Variable faddr faddr' : nat -> Z.
  Hypothesis FA : forall id, faddr id = faddr' id.
  Variable sidx : bytes -> Z.
  Variable sys : Z -> list aval -> sst -> outcome (aval * sst).
  Hypothesis Same : Forall2 ibetter items items'.

  Lemma functs_better : Forall2 fbetter (functs items) (functs items').
  Proof.
    unfold functs. clear faddr faddr' FA sidx sys. induction Same as [|i i' l l' B F IH]; [constructor|]. cbn [flat_map].
    apply Forall2_app; [|apply IH; exact F].
    inversion B; subst; [|constructor|repeat constructor; assumption].
    destruct i'; [constructor|constructor|exfalso; eapply H; reflexivity].
  Qed.

  Notation R_expr := (run_expr items faddr sidx sys).
  Notation R_exprs := (run_exprs items faddr sidx sys).
  Notation R_call := (run_call items faddr sidx sys).
  Notation R_stmt := (run_stmt items faddr sidx sys).
  Notation R_stmts := (run_stmts items faddr sidx sys).
  Notation R_block := (run_block items faddr sidx sys).
  Notation R_for := (run_for items faddr sidx sys).
  Notation R_expr' := (run_expr items' faddr' sidx sys).
  Notation R_exprs' := (run_exprs items' faddr' sidx sys).
  Notation R_call' := (run_call items' faddr' sidx sys).
  Notation R_stmt' := (run_stmt items' faddr' sidx sys).
  Notation R_stmts' := (run_stmts items' faddr' sidx sys).
  Notation R_block' := (run_block items' faddr' sidx sys).
  Notation R_for' := (run_for items' faddr' sidx sys).

  Lemma by_addr_same a : by_addr items' faddr a = by_addr items' faddr' a.
  Proof. unfold by_addr. induction (functs items') as [|x l IH]; [reflexivity|]. cbn [find]. rewrite FA, IH. reflexivity. Qed.

  Lemma fold_bin_op o x y v : (y =? 0) && is_div o = false -> fold_bin o x y = Ok v ->
    binary o (PS (SInt x)) (PS (SInt y)) = Ok (OPush (SInt v)).
  Proof.
    intros D F.
    destruct o; cbn [fold_bin binary is_div] in *; try rewrite andb_true_r in D;
      cbn [op_add op_sub op_mul op_div op_mod op_and op_or op_eq op_lt op_gt op_leq op_geq as_bool];
      try rewrite D in F |- *;
      try (inversion F; subst; unfold zb, b2z; reflexivity);
      (destruct (chk32 _); cbn [bind] in *; inversion F; subst; reflexivity).
  Qed.

  (** Constant folding is right. *)
  Lemma cval_run e : forall v, cval e = Ok (Some v) -> forall n r st,
    tol (R_expr n r e st) (Done (AS (SInt v), st)).
  Proof.
    induction e using rexpr_nested; intros w E n r st; cbn [cval] in E; try discriminate;
      (destruct n as [|n]; [now left|]); rewrite run_expr_S.
    - inversion E; subst. apply tol_refl.
    - inv_bind E. inversion E.
    - inv_bind E. inv_bind E. inversion E.
    - inv_bind E. inv_bind E. inversion E.
    - inv_bind E. inv_bind E. destruct a as [x|]; [|discriminate]. destruct a0 as [y|]; [|discriminate].
      destruct ((y =? 0) && is_div o) eqn:D; [discriminate|]. inv_bind E. inversion E; subst.
      destruct (IHe1 _ E0 n r st) as [->| ->]; [now left|]. cbn [obind].
      destruct (IHe2 _ E1 n r st) as [->| ->]; [now left|]. cbn [obind].
      right. unfold apply2, look. cbn [abs_view obind plain answer].
      rewrite (fold_bin_op _ _ _ _ D E2). reflexivity.
    - inv_bind E. destruct a as [x|]; [|discriminate].
      destruct (IHe _ E0 n r st) as [->| ->]; [now left|]. cbn [obind]. right.
      unfold apply1, look. cbn [abs_view obind plain].
      destruct o; cbn [unary op_neg op_not as_bool].
      + inv_bind E. inversion E; subst. rewrite E1. reflexivity.
      + inversion E; subst. cbn. unfold zb. destruct (x =? 0); reflexivity.
  Qed.

  Lemma truth_int v st : truth (AS (SInt v)) st = Done (negb (v =? 0)).
  Proof. reflexivity. Qed.

  Ltac go IH := repeat first
    [ apply tol_refl
    | apply IH; first [assumption|constructor; assumption|apply eb_same|apply obetter_refl]
    | apply tol_bind; [|intros]
    | match goal with
      | |- tol (match ?x with _ => _ end) (match ?x with _ => _ end) => destruct x
      end ].

  Definition sim (n : nat) : Prop :=
    (forall r e e' st, ebetter e e' -> tol (R_expr n r e st) (R_expr' n r e' st)) /\
    (forall r es st, tol (R_exprs n r es st) (R_exprs' n r es st)) /\
    (forall x y vs st, fbetter x y -> tol (R_call n x vs st) (R_call' n y vs st)) /\
    (forall r s s' st, better s s' -> tol (R_stmt n r s st) (R_stmt' n r s' st)) /\
    (forall r b b' st, bbetter b b' -> tol (R_stmts n r b st) (R_stmts' n r b' st)) /\
    (forall r b b' st, obetter b b' -> tol (R_block n r b st) (R_block' n r b' st)) /\
    (forall r d e b b' st, bbetter b b' -> tol (R_for n r d e b st) (R_for' n r d e b' st)).

  Lemma sim_all n : sim n.
  Proof.
    induction n as [|n (He & Hes & Hc & Hs & Hss & Hb & Hf)];
      [repeat split; intros; now left|].
    assert (HE : forall r e st, tol (R_expr n r e st) (R_expr' n r e st)) by (intros; apply He; constructor).
    assert (HB : forall r b st, tol (R_block n r b st) (R_block' n r b st))
      by (intros; apply Hb; apply obetter_refl).
    split.
    { intros r e e' st B. inversion B; subst.
      2: { destruct (cval_run _ _ H (S n) r st) as [E|E]; [now left|]. rewrite E. apply tol_refl. }
      destruct e'; rewrite !run_expr_S.
      - apply tol_refl. - apply tol_refl. - apply tol_refl. - apply tol_refl.
      - destruct d; rewrite ?FA; apply tol_refl.
      - apply tol_refl.
      - apply tol_bind; [apply Hes|]. intros [vs st1]. apply tol_refl.
      - apply tol_bind; [apply HE|]. intros [iv st1]. apply tol_bind; [apply HE|]. intros [av st2]. apply tol_refl.
      - apply tol_bind; [apply Hes|]. intros [vs st1].
        assert (G : tol (let* (fv, st2) := R_expr n r e' st1 in
                match fv with
                | AS (SSys i) => sys i vs st2
                | AS (SFun a) =>
                    match by_addr items faddr a with
                    | Some x => if zlen (snd (fst x)) =? zlen vs then R_call n x vs st2
                                else Error e_bad_num_args st2
                    | None => Undefined
                    end
                | ANone => Undefined
                | _ => let* _ := look st2 fv in Error e_bad_type_operation st2
                end)
               (let* (fv, st2) := R_expr' n r e' st1 in
                match fv with
                | AS (SSys i) => sys i vs st2
                | AS (SFun a) =>
                    match by_addr items' faddr' a with
                    | Some x => if zlen (snd (fst x)) =? zlen vs then R_call' n x vs st2
                                else Error e_bad_num_args st2
                    | None => Undefined
                    end
                | ANone => Undefined
                | _ => let* _ := look st2 fv in Error e_bad_type_operation st2
                end)).
        { apply tol_bind; [apply HE|]. intros [fv st2]. destruct fv as [|c|]; try apply tol_refl.
          destruct c; try apply tol_refl.
          pose proof (find_fbetter (fun x => faddr (fd_id (fst (fst x))) =? a) _ _ functs_better
                        ltac:(intros ? ? Q; cbv beta; rewrite Q; reflexivity)) as F.
          rewrite <- by_addr_same. unfold by_addr. destruct (find _ (functs items)) as [x|], (find _ (functs items')) as [y|];
            try contradiction; [|apply tol_refl].
          replace (snd (fst y)) with (snd (fst x)) by (f_equal; apply F).
          destruct (_ =? _); [apply Hc; exact F|apply tol_refl]. }
        destruct e'; try exact G. destruct d as [d|fd]; [exact G|]. clear G.
        destruct (fd_sys fd); [apply tol_refl|].
        pose proof (find_fbetter (fun x => Nat.eqb (fd_id (fst (fst x))) (fd_id fd)) _ _ functs_better
                      ltac:(intros ? ? Q; cbv beta; rewrite Q; reflexivity)) as F.
        unfold by_id. destruct (find _ (functs items)) as [x|], (find _ (functs items')) as [y|];
            try contradiction; [|apply tol_refl]. apply Hc; exact F.
      - apply tol_bind; [apply HE|]. intros [iv st1]. apply tol_bind; [apply HE|]. intros [av st2]. apply tol_refl.
      - apply tol_bind; [apply HE|]. intros [iv st1]. apply tol_refl. }
    split.
    { intros r es st. destruct es; rewrite !run_exprs_S; [apply tol_refl|].
      apply tol_bind; [apply HE|]. intros [v st1]. apply tol_bind; [apply Hes|]. intros [vs st2]. apply tol_refl. }
    split.
    { intros [[f args] b] [[f' args'] b'] vs st [E B]. cbn [fst snd] in *. inversion E; subst. rewrite !run_call_S.
      destruct (_ =? _); [|apply tol_refl]. apply tol_bind; [apply Hss; exact B|]. intros [[o r1] st1]. apply tol_refl. }
    split.
    { intros r s s' st B. inversion B; subst; rewrite !run_stmt_S.
      - destruct s'; cbv beta iota.
        + destruct (vd_kind d); try apply tol_refl. destruct (vd_const d); try apply tol_refl.
          destruct e; [|apply tol_refl]. apply tol_bind; [apply HE|]. intros [? ?]; apply tol_refl.
        + apply tol_bind; [apply HE|]. intros [? ?]; apply tol_refl.
        + apply tol_bind; [apply HE|]. intros [? ?]; apply tol_refl.
        + apply tol_bind; [apply HE|]. intros [? ?]. apply tol_bind; [apply HE|]. intros [? ?]; apply tol_refl.
        + apply tol_bind; [apply HE|]. intros [? ?]; apply tol_refl.
        + apply tol_bind; [apply HE|]. intros [? ?]. apply tol_bind; [apply tol_refl|]. intros b. apply HB.
        + apply tol_bind; [apply HE|]. intros [? ?]. apply tol_bind; [apply tol_refl|].
          intros [|]; [|apply tol_refl]. apply tol_bind; [apply HB|]. intros [[[v|] r1] st2]; [apply tol_refl|].
          apply Hs. constructor.
        + apply tol_bind; [apply HE|]. intros [? ?]. apply tol_bind; [apply tol_refl|].
          intros [? ?]. apply Hf. apply bbetter_refl.
        + destruct e; [|apply tol_refl]. apply tol_bind; [apply HE|]. intros [? ?]; apply tol_refl.
      - apply tol_bind; [apply He; assumption|]. intros [? ?]; apply tol_refl.
      - apply tol_bind; [apply He; assumption|]. intros [? ?]. apply tol_bind; [apply tol_refl|].
        intros [|]; apply Hb; assumption.
      - destruct n as [|n']; [now left|]. rewrite !run_expr_S; cbn [obind]. rewrite truth_int. cbn [obind].
        replace (v =? 0) with false by lia. apply Hb. assumption.
      - destruct n as [|n']; [now left|]. rewrite !run_expr_S; cbn [obind]. rewrite !truth_int. cbn [obind].
        replace (v =? 0) with false by lia. apply Hb. assumption.
      - apply tol_bind; [apply He; assumption|]. intros [? ?]. apply tol_bind; [apply tol_refl|].
        intros [|]; [|apply tol_refl]. apply tol_bind; [apply Hb; assumption|].
        intros [[[v|] r1] st2]; [apply tol_refl|]. apply Hs. constructor; assumption.
      - destruct n as [|n']; [now left|]. rewrite !run_expr_S; cbn [obind]. rewrite !truth_int. cbn [obind]. apply tol_refl.
      - apply tol_bind; [apply HE|]. intros [? ?]. apply tol_bind; [apply tol_refl|].
        intros [? ?]. apply Hf. assumption.
      - inversion H; subst; [apply tol_refl|]. apply tol_bind; [apply He; assumption|]. intros [? ?]; apply tol_refl. }
    split.
    { intros r b b' st B. inversion B; subst; rewrite !run_stmts_S.
      - apply tol_refl.
      - apply tol_bind; [apply Hs; assumption|]. intros [[[v|] r1] st2]; [apply tol_refl|]. apply Hss. assumption.
      - destruct n as [|n']; [now left|].
        pose proof (Hs r (RReturn l e) (RReturn l e) st (b_same _)) as [E|E].
        { left. change ((let* (o, r1, st1) := R_stmt (S n') r (RReturn l e) st in
            match o with Some v => Done (Some v, r1, st1) | None => R_stmts (S n') r1 t st1 end) = Timeout).
          rewrite E. reflexivity. }
        right. change ((let* (o, r1, st1) := R_stmt (S n') r (RReturn l e) st in
            match o with Some v => Done (Some v, r1, st1) | None => R_stmts (S n') r1 t st1 end) =
          let* (o, r1, st1) := R_stmt' (S n') r (RReturn l e) st in
            match o with Some v => Done (Some v, r1, st1) | None => R_stmts' (S n') r1 [] st1 end).
        rewrite <- E. rewrite !run_stmt_S. destruct e as [e|]; [|reflexivity].
        destruct (R_expr n' r e st) as [[? ?]| | |]; reflexivity. }
    split.
    { intros r b b' st B. inversion B; subst; rewrite !run_block_S; [apply tol_refl|].
      apply tol_bind; [apply Hss; assumption|]. intros [[? ?] ?]; apply tol_refl. }
    { intros r d e b b' st B. rewrite !run_for_S. apply tol_bind; [apply tol_refl|]. intros i.
      apply tol_bind; [apply HE|]. intros [m st1]. apply tol_bind; [apply tol_refl|]. intros [t st2].
      apply tol_bind; [apply tol_refl|]. intros [|]; [|apply tol_refl].
      apply tol_bind; [apply Hb; constructor; assumption|]. intros [[[v|] r1] st3]; [apply tol_refl|].
      apply tol_bind; [apply tol_refl|]. intros i1. apply tol_bind; [apply tol_refl|]. intros [i2 st4].
      apply tol_bind; [apply tol_refl|]. intros [r2 st5]. apply Hf. assumption. }
  Qed.

  (** Calls of the same function behave alike. *)
  Lemma call_better n id vs st :
    match by_id items id with
    | Some x => exists y, by_id items' id = Some y /\ tol (R_call n x vs st) (R_call' n y vs st)
    | None => by_id items' id = None
    end.
  Proof.
    pose proof (find_fbetter (fun x => Nat.eqb (fd_id (fst (fst x))) id) _ _ functs_better
                  ltac:(intros ? ? Q; cbv beta; rewrite Q; reflexivity)) as F.
    unfold by_id. destruct (find _ (functs items)) as [x|], (find _ (functs items')) as [y|];
      try contradiction; [|reflexivity].
    exists y. split; [reflexivity|]. now apply sim_all.
  Qed.

  Lemma init_from_better n : forall l l' st, Forall2 ibetter l l' ->
    tol (init_from items faddr sidx sys n l st) (init_from items' faddr' sidx sys n l' st).
  Proof.
    intros l l' st F. revert st. induction F as [|i i' l l' B F IH]; intros st; [apply tol_refl|].
    inversion B; subst; [|rename H into V; cbn [init_from]; destruct e, e'; rewrite ?V; apply IH|cbn [init_from]; apply IH].
    destruct i'; cbn [init_from]; try apply IH. destruct e; [|apply IH].
    destruct (vd_const d); [apply IH|]. apply tol_bind; [apply sim_all; constructor|]. intros [v st1].
    apply tol_bind; [apply tol_refl|]. intros [? st2]. apply IH.
  Qed.
  Lemma global_vars_better : global_vars items = global_vars items'.
  Proof.
    unfold global_vars. clear faddr faddr' FA sidx sys. induction Same as [|i i' l l' B F IH]; [reflexivity|]. cbn [flat_map]. f_equal; [|apply IH; exact F].
    inversion B; subst; reflexivity.
  Qed.
  Lemma initial_better n st :
    tol (initial items faddr sidx sys n st) (initial items' faddr' sidx sys n st).
  Proof. unfold initial. rewrite global_vars_better. apply init_from_better. exact Same. Qed.
End Better.

From Verif Require Import SemaSpec OptSpec.

Lemma better_behaviour items items' : Forall2 ibetter items items' -> same_behaviour items items'.
Proof.
  intros B faddr sidx sys n st. split.
  - intros N. destruct (initial_better items items' faddr faddr (fun _ => eq_refl) sidx sys B n st) as [E|E]; congruence.
  - intros id. pose proof (call_better items items' faddr faddr (fun _ => eq_refl) sidx sys B n id) as C.
    destruct (by_id items id) as [x|] eqn:X; [|exact (C [] st)].
    destruct (C [] st) as (y & Y & _). exists y. split; [exact Y|]. intros vs N.
    destruct (C vs st) as (y' & Y' & [T|T]); congruence.
Qed.
Lemma same_behaviour_trans a b c : same_behaviour a b -> same_behaviour b c -> same_behaviour a c.
Proof.
  intros X Y faddr sidx sys n st. specialize (X faddr sidx sys n st). specialize (Y faddr sidx sys n st).
  destruct X as [X1 X2], Y as [Y1 Y2]. split.
  - intros N. rewrite <- X1 by exact N. apply Y1. rewrite X1; exact N.
  - intros id. specialize (X2 id). specialize (Y2 id). destruct (by_id a id) as [x|].
    + destruct X2 as (y & E & X2). rewrite E in Y2. destruct Y2 as (z & E' & Y2).
      exists z. split; [exact E'|]. intros vs N. rewrite Y2; [now apply X2|]. rewrite X2 by exact N. exact N.
    + rewrite X2 in Y2. exact Y2.
Qed.
Lemma same_behaviour_refl a : same_behaviour a a.
Proof. apply better_behaviour. induction a; constructor; [apply ibetter_refl|assumption]. Qed.

(** ** opt_post_ret_t *)
Lemma cut_better b : bbetter b (cut_block b).
Proof.
  induction b as [|s b IH]; [constructor|].
  destruct s; cbn [cut_block]; try solve [constructor; [constructor|exact IH]]. apply bb_cut.
Qed.
Lemma post_ret_better items : Forall2 ibetter items (map post_ret items).
Proof.
  induction items as [|i l IH]; constructor; [|exact IH].
  destruct i; cbn [post_ret]; try apply ibetter_refl. apply ib_func, cut_better.
Qed.

(** ** opt_const_expr_t *)
Lemma fold_top_better e n e' n' : fold_top e n = Ok (e', n') -> ebetter e e'.
Proof.
  unfold fold_top. intros E. inv_bind E. destruct e; try (inversion E; subst; constructor).
  destruct a; inversion E; subst; [|constructor]. now apply eb_fold.
Qed.
Lemma each_better b : Forall (fun s => forall n s' n', fold_stmt s n = Ok (s', n') -> better s s') b ->
  forall n b' n', each fold_stmt b n = Ok (b', n') -> bbetter b b'.
Proof.
  induction 1 as [|s b H F IH]; intros n b' n' E; cbn [each] in E.
  - inversion E; subst. constructor.
  - inv_bind E. destruct a. inv_bind E. destruct a. inversion E; subst. constructor; eauto.
Qed.
Lemma fold_stmt_better s : forall n s' n', fold_stmt s n = Ok (s', n') -> better s s'.
Proof.
  induction s using rstmt_nested; intros n s' n' E; cbn [fold_stmt] in E.
  - inv_bind E. inversion E; subst. constructor.
  - inv_bind E. destruct a. inversion E; subst. constructor. eapply fold_top_better; eauto.
  - inv_bind E. inversion E; subst. constructor.
  - inv_bind E. inv_bind E. inversion E; subst. constructor.
  - inv_bind E. inversion E; subst. constructor.
  - inv_bind E. inv_bind E. destruct a0. inv_bind E. destruct a0. inv_bind E. destruct a0. inversion E; subst.
    constructor; [eapply fold_top_better; eauto| |].
    + destruct t as [b|]; cbn [oall] in *.
      * inv_bind E1. destruct a0. inversion E1; subst. constructor. eapply each_better; eauto.
      * inversion E1; subst. constructor.
    + destruct f as [b|]; cbn [oall] in *.
      * inv_bind E2. destruct a0. inversion E2; subst. constructor. eapply each_better; eauto.
      * inversion E2; subst. constructor.
  - inv_bind E. inv_bind E. destruct a0. inv_bind E. destruct a0. inversion E; subst.
    constructor; [eapply fold_top_better; eauto|].
    destruct b as [b|]; cbn [oall] in *.
    + inv_bind E1. destruct a0. inversion E1; subst. constructor. eapply each_better; eauto.
    + inversion E1; subst. constructor.
  - inv_bind E. inv_bind E. inv_bind E. destruct a2. inversion E; subst. constructor. eapply each_better; eauto.
  - destruct e.
    + inv_bind E. destruct a. inversion E; subst. constructor. constructor. eapply fold_top_better; eauto.
    + inversion E; subst. constructor.
Qed.
Lemma const_expr_better items : forall n items' n', const_expr items n = Ok (items', n') ->
  Forall2 ibetter items items'.
Proof.
  unfold const_expr. induction items as [|i l IH]; intros n items' n' E; cbn [each] in E.
  - inversion E; subst. constructor.
  - inv_bind E. destruct a. inv_bind E. destruct a. inversion E; subst. constructor; [|eauto].
    destruct i; cbn [fold_item] in E0.
    + inversion E0; subst. apply ibetter_refl.
    + inv_bind E0. inversion E0; subst. apply ibetter_refl.
    + inv_bind E0. destruct a. inversion E0; subst. apply ib_func. eapply each_better; [|eauto].
      apply Forall_forall. intros s _. apply fold_stmt_better.
Qed.

(** ** opt_if_remove_t *)
Definition ifr_oblock (b : option (list rstmt)) (w : list nat) : option (list rstmt) * list nat :=
  match b with None => (None, w) | Some b => let (b', w1) := ifr_block b w in (Some b', w1) end.
Lemma ifr_if l c t f w : ifr_stmt (RIf l c t f) w =
  let (t', w1) := ifr_oblock t w in
  let (f', w2) := ifr_oblock f w1 in
  match c with
  | RInt id v _ =>
      if negb (read_lit w2 id v =? 0) then (RIf l c t' None, w2)
      else (RIf l c f' None, id :: w2)
  | _ => (RIf l c t' f', w2)
  end.
Proof. reflexivity. Qed.
Lemma ifr_while l c b w : ifr_stmt (RWhile l c b) w =
  let (b', w1) := ifr_oblock b w in
  match c with
  | RInt id v _ => if read_lit w1 id v =? 0 then (RWhile l c None, w1) else (RWhile l c b', w1)
  | _ => (RWhile l c b', w1)
  end.
Proof. reflexivity. Qed.
Lemma ifr_for l d lx a b body w : ifr_stmt (RFor l d lx a b body) w =
  let (body', w1) := ifr_block body w in (RFor l d lx a b body', w1).
Proof. reflexivity. Qed.

Definition lits (e : rexpr) : list nat := flat_map literal_node (inside e).
Definition LS (s : rstmt) : list nat := flat_map lits (exprs_stmt s).
Definition CS (s : rstmt) : list nat := flat_map if_literal (within s).
Definition OLS (o : option (list rstmt)) : list nat := match o with Some b => flat_map LS b | None => [] end.
Definition OCS (o : option (list rstmt)) : list nat := match o with Some b => flat_map CS b | None => [] end.

Lemma flat_map_flat_map {A B C} (f : A -> list B) (g : B -> list C) l :
  flat_map g (flat_map f l) = flat_map (fun x => flat_map g (f x)) l.
Proof. induction l; cbn [flat_map]; [reflexivity|]. now rewrite flat_map_app, IHl. Qed.

Lemma LS_if l c t f : LS (RIf l c t f) = lits c ++ OLS t ++ OLS f.
Proof.
  unfold LS. cbn [exprs_stmt flat_map]. rewrite flat_map_app. unfold OLS, LS.
  destruct t, f; rewrite ?flat_map_flat_map; reflexivity.
Qed.
Lemma LS_while l c b : LS (RWhile l c b) = lits c ++ OLS b.
Proof. unfold LS. cbn [exprs_stmt flat_map]. unfold OLS, LS. destruct b; rewrite ?flat_map_flat_map; reflexivity. Qed.
Lemma LS_for l d lx a b body : LS (RFor l d lx a b body) = lits a ++ lits b ++ flat_map LS body.
Proof. unfold LS. cbn [exprs_stmt flat_map]. rewrite flat_map_flat_map; reflexivity. Qed.
Lemma CS_if l c t f : CS (RIf l c t f) = literal_node c ++ OCS t ++ OCS f.
Proof.
  unfold CS. cbn [within flat_map if_literal]. rewrite flat_map_app. unfold OCS, CS.
  destruct c; cbn [literal_node]; destruct t, f; rewrite ?flat_map_flat_map; reflexivity.
Qed.
Lemma CS_while l c b : CS (RWhile l c b) = OCS b.
Proof. unfold CS. cbn [within flat_map if_literal]. unfold OCS, CS. destruct b; rewrite ?flat_map_flat_map; reflexivity. Qed.
Lemma CS_for l d lx a b body : CS (RFor l d lx a b body) = flat_map CS body.
Proof. unfold CS. cbn [within flat_map if_literal]. rewrite ?flat_map_flat_map; reflexivity. Qed.

Lemma CS_LS s : incl (CS s) (LS s).
Proof.
  induction s using rstmt_nested; try solve [intros ? []].
  - rewrite CS_if, LS_if. apply incl_app; [|apply incl_app].
    + apply incl_appl. destruct c; cbn [literal_node]; try solve [intros ? []]. intros y X; exact X.
    + apply incl_appr, incl_appl. destruct t; [|intros ? []]. cbn [oall OCS OLS] in *.
      induction H; cbn [flat_map]; [intros ? []|]. apply incl_app; [apply incl_appl|apply incl_appr]; assumption.
    + apply incl_appr, incl_appr. destruct f; [|intros ? []]. cbn [oall OCS OLS] in *.
      induction H0; cbn [flat_map]; [intros ? []|]. apply incl_app; [apply incl_appl|apply incl_appr]; assumption.
  - rewrite CS_while, LS_while. apply incl_appr. destruct b; [|intros ? []]. cbn [oall OCS OLS] in *.
    induction H; cbn [flat_map]; [intros ? []|]. apply incl_app; [apply incl_appl|apply incl_appr]; assumption.
  - rewrite CS_for, LS_for. apply incl_appr, incl_appr.
    induction H; cbn [flat_map]; [intros ? []|]. apply incl_app; [apply incl_appl|apply incl_appr]; assumption.
Qed.
Lemma CB_LB b : incl (flat_map CS b) (flat_map LS b).
Proof. induction b; cbn [flat_map]; [intros ? []|]. apply incl_app; [apply incl_appl, CS_LS|apply incl_appr; assumption]. Qed.
Lemma OCS_OLS o : incl (OCS o) (OLS o).
Proof. destruct o; [apply CB_LB|intros ? []]. Qed.

Notation occ := (count_occ Nat.eq_dec).
Definition once (C L : list nat) : Prop := forall id, In id C -> occ L id = 1%nat.
Definition apart (a b : list nat) : Prop := forall id, In id a -> ~ In id b.

Lemma occ_in L id : In id L <-> (1 <= occ L id)%nat.
Proof. rewrite (count_occ_In Nat.eq_dec). lia. Qed.

Lemma once_split C L C1 L1 L2 L3 : once C L -> incl C1 C -> incl C1 L1 -> L = L2 ++ L1 ++ L3 ->
  once C1 L1 /\ apart C1 L2 /\ apart C1 L3.
Proof.
  intros O I1 I2 ->. assert (G : forall id, In id C1 -> occ L1 id = 1%nat /\ occ L2 id = 0%nat /\ occ L3 id = 0%nat).
  { intros id X. pose proof (O _ (I1 _ X)) as E. pose proof (proj1 (occ_in _ _) (I2 _ X)).
    rewrite !count_occ_app in E. lia. }
  split; [intros id X; now apply G|]. split; intros id X Y; apply occ_in in Y; destruct (G _ X) as (_ & ? & ?); lia.
Qed.

Lemma set_expr_id W e : apart (lits e) W -> set_expr W e = e.
Proof.
  revert e.
  assert (F : forall es, Forall (fun e => apart (lits e) W -> set_expr W e = e) es ->
              apart (flat_map literal_node (flat_map inside es)) W -> map (set_expr W) es = es).
  { induction 1 as [|e es H F IH]; intros A; [reflexivity|]. cbn [map flat_map] in *.
    rewrite flat_map_app in A. rewrite H, IH; [reflexivity| |]; intros id X; apply A, in_or_app; [right|left]; exact X. }
  unfold lits in *. intros e. induction e using rexpr_nested; intros A; cbn [set_expr]; try reflexivity.
  - unfold read_lit. assert (N : ~ In i W) by (apply A; cbn [inside flat_map literal_node app]; now left).
    replace (existsb (Nat.eqb i) W) with false; [reflexivity|]. symmetry. apply not_true_iff_false. intros X.
    apply existsb_exists in X. destruct X as (x & X & Y). apply Nat.eqb_eq in Y. now subst.
  - rewrite F; [reflexivity|exact H|]. intros id X. apply A. exact X.
  - cbn [inside flat_map literal_node app] in A. rewrite flat_map_app in A.
    rewrite IHe1, IHe2; [reflexivity| |]; intros id X; apply A, in_or_app; [right|left]; exact X.
  - cbn [inside flat_map literal_node app] in A. rewrite flat_map_app in A.
    rewrite IHe, F; [reflexivity|exact H| |]; intros id X; apply A, in_or_app; [right|left]; exact X.
  - cbn [inside flat_map literal_node app] in A. rewrite flat_map_app in A.
    rewrite IHe1, IHe2; [reflexivity| |]; intros id X; apply A, in_or_app; [right|left]; exact X.
  - rewrite IHe; [reflexivity|]. intros id X; apply A; exact X.
Qed.

Lemma read_lit_in W id v : In id W -> read_lit W id v = 1.
Proof.
  intros X. unfold read_lit. replace (existsb (Nat.eqb id) W) with true; [reflexivity|]. symmetry.
  apply existsb_exists. exists id. split; [exact X|apply Nat.eqb_refl].
Qed.
Lemma read_lit_out W id v : ~ In id W -> read_lit W id v = v.
Proof.
  intros X. unfold read_lit. replace (existsb (Nat.eqb id) W) with false; [reflexivity|]. symmetry.
  apply not_true_iff_false. intros Y. apply existsb_exists in Y. destruct Y as (x & Y & Z). apply Nat.eqb_eq in Z. now subst.
Qed.

(** What the pass does to a piece of code with condition literals [C] and
    literals [L]. *)
Definition ifr_ok {A} (rel : A -> A -> Prop) (set : list nat -> A -> A) (run : list nat -> A * list nat)
    (x : A) (C L : list nat) : Prop :=
  once C L -> forall w, apart L w -> forall x' w', run w = (x', w') ->
  exists new, w' = new ++ w /\ incl new C /\
    forall W, (forall id, In id L -> (In id W <-> In id new)) -> rel x (set W x').

Notation ok_stmt s := (ifr_ok better set_stmt (ifr_stmt s) s (CS s) (LS s)).
Notation ok_block b := (ifr_ok bbetter (fun W => map (set_stmt W)) (ifr_block b) b (flat_map CS b) (flat_map LS b)).
Notation ok_oblock o := (ifr_ok obetter (fun W => option_map (map (set_stmt W))) (ifr_oblock o) o (OCS o) (OLS o)).

Lemma ok_block_of b : Forall (fun s => ok_stmt s) b -> ok_block b.
Proof.
  induction 1 as [|s b H F IH]; intros O w A x' w' E; cbn [ifr_block flat_map] in *.
  - inversion E; subst. exists []. repeat split; [intros ? []|]. intros. constructor.
  - destruct (ifr_stmt s w) as [s1 w1] eqn:E1. destruct (ifr_block b w1) as [b1 w2] eqn:E2.
    inversion E; subst x' w'. clear E.
    destruct (once_split _ _ (CS s) (LS s) [] (flat_map LS b) O) as (O1 & _ & Q1);
      [apply incl_appl, incl_refl|apply CS_LS|reflexivity|].
    destruct (once_split _ _ (flat_map CS b) (flat_map LS b) (LS s) [] O) as (O2 & Q2 & _);
      [apply incl_appr, incl_refl|apply CB_LB|now rewrite app_nil_r|].
    destruct (H O1 w) with (x' := s1) (w' := w1) as (n1 & -> & I1 & B1);
      [intros id X; apply A, in_or_app; now left|exact E1|].
    destruct (IH O2 (n1 ++ w)) with (x' := b1) (w' := w2) as (n2 & -> & I2 & B2).
    { intros id X Y. apply in_app_or in Y. destruct Y as [Y|Y]; [exact (Q1 _ (I1 _ Y) X)|].
      revert Y. apply A, in_or_app. now right. }
    { exact E2. }
    exists (n2 ++ n1). rewrite app_assoc. split; [reflexivity|]. split.
    { apply incl_app; [apply incl_appr|apply incl_appl]; assumption. }
    intros W HW. cbn [map]. constructor.
    + apply B1. intros id X. rewrite HW by (apply in_or_app; now left). rewrite in_app_iff.
      split; [|now right]. intros [Y|Y]; [|exact Y]. exfalso. exact (Q2 _ (I2 _ Y) X).
    + apply B2. intros id X. rewrite HW by (apply in_or_app; now right). rewrite in_app_iff.
      split; [|now left]. intros [Y|Y]; [exact Y|]. exfalso. exact (Q1 _ (I1 _ Y) X).
Qed.
Lemma ok_oblock_of o : oall (fun s => ok_stmt s) o -> ok_oblock o.
Proof.
  destruct o as [b|]; cbn [oall OCS OLS]; intros F O w A x' w' E; cbn [ifr_oblock] in E.
  - destruct (ifr_block b w) as [b1 w1] eqn:E1. inversion E; subst.
    destruct (ok_block_of b F O w A _ _ E1) as (n & -> & I & B). exists n. repeat split; [exact I|].
    intros W HW. cbn [option_map]. constructor. apply B. exact HW.
  - inversion E; subst. exists []. repeat split; [intros ? []|]. intros. constructor.
Qed.

(** Statements the pass leaves alone. *)
Lemma ok_plain s : ifr_stmt s = (fun w => (s, w)) ->
  (forall W, apart (LS s) W -> set_stmt W s = s) -> ok_stmt s.
Proof.
  intros R S O w A x' w' E. rewrite R in E. inversion E; subst. exists []. repeat split; [intros ? []|].
  intros W HW. rewrite S; [constructor|]. intros id X Y. apply HW in Y; [destruct Y|exact X].
Qed.

Lemma ok_stmt_all s : ok_stmt s.
Proof.
  induction s using rstmt_nested.
  - apply ok_plain; [reflexivity|]. intros W A. cbn [set_stmt]. destruct e; [|reflexivity]. cbn [option_map].
    rewrite set_expr_id; [reflexivity|]. intros id X. apply A. unfold LS. cbn [exprs_stmt opt_list flat_map].
    now rewrite app_nil_r.
  - apply ok_plain; [reflexivity|]. intros W A. cbn [set_stmt].
    rewrite set_expr_id; [reflexivity|]. intros id X. apply A. unfold LS. cbn [exprs_stmt opt_list flat_map].
    now rewrite app_nil_r.
  - apply ok_plain; [reflexivity|]. intros W A. cbn [set_stmt].
    rewrite set_expr_id; [reflexivity|]. intros id X. apply A. unfold LS. cbn [exprs_stmt opt_list flat_map].
    now rewrite app_nil_r.
  - apply ok_plain; [reflexivity|]. intros W A. unfold LS in A. cbn [exprs_stmt opt_list flat_map] in A.
    rewrite app_nil_r in A. cbn [set_stmt].
    rewrite !set_expr_id; [reflexivity| |]; intros id X; apply A, in_or_app; [now right|now left].
  - apply ok_plain; [reflexivity|]. intros W A. unfold LS in A. cbn [exprs_stmt opt_list flat_map] in A.
    rewrite app_nil_r in A. cbn [set_stmt].
    pose proof (set_expr_id W (RCall l f es) A) as E. cbn [set_expr] in E. inversion E as [[E1 E2]].
    rewrite !E1, !E2. reflexivity.
  - rename H into Ht, H0 into Hf. apply ok_oblock_of in Ht, Hf. intros O w A x' w' E. rewrite ifr_if in E.
    destruct (ifr_oblock t w) as [t1 w1] eqn:Et. destruct (ifr_oblock f w1) as [f1 w2] eqn:Ef.
    rewrite LS_if in A, O. rewrite CS_if in O.
    destruct (once_split _ _ (OCS t) (OLS t) (lits c) (OLS f) O) as (O1 & Qc1 & Q1);
      [apply incl_appr, incl_appl, incl_refl|apply OCS_OLS|reflexivity|].
    destruct (once_split _ _ (OCS f) (OLS f) (lits c ++ OLS t) [] O) as (O2 & Q2 & _);
      [apply incl_appr, incl_appr, incl_refl|apply OCS_OLS|now rewrite app_nil_r, <- app_assoc|].
    assert (Qc2 : apart (OCS f) (lits c)) by (intros id X Y; apply (Q2 _ X), in_or_app; now left).
    assert (Qt2 : apart (OCS f) (OLS t)) by (intros id X Y; apply (Q2 _ X), in_or_app; now right).
    destruct (Ht O1 w) with (x' := t1) (w' := w1) as (n1 & -> & I1 & B1);
      [intros id X; apply A, in_or_app; right; apply in_or_app; now left|exact Et|].
    destruct (Hf O2 (n1 ++ w)) with (x' := f1) (w' := w2) as (n2 & -> & I2 & B2).
    { intros id X Y. apply in_app_or in Y. destruct Y as [Y|Y]; [exact (Q1 _ (I1 _ Y) X)|].
      revert Y. apply A, in_or_app. right. apply in_or_app. now right. }
    { exact Ef. }
    assert (Nt : forall id, In id (OLS t) -> (In id (n2 ++ n1) <-> In id n1)).
    { intros id X. rewrite in_app_iff. split; [|now right]. intros [Y|Y]; [|exact Y].
      exfalso. exact (Qt2 _ (I2 _ Y) X). }
    assert (Nf : forall id, In id (OLS f) -> (In id (n2 ++ n1) <-> In id n2)).
    { intros id X. rewrite in_app_iff. split; [|now left]. intros [Y|Y]; [exact Y|].
      exfalso. exact (Q1 _ (I1 _ Y) X). }
    assert (Nc : forall id, In id (lits c) -> ~ In id (n2 ++ n1)).
    { intros id X Y. apply in_app_or in Y. destruct Y as [Y|Y];
        [exact (Qc2 _ (I2 _ Y) X)|exact (Qc1 _ (I1 _ Y) X)]. }
    assert (In21 : incl (n2 ++ n1) (OCS t ++ OCS f))
      by (apply incl_app; [apply incl_appr|apply incl_appl]; assumption).
    assert (Gen : forall W, (forall id, In id (LS (RIf l c t f)) -> (In id W <-> In id (n2 ++ n1))) ->
                  set_expr W c = c /\ obetter t (option_map (map (set_stmt W)) t1) /\
                  obetter f (option_map (map (set_stmt W)) f1)).
    { intros W HW. rewrite LS_if in HW. split; [|split].
      - apply set_expr_id. intros id X Y. apply HW in Y; [|apply in_or_app; now left]. exact (Nc _ X Y).
      - apply B1. intros id X. rewrite HW by (apply in_or_app; right; apply in_or_app; now left). now apply Nt.
      - apply B2. intros id X. rewrite HW by (apply in_or_app; right; apply in_or_app; now right). now apply Nf. }
    assert (Rest : (RIf l c t1 f1, n2 ++ n1 ++ w) = (x', w') -> exists new, w' = new ++ w /\
              incl new (CS (RIf l c t f)) /\ forall W, (forall id, In id (LS (RIf l c t f)) ->
              (In id W <-> In id new)) -> better (RIf l c t f) (set_stmt W x')).
    { intros E0. inversion E0; subst. exists (n2 ++ n1). split; [now rewrite app_assoc|].
      split; [rewrite CS_if; apply incl_appr; exact In21|].
      intros W HW. destruct (Gen W HW) as (G1 & G2 & G3). cbn [set_stmt]. rewrite G1.
      constructor; [constructor|exact G2|exact G3]. }
    destruct c as [i v lo| | | | | | | | | |]; try exact (Rest E). clear Rest.
    rewrite (read_lit_out (n2 ++ n1 ++ w) i v) in E.
    2: { rewrite app_assoc. intros Y. apply in_app_or in Y. destruct Y as [Y|Y].
         - revert Y. apply Nc. now left.
         - revert Y. apply A. now left. }
    destruct (v =? 0) eqn:V; cbn [negb] in E; inversion E; subst x' w'.
    + assert (v = 0) by lia. subst v. exists (i :: n2 ++ n1). split; [now rewrite app_assoc|]. split.
      { rewrite CS_if. cbn [literal_node app]. apply incl_cons; [now left|]. apply incl_tl. exact In21. }
      intros W HW. cbn [set_stmt set_expr option_map]. rewrite read_lit_in.
      2: { apply HW; [rewrite LS_if; now left|now left]. }
      apply b_if_false; [discriminate|]. apply B2. intros id X.
      rewrite HW by (rewrite LS_if; apply in_or_app; right; apply in_or_app; now right).
      rewrite <- Nf by exact X. split; [|now right]. intros [->|Y]; [|exact Y]. exfalso.
      pose proof (O id ltac:(cbn [literal_node app]; now left)) as E1. cbn in E1.
      destruct (Nat.eq_dec id id); [|congruence]. apply occ_in in X. rewrite count_occ_app in E1. lia.
    + exists (n2 ++ n1). split; [now rewrite app_assoc|].
      split; [rewrite CS_if; apply incl_appr; exact In21|].
      intros W HW. destruct (Gen W HW) as (G1 & G2 & G3). cbn [set_stmt option_map]. rewrite G1.
      apply b_if_true; [lia|exact G2].
  - rename H into Hb. apply ok_oblock_of in Hb. intros O w A x' w' E. rewrite ifr_while in E.
    destruct (ifr_oblock b w) as [b1 w1] eqn:Eb. rewrite LS_while in A, O. rewrite CS_while in O.
    destruct (once_split _ _ (OCS b) (OLS b) (lits c) [] O) as (O1 & Qc & _);
      [apply incl_refl|apply OCS_OLS|now rewrite app_nil_r|].
    destruct (Hb O1 w) with (x' := b1) (w' := w1) as (n1 & -> & I1 & B1);
      [intros id X; apply A, in_or_app; now right|exact Eb|].
    assert (Gen : forall W, (forall id, In id (LS (RWhile l c b)) -> (In id W <-> In id n1)) ->
                  set_expr W c = c /\ obetter b (option_map (map (set_stmt W)) b1)).
    { intros W HW. rewrite LS_while in HW. split.
      - apply set_expr_id. intros id X Y. apply HW in Y; [|apply in_or_app; now left]. exact (Qc _ (I1 _ Y) X).
      - apply B1. intros id X. apply HW, in_or_app. now right. }
    assert (Rest : (RWhile l c b1, n1 ++ w) = (x', w') -> exists new, w' = new ++ w /\
              incl new (CS (RWhile l c b)) /\ forall W, (forall id, In id (LS (RWhile l c b)) ->
              (In id W <-> In id new)) -> better (RWhile l c b) (set_stmt W x')).
    { intros E0. inversion E0; subst. exists n1. split; [reflexivity|]. split; [rewrite CS_while; exact I1|].
      intros W HW. destruct (Gen W HW) as (G1 & G2). cbn [set_stmt]. rewrite G1.
      constructor; [constructor|exact G2]. }
    destruct c as [i v lo| | | | | | | | | |]; try exact (Rest E).
    rewrite (read_lit_out (n1 ++ w) i v) in E.
    2: { intros Y. apply in_app_or in Y. destruct Y as [Y|Y].
         - apply (Qc _ (I1 _ Y)). now left.
         - revert Y. apply A. now left. }
    destruct (v =? 0) eqn:V; [|exact (Rest E)]. clear Rest. inversion E; subst. assert (v = 0) by lia. subst v.
    exists n1. split; [reflexivity|]. split; [rewrite CS_while; exact I1|].
    intros W HW. destruct (Gen W HW) as (G1 & _). cbn [set_stmt option_map]. rewrite G1. apply b_while_false.
  - rename H into Hb. apply ok_block_of in Hb. intros O w A x' w' E. rewrite ifr_for in E.
    destruct (ifr_block body w) as [b1 w1] eqn:Eb. inversion E; subst x' w'. rewrite LS_for in A, O. rewrite CS_for in O.
    destruct (once_split _ _ (flat_map CS body) (flat_map LS body) (lits a ++ lits b) [] O) as (O1 & Qc & _);
      [apply incl_refl|apply CB_LB|now rewrite app_nil_r, <- app_assoc|].
    destruct (Hb O1 w) with (x' := b1) (w' := w1) as (n1 & -> & I1 & B1);
      [intros id X; apply A, in_or_app; right; apply in_or_app; now right|exact Eb|].
    exists n1. split; [reflexivity|]. split; [rewrite CS_for; exact I1|].
    intros W HW. rewrite LS_for in HW. cbn [set_stmt]. rewrite !set_expr_id.
    + constructor. apply B1. intros id X. apply HW, in_or_app. right. apply in_or_app. now right.
    + intros id X Y. apply HW in Y; [|apply in_or_app; right; apply in_or_app; now left].
      apply (Qc _ (I1 _ Y)), in_or_app. now right.
    + intros id X Y. apply HW in Y; [|apply in_or_app; now left].
      apply (Qc _ (I1 _ Y)), in_or_app. now left.
  - apply ok_plain; [reflexivity|]. intros W A. cbn [set_stmt]. destruct e; [|reflexivity]. cbn [option_map].
    rewrite set_expr_id; [reflexivity|]. intros id X. apply A. unfold LS. cbn [exprs_stmt opt_list flat_map].
    now rewrite app_nil_r.
Qed.

Lemma ok_block_all b : ok_block b.
Proof. apply ok_block_of. apply Forall_forall. intros s _. apply ok_stmt_all. Qed.

Definition LI (i : ritem) : list nat := flat_map lits (code_exprs i).
Definition CI (i : ritem) : list nat :=
  match i with RFunc _ _ body _ => flat_map CS body | _ => [] end.
Definition ilist_better (W : list nat) (l l' : list ritem) : Prop := Forall2 ibetter l (map (set_item W) l').

Lemma LI_func f args body lend : LI (RFunc f args body lend) = flat_map LS body.
Proof. unfold LI. cbn [code_exprs exprs_item]. rewrite flat_map_flat_map. reflexivity. Qed.
Lemma CI_LI l : incl (flat_map CI l) (flat_map LI l).
Proof.
  induction l as [|i l IH]; cbn [flat_map]; [intros x []|]. apply incl_app; [apply incl_appl|now apply incl_appr].
  destruct i; cbn [CI]; try (intros x []). rewrite LI_func. apply CB_LB.
Qed.
Lemma ok_item i w i' w' : once (CI i) (LI i) -> apart (LI i) w ->
  (i' = i /\ w' = w /\ (forall f args body lend, i <> RFunc f args body lend) \/
   exists f args body lend b', i = RFunc f args body lend /\ i' = RFunc f args b' lend /\ ifr_block body w = (b', w')) ->
  exists new, w' = new ++ w /\ incl new (CI i) /\
    forall W, (forall id, In id (LI i) -> (In id W <-> In id new)) -> ibetter i (set_item W i').
Proof.
  intros O A [(-> & -> & N)|(f & args & body & lend & b' & -> & -> & E)].
  - exists []. repeat split; [intros ? []|]. intros W HW.
    destruct i as [g|d oe|? ? ? ?]; [apply ib_same; discriminate| |exfalso; eapply N; reflexivity].
    cbn [set_item]. unfold LI in HW. cbn [code_exprs] in HW. destruct (vd_const d) eqn:V; [now apply ib_const|].
    replace (option_map (set_expr W) oe) with oe; [apply ib_same; discriminate|].
    destruct oe as [e|]; [|reflexivity]. cbn [option_map]. rewrite set_expr_id; [reflexivity|].
    intros id X Y. apply HW in Y; [destruct Y|]. cbn [opt_list flat_map]. now rewrite app_nil_r.
  - rewrite LI_func in *. cbn [CI] in *.
    destruct (ok_block_all body O w A _ _ E) as (n & -> & I & B). exists n. repeat split; [exact I|].
    intros W HW. cbn [set_item]. apply ib_func. apply B. exact HW.
Qed.
Lemma ok_items l : once (flat_map CI l) (flat_map LI l) -> forall w, apart (flat_map LI l) w ->
  forall l' w', ifr_items l w = (l', w') ->
  exists new, w' = new ++ w /\ incl new (flat_map CI l) /\
    forall W, (forall id, In id (flat_map LI l) -> (In id W <-> In id new)) -> ilist_better W l l'.
Proof.
  induction l as [|i l IH]; intros O w A l' w' E.
  - inversion E; subst. exists []. repeat split; [intros ? []|]. intros. constructor.
  - assert (X : exists i1 w1 l1, ifr_items l w1 = (l1, w') /\ l' = i1 :: l1 /\
      (i1 = i /\ w1 = w /\ (forall f args body lend, i <> RFunc f args body lend) \/
       exists f args body lend b', i = RFunc f args body lend /\ i1 = RFunc f args b' lend /\
         ifr_block body w = (b', w1))).
    { destruct i; cbn [ifr_items] in E.
      1,2: destruct (ifr_items l w) as [l1 w2] eqn:El; inversion E; subst; do 3 eexists;
        split; [exact El|]; split; [reflexivity|]; left; repeat split; discriminate.
      destruct (ifr_block _ w) as [b1 w1] eqn:Eb. destruct (ifr_items l w1) as [l1 w2] eqn:El.
      inversion E; subst. do 3 eexists. split; [exact El|]. split; [reflexivity|]. right. do 5 eexists.
      repeat split. exact Eb. }
    destruct X as (i1 & w1 & l1 & El & -> & X). clear E. cbn [flat_map] in *.
    destruct (once_split _ _ (CI i) (LI i) [] (flat_map LI l) O) as (O1 & _ & Q1);
      [apply incl_appl, incl_refl| |reflexivity|].
    { pose proof (CI_LI [i]) as T. cbn [flat_map] in T. now rewrite !app_nil_r in T. }
    destruct (once_split _ _ (flat_map CI l) (flat_map LI l) (LI i) [] O) as (O2 & Q2 & _);
      [apply incl_appr, incl_refl|apply CI_LI|now rewrite app_nil_r|].
    destruct (ok_item i w i1 w1 O1) as (n1 & -> & I1 & B1);
      [intros id Y; apply A, in_or_app; now left|exact X|].
    destruct (IH O2 (n1 ++ w)) with (l' := l1) (w' := w') as (n2 & -> & I2 & B2).
    { intros id Z Y. apply in_app_or in Y. destruct Y as [Y|Y]; [exact (Q1 _ (I1 _ Y) Z)|].
      revert Y. apply A, in_or_app. now right. }
    { exact El. }
    exists (n2 ++ n1). rewrite app_assoc. split; [reflexivity|]. split.
    { apply incl_app; [apply incl_appr|apply incl_appl]; assumption. }
    intros W HW. unfold ilist_better. cbn [map]. constructor.
    + apply B1. intros id Z. rewrite HW by (apply in_or_app; now left). rewrite in_app_iff.
      split; [|now right]. intros [Y|Y]; [|exact Y]. exfalso. exact (Q2 _ (I2 _ Y) Z).
    + apply B2. intros id Z. rewrite HW by (apply in_or_app; now right). rewrite in_app_iff.
      split; [|now left]. intros [Y|Y]; [exact Y|]. exfalso. exact (Q1 _ (I1 _ Y) Z).
Qed.

Lemma literal_nodes_eq l : literal_nodes l = flat_map LI l.
Proof. unfold literal_nodes. rewrite !flat_map_flat_map. reflexivity. Qed.
Lemma if_literals_eq l : if_literals l = flat_map CI l.
Proof.
  unfold if_literals, program_stmts. rewrite flat_map_flat_map. apply flat_map_ext. intros i.
  destruct i; try reflexivity. cbn [CI]. rewrite flat_map_flat_map. reflexivity.
Qed.
Lemma if_remove_better items : unshared items -> Forall2 ibetter items (if_remove items).
Proof.
  intros U. unfold if_remove. destruct (ifr_items items []) as [r w] eqn:E.
  destruct (ok_items items) with (w := @nil nat) (l' := r) (w' := w) as (new & -> & I & B).
  - unfold unshared in U. rewrite literal_nodes_eq, if_literals_eq in U. exact U.
  - intros id _ [].
  - exact E.
  - apply B. intros id _. rewrite app_nil_r. reflexivity.
Qed.

(** Folding only removes literals and adds fresh ones. *)
Definition nw (n n' id : nat) : nat := if (n <=? id)%nat && (id <? n')%nat then 1%nat else 0%nat.
Definition fewer (n n' : nat) (L L' C C' : list nat) : Prop :=
  (n <= n')%nat /\ (forall id, (occ L' id <= occ L id + nw n n' id)%nat) /\
  (forall id, In id C' -> In id C \/ (n <= id < n')%nat).
Lemma fewer_refl n L C : fewer n n L L C C.
Proof. split; [lia|]. split; [intros; lia|]. now left. Qed.
Lemma fewer_app n n1 n2 L1 L1' C1 C1' L2 L2' C2 C2' :
  fewer n n1 L1 L1' C1 C1' -> fewer n1 n2 L2 L2' C2 C2' ->
  fewer n n2 (L1 ++ L2) (L1' ++ L2') (C1 ++ C2) (C1' ++ C2').
Proof.
  intros (A1 & A2 & A3) (B1 & B2 & B3). split; [lia|]. split.
  - intros id. rewrite !count_occ_app. specialize (A2 id). specialize (B2 id). unfold nw in *.
    destruct (n <=? id)%nat eqn:E1, (id <? n1)%nat eqn:E2, (n1 <=? id)%nat eqn:E3, (id <? n2)%nat eqn:E4;
      cbn [andb] in *; lia.
  - intros id X. apply in_app_or in X. rewrite in_app_iff. destruct X as [X|X]; [apply A3 in X|apply B3 in X]; intuition lia.
Qed.
Lemma fewer_swap n n' L1 L2 M1 M2 C1 C2 D1 D2 : fewer n n' (L1 ++ L2) (M1 ++ M2) (C1 ++ C2) (D1 ++ D2) ->
  fewer n n' (L2 ++ L1) (M2 ++ M1) (C2 ++ C1) (D2 ++ D1).
Proof.
  intros (A1 & A2 & A3). split; [lia|]. split.
  - intros id. specialize (A2 id). rewrite !count_occ_app in *. lia.
  - intros id X. specialize (A3 id). rewrite !in_app_iff in *. tauto.
Qed.
Lemma fold_top_fewer e n e' n' : fold_top e n = Ok (e', n') ->
  fewer n n' (lits e) (lits e') (literal_node e) (literal_node e').
Proof.
  unfold fold_top. intros E. inv_bind E. destruct e; try (inversion E; subst; apply fewer_refl).
  destruct a; inversion E; subst; [|apply fewer_refl]. split; [lia|]. split.
  - intros id. unfold nw, lits. cbn [inside flat_map literal_node app count_occ].
    destruct (Nat.eq_dec n id) as [->|N]; [|lia]. rewrite Nat.leb_refl.
    replace (id <? S id)%nat with true by (symmetry; apply Nat.ltb_lt; lia). cbn [andb]. lia.
  - intros id [->|[]]. right. lia.
Qed.
Definition fold_fewer (s : rstmt) : Prop := forall n s' n', fold_stmt s n = Ok (s', n') ->
  fewer n n' (LS s) (LS s') (CS s) (CS s').
Lemma each_fewer b : Forall fold_fewer b -> forall n b' n', each fold_stmt b n = Ok (b', n') ->
  fewer n n' (flat_map LS b) (flat_map LS b') (flat_map CS b) (flat_map CS b').
Proof.
  induction 1 as [|s b H F IH]; intros n b' n' E; cbn [each] in E.
  - inversion E; subst. apply fewer_refl.
  - inv_bind E. destruct a. inv_bind E. destruct a. inversion E; subst. cbn [flat_map].
    eapply fewer_app; [apply H; eassumption|eapply IH; eassumption].
Qed.
Lemma oeach_fewer o : oall fold_fewer o -> forall n o' n',
  match o with None => Ok (None, n) | Some b => '(b', m) <- each fold_stmt b n ;; Ok (Some b', m) end = Ok (o', n') ->
  fewer n n' (OLS o) (OLS o') (OCS o) (OCS o').
Proof.
  destruct o as [b|]; cbn [oall]; intros F n o' n' E.
  - inv_bind E. destruct a. inversion E; subst. eapply each_fewer; eassumption.
  - inversion E; subst. apply fewer_refl.
Qed.
Lemma fewer_drop n n' L L' C : fewer n n' L L' C [] -> fewer n n' L L' [] [].
Proof. intros (A & B & _). split; [exact A|]. split; [exact B|]. intros id []. Qed.
Lemma fold_stmt_fewer s : fold_fewer s.
Proof.
  induction s using rstmt_nested; intros n s' n' E; cbn [fold_stmt] in E.
  - inv_bind E. inversion E; subst. apply fewer_refl.
  - inv_bind E. destruct a. inversion E; subst. apply fold_top_fewer in E0. destruct E0 as (A & B & _).
    unfold LS. cbn [exprs_stmt flat_map]. rewrite !app_nil_r. split; [exact A|]. split; [exact B|]. intros id [].
  - inv_bind E. inversion E; subst. apply fewer_refl.
  - inv_bind E. inv_bind E. inversion E; subst. apply fewer_refl.
  - inv_bind E. inversion E; subst. apply fewer_refl.
  - inv_bind E. inv_bind E. destruct a0. inv_bind E. destruct a0. inv_bind E. destruct a0. inversion E; subst.
    apply (oeach_fewer _ H) in E1. apply (oeach_fewer _ H0) in E2. apply fold_top_fewer in E3.
    rewrite !LS_if, !CS_if. apply fewer_swap. eapply fewer_app; [|exact E3]. eapply fewer_app; eassumption.
  - inv_bind E. inv_bind E. destruct a0. inv_bind E. destruct a0. inversion E; subst.
    apply (oeach_fewer _ H) in E1. apply fold_top_fewer in E2. rewrite !LS_while, !CS_while.
    pose proof (fewer_app _ _ _ _ _ _ _ _ _ _ _ E1 E2) as (A & B & _). destruct E1 as (A1 & _ & C1).
    split; [exact A|]. split.
    + intros id. specialize (B id). rewrite !count_occ_app in *. lia.
    + intros id X. apply C1 in X. destruct E2 as (? & _). intuition lia.
  - inv_bind E. inv_bind E. inv_bind E. destruct a2. inversion E; subst. apply (each_fewer _ H) in E2.
    rewrite !LS_for, !CS_for. change (flat_map CS body) with ([] ++ [] ++ flat_map CS body).
    change (flat_map CS l0) with ([] ++ [] ++ flat_map CS l0).
    eapply fewer_app; [apply fewer_refl|]. eapply fewer_app; [apply fewer_refl|exact E2].
  - destruct e.
    + inv_bind E. destruct a. inversion E; subst. apply fold_top_fewer in E0. destruct E0 as (A & B & _).
      unfold LS. cbn [exprs_stmt opt_list flat_map]. rewrite !app_nil_r. split; [exact A|]. split; [exact B|]. intros id [].
    + inversion E; subst. apply fewer_refl.
Qed.
Lemma const_expr_fewer items : forall n items' n', const_expr items n = Ok (items', n') ->
  fewer n n' (flat_map LI items) (flat_map LI items') (flat_map CI items) (flat_map CI items').
Proof.
  unfold const_expr. induction items as [|i l IH]; intros n items' n' E; cbn [each] in E.
  - inversion E; subst. apply fewer_refl.
  - inv_bind E. destruct a. inv_bind E. destruct a. inversion E; subst. cbn [flat_map].
    eapply fewer_app; [|eapply IH; eassumption].
    destruct i; cbn [fold_item] in E0.
    + inversion E0; subst. apply fewer_refl.
    + inv_bind E0. inversion E0; subst. apply fewer_refl.
    + inv_bind E0. destruct a. inversion E0; subst. rewrite !LI_func. cbn [CI]. eapply each_fewer; [|eauto].
      apply Forall_forall. intros s _. apply fold_stmt_fewer.
Qed.
Lemma cut_fewer n b : fewer n n (flat_map LS b) (flat_map LS (cut_block b)) (flat_map CS b) (flat_map CS (cut_block b)).
Proof.
  assert (G : forall s b, fewer n n (flat_map LS b) (flat_map LS (cut_block b)) (flat_map CS b) (flat_map CS (cut_block b)) ->
    fewer n n (flat_map LS (s :: b)) (flat_map LS (s :: cut_block b)) (flat_map CS (s :: b)) (flat_map CS (s :: cut_block b))).
  { intros s t H. cbn [flat_map]. eapply fewer_app; [apply fewer_refl|exact H]. }
  induction b as [|s b IH]; [apply fewer_refl|].
  destruct s; cbn [cut_block]; try (apply G; exact IH). cbn [flat_map]. eapply fewer_app; [apply fewer_refl|].
  split; [lia|]. split; [intros; cbn; lia|]. intros id [].
Qed.
Lemma post_ret_fewer n items :
  fewer n n (flat_map LI items) (flat_map LI (map post_ret items)) (flat_map CI items) (flat_map CI (map post_ret items)).
Proof.
  induction items as [|i l IH]; [apply fewer_refl|]. cbn [map flat_map]. eapply fewer_app; [|exact IH].
  destruct i; cbn [post_ret]; try apply fewer_refl. rewrite !LI_func. cbn [CI]. apply cut_fewer.
Qed.
Lemma fewer_unshared n n' items items' :
  (forall id, In id (literal_nodes items) -> (id < n)%nat) ->
  fewer n n' (flat_map LI items) (flat_map LI items') (flat_map CI items) (flat_map CI items') ->
  unshared items -> unshared items'.
Proof.
  unfold unshared. rewrite !literal_nodes_eq, !if_literals_eq. intros Lt (A & B & C) U id X.
  pose proof (proj1 (occ_in _ _) (CI_LI _ _ X)) as G. specialize (B id). unfold nw in B. apply C in X. destruct X as [X|X].
  - pose proof (U _ X) as E. apply CI_LI, Lt in X. replace (n <=? id)%nat with false in B by (symmetry; apply Nat.leb_gt; lia).
    cbn [andb] in B. lia.
  - destruct (occ (flat_map LI items) id) as [|k] eqn:E.
    + destruct ((n <=? id)%nat && (id <? n')%nat); lia.
    + assert (In id (flat_map LI items)) as Y by (apply occ_in; lia). apply Lt in Y. lia.
Qed.
Lemma fewer_bound n n' items items' :
  (forall id, In id (literal_nodes items) -> (id < n)%nat) ->
  fewer n n' (flat_map LI items) (flat_map LI items') (flat_map CI items) (flat_map CI items') ->
  forall id, In id (literal_nodes items') -> (id < n')%nat.
Proof.
  rewrite !literal_nodes_eq. intros Lt (A & B & C) id X. apply occ_in in X. specialize (B id). unfold nw in B.
  destruct (occ (flat_map LI items) id) as [|k] eqn:E.
  - destruct (n <=? id)%nat eqn:E1, (id <? n')%nat eqn:E2; cbn [andb] in B; try lia.
  - assert (In id (flat_map LI items)) as Y by (apply occ_in; lia). apply Lt in Y. lia.
Qed.

Lemma run_optimize_better on items n items' n' :
  (forall id, In id (literal_nodes items) -> (id < n)%nat) -> unshared items ->
  run_optimize on items n = Ok (items', n') -> same_behaviour items items'.
Proof.
  intros Lt U E. unfold run_optimize in E. destruct on; [|inversion E; subst; apply same_behaviour_refl].
  inv_bind E. destruct a as [r n1]. inversion E; subst.
  pose proof (post_ret_fewer n items) as F1. pose proof (const_expr_fewer _ _ _ _ E0) as F2.
  eapply same_behaviour_trans; [apply better_behaviour, post_ret_better|].
  eapply same_behaviour_trans; [apply better_behaviour; eapply const_expr_better; exact E0|].
  apply better_behaviour, if_remove_better.
  eapply fewer_unshared; [|exact F2|eapply fewer_unshared; eassumption].
  eapply fewer_bound; eassumption.
Qed.

(** Enough steps for an expression the folder evaluates. *)
Lemma cval_runs items faddr sidx sys e : forall v, cval e = Ok (Some v) ->
  exists k, forall n r st, (k <= n)%nat -> run_expr items faddr sidx sys n r e st = Done (AS (SInt v), st).
Proof.
  assert (G : forall v, cval e = Ok (Some v) ->
    exists k, forall n r st, (k <= n)%nat -> run_expr items faddr sidx sys n r e st <> Timeout).
  { assert (R : forall e v n r st, cval e = Ok (Some v) -> run_expr items faddr sidx sys n r e st <> Timeout ->
              run_expr items faddr sidx sys n r e st = Done (AS (SInt v), st)).
    { intros e0 v n r st E N. destruct (cval_run items faddr sidx sys e0 v E n r st); congruence. }
    induction e using rexpr_nested; intros w E; cbn [cval] in E; try discriminate.
    - exists 1%nat. intros [|n] r st Hn; [lia|]. rewrite run_expr_S. discriminate.
    - inv_bind E. inversion E.
    - inv_bind E. inv_bind E. inversion E.
    - inv_bind E. inv_bind E. inversion E.
    - pose proof E as E'. inv_bind E. inv_bind E. destruct a as [x|]; [|discriminate]. destruct a0 as [y|]; [|discriminate].
      destruct ((y =? 0) && is_div o) eqn:D; [discriminate|]. inv_bind E. inversion E; subst.
      destruct (IHe1 _ E0) as [k1 K1]. destruct (IHe2 _ E1) as [k2 K2].
      exists (S (Nat.max k1 k2)). intros [|n] r st Hn; [lia|]. rewrite run_expr_S.
      rewrite (R _ _ n r st E0) by (apply K1; lia). cbn [obind].
      rewrite (R _ _ n r st E1) by (apply K2; lia). cbn [obind].
      unfold apply2, look. cbn [abs_view obind plain answer]. rewrite (fold_bin_op _ _ _ _ D E2). discriminate.
    - inv_bind E. destruct a as [x|]; [|discriminate]. destruct (IHe _ E0) as [k1 K1].
      exists (S k1). intros [|n] r st Hn; [lia|]. rewrite run_expr_S.
      rewrite (R _ _ n r st E0) by (apply K1; lia). cbn [obind].
      unfold apply1, look. cbn [abs_view obind plain].
      destruct o; cbn [unary op_neg op_not as_bool].
      + inv_bind E. rewrite E1. discriminate.
      + discriminate. }
  intros v E. destruct (G v E) as [k K]. exists k. intros n r st Hn.
  destruct (cval_run items faddr sidx sys e v E n r st) as [T|T]; [|exact T]. exfalso. exact (K n r st Hn T).
Qed.
Lemma after_return items faddr sidx sys l e post pre : forall n r st,
  run_stmts items faddr sidx sys n r (pre ++ RReturn l e :: post) st =
  run_stmts items faddr sidx sys n r (pre ++ [RReturn l e]) st.
Proof.
  induction pre as [|s pre IH]; intros [|n] r st; cbn [app]; rewrite ?run_stmts_S, ?run_stmts_O; try reflexivity.
  - destruct n as [|n]; [reflexivity|]. rewrite run_stmt_S. destruct e as [e|]; [|reflexivity].
    destruct (run_expr items faddr sidx sys n r e st) as [[v st1]| | |]; reflexivity.
  - destruct (run_stmt items faddr sidx sys n r s st) as [[[o r1] st1]| | |]; cbn [obind]; try reflexivity.
    destruct o; [reflexivity|apply IH].
Qed.
