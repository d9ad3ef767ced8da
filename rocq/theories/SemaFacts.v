(** Proofs about the semantic passes. *)
From Coq Require Import ZArith List Bool Lia String.
From Verif Require Import Base BaseFacts F32 Ast PrintFacts Sema SemaSpec.
Import ListNotations.
Open Scope Z_scope.

(** ** Induction over annotated trees *)
Definition oall {A} (P : A -> Prop) (o : option (list A)) : Prop :=
  match o with Some b => Forall P b | None => True end.

Section RexprInduction.
  Context (P : rexpr -> Prop)
    (Hint : forall i v l, P (RInt i v l)) (Hfloat : forall f l, P (RFloat f l))
    (Hstr : forall s l, P (RStr s l)) (Hnone : forall l, P (RNone l))
    (Hident : forall x l, P (RIdent x l)) (Hmember : forall x l m lm, P (RMember x l m lm))
    (Harray : forall l es, Forall P es -> P (RArray l es))
    (Hindex : forall l a i, P a -> P i -> P (RIndex l a i))
    (Hcall : forall l f es, P f -> Forall P es -> P (RCall l f es))
    (Hbin : forall o l a b, P a -> P b -> P (RBin o l a b))
    (Hun : forall o l a, P a -> P (RUn o l a)).
  Fixpoint rexpr_nested (e : rexpr) : P e :=
    let all := fix all (es : list rexpr) : Forall P es :=
      match es with [] => Forall_nil _ | e :: r => Forall_cons _ (rexpr_nested e) (all r) end in
    match e with
    | RInt i v l => Hint i v l | RFloat f l => Hfloat f l | RStr s l => Hstr s l
    | RNone l => Hnone l | RIdent x l => Hident x l | RMember x l m lm => Hmember x l m lm
    | RArray l es => Harray l es (all es)
    | RIndex l a i => Hindex l a i (rexpr_nested a) (rexpr_nested i)
    | RCall l f es => Hcall l f es (rexpr_nested f) (all es)
    | RBin o l a b => Hbin o l a b (rexpr_nested a) (rexpr_nested b)
    | RUn o l a => Hun o l a (rexpr_nested a)
    end.
End RexprInduction.

Section RstmtInduction.
  Context (P : rstmt -> Prop)
    (Hvar : forall d e, P (RVar d e)) (Hassign : forall d l e, P (RAssign d l e))
    (Hmem : forall d l m lm e, P (RSetMem d l m lm e)) (Hidx : forall d l i e, P (RSetIdx d l i e))
    (Hcall : forall l f es, P (RCallS l f es))
    (Hif : forall l c t f, oall P t -> oall P f -> P (RIf l c t f))
    (Hwhile : forall l c b, oall P b -> P (RWhile l c b))
    (Hfor : forall l d lx a b body, Forall P body -> P (RFor l d lx a b body))
    (Hret : forall l e, P (RReturn l e)).
  Fixpoint rstmt_nested (s : rstmt) : P s :=
    let all := fix all (es : list rstmt) : Forall P es :=
      match es with [] => Forall_nil _ | e :: r => Forall_cons _ (rstmt_nested e) (all r) end in
    let oal (o : option (list rstmt)) : oall P o :=
      match o with Some b => all b | None => I end in
    match s with
    | RVar d e => Hvar d e | RAssign d l e => Hassign d l e
    | RSetMem d l m lm e => Hmem d l m lm e | RSetIdx d l i e => Hidx d l i e
    | RCallS l f es => Hcall l f es
    | RIf l c t f => Hif l c t f (oal t) (oal f)
    | RWhile l c b => Hwhile l c b (oal b)
    | RFor l d lx a b body => Hfor l d lx a b body (all body)
    | RReturn l e => Hret l e
    end.
End RstmtInduction.

(** ** Traversals *)
Ltac inv_bind H :=
  let a := fresh "a" in let E := fresh "E" in
  apply bind_ok in H; destruct H as (a & E & H); cbv beta in H.

Section Each.
  Context {A B S : Type}.
  Lemma each_inv (f : A -> S -> res (B * S)) (Q : A -> B -> Prop) l s bs s' :
    Forall (fun a => forall s b s', f a s = Ok (b, s') -> Q a b) l ->
    each f l s = Ok (bs, s') -> Forall2 Q l bs.
  Proof.
    intros H. revert s bs. induction H as [|a l Ha Hl IH]; intros s bs E; cbn [each] in E.
    - inversion E. constructor.
    - inv_bind E. destruct a0. inv_bind E. destruct a0. inversion E; subst. constructor; eauto.
  Qed.
  Lemma each__inv (f : A -> res B) (Q : A -> B -> Prop) l bs :
    Forall (fun a => forall b, f a = Ok b -> Q a b) l ->
    each_ f l = Ok bs -> Forall2 Q l bs.
  Proof.
    intros H. revert bs. induction H as [|a l Ha Hl IH]; intros bs E; cbn [each_] in E.
    - inversion E. constructor.
    - inv_bind E. inv_bind E. inversion E; subst. constructor; eauto.
  Qed.
  Lemma all__iff (f : A -> res unit) (Q : A -> Prop) l :
    Forall (fun a => f a = Ok tt <-> Q a) l -> (all_ f l = Ok tt <-> Forall Q l).
  Proof.
    induction 1 as [|a l Ha Hl IH]; cbn [all_]; [split; [constructor|reflexivity]|].
    rewrite Forall_cons_iff, <- Ha, <- IH. destruct (f a) as [[]| |]; cbn [bind]; [tauto| |];
      split; [discriminate|intros [? _]; congruence|discriminate|intros [? _]; congruence].
  Qed.
End Each.

(** ** Name resolution *)
Section Resolve.
  Context (addr : nat -> Z).

  Lemma lowest_in x s d : lowest addr x s = Some d -> In d s /\ decl_name d = x.
  Proof.
    revert d. induction s as [|d0 s IH]; intros d E; cbn [lowest] in E; [discriminate|].
    destruct (bytes_eqb (decl_name d0) x) eqn:B.
    - apply bytes_eqb_eq in B. destruct (lowest addr x s) as [d'|] eqn:L.
      + destruct (IH d' eq_refl) as [I1 I2].
        destruct (_ <? _); inversion E; subst; cbn [In]; tauto.
      + inversion E; subst; cbn [In]; tauto.
    - destruct (IH d E). cbn [In]. tauto.
  Qed.
  Lemma lowest_none x s : lowest addr x s = None <-> forall d, In d s -> decl_name d <> x.
  Proof.
    induction s as [|d0 s IH]; cbn [lowest In]; [split; [intros _ d []|reflexivity]|].
    destruct (bytes_eqb (decl_name d0) x) eqn:B.
    - apply bytes_eqb_eq in B. split.
      + intros E. destruct (lowest addr x s); [destruct (_ <? _)|]; discriminate.
      + intros H. exfalso. apply (H d0); auto.
    - apply bytes_eqb_neq in B. rewrite IH. split.
      + intros H d [<-|I]; auto.
      + intros H d I. apply H; auto.
  Qed.
  Lemma find_decl_innermost x sc d : find_decl addr x sc = Some d -> decl_name d = x /\ innermost (d, sc).
  Proof.
    induction sc as [|s sc IH]; intros E; cbn [find_decl] in E; [discriminate|].
    destruct (lowest addr x s) as [d'|] eqn:L.
    - inversion E; subst. destruct (lowest_in _ _ _ L) as [I N]. split; [exact N|].
      exists [], s, sc. split; [reflexivity|]. split; [exact I|]. intros ? ? [].
    - destruct (IH E) as (N & inner & level & outer & -> & I & F). split; [exact N|].
      exists (s :: inner), level, outer. split; [reflexivity|]. split; [exact I|].
      intros s' d' [<-|I'] I2; [|eauto]. rewrite N. apply (proj1 (lowest_none x s) L d' I2).
  Qed.
  Lemma find_decl_none x sc :
    find_decl addr x sc = None <-> forall s d, In s sc -> In d s -> decl_name d <> x.
  Proof.
    induction sc as [|s sc IH]; cbn [find_decl In]; [split; [intros _ s d []|reflexivity]|].
    destruct (lowest addr x s) as [d'|] eqn:L.
    - split; [discriminate|]. intros H. destruct (lowest_in _ _ _ L) as [I N].
      exfalso. apply (H s d'); auto.
    - rewrite IH. split.
      + intros H s' d [<-|I] I2; [apply (proj1 (lowest_none x s) L d I2)|eauto].
      + intros H s' d I. apply H; auto.
  Qed.

  Lemma find_var_inv err x l sc d :
    find_var addr err x l sc = Ok d -> vd_name d = x /\ innermost (DV d, sc).
  Proof.
    unfold find_var. destruct (find_decl addr x sc) as [[d'|]|] eqn:F; try discriminate.
    intros E. inversion E; subst. apply (find_decl_innermost _ _ _ F).
  Qed.

  Lemma Forall2_map_eq {A B} (f : B -> A) l bs : Forall2 (fun a b => f b = a) l bs -> map f bs = l.
  Proof. induction 1; cbn [map]; congruence. Qed.
  Lemma Forall2_flat {A B C} (P : C -> Prop) (f : B -> list C) (l : list A) bs :
    Forall2 (fun _ b => Forall P (f b)) l bs -> Forall P (flat_map f bs).
  Proof. induction 1; cbn [flat_map]; [constructor|]. apply Forall_app; auto. Qed.
  Lemma Forall2_and {A B} (P Q : A -> B -> Prop) l bs :
    Forall2 (fun a b => P a b /\ Q a b) l bs -> Forall2 P l bs /\ Forall2 Q l bs.
  Proof. induction 1 as [|? ? ? ? [] ? []]; split; constructor; auto. Qed.

  Lemma ann_expr_inv sc e : forall n r n', ann_expr addr sc e n = Ok (r, n') ->
    plain_expr r = e /\ Forall innermost (uses_expr sc r).
  Proof.
    induction e using expr_nested; intros n r n' E; cbn [ann_expr] in E;
      try (inversion E; subst; cbn [plain_expr line_of uses_expr]; now auto).
    - destruct (find_decl addr x sc) as [d|] eqn:F; inversion E; subst.
      destruct (find_decl_innermost _ _ _ F). cbn [plain_expr uses_expr]. split; [congruence|auto].
    - destruct (find_decl addr x sc) as [[d|]|] eqn:F; inversion E; subst.
      destruct (find_decl_innermost _ _ _ F) as [N ?]. cbn [decl_name] in N.
      cbn [plain_expr uses_expr]. split; [congruence|auto].
    - inv_bind E. destruct a as [rs n1]. inversion E; subst.
      apply (each_inv _ _ _ _ _ _ H) in E0. apply Forall2_and in E0. destruct E0 as [P1 P2].
      cbn [plain_expr uses_expr]. rewrite (Forall2_map_eq _ _ _ P1). split; [reflexivity|].
      apply (Forall2_flat _ _ _ _ P2).
    - inv_bind E. destruct a as [ra n1]. inv_bind E. destruct a as [ri n2]. inversion E; subst.
      destruct (IHe1 _ _ _ E0), (IHe2 _ _ _ E1). cbn [plain_expr uses_expr].
      split; [congruence|apply Forall_app; auto].
    - inv_bind E. destruct a as [rs n1]. inv_bind E. destruct a as [rf n2]. inversion E; subst.
      apply (each_inv _ _ _ _ _ _ H) in E0. apply Forall2_and in E0. destruct E0 as [P1 P2].
      destruct (IHe _ _ _ E1).
      cbn [plain_expr uses_expr]. rewrite (Forall2_map_eq _ _ _ P1). split; [congruence|].
      apply Forall_app; split; [apply (Forall2_flat _ _ _ _ P2)|assumption].
    - inv_bind E. destruct a as [ra n1]. inv_bind E. destruct a as [ri n2]. inversion E; subst.
      destruct (IHe1 _ _ _ E0), (IHe2 _ _ _ E1). cbn [plain_expr uses_expr].
      split; [congruence|apply Forall_app; auto].
    - inv_bind E. destruct a as [ra n1]. inversion E; subst.
      destruct (IHe _ _ _ E0). cbn [plain_expr uses_expr]. split; [congruence|auto].
  Qed.

  Lemma ann_exprs_inv sc es n rs n' : each (ann_expr addr sc) es n = Ok (rs, n') ->
    map plain_expr rs = es /\ Forall innermost (flat_map (uses_expr sc) rs).
  Proof.
    intros E. apply (each_inv _ (fun a b => plain_expr b = a /\ Forall innermost (uses_expr sc b))) in E.
    - apply Forall2_and in E. destruct E as [P1 P2]. split; [apply (Forall2_map_eq _ _ _ P1)|apply (Forall2_flat _ _ _ _ P2)].
    - apply Forall_forall. intros a _ ? ? ? H. eapply ann_expr_inv; eassumption.
  Qed.
  Lemma ann_opt_inv sc o n r n' : ann_opt addr sc o n = Ok (r, n') ->
    option_map plain_expr r = o /\ Forall innermost (uses_opt sc r).
  Proof.
    destruct o as [e|]; cbn [ann_opt]; intros E.
    - inv_bind E. destruct a. inversion E; subst. destruct (ann_expr_inv _ _ _ _ _ E0).
      cbn [option_map uses_opt]. split; [congruence|auto].
    - inversion E; subst. cbn [option_map uses_opt]. auto.
  Qed.

  Lemma after_block_tl b : forall s sc, exists s', after_block (s :: sc) b = s' :: sc.
  Proof.
    induction b as [|x b IH]; intros s sc; [exists s; reflexivity|].
    unfold after_block in *. cbn [fold_left]. destruct x; cbn [after_stmt with_decl]; apply IH.
  Qed.

  Definition stmt_good (s : stmt) : Prop := forall sc n r sc' n',
    ann_stmt addr s (sc, n) = Ok (r, (sc', n')) ->
    plain_stmt r = s /\ sc' = after_stmt sc r /\ Forall innermost (uses_stmt sc r).

  Lemma ann_block_inv b : Forall stmt_good b -> forall sc n rb sc' n',
    each (ann_stmt addr) b (sc, n) = Ok (rb, (sc', n')) ->
    map plain_stmt rb = b /\ sc' = after_block sc rb /\ Forall innermost (uses_block sc rb).
  Proof.
    induction 1 as [|s b Hs Hb IH]; intros sc n rb sc' n' E; cbn [each] in E.
    - inversion E; subst. split; [reflexivity|]. split; [reflexivity|constructor].
    - inv_bind E. destruct a as [r [sc1 n1]]. inv_bind E. destruct a as [rb' [sc2 n2]].
      inversion E; subst. destruct (Hs _ _ _ _ _ E0) as (P1 & -> & U1).
      destruct (IH _ _ _ _ _ E1) as (P2 & -> & U2).
      cbn [map]. split; [congruence|]. split; [reflexivity|].
      unfold uses_block. cbn [in_order]. apply Forall_app; auto.
  Qed.

  Lemma ann_stmt_inv s : stmt_good s.
  Proof.
    induction s using stmt_nested; intros sc n r sc' n' E; cbn [ann_stmt] in E.
    - inv_bind E. destruct a as [re n1]. inversion E; subst.
      destruct (ann_opt_inv _ _ _ _ _ E0). cbn [plain_stmt after_stmt uses_stmt vd_name vd_line].
      split; [congruence|]. split; [reflexivity|assumption].
    - inv_bind E. destruct a as [re n1]. inv_bind E. inversion E; subst.
      destruct (ann_expr_inv _ _ _ _ _ E0), (find_var_inv _ _ _ _ _ E1).
      cbn [plain_stmt after_stmt uses_stmt].
      split; [congruence|]. split; [reflexivity|]. apply Forall_app; auto.
    - inv_bind E. destruct a as [re n1]. inv_bind E. inversion E; subst.
      destruct (ann_expr_inv _ _ _ _ _ E0), (find_var_inv _ _ _ _ _ E1).
      cbn [plain_stmt after_stmt uses_stmt].
      split; [congruence|]. split; [reflexivity|]. apply Forall_app; auto.
    - inv_bind E. destruct a as [ri n1]. inv_bind E. destruct a as [re n2]. inv_bind E. inversion E; subst.
      destruct (ann_expr_inv _ _ _ _ _ E0), (ann_expr_inv _ _ _ _ _ E1), (find_var_inv _ _ _ _ _ E2).
      cbn [plain_stmt after_stmt uses_stmt].
      split; [congruence|]. split; [reflexivity|]. apply Forall_app; split; [|apply Forall_app]; auto.
    - inv_bind E. destruct a as [rs n1]. inv_bind E. destruct a as [rf n2]. inversion E; subst.
      destruct (ann_exprs_inv _ _ _ _ _ E0), (ann_expr_inv _ _ _ _ _ E1) as [P ?].
      cbn [plain_stmt after_stmt uses_stmt]. rewrite P.
      split; [congruence|]. split; [reflexivity|]. apply Forall_app; auto.
    - inv_bind E. destruct a as [rc n1]. inv_bind E. destruct a as [rt [sc2 n2]].
      cbn [bind] in E. inversion E; subst.
      destruct (ann_expr_inv _ _ _ _ _ E0), (ann_block_inv _ H _ _ _ _ _ E1) as (P & -> & U).
      cbn [plain_stmt after_stmt uses_stmt fst snd].
      destruct (after_block_tl rt [] sc) as [s' ->].
      split; [congruence|]. split; [reflexivity|].
      apply Forall_app; split; [assumption|]. apply Forall_app; split; [exact U|constructor].
    - inv_bind E. destruct a as [rc n1]. inv_bind E. destruct a as [rt [sc2 n2]].
      inv_bind E. destruct a as [rf st3]. inv_bind E2. destruct a as [rf' [sc3 n3]]. inversion E2; subst.
      cbn [fst snd] in E. inversion E; subst.
      destruct (ann_expr_inv _ _ _ _ _ E0), (ann_block_inv _ H _ _ _ _ _ E1) as (P & -> & U).
      destruct (ann_block_inv _ H0 _ _ _ _ _ E3) as (P' & -> & U').
      cbn [plain_stmt after_stmt uses_stmt].
      split; [congruence|]. split.
      + destruct (after_block_tl rt [] sc) as [s' ->]. destruct (after_block_tl rf' s' sc) as [s'' ->]. reflexivity.
      + apply Forall_app; split; [assumption|]. apply Forall_app; split; [exact U|exact U'].
    - inv_bind E. destruct a as [rc n1]. inv_bind E. destruct a as [rt [sc2 n2]].
      inversion E; subst.
      destruct (ann_expr_inv _ _ _ _ _ E0), (ann_block_inv _ H _ _ _ _ _ E1) as (P & -> & U).
      cbn [plain_stmt after_stmt uses_stmt fst snd].
      destruct (after_block_tl rt [] sc) as [s' ->].
      split; [congruence|]. split; [reflexivity|].
      apply Forall_app; split; [assumption|exact U].
    - inv_bind E. inv_bind E. destruct a1 as [ra n1]. inv_bind E. destruct a1 as [rb n2].
      inv_bind E. destruct a1 as [rbody [sc3 n3]]. inversion E; subst.
      destruct (find_var_inv _ _ _ _ _ E0), (ann_expr_inv _ _ _ _ _ E1), (ann_expr_inv _ _ _ _ _ E2).
      destruct (ann_block_inv _ H _ _ _ _ _ E3) as (P & -> & U).
      cbn [plain_stmt after_stmt uses_stmt fst snd].
      destruct (after_block_tl rbody [] sc) as [s' ->].
      split; [congruence|]. split; [reflexivity|].
      constructor; [assumption|]. apply Forall_app; split; [assumption|].
      apply Forall_app; split; [assumption|exact U].
    - inv_bind E. destruct a as [re n1]. inversion E; subst.
      destruct (ann_opt_inv _ _ _ _ _ E0). cbn [plain_stmt after_stmt uses_stmt].
      split; [congruence|]. split; [reflexivity|assumption].
  Qed.
  Lemma ann_body_inv b sc n rb sc' n' :
    each (ann_stmt addr) b (sc, n) = Ok (rb, (sc', n')) ->
    map plain_stmt rb = b /\ sc' = after_block sc rb /\ Forall innermost (uses_block sc rb).
  Proof. apply ann_block_inv. apply Forall_forall. intros s _. apply ann_stmt_inv. Qed.

  Lemma ann_args_plain args : forall n, map (fun d => (vd_name d, vd_line d)) (ann_args args n) = args.
  Proof. induction args as [|[x l] t IH]; intros n; cbn [ann_args map vd_name vd_line]; [|rewrite IH]; reflexivity. Qed.
  Lemma fold_cons {A B} (f : A -> B) l : forall acc, fold_left (fun s d => f d :: s) l acc = rev (map f l) ++ acc.
  Proof.
    induction l as [|a l IH]; intros acc; cbn [fold_left map rev app]; [reflexivity|].
    rewrite IH, <- app_assoc. reflexivity.
  Qed.

  (** One numbered child and the item made of it. *)
  Definition child_item (g : list decl) (dc : decl * child) (i : ritem) : Prop :=
    top_decl i = fst dc /\ Forall innermost (uses_item g i) /\
    (forall n, head_decl (snd dc) n = Some (fst dc) -> [plain_item i] = same_child (snd dc)).

  Lemma ann_child_inv g dc n i n' :
    (exists m, head_decl (snd dc) m = Some (fst dc)) ->
    ann_child addr g dc n = Ok (i, n') -> child_item g dc i.
  Proof.
    intros [m Hm] E. destruct dc as [d c]. cbn [fst snd] in Hm. unfold child_item. cbn [fst snd].
    destruct c as [x k|[x l oe|x l oe|x l args body lend|p l]]; cbn [head_decl] in Hm; inversion Hm; subst; cbn [ann_child] in E.
    - inversion E; subst. cbn [top_decl uses_item plain_item same_child fd_name sys_decl fd_var fd_arity].
      split; [reflexivity|]. split; [constructor|]. intros _ _. f_equal. f_equal.
      destruct (k <? 0) eqn:K; [reflexivity|]. apply Z2Nat.id. lia.
    - inv_bind E. destruct a as [re n1]. inversion E; subst. destruct (ann_opt_inv _ _ _ _ _ E0).
      cbn [top_decl uses_item plain_item same_child vd_const vd_name vd_line].
      split; [reflexivity|]. split; [assumption|]. intros _ _. congruence.
    - inv_bind E. destruct a as [re n1]. inversion E; subst. destruct (ann_opt_inv _ _ _ _ _ E0).
      cbn [top_decl uses_item plain_item same_child vd_const vd_name vd_line].
      split; [reflexivity|]. split; [assumption|]. intros _ _. congruence.
    - inv_bind E. destruct a as [rb [sc1 n1]]. inversion E; subst. rewrite fold_cons, app_nil_r in E0.
      destruct (ann_body_inv _ _ _ _ _ _ E0) as (P & _ & U).
      cbn [top_decl uses_item plain_item same_child fd_name fd_line line_of].
      split; [reflexivity|]. split; [exact U|]. intros _ _. rewrite ann_args_plain. congruence.
  Qed.

  Lemma number_inv cs : forall n ds m, number cs n = (ds, m) ->
    Forall (fun dc => exists k, head_decl (snd dc) k = Some (fst dc)) ds /\
    flat_map same_child cs = flat_map (fun dc => same_child (snd dc)) ds.
  Proof.
    induction cs as [|c cs IH]; intros n ds m E; cbn [number] in E.
    - inversion E; subst. split; constructor.
    - destruct (head_decl c n) as [d|] eqn:H.
      + destruct (number cs (S n)) as [r m'] eqn:N. inversion E; subst.
        destruct (IH _ _ _ N) as [I1 I2]. split.
        * constructor; [exists n; exact H|exact I1].
        * cbn [flat_map snd]. rewrite I2. reflexivity.
      + destruct (IH _ _ _ E) as [I1 I2]. split; [exact I1|]. cbn [flat_map]. rewrite I2.
        destruct c as [x k|[| | |]]; cbn [head_decl] in H; try discriminate. reflexivity.
  Qed.

  Lemma annotate_inv cs items n : annotate addr cs = Ok (items, n) ->
    map plain_item items = flat_map same_child cs /\ Forall innermost (uses items).
  Proof.
    unfold annotate. destruct (number cs 0) as [ds m] eqn:N. intros E.
    destruct (number_inv _ _ _ _ N) as [HD HC].
    assert (F : Forall2 (child_item (map fst ds)) ds items).
    { eapply each_inv; [|exact E]. eapply Forall_impl; [|exact HD]. cbv beta.
      intros dc H ? ? ? H2. eapply ann_child_inv; eassumption. }
    assert (T : top_decls items = map fst ds).
    { clear -F. revert F. generalize (map fst ds) at 1. intros g F. induction F as [|dc i ds items H F IH]; [reflexivity|].
      cbn [top_decls map]. unfold top_decls in IH. rewrite IH. f_equal. apply H. }
    split.
    - rewrite HC. clear -F HD. revert F. generalize (map fst ds) at 1. intros g F.
      induction F as [|dc i ds items H F IH]; [reflexivity|].
      inversion HD as [|? ? [k Hk] HD']; subst. cbn [map flat_map]. rewrite IH by assumption.
      destruct H as (_ & _ & H). rewrite <- (H k Hk). reflexivity.
    - unfold uses. rewrite T. clear -F. revert F. generalize (map fst ds). intros g F.
      induction F as [|dc i ds items H F IH]; cbn [flat_map]; [constructor|].
      apply Forall_app. split; [apply H|exact IH].
  Qed.
End Resolve.

(** ** Declarations are different nodes *)
Definition fresh (n : nat) (l : list nat) (m : nat) : Prop :=
  (n <= m)%nat /\ NoDup l /\ Forall (fun i => n <= i < m)%nat l.
Lemma fresh_nil n m : (n <= m)%nat -> fresh n [] m.
Proof. intros H. split; [exact H|]. split; constructor. Qed.
Lemma fresh_app n l m l' k : fresh n l m -> fresh m l' k -> fresh n (l ++ l') k.
Proof.
  intros (A1 & A2 & A3) (B1 & B2 & B3). split; [lia|]. split.
  - clear B1. induction A2 as [|x l Hx Hl IH]; [exact B2|]. inversion A3; subst. cbn [app].
    constructor; [|auto]. rewrite in_app_iff. intros [I|I]; [auto|].
    rewrite Forall_forall in B3. specialize (B3 _ I). lia.
  - apply Forall_app. split; (eapply Forall_impl; [|eassumption]); cbv beta; lia.
Qed.
Lemma fresh_one n m : (n <= m)%nat -> fresh n [m] (S m).
Proof. intros H. split; [lia|]. split; [constructor; [intros []|constructor]|]. constructor; [lia|constructor]. Qed.

Section Numbers.
  Context (addr : nat -> Z).
  Lemma each_le {A B} (f : A -> nat -> res (B * nat)) l :
    Forall (fun a => forall n b m, f a n = Ok (b, m) -> (n <= m)%nat) l ->
    forall n bs m, each f l n = Ok (bs, m) -> (n <= m)%nat.
  Proof.
    induction 1 as [|a l Ha Hl IH]; intros n bs m E; cbn [each] in E.
    - inversion E; subst; lia.
    - inv_bind E. destruct a0. inv_bind E. destruct a0. inversion E; subst.
      apply Ha in E0. apply IH in E1. lia.
  Qed.
  Lemma ann_expr_le sc e : forall n r n', ann_expr addr sc e n = Ok (r, n') -> (n <= n')%nat.
  Proof.
    induction e using expr_nested; intros n r n' E; cbn [ann_expr] in E;
      try (inversion E; subst; lia).
    - destruct (find_decl addr x sc) as [d|]; inversion E; subst; lia.
    - destruct (find_decl addr x sc) as [[d|]|]; inversion E; subst; lia.
    - inv_bind E. destruct a. inversion E; subst. eapply each_le; eassumption.
    - inv_bind E. destruct a. inv_bind E. destruct a. inversion E; subst. apply IHe1 in E0. apply IHe2 in E1. lia.
    - inv_bind E. destruct a. inv_bind E. destruct a. inversion E; subst. apply (each_le _ _ H) in E0. apply IHe in E1. lia.
    - inv_bind E. destruct a. inv_bind E. destruct a. inversion E; subst. apply IHe1 in E0. apply IHe2 in E1. lia.
    - inv_bind E. destruct a. inversion E; subst. eauto.
  Qed.
  Lemma ann_opt_le sc o n r n' : ann_opt addr sc o n = Ok (r, n') -> (n <= n')%nat.
  Proof.
    destruct o; cbn [ann_opt]; intros E; [|inversion E; subst; lia].
    inv_bind E. destruct a. inversion E; subst. eapply ann_expr_le; eassumption.
  Qed.
  Lemma ann_exprs_le sc es n rs n' : each (ann_expr addr sc) es n = Ok (rs, n') -> (n <= n')%nat.
  Proof. apply each_le. apply Forall_forall. intros e _ ? ? ?. apply ann_expr_le. Qed.

  Definition local_var (d : vdecl) : Prop := vd_kind d = KLocal /\ vd_const d = false.
  Definition stmt_fresh (s : stmt) : Prop := forall st r st',
    ann_stmt addr s st = Ok (r, st') ->
    fresh (snd st) (map vd_id (decls_stmt r)) (snd st') /\ Forall local_var (decls_stmt r).

  Lemma ann_block_fresh b : Forall stmt_fresh b -> forall st rb st',
    each (ann_stmt addr) b st = Ok (rb, st') ->
    fresh (snd st) (map vd_id (decls_block rb)) (snd st') /\ Forall local_var (decls_block rb).
  Proof.
    induction 1 as [|s b Hs Hb IH]; intros st rb st' E; cbn [each] in E.
    - inversion E; subst. split; [apply fresh_nil; lia|constructor].
    - inv_bind E. destruct a as [r st1]. inv_bind E. destruct a as [rb' st2]. inversion E; subst.
      destruct (Hs _ _ _ E0), (IH _ _ _ E1). unfold decls_block in *. cbn [flat_map].
      rewrite map_app. split; [eapply fresh_app; eassumption|apply Forall_app; auto].
  Qed.

  Lemma ann_stmt_fresh s : stmt_fresh s.
  Proof.
    induction s using stmt_nested; intros [sc n] r st' E; cbn [ann_stmt] in E; cbn [snd].
    - inv_bind E. destruct a as [re n1]. apply ann_opt_le in E0. inversion E; subst. cbn [decls_stmt map vd_id snd].
      split; [apply fresh_one; assumption|]. repeat constructor.
    - inv_bind E. destruct a. apply ann_expr_le in E0. inv_bind E. inversion E; subst.
      split; [apply fresh_nil; assumption|constructor].
    - inv_bind E. destruct a. apply ann_expr_le in E0. inv_bind E. inversion E; subst.
      split; [apply fresh_nil; assumption|constructor].
    - inv_bind E. destruct a. apply ann_expr_le in E0. inv_bind E. destruct a. apply ann_expr_le in E1.
      inv_bind E. inversion E; subst. split; [apply fresh_nil; cbn [snd]; lia|constructor].
    - inv_bind E. destruct a. apply ann_exprs_le in E0. inv_bind E. destruct a. apply ann_expr_le in E1.
      inversion E; subst. split; [apply fresh_nil; cbn [snd]; lia|constructor].
    - inv_bind E. destruct a. apply ann_expr_le in E0. inv_bind E. destruct a as [rt st2].
      cbn [bind] in E. inversion E; subst. destruct (ann_block_fresh _ H _ _ _ E1) as [F L].
      cbn [decls_stmt snd fst] in *. unfold decls_block in F, L. rewrite app_nil_r. split; [|exact L].
      eapply (fresh_app _ []); [apply fresh_nil; exact E0|exact F].
    - inv_bind E. destruct a. apply ann_expr_le in E0. inv_bind E. destruct a as [rt st2].
      inv_bind E. destruct a as [rf st3]. inv_bind E2. destruct a as [rf' st4]. inversion E2; subst.
      inversion E; subst. destruct (ann_block_fresh _ H _ _ _ E1) as [F L].
      destruct (ann_block_fresh _ H0 _ _ _ E3) as [F' L'].
      cbn [decls_stmt snd fst] in *. unfold decls_block in *. rewrite map_app. split; [|apply Forall_app; auto].
      eapply (fresh_app _ []); [apply fresh_nil; exact E0|]. eapply fresh_app; eassumption.
    - inv_bind E. destruct a. apply ann_expr_le in E0. inv_bind E. destruct a as [rt st2].
      inversion E; subst. destruct (ann_block_fresh _ H _ _ _ E1) as [F L].
      cbn [decls_stmt snd fst] in *. split; [|exact L].
      eapply (fresh_app _ []); [apply fresh_nil; exact E0|exact F].
    - inv_bind E. inv_bind E. destruct a1. apply ann_expr_le in E1. inv_bind E. destruct a1. apply ann_expr_le in E2.
      inv_bind E. destruct a1 as [rt st2].
      inversion E; subst. destruct (ann_block_fresh _ H _ _ _ E3) as [F L].
      cbn [decls_stmt snd fst] in *. split; [|exact L].
      eapply (fresh_app _ []); [apply fresh_nil|exact F]; lia.
    - inv_bind E. destruct a as [re n1]. apply ann_opt_le in E0. inversion E; subst.
      split; [apply fresh_nil; assumption|constructor].
  Qed.

  Definition arg_var (d : vdecl) : Prop := vd_kind d = KArg /\ vd_const d = false.
  Lemma ann_args_fresh args : forall n,
    fresh n (map vd_id (ann_args args n)) (n + List.length args) /\ Forall arg_var (ann_args args n) /\
    List.length (ann_args args n) = List.length args.
  Proof.
    induction args as [|[x l] t IH]; intros n; cbn [ann_args map vd_id List.length].
    - split; [apply fresh_nil; lia|]. split; [constructor|reflexivity].
    - destruct (IH (S n)) as (F & K & L). split; [|split; [constructor; [repeat constructor|exact K]|rewrite L; reflexivity]].
      replace (n + S (Datatypes.length t))%nat with (S n + Datatypes.length t)%nat by lia.
      apply (fresh_app n [n] (S n)); [apply fresh_one; lia|exact F].
  Qed.

  (** The declarations below the top level that an item makes. *)
  Definition inner_decls (i : ritem) : list vdecl :=
    match i with RFunc _ args body _ => args ++ decls_block body | _ => [] end.
  (** What the annotation guarantees of the declarations of an item. *)
  Definition item_ok (i : ritem) : Prop :=
    match i with
    | RSys f => fd_sys f = true
    | RGlobal d _ => vd_kind d = KGlobal
    | RFunc f args body _ =>
        fd_sys f = false /\ fd_var f = false /\ fd_arity f = List.length args /\
        Forall arg_var args /\ Forall local_var (decls_block body) /\
        NoDup (map vd_id (args ++ decls_block body))
    end.

  Lemma ann_child_fresh g dc n i n' :
    (exists m, head_decl (snd dc) m = Some (fst dc)) ->
    ann_child addr g dc n = Ok (i, n') ->
    item_ok i /\ fresh n (map vd_id (inner_decls i)) n'.
  Proof.
    intros [m Hm] E. destruct dc as [d c]. cbn [fst snd] in Hm.
    destruct c as [x k|[x l oe|x l oe|x l args body lend|p l]]; cbn [head_decl] in Hm; inversion Hm; subst; cbn [ann_child] in E.
    - inversion E; subst. split; [reflexivity|]. apply fresh_nil. lia.
    - inv_bind E. destruct a. apply ann_opt_le in E0. inversion E; subst. split; [reflexivity|]. apply fresh_nil. assumption.
    - inv_bind E. destruct a. apply ann_opt_le in E0. inversion E; subst. split; [reflexivity|]. apply fresh_nil. assumption.
    - inv_bind E. destruct a as [rb st]. inversion E; subst.
      destruct (ann_block_fresh body ltac:(apply Forall_forall; intros s _; apply ann_stmt_fresh) _ _ _ E0) as [F L].
      destruct (ann_args_fresh args n) as (F1 & A & LA).
      assert (F2 : fresh n (map vd_id (ann_args args n ++ decls_block rb)) (snd st)).
      { rewrite map_app. eapply fresh_app; [exact F1|exact F]. }
      split; [|exact F2]. cbn [item_ok fd_sys fd_var fd_arity]. rewrite LA. repeat (split; [first [reflexivity|assumption]|]).
      apply F2.
  Qed.

  Lemma number_fresh cs : forall n ds m, number cs n = (ds, m) -> fresh n (map decl_id (map fst ds)) m.
  Proof.
    induction cs as [|c cs IH]; intros n ds m E; cbn [number] in E.
    - inversion E; subst. apply fresh_nil. lia.
    - destruct (head_decl c n) as [d|] eqn:H; [|eauto].
      destruct (number cs (S n)) as [r m'] eqn:N. inversion E; subst. cbn [map fst].
      assert (decl_id d = n) as -> by (destruct c as [x k|[]]; cbn [head_decl] in H; inversion H; reflexivity).
      apply (fresh_app n [n] (S n)); [apply fresh_one; lia|eauto].
  Qed.

  (** All declarations of a program are different nodes. *)
  Definition all_ids (items : list ritem) : list nat :=
    map decl_id (top_decls items) ++ flat_map (fun i => map vd_id (inner_decls i)) items.
  Definition tree_ok (items : list ritem) : Prop := Forall item_ok items /\ NoDup (all_ids items).

  Lemma annotate_tree cs items n : annotate addr cs = Ok (items, n) ->
    tree_ok items /\ Forall (fun i => (i < n)%nat) (all_ids items).
  Proof.
    unfold annotate. destruct (number cs 0) as [ds m] eqn:N. intros E.
    pose proof (number_fresh _ _ _ _ N) as F.
    destruct (number_inv _ _ _ _ N) as [HD _].
    assert (T : top_decls items = map fst ds).
    { assert (X : Forall2 (child_item (map fst ds)) ds items).
      { eapply each_inv; [|exact E]. eapply Forall_impl; [|exact HD]. cbv beta.
        intros dc H ? ? ? H2. eapply ann_child_inv; eassumption. }
      clear -X. revert X. generalize (map fst ds) at 1. intros g F.
      induction F as [|dc i ds items H F IH]; [reflexivity|].
      cbn [top_decls map]. unfold top_decls in IH. rewrite IH. f_equal. apply H. }
    assert (G : Forall item_ok items /\ fresh m (flat_map (fun i => map vd_id (inner_decls i)) items) n).
    { clear F T N cs. revert E. generalize (map fst ds). intros g.
      revert m items. induction HD as [|dc ds H HD IH]; intros m items E; cbn [each] in E.
      - inversion E; subst. split; [constructor|apply fresh_nil; lia].
      - inv_bind E. destruct a as [i n1]. inv_bind E. destruct a as [is n2]. inversion E; subst.
        destruct (ann_child_fresh _ _ _ _ _ H E0) as [I F]. destruct (IH _ _ E1) as [I2 F2].
        split; [constructor; assumption|]. cbn [flat_map]. eapply fresh_app; eassumption. }
    destruct G as [G1 G2]. unfold tree_ok, all_ids. rewrite T.
    pose proof (fresh_app _ _ _ _ _ F G2) as (_ & D & R).
    split; [split; assumption|]. eapply Forall_impl; [|exact R]. cbv beta. lia.
  Qed.
End Numbers.

(** ** Declared names *)
Scheme decl_stmt_m := Minimality for decl_stmt Sort Prop
  with decl_block_m := Minimality for decl_block Sort Prop
  with decl_oblock_m := Minimality for decl_oblock Sort Prop.
Combined Scheme decl_mut from decl_stmt_m, decl_block_m, decl_oblock_m.

Lemma is_def_iff x sc : is_def x sc = true <-> In x (List.concat sc).
Proof.
  unfold is_def. rewrite existsb_exists, in_concat. split.
  - intros (s & I & E). apply existsb_exists in E. destruct E as (y & I2 & E).
    apply bytes_eqb_eq in E. subst. exists s. auto.
  - intros (s & I & I2). exists s. split; [exact I|]. apply existsb_exists. exists x.
    split; [exact I2|apply bytes_eqb_refl].
Qed.
Lemma is_def_false x sc : is_def x sc = false <-> ~ In x (List.concat sc).
Proof. rewrite <- is_def_iff. destruct (is_def x sc); split; congruence. Qed.
Lemma concat_add x sc : List.concat (add_name x sc) = x :: List.concat sc.
Proof. destruct sc; reflexivity. Qed.

Definition multi_good (s : rstmt) : Prop := forall sc sc',
  multi_stmt s sc = Ok sc' -> decl_stmt (List.concat sc) s (List.concat sc').
Lemma multi_block_fwd b : Forall multi_good b -> forall sc sc',
  walk multi_stmt b sc = Ok sc' -> decl_block (List.concat sc) b (List.concat sc').
Proof.
  induction 1 as [|s b Hs Hb IH]; intros sc sc' E; cbn [walk] in E.
  - inversion E. constructor.
  - inv_bind E. econstructor; [apply Hs; eassumption|apply IH; eassumption].
Qed.
Lemma multi_oblock_fwd o sc sc' : oall multi_good o ->
  match o with None => Ok sc | Some b => walk multi_stmt b ([] :: sc) end = Ok sc' ->
  decl_oblock (List.concat sc) o (List.concat sc').
Proof.
  destruct o; cbn [oall]; intros H E.
  - constructor. apply (multi_block_fwd _ H) in E. exact E.
  - inversion E. constructor.
Qed.
Lemma multi_stmt_fwd s : multi_good s.
Proof.
  induction s using rstmt_nested; intros sc sc' E; cbn [multi_stmt] in E;
    try (inversion E; subst; constructor).
  - unfold multi_var in E. destruct (is_def (vd_name d) sc) eqn:D; [discriminate|].
    inversion E; subst. rewrite concat_add. constructor. apply is_def_false. exact D.
  - inv_bind E. inv_bind E. inversion E; subst. econstructor; eapply multi_oblock_fwd; eassumption.
  - inv_bind E. inversion E; subst. econstructor; eapply multi_oblock_fwd; eassumption.
  - inv_bind E. inversion E; subst. apply (multi_block_fwd _ H) in E0. econstructor; exact E0.
Qed.
Lemma multi_bwd :
  (forall vis s vis', decl_stmt vis s vis' -> forall sc : names, List.concat sc = vis ->
     exists sc', multi_stmt s sc = Ok sc' /\ List.concat sc' = vis') /\
  (forall vis b vis', decl_block vis b vis' -> forall sc : names, List.concat sc = vis ->
     exists sc', walk multi_stmt b sc = Ok sc' /\ List.concat sc' = vis') /\
  (forall vis o vis', decl_oblock vis o vis' -> forall sc : names, List.concat sc = vis ->
     exists sc', match o with None => Ok sc | Some b => walk multi_stmt b ([] :: sc) end = Ok sc'
                 /\ List.concat sc' = vis').
Proof.
  apply decl_mut; intros; subst; cbn [multi_stmt]; try (eexists; split; reflexivity).
  - unfold multi_var. apply is_def_false in H. rewrite H. eexists. split; [reflexivity|apply concat_add].
  - destruct (H0 _ eq_refl) as (a & E1 & _). destruct (H2 _ eq_refl) as (b & E2 & _). rewrite E1, E2. cbn [bind]. eauto.
  - destruct (H0 _ eq_refl) as (a & E1 & _). rewrite E1. cbn [bind]. eauto.
  - destruct (H0 ([] :: sc) eq_refl) as (a0 & E1 & _). rewrite E1. cbn [bind]. eauto.
  - destruct (H0 _ eq_refl) as (a & E1 & <-). cbn [walk]. rewrite E1. cbn [bind]. apply H2. reflexivity.
  - apply (H0 ([] :: sc)). reflexivity.
Qed.
Lemma multi_args_iff args : forall (sc : names) vis',
  decl_args (List.concat sc) args vis' <->
  exists sc', walk multi_var args sc = Ok sc' /\ List.concat sc' = vis'.
Proof.
  induction args as [|d t IH]; intros sc vis'; cbn [walk].
  - split.
    + inversion 1; subst. exists sc. auto.
    + intros (sc' & E & <-). inversion E. constructor.
  - unfold multi_var at 1. split.
    + inversion 1; subst. match goal with X : ~ In _ _ |- _ => apply is_def_false in X; rewrite X end. cbn [bind]. apply IH. rewrite concat_add. assumption.
    + destruct (is_def (vd_name d) sc) eqn:D; cbn [bind]; [intros (? & ? & ?); discriminate|].
      intros X. constructor; [apply is_def_false; exact D|]. apply IH in X. rewrite concat_add in X. exact X.
Qed.
Lemma multi_items_iff items : forall sc : names, decl_items (List.concat sc) items <-> exists sc', walk multi_item items sc = Ok sc'.
Proof.
  induction items as [|i t IH]; intros sc; cbn [walk].
  - split; [eauto|constructor].
  - destruct i as [f|d e|f args body lend]; cbn [multi_item].
    + split.
      * inversion 1; subst. match goal with X : ~ In _ _ |- _ => apply is_def_false in X; rewrite X end. cbn [bind]. apply IH. rewrite concat_add. assumption.
      * destruct (is_def (fd_name f) sc) eqn:D; cbn [bind]; [intros (? & ?); discriminate|].
        intros X. constructor; [apply is_def_false; exact D|]. apply IH in X. rewrite concat_add in X. exact X.
    + unfold multi_var at 1. split.
      * inversion 1; subst. match goal with X : ~ In _ _ |- _ => apply is_def_false in X; rewrite X end. cbn [bind]. apply IH. rewrite concat_add. assumption.
      * destruct (is_def (vd_name d) sc) eqn:D; cbn [bind]; [intros (? & ?); discriminate|].
        intros X. constructor; [apply is_def_false; exact D|]. apply IH in X. rewrite concat_add in X. exact X.
    + split.
      * inversion 1; subst. match goal with X : ~ In _ _ |- _ => apply is_def_false in X; rewrite X end. cbn [bind].
        match goal with X : decl_args _ _ _ |- _ => rename X into K8 end. match goal with X : decl_block _ _ _ |- _ => rename X into K9 end.
        match goal with X : decl_items (_ :: _) _ |- _ => rename X into K10 end. rewrite <- concat_add in K8, K10. change (List.concat (add_name (fd_name f) sc)) with (List.concat ([] :: add_name (fd_name f) sc)) in K8.
        apply multi_args_iff in K8. destruct K8 as (sc2 & -> & <-). cbn [bind].
        destruct (proj1 (proj2 multi_bwd) _ _ _ K9 _ eq_refl) as (sc3 & -> & _). cbn [bind]. apply IH. exact K10.
      * destruct (is_def (fd_name f) sc) eqn:D; cbn [bind].
        { destruct (fd_line f); intros (? & ?); discriminate. }
        intros (sc' & X). inv_bind X. inv_bind E. inv_bind E. inversion E; subst.
        econstructor; [apply is_def_false; exact D| | |].
        { rewrite <- concat_add. change (List.concat (add_name (fd_name f) sc)) with (List.concat ([] :: add_name (fd_name f) sc)).
          apply multi_args_iff. eexists. split; [eassumption|reflexivity]. }
        { eapply multi_block_fwd; [|eassumption]. apply Forall_forall. intros s _. apply multi_stmt_fwd. }
        { rewrite <- concat_add. apply IH. eauto. }
Qed.
Lemma multi_decls_iff items : multi_decls items = Ok tt <-> decl_items [] items.
Proof.
  change (@nil bytes) with (List.concat [@nil bytes]). rewrite multi_items_iff. unfold multi_decls.
  split.
  - intros E. inv_bind E. eauto.
  - intros (sc & ->). reflexivity.
Qed.
Lemma decl_items_nodup vis items : decl_items vis items ->
  NoDup (map decl_name (top_decls items)) /\ forall d, In d (top_decls items) -> ~ In (decl_name d) vis.
Proof.
  induction 1; cbn [top_decls map top_decl]; [split; [constructor|intros ? []]| | |].
  all: match goal with H : _ /\ _ |- _ => destruct H as [IHD IHV] end; split;
    [constructor; [intros I; apply in_map_iff in I; destruct I as (d' & E & I); apply (IHV _ I); left; symmetry; exact E|exact IHD]
    |intros d' [<-|I]; [assumption|intros X; apply (IHV _ I); right; exact X]].
Qed.

(** ** Numbers of arguments *)
Definition call_ok (e : rexpr) : Prop :=
  forall l f lf es, e = RCall l (RIdent (DF f) lf) es ->
    fd_sys f && fd_var f = true \/ List.length es = fd_arity f.

Lemma unit_bind m (k : res unit) : (_ <- m ;; k) = Ok tt <-> m = Ok tt /\ k = Ok tt.
Proof. destruct m as [[]| |]; cbn [bind]; split; try tauto; try discriminate; intros [? _]; discriminate. Qed.
Lemma arity_ok_iff l f es : arity_ok f (List.length es) = Ok tt <-> call_ok (RCall l f es).
Proof.
  unfold arity_ok, call_ok. destruct f as [| | | |[d|g]| | | | | |];
    try (split; [intros _ ? ? ? ? E; inversion E|reflexivity]).
  - destruct (fd_sys g && fd_var g) eqn:V.
    + split; [|reflexivity]. intros _ ? ? ? ? E. inversion E; subst. auto.
    + destruct (Nat.ltb_spec (fd_arity g) (Datatypes.length es)).
      { split; [discriminate|]. intros H1. exfalso. destruct (H1 _ _ _ _ eq_refl); [congruence|lia]. }
      destruct (Nat.ltb_spec (Datatypes.length es) (fd_arity g)).
      { split; [discriminate|]. intros H1. exfalso. destruct (H1 _ _ _ _ eq_refl); [congruence|lia]. }
      split; [|reflexivity]. intros _ ? ? ? ? E. inversion E; subst. right. lia.
Qed.
Lemma Forall_flat {A B} (P : B -> Prop) (f : A -> list B) l :
  Forall P (flat_map f l) <-> Forall (fun a => Forall P (f a)) l.
Proof. induction l as [|a l IH]; cbn [flat_map]; [split; constructor|]. rewrite Forall_app, Forall_cons_iff, IH. reflexivity. Qed.

Lemma args_expr_iff e : args_expr e = Ok tt <-> Forall call_ok (inside e).
Proof.
  assert (T : forall e', (forall l f es, e' <> RCall l f es) -> call_ok e').
  { intros e' H l f lf es ->. destruct (H l (RIdent (DF f) lf) es eq_refl). }
  induction e using rexpr_nested; cbn [args_expr inside]; rewrite Forall_cons_iff;
    try (split; [intros _; split; [apply T; congruence|constructor]|reflexivity]).
  - rewrite Forall_flat, <- (all__iff _ _ _ H). split; [|tauto]. intros ?; split; [apply T; congruence|assumption].
  - rewrite unit_bind, Forall_app, IHe1, IHe2. split; [|tauto]. intros ?; split; [apply T; congruence|assumption].
  - rewrite !unit_bind, Forall_app, IHe, Forall_flat, <- (all__iff _ _ _ H), (arity_ok_iff l). tauto.
  - rewrite unit_bind, Forall_app, IHe1, IHe2. split; [|tauto]. intros ?; split; [apply T; congruence|assumption].
  - rewrite IHe. split; [|tauto]. intros ?; split; [apply T; congruence|assumption].
Qed.
Lemma args_opt_iff o : args_opt o = Ok tt <-> Forall call_ok (flat_map inside (opt_list o)).
Proof.
  destruct o; cbn [args_opt opt_list flat_map]; [rewrite app_nil_r; apply args_expr_iff|].
  split; [constructor|reflexivity].
Qed.
Lemma args_stmt_iff s : args_stmt s = Ok tt <-> Forall call_ok (flat_map inside (exprs_stmt s)).
Proof.
  assert (B : forall b, Forall (fun s => args_stmt s = Ok tt <-> Forall call_ok (flat_map inside (exprs_stmt s))) b ->
     (all_ args_stmt b = Ok tt <-> Forall call_ok (flat_map inside (flat_map exprs_stmt b)))).
  { intros b H. rewrite (all__iff _ _ _ H), !Forall_flat.
    split; intros X; (eapply Forall_impl; [|exact X]); cbv beta; intros s1; rewrite Forall_flat; auto. }
  assert (B0 : forall o : option (list rstmt), oall (fun s => args_stmt s = Ok tt <-> Forall call_ok (flat_map inside (exprs_stmt s))) o ->
     (match o with None => Ok tt | Some b => all_ args_stmt b end = Ok tt <->
      Forall call_ok (flat_map inside (match o with Some b => flat_map exprs_stmt b | None => [] end)))).
  { intros [b|] H; [apply B; exact H|]. split; [constructor|reflexivity]. }
  induction s using rstmt_nested; cbn [args_stmt exprs_stmt].
  - apply args_opt_iff.
  - cbn [flat_map]. rewrite app_nil_r. apply args_expr_iff.
  - cbn [flat_map]. rewrite app_nil_r. apply args_expr_iff.
  - cbn [flat_map]. rewrite app_nil_r, unit_bind, !args_expr_iff, Forall_app. tauto.
  - change (args_expr (RCall l f es) = Ok tt <-> Forall call_ok (inside (RCall l f es) ++ [])).
    rewrite app_nil_r. apply args_expr_iff.
  - rewrite !unit_bind, args_expr_iff, (B0 _ H), (B0 _ H0). cbn [flat_map]. rewrite flat_map_app, !Forall_app. tauto.
  - rewrite !unit_bind, args_expr_iff, (B0 _ H). cbn [flat_map]. rewrite !Forall_app. tauto.
  - rewrite !unit_bind, !args_expr_iff, (B _ H). cbn [flat_map]. rewrite !Forall_app. tauto.
  - apply args_opt_iff.
Qed.
Lemma flat_map_flat {A B C} (f : A -> list B) (g : B -> list C) l :
  flat_map g (flat_map f l) = flat_map (fun a => flat_map g (f a)) l.
Proof. induction l as [|a l IH]; cbn [flat_map]; [reflexivity|]. rewrite flat_map_app, IH. reflexivity. Qed.
Lemma num_args_iff items : num_args_ok items = Ok tt <-> Forall call_ok (program_exprs items).
Proof.
  unfold num_args_ok, program_exprs. rewrite flat_map_flat, Forall_flat. apply all__iff.
  apply Forall_forall. intros i _. destruct i as [f|d oe|f args body lend]; cbn [args_item exprs_item].
  - split; [constructor|reflexivity].
  - apply args_opt_iff.
  - rewrite flat_map_flat, Forall_flat. apply all__iff. apply Forall_forall. intros s _. apply args_stmt_iff.
Qed.
