(** The rendering of a tree is a text of it. *)
From Coq Require Import ZArith List Bool Lia.
From Verif Require Import Base F32 Lexer Ast ParseSpec.
Import ListNotations.
Open Scope Z_scope.

(** Induction over expressions and statements with their lists. *)
Section Induction.
  Context (P : expr -> Prop)
    (Hint : forall v l, P (EInt v l)) (Hfloat : forall f l, P (EFloat f l))
    (Hstr : forall s l, P (EStr s l)) (Hnone : forall l, P (ENone l))
    (Hident : forall x l, P (EIdent x l)) (Hmember : forall x l m lm, P (EMember x l m lm))
    (Harray : forall l es, Forall P es -> P (EArray l es))
    (Hindex : forall l a i, P a -> P i -> P (EIndex l a i))
    (Hcall : forall l f es, P f -> Forall P es -> P (ECall l f es))
    (Hbin : forall o l a b, P a -> P b -> P (EBin o l a b))
    (Hun : forall o l a, P a -> P (EUn o l a)).
  Fixpoint expr_nested (e : expr) : P e :=
    let all := fix all (es : list expr) : Forall P es :=
      match es with [] => Forall_nil _ | e :: r => Forall_cons _ (expr_nested e) (all r) end in
    match e with
    | EInt v l => Hint v l | EFloat f l => Hfloat f l | EStr s l => Hstr s l
    | ENone l => Hnone l | EIdent x l => Hident x l | EMember x l m lm => Hmember x l m lm
    | EArray l es => Harray l es (all es)
    | EIndex l a i => Hindex l a i (expr_nested a) (expr_nested i)
    | ECall l f es => Hcall l f es (expr_nested f) (all es)
    | EBin o l a b => Hbin o l a b (expr_nested a) (expr_nested b)
    | EUn o l a => Hun o l a (expr_nested a)
    end.
End Induction.

Section StmtInduction.
  Context (P : stmt -> Prop)
    (Hvar : forall x l e, P (SVar x l e)) (Hassign : forall x l e, P (SAssign x l e))
    (Hmem : forall x l m lm e, P (SSetMem x l m lm e)) (Hidx : forall x l i e, P (SSetIdx x l i e))
    (Hcall : forall x l lc es, P (SCall x l lc es))
    (Hif : forall l c t, Forall P t -> P (SIf l c t None))
    (Hifelse : forall l c t f, Forall P t -> Forall P f -> P (SIf l c t (Some f)))
    (Hwhile : forall l c b, Forall P b -> P (SWhile l c b))
    (Hfor : forall l x lx a b body, Forall P body -> P (SFor l x lx a b body))
    (Hret : forall l e, P (SReturn l e)).
  Fixpoint stmt_nested (s : stmt) : P s :=
    let all := fix all (es : list stmt) : Forall P es :=
      match es with [] => Forall_nil _ | e :: r => Forall_cons _ (stmt_nested e) (all r) end in
    match s with
    | SVar x l e => Hvar x l e | SAssign x l e => Hassign x l e
    | SSetMem x l m lm e => Hmem x l m lm e | SSetIdx x l i e => Hidx x l i e
    | SCall x l lc es => Hcall x l lc es
    | SIf l c t None => Hif l c t (all t)
    | SIf l c t (Some f) => Hifelse l c t f (all t) (all f)
    | SWhile l c b => Hwhile l c b (all b)
    | SFor l x lx a b body => Hfor l x lx a b body (all body)
    | SReturn l e => Hret l e
    end.
End StmtInduction.

(** The local recursions are the named ones. *)
Lemma show_array l0 l es :
  show l0 (EArray l es) = Token TOK_LBRACKET l :: show_sep l0 es ++ [Token TOK_RBRACKET l0].
Proof. reflexivity. Qed.
Lemma show_call l0 l f es :
  show l0 (ECall l f es) = show l0 f ++ Token TOK_LPAREN l :: show_sep l0 es ++ [Token TOK_RPAREN l0].
Proof. reflexivity. Qed.
Lemma filled_array l es : filled (EArray l es) -> es <> [] /\ Forall filled es.
Proof.
  intros [A B]. split; [exact A|]. clear A. induction es; [constructor|]. destruct B. constructor; auto.
Qed.
Lemma filled_call l f es : filled (ECall l f es) -> filled f /\ Forall filled es.
Proof.
  intros [A B]. split; [exact A|]. clear A. induction es; [constructor|]. destruct B. constructor; auto.
Qed.

Lemma show_sep_elems l0 es : es <> [] -> Forall (fun e => prim e (show l0 e)) es -> elems es (show_sep l0 es).
Proof.
  intros NE H. induction H as [|e es He Hes IH]; [congruence|].
  change (show_sep l0 (e :: es)) with (show l0 e ++ match es with [] => [] | _ :: _ => Token TOK_COMMA l0 :: show_sep l0 es end).
  destruct es as [|e2 es].
  - rewrite app_nil_r. eapply L_one. apply C_prim. exact He.
  - eapply L_more; [apply C_prim, He|]. apply IH. discriminate.
Qed.

Lemma level_lt6 o : level o <= 6 /\ level o < 6.
Proof. destruct o; cbn; lia. Qed.

Lemma show_prim l0 e : filled e -> prim e (show l0 e).
Proof.
  induction e using expr_nested; intros F; try (cbn [show]; constructor; fail).
  - rewrite show_array. apply filled_array in F as [NE F]. constructor.
    apply show_sep_elems; [exact NE|]. rewrite Forall_forall in *. auto.
  - destruct F as [F1 F2]. cbn [show]. econstructor; [auto|]. apply C_prim. auto.
  - rewrite show_call. apply filled_call in F as [F1 F2].
    destruct es as [|e1 es].
    + change (show_sep l0 []) with (@nil token). constructor. auto.
    + constructor; [auto|]. apply show_sep_elems; [discriminate|]. rewrite Forall_forall in *. auto.
  - destruct F as [F1 F2]. cbn [show]. eapply P_paren.
    eapply C_bin; [apply C_prim; auto|apply C_prim; auto| |]; apply level_lt6.
  - cbn [filled] in F. destruct o; cbn [show]; eapply P_paren.
    + eapply C_neg. apply C_prim. auto.
    + eapply C_not; [apply C_prim; auto|lia].
Qed.

Lemma show_expr l0 e : filled e -> expr_text e (show l0 e).
Proof. intros F. exists 6, false. apply C_prim. now apply show_prim. Qed.

Lemma show_init_text l0 e : filled_opt e -> init_text e (show_init l0 e).
Proof.
  destruct e; cbn [filled_opt init_text show_init]; [|reflexivity]. intros F.
  do 2 eexists. split; [reflexivity|]. now apply show_expr.
Qed.

Lemma all_filled b : (fix all (b : list stmt) : Prop :=
    match b with [] => True | s :: r => filled_stmt s /\ all r end) b -> Forall filled_stmt b.
Proof. induction b; [constructor|]. intros []. constructor; auto. Qed.

Lemma show_body_text l0 b : Forall (fun s => filled_stmt s -> stmt_text s (show_stmt l0 s)) b ->
  Forall filled_stmt b -> body_text b (show_body l0 b).
Proof.
  induction 1 as [|s b H _ IH]; intros F; inversion F; subst; [constructor|].
  apply (B_cons s (show_stmt l0 s) [] l0 [] b (show_body l0 b)); [constructor|auto|constructor|auto].
Qed.

Lemma show_stmt_text l0 s : filled_stmt s -> stmt_text s (show_stmt l0 s).
Proof.
  induction s using stmt_nested; intros F.
  - cbn. constructor. now apply show_init_text.
  - cbn. constructor. now apply show_expr.
  - cbn. constructor. now apply show_expr.
  - destruct F. cbn. constructor; now apply show_expr.
  - cbn [filled_stmt] in F. cbn [show_stmt]. constructor. destruct es as [|e es]; [left; auto|]. right.
    apply show_sep_elems; [discriminate|]. eapply Forall_impl; [|exact F]. intros; now apply show_prim.
  - destruct F as [F1 F2]. apply all_filled in F2.
    apply (S_if l c (show l0 c) t (show_body l0 t)); [now apply show_expr|]. now apply show_body_text.
  - destruct F as (F1 & F2 & F3). apply all_filled in F2, F3.
    apply (S_ifelse l c (show l0 c) t (show_body l0 t) f (show_body l0 f)); [now apply show_expr| |]; now apply show_body_text.
  - destruct F as [F1 F2]. apply all_filled in F2.
    apply (S_while l c (show l0 c) b (show_body l0 b)); [now apply show_expr|]. now apply show_body_text.
  - destruct F as (F1 & F2 & F3). apply all_filled in F3.
    apply (S_for l x lx a (show l0 a) b (show l0 b) body (show_body l0 body)); [now apply show_expr|now apply show_expr|]. now apply show_body_text.
  - destruct e; cbn; constructor. now apply show_expr.
Qed.

Lemma show_params_text l0 ps : ps = [] /\ show_params l0 ps = [] \/ params_text ps (show_params l0 ps).
Proof.
  destruct ps as [|p ps]; [left; auto|right].
  revert p. induction ps as [|p2 ps IH]; intros [x l]; cbn [show_params]; constructor. apply IH.
Qed.

Lemma show_item_text l0 i : filled_item i -> item_text i (show_item l0 i).
Proof.
  destruct i; cbn [filled_item show_item]; intros F.
  - constructor. now apply show_init_text.
  - constructor. now apply show_init_text.
  - constructor; [apply show_params_text|]. apply show_body_text; [|exact F].
    apply Forall_forall. intros; now apply show_stmt_text.
  - constructor.
Qed.

Lemma show_program_text l0 is : Forall filled_item is -> program_text is (show_items l0 is).
Proof.
  induction 1 as [|i is H _ IH]; cbn [show_items]; [constructor|].
  constructor; [now apply show_item_text|]. now constructor.
Qed.
