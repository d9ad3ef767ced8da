(** Vocabulary for texts in which no [if] tests a named constant. *)
From Coq Require Import ZArith List.
From Verif Require Import Base Ast.
Import ListNotations.

(** The conditions of the [if]s of a statement, of a text. *)
Fixpoint if_tests (s : stmt) : list expr :=
  match s with
  | SIf _ c t f =>
      c :: flat_map if_tests t ++ match f with Some b => flat_map if_tests b | None => [] end
  | SWhile _ _ b | SFor _ _ _ _ _ b => flat_map if_tests b
  | _ => []
  end.
Definition text_tests (src : list item) : list expr :=
  flat_map (fun i => match i with TFunc _ _ _ body _ => flat_map if_tests body | _ => [] end) src.

(** The names declared by [const]. *)
Definition constant_names (src : list item) : list bytes :=
  flat_map (fun i => match i with TConst x _ _ => [x] | _ => [] end) src.

(** No [if] has just the name of a constant between its parentheses.  Constants
    inside larger conditions, as in [if (DEBUG > 0)], are no obstacle. *)
Definition tests_no_constant (src : list item) : Prop :=
  forall x l, In (EIdent x l) (text_tests src) -> ~ In x (constant_names src).
