(** Vocabulary for C105: the texts a source is written with. *)
From Coq Require Import ZArith List Bool.
From Verif Require Import Base F32 Program Source Lexer LexSpec.
Import ListNotations.
Open Scope Z_scope.
Open Scope list_scope.

(** The text [x] stands in one of the sources, as a name or between the quotes of
    a string literal. *)
Definition written (m : list source_t) (x : bytes) : Prop :=
  exists s data before w after,
    In s m /\ so_data s = Some data /\ cstr data = before ++ w ++ after /\
    ((w = x /\ lexeme w (Some (TOK_IDENT x))) \/
     (w = 34 :: x ++ [34] /\ lexeme w (Some (TOK_STRING x)))).

(** The names in a program: of its functions, their parameters and locals. *)
Definition names_in (p : program_t) : list bytes :=
  flat_map (fun f => f_name f :: map i_name (f_args f) ++ map i_name (f_locals f)) (p_functions p).
