(** Common vocabulary of the model: outcomes, 32-bit integers, byte strings and
    lists indexed by [Z]. *)
From Coq Require Import ZArith List Bool Lia String Ascii.
Import ListNotations.
Open Scope Z_scope.

(** ** Outcomes

    [Stuck] stands for the executions the C++ standard (or an active [assert])
    does not let continue.  The reasons are kept apart so that theorems can say
    which ones are possible. *)
Inductive stuck : Type :=
| SAssert    (* an assert() failed: the process aborts *)
| SOverflow  (* signed 32-bit overflow, undefined behaviour *)
| SCast      (* float to int conversion out of range, undefined behaviour *)
| SNull      (* null pointer dereference *)
| SOob       (* access outside a buffer *)
| SDangling  (* access to a heap object that no longer exists *)
| SUninit    (* read of an uninitialised buffer *)
| SOom       (* arena exhausted in an allocation whose result is asserted *)
| SOomGc     (* arena exhausted while collecting: unchecked null write *)
| SDiverge.  (* fuel exhausted: the modelled recursion did not end *)

(** Compile-time errors, lib_compiler/errors.h:29-192 (the kinds that are
    actually raised somewhere).  Only the kind and the line are kept, not the
    message text. *)
Inductive errkind : Type :=
| E_cant_assign_const | E_too_many_args | E_not_enough_args
| E_unexpected_token | E_bad_import | E_unknown_function
| E_unknown_identifier | E_unknown_variable | E_unknown_array
| E_expecting_lit_or_ident | E_equals_expected_after_operator
| E_assign_or_call_expected_after | E_statement_expected
| E_function_already_exists | E_var_already_exists
| E_wrong_number_of_args | E_constant_divide_by_zero
| E_global_var_const_expr | E_const_needs_init
| E_cant_evaluate_constant | E_cant_assign_unknown_var
| E_unexpected_character | E_string_quote_mismatch.

Inductive res (A : Type) : Type :=
| Ok (a : A)
| Err (e : errkind) (line : Z)
| Stuck (s : stuck).
Arguments Ok {A} _.
Arguments Err {A} _ _.
Arguments Stuck {A} _.

Definition bind {A B} (m : res A) (k : A -> res B) : res B :=
  match m with
  | Ok a => k a
  | Err e l => Err e l
  | Stuck s => Stuck s
  end.

Declare Scope res_scope.
Delimit Scope res_scope with res.
Notation "x <- m ;; k" := (bind m (fun x => k))
  (at level 61, m at next level, right associativity) : res_scope.
Notation "' p <- m ;; k" := (bind m (fun x => match x with p => k end))
  (at level 61, p pattern, m at next level, right associativity) : res_scope.
Open Scope res_scope.

Definition assert_ (b : bool) : res unit := if b then Ok tt else Stuck SAssert.

(** ** 32-bit integers *)
Definition i32_min : Z := -2147483648.
Definition i32_max : Z := 2147483647.
Definition in_i32 (z : Z) : bool := (i32_min <=? z) && (z <=? i32_max).

(** Result of a signed 32-bit operation whose mathematical value is [z]. *)
Definition chk32 (z : Z) : res Z := if in_i32 z then Ok z else Stuck SOverflow.

(** Two's complement reinterpretation of an unsigned 32-bit pattern, and back. *)
Definition to_i32 (z : Z) : Z :=
  let u := z mod 4294967296 in if u <? 2147483648 then u else u - 4294967296.
Definition to_u32 (z : Z) : Z := z mod 4294967296.

(** ** Lists indexed by Z *)
Section ZLists.
  Context {A : Type}.

  Definition zlen (l : list A) : Z := Z.of_nat (List.length l).

  Fixpoint znth (l : list A) (i : Z) : option A :=
    match l with
    | [] => None
    | x :: t => if i =? 0 then Some x else znth t (i - 1)
    end.

  Fixpoint zupd (l : list A) (i : Z) (v : A) : list A :=
    match l with
    | [] => []
    | x :: t => if i =? 0 then v :: t else x :: zupd t (i - 1) v
    end.

  Fixpoint zfirstn (n : Z) (l : list A) : list A :=
    match l with
    | [] => []
    | x :: t => if n <=? 0 then [] else x :: zfirstn (n - 1) t
    end.

  Fixpoint zskipn (n : Z) (l : list A) : list A :=
    match l with
    | [] => []
    | x :: t => if n <=? 0 then l else zskipn (n - 1) t
    end.

  Definition zrepeat (v : A) (n : Z) : list A := repeat v (Z.to_nat n).
End ZLists.
Arguments zlen {A} l : simpl never.

(** ** Byte strings *)
Notation byte := Z (only parsing).
Notation bytes := (list Z).

Definition byte_ok (b : byte) : Prop := 0 <= b < 256.
Definition bytes_ok (s : bytes) : Prop := Forall byte_ok s.

Fixpoint bytes_eqb (a b : bytes) : bool :=
  match a, b with
  | [], [] => true
  | x :: a', y :: b' => (x =? y) && bytes_eqb a' b'
  | _, _ => false
  end.

Fixpoint bs (s : string) : bytes :=
  match s with
  | EmptyString => []
  | String c r => Z.of_nat (nat_of_ascii c) :: bs r
  end.

(** The part of a buffer a C string function sees. *)
Fixpoint cstr (s : bytes) : bytes :=
  match s with
  | [] => []
  | c :: r => if c =? 0 then [] else c :: cstr r
  end.

(** Decimal text of an integer, as printed by "%i"/std::to_string. *)
Fixpoint dec_digits (fuel : nat) (n : Z) (acc : bytes) : bytes :=
  match fuel with
  | O => acc
  | S f => let acc' := (48 + n mod 10) :: acc in
           if n / 10 =? 0 then acc' else dec_digits f (n / 10) acc'
  end.
(* the fuel always suffices: one digit needs more than three bits *)
Definition dec_nonneg (n : Z) : bytes :=
  dec_digits (S (Z.to_nat (Z.log2 n))) n [].
Definition dec (z : Z) : bytes :=
  if z <? 0 then 45 :: dec_nonneg (- z) else dec_nonneg z.

(** Source positions, lib_common/types.h:12-37. *)
Record line_t : Type := Line { l_file : Z; l_line : Z }.
Definition no_line : line_t := Line (-1) (-1).
