(** Vocabulary for the properties of whole builds: what the parser guarantees of
    the trees it makes. *)
From Coq Require Import ZArith List Bool.
From Verif Require Import Base F32 Ast Sema Codegen SrcSem CgSpec.
Import ListNotations.
Open Scope Z_scope.

(** The number and array literals of an expression, of a statement, of an item. *)
Fixpoint literals (e : expr) : list expr :=
  match e with
  | EInt _ _ | EFloat _ _ => [e]
  | EStr _ _ | ENone _ | EIdent _ _ | EMember _ _ _ _ => []
  | EArray _ es => e :: flat_map literals es
  | EIndex _ a i => literals a ++ literals i
  | ECall _ f es => literals f ++ flat_map literals es
  | EBin _ _ a b => literals a ++ literals b
  | EUn _ _ a => literals a
  end.
Definition opt_literals (o : option expr) : list expr :=
  match o with Some e => literals e | None => [] end.
Fixpoint stmt_literals (s : stmt) : list expr :=
  match s with
  | SVar _ _ oe | SReturn _ oe => opt_literals oe
  | SAssign _ _ e | SSetMem _ _ _ _ e => literals e
  | SSetIdx _ _ i e => literals i ++ literals e
  | SCall _ _ _ es => flat_map literals es
  | SIf _ c t f =>
      literals c ++ flat_map stmt_literals t
      ++ match f with Some b => flat_map stmt_literals b | None => [] end
  | SWhile _ c b => literals c ++ flat_map stmt_literals b
  | SFor _ _ _ a b body => literals a ++ literals b ++ flat_map stmt_literals body
  end.
Definition item_literals (i : item) : list expr :=
  match i with
  | TVar _ _ oe | TConst _ _ oe => opt_literals oe
  | TFunc _ _ _ body _ => flat_map stmt_literals body
  | TImport _ _ => []
  end.

(** They are machine numbers and arrays with elements, and no function has the name of the generated
    one. *)
Definition number_ok (e : expr) : Prop :=
  match e with
  | EInt v _ => in_i32 v = true
  | EFloat f _ => f_valid f = true
  | EArray _ es => es <> []
  | _ => True
  end.
Record item_fine (i : item) : Prop := ItemFine {
  if_numbers : Forall number_ok (item_literals i);
  if_name : forall x l args body lend, i = TFunc x l args body lend -> x <> init_name
}.
Definition child_fine (c : child) : Prop :=
  match c with CSys _ _ => True | CItem i => item_fine i end.
