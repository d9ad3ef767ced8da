(** Vocabulary for the properties of the optimiser. *)
From Coq Require Import ZArith List Bool.
From Verif Require Import Base F32 Ast Sema SemaSpec SrcSem.
Import ListNotations.
Open Scope Z_scope.

(** The integer literal nodes of the code of a program, one entry per place that
    points to the node (a declaration of a constant generates no code). *)
Definition code_exprs (i : ritem) : list rexpr :=
  match i with
  | RGlobal d oe => if vd_const d then [] else opt_list oe
  | i => exprs_item i
  end.
Definition literal_node (e : rexpr) : list nat :=
  match e with RInt id _ _ => [id] | _ => [] end.
Definition literal_nodes (items : list ritem) : list nat :=
  flat_map literal_node (flat_map inside (flat_map code_exprs items)).

(** The literal nodes used as the condition of an [if]. *)
Definition if_literal (s : rstmt) : list nat :=
  match s with RIf _ (RInt id _ _) _ _ => [id] | _ => [] end.
Definition if_literals (items : list ritem) : list nat :=
  flat_map if_literal (program_stmts items).

(** No literal that decides an [if] is used anywhere else. *)
Definition unshared (items : list ritem) : Prop :=
  forall id, In id (if_literals items) -> count_occ Nat.eq_dec (literal_nodes items) id = 1%nat.

(** [items'] behaves like [items]: initialising the globals, and calling any
    function with any arguments in any state, gives the same outcome (unless the
    bound on the recursion is too small for the first program), whatever function
    values and syscalls are. *)
Definition same_behaviour (items items' : list ritem) : Prop :=
  forall faddr sidx sys n st,
    (initial items faddr sidx sys n st <> Timeout ->
     initial items' faddr sidx sys n st = initial items faddr sidx sys n st) /\
    forall id,
      match by_id items id with
      | Some f => exists f', by_id items' id = Some f' /\ forall vs,
          run_call items faddr sidx sys n f vs st <> Timeout ->
          run_call items' faddr sidx sys n f' vs st = run_call items faddr sidx sys n f vs st
      | None => by_id items' id = None
      end.
