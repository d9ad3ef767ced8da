(** Vocabulary for the question which analysed programs can be compiled. *)
From Coq Require Import ZArith List Bool.
From Verif Require Import Base Ast Sema SemaSpec.
Import ListNotations.

(** The variables whose address a node needs: a name or the object of a member
    in an expression; the target of a statement. *)
Definition addressed_expr (e : rexpr) : list vdecl :=
  match e with
  | RIdent (DV d) _ => [d]
  | RMember d _ _ _ => [d]
  | _ => []
  end.
Definition addressed_stmt (s : rstmt) : list vdecl :=
  match s with
  | RAssign d _ _ | RSetMem d _ _ _ _ | RSetIdx d _ _ _ | RFor _ d _ _ _ _ => [d]
  | _ => []
  end.

(** The expressions that run: those of functions and of the initialisers of
    variables, not those of constants. *)
Definition run_time_exprs (items : list ritem) : list rexpr :=
  flat_map inside
    (flat_map (fun i => match i with
                        | RGlobal d oe => if vd_const d then [] else opt_list oe
                        | _ => exprs_item i
                        end) items).

Definition addressed (items : list ritem) : list vdecl :=
  flat_map addressed_expr (run_time_exprs items) ++
  flat_map addressed_stmt (program_stmts items).

(** No constant is used as if it were a variable. *)
Definition no_constant_addressed (items : list ritem) : Prop :=
  forall d, In d (addressed items) -> vd_const d = false.

(** ** In terms of the source *)

(** An expression and everything inside it. *)
Fixpoint parts (e : expr) : list expr :=
  e :: match e with
       | EArray _ es => flat_map parts es
       | EIndex _ a i => parts a ++ parts i
       | ECall _ f es => parts f ++ flat_map parts es
       | EBin _ _ a b => parts a ++ parts b
       | EUn _ _ a => parts a
       | _ => []
       end.

(** The outermost expressions of a statement, blocks included, and a statement
    with everything inside it. *)
Fixpoint stmt_exprs (s : stmt) : list expr :=
  match s with
  | SVar _ _ oe | SReturn _ oe => opt_list oe
  | SAssign _ _ e | SSetMem _ _ _ _ e => [e]
  | SSetIdx _ _ i e => [i; e]
  | SCall x l lc es => [ECall lc (EIdent x l) es]
  | SIf _ c t f =>
      c :: flat_map stmt_exprs t ++ match f with Some b => flat_map stmt_exprs b | None => [] end
  | SWhile _ c b => c :: flat_map stmt_exprs b
  | SFor _ _ _ a b body => a :: b :: flat_map stmt_exprs body
  end.
Fixpoint stmt_parts (s : stmt) : list stmt :=
  s :: match s with
       | SIf _ _ t f =>
           flat_map stmt_parts t ++ match f with Some b => flat_map stmt_parts b | None => [] end
       | SWhile _ _ b => flat_map stmt_parts b
       | SFor _ _ _ _ _ body => flat_map stmt_parts body
       | _ => []
       end.
Definition source_exprs (is : list item) : list expr :=
  flat_map parts
    (flat_map (fun i => match i with
                        | TVar _ _ oe | TConst _ _ oe => opt_list oe
                        | TFunc _ _ _ body _ => flat_map stmt_exprs body
                        | TImport _ _ => []
                        end) is).
Definition source_stmts (is : list item) : list stmt :=
  flat_map (fun i => match i with TFunc _ _ _ body _ => flat_map stmt_parts body | _ => [] end) is.

(** The names used where a variable is needed: a callee, the object of a member,
    the target of an assignment to an element or a member, the variable of a
    [for].  (The target of a plain assignment is not listed: assigning to a
    constant is an error of the analysis.) *)
Definition variable_use (e : expr) : list bytes :=
  match e with
  | ECall _ (EIdent x _) _ => [x]
  | EMember x _ _ _ => [x]
  | _ => []
  end.
Definition variable_target (s : stmt) : list bytes :=
  match s with
  | SSetMem x _ _ _ _ | SSetIdx x _ _ _ | SFor _ x _ _ _ _ => [x]
  | _ => []
  end.
Definition variable_names (is : list item) : list bytes :=
  flat_map variable_use (source_exprs is) ++ flat_map variable_target (source_stmts is).

Definition constant_names (is : list item) : list bytes :=
  flat_map (fun i => match i with TConst x _ _ => [x] | _ => [] end) is.
(** The functions of the program and those registered by the host. *)
Definition callable_names (regs : list (bytes * Z)) (is : list item) : list bytes :=
  map fst regs ++ flat_map (fun i => match i with TFunc x _ _ _ _ => [x] | _ => [] end) is.

(** Expressions over integer literals with minus and binary operators. *)
Fixpoint closed (e : expr) : Prop :=
  match e with
  | EInt _ _ => True
  | EUn UNeg _ a => closed a
  | EBin _ _ a b => closed a /\ closed b
  | _ => False
  end.
(** Initialisers of globals the compiler can deal with: anything without
    operators at the top; binary operators over anything but names of functions
    and [not]; minus only before closed expressions. *)
Fixpoint tame (functions : list bytes) (e : expr) : Prop :=
  match e with
  | EIdent x _ => ~ In x functions
  | EUn UNeg _ a => closed a
  | EUn UNot _ _ => False
  | EBin _ _ a b => tame functions a /\ tame functions b
  | _ => True
  end.
Definition initialiser_ok (functions : list bytes) (e : expr) : Prop :=
  match e with EBin _ _ _ _ | EUn _ _ _ => tame functions e | _ => True end.

Record plain_source (regs : list (bytes * Z)) (is : list item) : Prop := PlainSource {
  (** the host registers every name once *)
  ps_regs : NoDup (map fst regs);
  (** members are not taken of functions *)
  ps_members : forall x l m lm, In (EMember x l m lm) (source_exprs is) ->
                 ~ In x (callable_names regs is);
  (** constants are used as values only *)
  ps_constants : forall x, In x (variable_names is) -> ~ In x (constant_names is);
  ps_globals : forall x l e, In (TVar x l (Some e)) is \/ In (TConst x l (Some e)) is ->
                 initialiser_ok (callable_names regs is) e
}.

(** No operator at the top of an initialiser of a global. *)
Definition operator_free (e : expr) : Prop :=
  match e with EBin _ _ _ _ | EUn _ _ _ => False | _ => True end.
