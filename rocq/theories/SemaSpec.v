(** Vocabulary for the properties of semantic analysis: the program text behind
    an annotated tree, what is in scope where, which expressions, calls and
    assignments a program contains. *)
From Coq Require Import ZArith List Bool.
From Verif Require Import Base F32 Ast Sema.
Import ListNotations.
Open Scope Z_scope.

(** ** Forgetting the annotations *)
Definition line_of (l : option line_t) : line_t :=
  match l with Some l => l | None => no_line end.

Fixpoint plain_expr (e : rexpr) : expr :=
  match e with
  | RInt _ v l => EInt v (line_of l)
  | RFloat f l => EFloat f l
  | RStr s l => EStr s l
  | RNone l => ENone l
  | RIdent d l => EIdent (decl_name d) l
  | RMember d l m lm => EMember (vd_name d) l m lm
  | RArray l es => EArray l (map plain_expr es)
  | RIndex l a i => EIndex l (plain_expr a) (plain_expr i)
  | RCall l f es => ECall l (plain_expr f) (map plain_expr es)
  | RBin o l a b => EBin o l (plain_expr a) (plain_expr b)
  | RUn o l a => EUn o l (plain_expr a)
  end.

(** The statement a tree stands for.  A missing block counts as an empty one and
    a call statement of anything but a name (the parser makes neither) as a
    return. *)
Fixpoint plain_stmt (s : rstmt) : stmt :=
  let block o := match o with Some b => map plain_stmt b | None => [] end in
  match s with
  | RVar d oe => SVar (vd_name d) (vd_line d) (option_map plain_expr oe)
  | RAssign d l e => SAssign (vd_name d) l (plain_expr e)
  | RSetMem d l m lm e => SSetMem (vd_name d) l m lm (plain_expr e)
  | RSetIdx d l i e => SSetIdx (vd_name d) l (plain_expr i) (plain_expr e)
  | RCallS l f es =>
      match plain_expr f with
      | EIdent x lf => SCall x lf l (map plain_expr es)
      | _ => SReturn l None
      end
  | RIf l c t f =>
      SIf l (plain_expr c) (block t)
          (match f with Some b => Some (map plain_stmt b) | None => None end)
  | RWhile l c b => SWhile l (plain_expr c) (block b)
  | RFor l d lx a b body =>
      SFor l (vd_name d) lx (plain_expr a) (plain_expr b) (map plain_stmt body)
  | RReturn l oe => SReturn l (option_map plain_expr oe)
  end.

Definition plain_item (i : ritem) : child :=
  match i with
  | RSys f => CSys (fd_name f) (if fd_var f then -1 else Z.of_nat (fd_arity f))
  | RGlobal d oe =>
      CItem ((if vd_const d then TConst else TVar) (vd_name d) (vd_line d)
               (option_map plain_expr oe))
  | RFunc f args body lend =>
      CItem (TFunc (fd_name f) (line_of (fd_line f))
               (map (fun d => (vd_name d, vd_line d)) args) (map plain_stmt body) lend)
  end.

(** Imports leave no trace in the tree; for a syscall only "negative or not"
    counts. *)
Definition same_child (c : child) : list child :=
  match c with
  | CItem (TImport _ _) => []
  | CSys x k => [CSys x (if k <? 0 then -1 else k)]
  | c => [c]
  end.

(** ** What is in scope where

    The levels of declarations in scope, innermost first.  A function adds a
    level for its arguments and body; an [if] adds one level for its condition
    and both of its branches; [while] and [for] add one each.  A declaration is
    in scope after its own initialiser. *)
Definition in_scope : Type := list (list decl).

Definition with_decl (d : decl) (sc : in_scope) : in_scope :=
  match sc with [] => [[d]] | s :: t => (d :: s) :: t end.

(** A use of a declaration and what was in scope there. *)
Definition use : Type := decl * in_scope.

Fixpoint uses_expr (sc : in_scope) (e : rexpr) : list use :=
  match e with
  | RIdent d _ => [(d, sc)]
  | RMember d _ _ _ => [(DV d, sc)]
  | RArray _ es => flat_map (uses_expr sc) es
  | RIndex _ a i => uses_expr sc a ++ uses_expr sc i
  | RCall _ f es => flat_map (uses_expr sc) es ++ uses_expr sc f
  | RBin _ _ a b => uses_expr sc a ++ uses_expr sc b
  | RUn _ _ a => uses_expr sc a
  | _ => []
  end.
Definition uses_opt (sc : in_scope) (o : option rexpr) : list use :=
  match o with Some e => uses_expr sc e | None => [] end.

(** The uses of a statement, and what is in scope after it. *)
Definition after_stmt (sc : in_scope) (s : rstmt) : in_scope :=
  match s with RVar d _ => with_decl (DV d) sc | _ => sc end.
Definition after_block (sc : in_scope) (b : list rstmt) : in_scope := fold_left after_stmt b sc.

(** The uses in a block, statement by statement. *)
Definition in_order (f : in_scope -> rstmt -> list use) : in_scope -> list rstmt -> list use :=
  fix go (sc : in_scope) (b : list rstmt) : list use :=
    match b with
    | [] => []
    | s :: t => f sc s ++ go (after_stmt sc s) t
    end.

Fixpoint uses_stmt (sc : in_scope) (s : rstmt) {struct s} : list use :=
  match s with
  | RVar _ oe => uses_opt sc oe
  | RAssign d _ e => uses_expr sc e ++ [(DV d, sc)]
  | RSetMem d _ _ _ e => uses_expr sc e ++ [(DV d, sc)]
  | RSetIdx d _ i e => uses_expr sc i ++ uses_expr sc e ++ [(DV d, sc)]
  | RCallS _ f es => flat_map (uses_expr sc) es ++ uses_expr sc f
  | RIf _ c t f =>
      let sc1 := [] :: sc in
      let sc2 := match t with Some b => after_block sc1 b | None => sc1 end in
      uses_expr sc1 c
      ++ match t with Some b => in_order uses_stmt sc1 b | None => [] end
      ++ match f with Some b => in_order uses_stmt sc2 b | None => [] end
  | RWhile _ c b =>
      let sc1 := [] :: sc in
      uses_expr sc1 c ++ match b with Some b => in_order uses_stmt sc1 b | None => [] end
  | RFor _ d _ a b body =>
      let sc1 := [] :: sc in
      (DV d, sc1) :: uses_expr sc1 a ++ uses_expr sc1 b ++ in_order uses_stmt sc1 body
  | RReturn _ oe => uses_opt sc oe
  end.
Definition uses_block : in_scope -> list rstmt -> list use := in_order uses_stmt.

(** The declarations at the top level of a program. *)
Definition top_decl (i : ritem) : decl :=
  match i with RSys f => DF f | RGlobal d _ => DV d | RFunc f _ _ _ => DF f end.
Definition top_decls (items : list ritem) : list decl := map top_decl items.

Definition uses_item (g : list decl) (i : ritem) : list use :=
  match i with
  | RSys _ => []
  | RGlobal _ oe => uses_opt [g] oe
  | RFunc _ args body _ =>
      uses_block [rev (map DV args); g] body
  end.
Definition uses (items : list ritem) : list use :=
  flat_map (uses_item (top_decls items)) items.

(** [d] is a declaration of the innermost level that declares its name. *)
Definition innermost (u : use) : Prop :=
  let (d, sc) := u in
  exists inner level outer,
    sc = inner ++ level :: outer /\ In d level /\
    forall s d', In s inner -> In d' s -> decl_name d' <> decl_name d.

(** ** Declared names

    [decl_stmt vis s vis']: with the names [vis] already declared in the
    enclosing scopes, the declarations in [s] are all new; [vis'] adds the name
    [s] itself declares.  The two branches of an [if] do not see each other. *)
Inductive decl_stmt : list bytes -> rstmt -> list bytes -> Prop :=
| DS_var : forall vis d e, ~ In (vd_name d) vis -> decl_stmt vis (RVar d e) (vd_name d :: vis)
| DS_assign : forall vis d l e, decl_stmt vis (RAssign d l e) vis
| DS_mem : forall vis d l m lm e, decl_stmt vis (RSetMem d l m lm e) vis
| DS_idx : forall vis d l i e, decl_stmt vis (RSetIdx d l i e) vis
| DS_call : forall vis l f es, decl_stmt vis (RCallS l f es) vis
| DS_if : forall vis l c t f v1 v2,
    decl_oblock vis t v1 -> decl_oblock vis f v2 -> decl_stmt vis (RIf l c t f) vis
| DS_while : forall vis l c b v1, decl_oblock vis b v1 -> decl_stmt vis (RWhile l c b) vis
| DS_for : forall vis l d lx a b body v1,
    decl_block vis body v1 -> decl_stmt vis (RFor l d lx a b body) vis
| DS_ret : forall vis l e, decl_stmt vis (RReturn l e) vis
with decl_block : list bytes -> list rstmt -> list bytes -> Prop :=
| DB_nil : forall vis, decl_block vis [] vis
| DB_cons : forall vis s b v1 v2,
    decl_stmt vis s v1 -> decl_block v1 b v2 -> decl_block vis (s :: b) v2
with decl_oblock : list bytes -> option (list rstmt) -> list bytes -> Prop :=
| DO_none : forall vis, decl_oblock vis None vis
| DO_some : forall vis b v, decl_block vis b v -> decl_oblock vis (Some b) v.

Inductive decl_args : list bytes -> list vdecl -> list bytes -> Prop :=
| DA_nil : forall vis, decl_args vis [] vis
| DA_cons : forall vis d t v,
    ~ In (vd_name d) vis -> decl_args (vd_name d :: vis) t v -> decl_args vis (d :: t) v.

(** The top level, in order: functions, syscalls, globals and constants share
    one name space with the arguments and locals of the functions after them. *)
Inductive decl_items : list bytes -> list ritem -> Prop :=
| DI_nil : forall vis, decl_items vis []
| DI_global : forall vis d e t,
    ~ In (vd_name d) vis -> decl_items (vd_name d :: vis) t ->
    decl_items vis (RGlobal d e :: t)
| DI_sys : forall vis f t,
    ~ In (fd_name f) vis -> decl_items (fd_name f :: vis) t ->
    decl_items vis (RSys f :: t)
| DI_func : forall vis f args body lend t v1 v2,
    ~ In (fd_name f) vis ->
    decl_args (fd_name f :: vis) args v1 -> decl_block v1 body v2 ->
    decl_items (fd_name f :: vis) t ->
    decl_items vis (RFunc f args body lend :: t).

(** The declarations a statement makes, blocks included. *)
Fixpoint decls_stmt (s : rstmt) : list vdecl :=
  let block o := match o with Some b => flat_map decls_stmt b | None => [] end in
  match s with
  | RVar d _ => [d]
  | RIf _ _ t f => block t ++ block f
  | RWhile _ _ b => block b
  | RFor _ _ _ _ _ body => flat_map decls_stmt body
  | _ => []
  end.
Definition decls_block (b : list rstmt) : list vdecl := flat_map decls_stmt b.

(** ** The expressions of a program *)

(** An expression and everything inside it. *)
Fixpoint inside (e : rexpr) : list rexpr :=
  e :: match e with
       | RArray _ es => flat_map inside es
       | RIndex _ a i => inside a ++ inside i
       | RCall _ f es => inside f ++ flat_map inside es
       | RBin _ _ a b => inside a ++ inside b
       | RUn _ _ a => inside a
       | _ => []
       end.

Definition opt_list {A} (o : option A) : list A := match o with Some a => [a] | None => [] end.

(** The outermost expressions of a statement, blocks included. *)
Fixpoint exprs_stmt (s : rstmt) : list rexpr :=
  let block o := match o with Some b => flat_map exprs_stmt b | None => [] end in
  match s with
  | RVar _ oe | RReturn _ oe => opt_list oe
  | RAssign _ _ e | RSetMem _ _ _ _ e => [e]
  | RSetIdx _ _ i e => [i; e]
  | RCallS l f es => [RCall l f es]
  | RIf _ c t f => c :: block t ++ block f
  | RWhile _ c b => c :: block b
  | RFor _ _ _ a b body => a :: b :: flat_map exprs_stmt body
  end.
Definition exprs_item (i : ritem) : list rexpr :=
  match i with
  | RSys _ => []
  | RGlobal _ oe => opt_list oe
  | RFunc _ _ body _ => flat_map exprs_stmt body
  end.
(** Every expression that occurs in the program. *)
Definition program_exprs (items : list ritem) : list rexpr :=
  flat_map inside (flat_map exprs_item items).

(** The same without names in the position of a callee: [in_value_position]. *)
Fixpoint values_inside (e : rexpr) : list rexpr :=
  e :: match e with
       | RArray _ es => flat_map values_inside es
       | RIndex _ a i => values_inside a ++ values_inside i
       | RCall _ f es =>
           match f with RIdent _ _ => [] | _ => values_inside f end
           ++ flat_map values_inside es
       | RBin _ _ a b => values_inside a ++ values_inside b
       | RUn _ _ a => values_inside a
       | _ => []
       end.
Definition program_values (items : list ritem) : list rexpr :=
  flat_map values_inside (flat_map exprs_item items).

(** The statements of a program, blocks included. *)
Fixpoint within (s : rstmt) : list rstmt :=
  let block o := match o with Some b => flat_map within b | None => [] end in
  s :: match s with
       | RIf _ _ t f => block t ++ block f
       | RWhile _ _ b => block b
       | RFor _ _ _ _ _ body => flat_map within body
       | _ => []
       end.
Definition program_stmts (items : list ritem) : list rstmt :=
  flat_map (fun i => match i with RFunc _ _ body _ => flat_map within body | _ => [] end) items.

(** ** Constants *)
Definition literal (e : rexpr) : Prop :=
  match e with RInt _ _ _ | RFloat _ _ | RStr _ _ | RNone _ => True | _ => False end.

(** [e'] is [e] with uses of named constants replaced; [lit d] is the literal a
    constant stands for. *)
Inductive inlined (lit : vdecl -> rexpr -> Prop) : rexpr -> rexpr -> Prop :=
| IN_const : forall d l e, vd_const d = true -> lit d e -> inlined lit (RIdent (DV d) l) e
| IN_int : forall i v l, inlined lit (RInt i v l) (RInt i v l)
| IN_float : forall f l, inlined lit (RFloat f l) (RFloat f l)
| IN_str : forall s l, inlined lit (RStr s l) (RStr s l)
| IN_none : forall l, inlined lit (RNone l) (RNone l)
| IN_var : forall d l, vd_const d = false -> inlined lit (RIdent (DV d) l) (RIdent (DV d) l)
| IN_func : forall f l, inlined lit (RIdent (DF f) l) (RIdent (DF f) l)
| IN_member : forall d l m lm, inlined lit (RMember d l m lm) (RMember d l m lm)
| IN_array : forall l es es', Forall2 (inlined lit) es es' -> inlined lit (RArray l es) (RArray l es')
| IN_index : forall l a i a' i',
    inlined lit a a' -> inlined lit i i' -> inlined lit (RIndex l a i) (RIndex l a' i')
| IN_callee : forall l d lf es es',       (* a name as callee stays *)
    Forall2 (inlined lit) es es' -> inlined lit (RCall l (RIdent d lf) es) (RCall l (RIdent d lf) es')
| IN_call : forall l f f' es es',
    (forall d lf, f <> RIdent d lf) -> inlined lit f f' ->
    Forall2 (inlined lit) es es' -> inlined lit (RCall l f es) (RCall l f' es')
| IN_bin : forall o l a b a' b',
    inlined lit a a' -> inlined lit b b' -> inlined lit (RBin o l a b) (RBin o l a' b')
| IN_un : forall o l a a', inlined lit a a' -> inlined lit (RUn o l a) (RUn o l a').

(** Statements and items: the same with every expression replaced. *)
Inductive inlined_stmt (lit : vdecl -> rexpr -> Prop) : rstmt -> rstmt -> Prop :=
| IS_var : forall d e e', inlined_opt lit e e' -> inlined_stmt lit (RVar d e) (RVar d e')
| IS_assign : forall d l e e', vd_const d = false ->
    inlined lit e e' -> inlined_stmt lit (RAssign d l e) (RAssign d l e')
| IS_mem : forall d l m lm e e',
    inlined lit e e' -> inlined_stmt lit (RSetMem d l m lm e) (RSetMem d l m lm e')
| IS_idx : forall d l i e i' e', inlined lit i i' ->
    inlined lit e e' -> inlined_stmt lit (RSetIdx d l i e) (RSetIdx d l i' e')
| IS_call : forall l f es f' es', inlined lit (RCall l f es) (RCall l f' es') ->
    inlined_stmt lit (RCallS l f es) (RCallS l f' es')
| IS_if : forall l c t f c' t' f', inlined lit c c' ->
    inlined_oblock lit t t' -> inlined_oblock lit f f' ->
    inlined_stmt lit (RIf l c t f) (RIf l c' t' f')
| IS_while : forall l c b c' b', inlined lit c c' -> inlined_oblock lit b b' ->
    inlined_stmt lit (RWhile l c b) (RWhile l c' b')
| IS_for : forall l d lx a b body a' b' body', inlined lit a a' -> inlined lit b b' ->
    inlined_block lit body body' ->
    inlined_stmt lit (RFor l d lx a b body) (RFor l d lx a' b' body')
| IS_ret : forall l e e', inlined_opt lit e e' -> inlined_stmt lit (RReturn l e) (RReturn l e')
with inlined_opt (lit : vdecl -> rexpr -> Prop) : option rexpr -> option rexpr -> Prop :=
| IO_none : inlined_opt lit None None
| IO_some : forall e e', inlined lit e e' -> inlined_opt lit (Some e) (Some e')
with inlined_block (lit : vdecl -> rexpr -> Prop) : list rstmt -> list rstmt -> Prop :=
| IB_nil : inlined_block lit [] []
| IB_cons : forall s s' b b', inlined_stmt lit s s' -> inlined_block lit b b' ->
    inlined_block lit (s :: b) (s' :: b')
with inlined_oblock (lit : vdecl -> rexpr -> Prop)
  : option (list rstmt) -> option (list rstmt) -> Prop :=
| IOB_none : inlined_oblock lit None None
| IOB_some : forall b b', inlined_block lit b b' -> inlined_oblock lit (Some b) (Some b').

Inductive inlined_item (lit : vdecl -> rexpr -> Prop) : ritem -> ritem -> Prop :=
| II_sys : forall f, inlined_item lit (RSys f) (RSys f)
| II_global : forall d e e', inlined_opt lit e e' -> inlined_item lit (RGlobal d e) (RGlobal d e')
| II_func : forall f args b b' lend, inlined_block lit b b' ->
    inlined_item lit (RFunc f args b lend) (RFunc f args b' lend).

(** The literal a constant of the program stands for. *)
Definition stands_for (items : list ritem) (d : vdecl) (e : rexpr) : Prop :=
  literal e /\ In (RGlobal d (Some e)) items.

(** ** Constant initialisers of globals *)

(** 32-bit arithmetic; no value where it overflows or divides by zero. *)
Definition arith (o : binop) (x y v : Z) : Prop :=
  match o with
  | BAdd => v = x + y /\ in_i32 v = true
  | BSub => v = x - y /\ in_i32 v = true
  | BMul => v = x * y /\ in_i32 v = true
  | BDiv => y <> 0 /\ v = Z.quot x y /\ in_i32 v = true
  | BMod => y <> 0 /\ v = Z.rem x y /\ in_i32 (Z.quot x y) = true
  | BAnd => (v = 1 /\ x <> 0 /\ y <> 0) \/ (v = 0 /\ (x = 0 \/ y = 0))
  | BOr => (v = 1 /\ (x <> 0 \/ y <> 0)) \/ (v = 0 /\ x = 0 /\ y = 0)
  | BEq => (v = 1 /\ x = y) \/ (v = 0 /\ x <> y)
  | BLt => (v = 1 /\ x < y) \/ (v = 0 /\ ~ x < y)
  | BGt => (v = 1 /\ x > y) \/ (v = 0 /\ ~ x > y)
  | BLeq => (v = 1 /\ x <= y) \/ (v = 0 /\ ~ x <= y)
  | BGeq => (v = 1 /\ x >= y) \/ (v = 0 /\ ~ x >= y)
  end.

(** The value of an expression over integer literals and named integer
    constants; [lit] gives the constants. *)
Inductive const_value (lit : vdecl -> Z -> Prop) : rexpr -> Z -> Prop :=
| CV_int : forall i v l, const_value lit (RInt i v l) v
| CV_name : forall d l v, vd_const d = true -> lit d v -> const_value lit (RIdent (DV d) l) v
| CV_neg : forall l a v, const_value lit a v -> in_i32 (- v) = true ->
    const_value lit (RUn UNeg l a) (- v)
| CV_bin : forall o l a b x y v, const_value lit a x -> const_value lit b y -> arith o x y v ->
    const_value lit (RBin o l a b) v.

Definition int_const (items : list ritem) (d : vdecl) (v : Z) : Prop :=
  exists i l, In (RGlobal d (Some (RInt i v l))) items.

(** What may happen to the initialiser of a global: nothing, [none] is dropped,
    an operator is replaced by its value. *)
Inductive folded (lit : vdecl -> Z -> Prop) : ritem -> ritem -> Prop :=
| FO_same : forall i, folded lit i i
| FO_none : forall d l, folded lit (RGlobal d (Some (RNone l))) (RGlobal d None)
| FO_value : forall d e i v, const_value lit e v -> folded lit (RGlobal d (Some e)) (RGlobal d (Some (RInt i v None))).
