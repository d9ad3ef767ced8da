(** The semantic passes, lib_compiler/sema.cpp.

    The C++ passes decorate and rewrite one graph of nodes.  Here the first pass
    translates the parse tree into a second tree whose names point to
    declarations, and the later passes rewrite that second tree.

    Node identity matters in two places only, and is kept there:
    - a declaration carries a number ([vd_id], [fd_id]) standing for its node;
    - an integer literal carries a number standing for its node, because
      [sema_const_t] makes several parents share one literal node and
      [opt_if_remove_t] later writes into literal nodes.
    Token pointers are kept as the line read through them; they are null for the
    nodes the compiler makes itself, hence [option line_t].

    A name used twice as a node is never shared in any other way by the parser
    (parser.cpp:493-511 allocates a fresh identifier node for "x += e"). *)
From Coq Require Import ZArith List Bool String.
From Verif Require Import Base F32 Ast.
Import ListNotations.
Open Scope Z_scope.

(** ** The annotated tree *)

(** ast_decl_var_t::scope_t, lib_compiler/ast.h:587-591 *)
Inductive vkind : Type := KLocal | KArg | KGlobal.

(** The part of ast_decl_var_t (ast.h:583-628) that no pass changes: the node,
    its scope, is_const, and the text and line of the name token. *)
Record vdecl : Type := VDecl {
  vd_id : nat;
  vd_kind : vkind;
  vd_const : bool;
  vd_name : bytes;
  vd_line : line_t
}.

(** The part of ast_decl_func_t (ast.h:527-581) that no pass changes.  The
    token is null for syscalls and for the generated [@init]. *)
Record fdecl : Type := FDecl {
  fd_id : nat;
  fd_name : bytes;
  fd_line : option line_t;
  fd_sys : bool;
  fd_var : bool;
  fd_arity : nat
}.

(** What ast_exp_ident_t::decl can point to. *)
Inductive decl : Type :=
| DV (d : vdecl)
| DF (f : fdecl).

Definition decl_name (d : decl) : bytes :=
  match d with DV v => vd_name v | DF f => fd_name f end.
Definition decl_id (d : decl) : nat :=
  match d with DV v => vd_id v | DF f => fd_id f end.

(** Expressions, ast.h:95-326, with [decl] filled in. *)
Inductive rexpr : Type :=
| RInt (id : nat) (v : Z) (l : option line_t)
| RFloat (f : f32) (l : line_t)
| RStr (s : bytes) (l : line_t)
| RNone (l : line_t)
| RIdent (d : decl) (l : line_t)
| RMember (d : vdecl) (l : line_t) (m : bytes) (lm : line_t)
| RArray (l : line_t) (es : list rexpr)
| RIndex (l : line_t) (a i : rexpr)
| RCall (l : line_t) (f : rexpr) (es : list rexpr)
| RBin (o : binop) (l : line_t) (a b : rexpr)
| RUn (o : unop) (l : line_t) (a : rexpr).

(** Statements, ast.h:245-262 and 328-525, with [decl] filled in.  The blocks of
    an [if] and of a [while] can be null (optimize.cpp:351-367). *)
Inductive rstmt : Type :=
| RVar (d : vdecl) (e : option rexpr)
| RAssign (d : vdecl) (l : line_t) (e : rexpr)
| RSetMem (d : vdecl) (l : line_t) (m : bytes) (lm : line_t) (e : rexpr)
| RSetIdx (d : vdecl) (l : line_t) (i e : rexpr)
| RCallS (l : line_t) (f : rexpr) (es : list rexpr)
| RIf (l : line_t) (c : rexpr) (t f : option (list rstmt))
| RWhile (l : line_t) (c : rexpr) (b : option (list rstmt))
| RFor (l : line_t) (d : vdecl) (lx : line_t) (a b : rexpr) (body : list rstmt)
| RReturn (l : line_t) (e : option rexpr).

(** Children of the program node: registered syscalls, global variables and
    constants, functions. *)
Inductive ritem : Type :=
| RSys (f : fdecl)
| RGlobal (d : vdecl) (e : option rexpr)
| RFunc (f : fdecl) (args : list vdecl) (body : list rstmt) (lend : line_t).

(** A child of the program node before annotation: nano.cpp:88-103
    (syscall_register; a negative count stands for any number) or an item of the
    parser. *)
Inductive child : Type :=
| CSys (name : bytes) (nargs : Z)
| CItem (i : item).

(** ** Traversal helpers *)

(** Left to right over a list with a state. *)
Definition each {A B S} (f : A -> S -> res (B * S)) :=
  fix go (l : list A) (s : S) : res (list B * S) :=
    match l with
    | [] => Ok ([], s)
    | a :: t => '(b, s1) <- f a s ;; '(bs, s2) <- go t s1 ;; Ok (b :: bs, s2)
    end.

(** The same without a state. *)
Definition each_ {A B} (f : A -> res B) :=
  fix go (l : list A) : res (list B) :=
    match l with
    | [] => Ok []
    | a :: t => b <- f a ;; bs <- go t ;; Ok (b :: bs)
    end.

(** ** sema_decl_annotate_t, sema.cpp:287-449 *)
Section Annotate.
  (** Where each declaration node lies in memory: a scope is a
      std::set<ast_node_t*>, iterated in the order of the addresses. *)
  Variable addr : nat -> Z.

  Definition scopes : Type := list (list decl).

  (** The first node with the name in the iteration order of one std::set,
      sema.cpp:427-440. *)
  Fixpoint lowest (x : bytes) (s : list decl) : option decl :=
    match s with
    | [] => None
    | d :: t =>
        if bytes_eqb (decl_name d) x then
          match lowest x t with
          | Some d' => if addr (decl_id d') <? addr (decl_id d) then Some d' else Some d
          | None => Some d
          end
        else lowest x t
    end.

  (** find_decl, sema.cpp:423-443; the innermost scope comes first. *)
  Fixpoint find_decl (x : bytes) (sc : scopes) : option decl :=
    match sc with
    | [] => None
    | s :: t => match lowest x s with Some d => Some d | None => find_decl x t end
    end.

  (** [scope_.back().insert(n)] and [scope_.pop_back()] *)
  Definition declare (d : decl) (sc : scopes) : scopes :=
    match sc with [] => [[d]] | s :: t => (d :: s) :: t end.

  (** A name that must be a variable: sema.cpp:299-311, 333-368. *)
  Definition find_var (err : errkind) (x : bytes) (l : line_t) (sc : scopes) : res vdecl :=
    match find_decl x sc with
    | Some (DV d) => Ok d
    | _ => Err err (l_line l)
    end.

  (** Expressions: sema.cpp:370-400 over the default traversal ast.h:662-701
      (the object before the index, the arguments before the callee).  The
      number handed through is the next free node number. *)
  Fixpoint ann_expr (sc : scopes) (e : expr) (n : nat) : res (rexpr * nat) :=
    match e with
    | EInt v l => Ok (RInt n v (Some l), S n)
    | EFloat f l => Ok (RFloat f l, n)
    | EStr s l => Ok (RStr s l, n)
    | ENone l => Ok (RNone l, n)
    | EIdent x l =>
        match find_decl x sc with
        | Some d => Ok (RIdent d l, n)
        | None => Err E_unknown_identifier (l_line l)
        end
    | EMember x l m lm =>
        match find_decl x sc with
        | Some (DV d) => Ok (RMember d l m lm, n)
        | Some (DF _) => Stuck SAssert
        | None => Err E_unknown_identifier (l_line l)
        end
    | EArray l es => '(rs, n1) <- each (ann_expr sc) es n ;; Ok (RArray l rs, n1)
    | EIndex l a i =>
        '(ra, n1) <- ann_expr sc a n ;;
        '(ri, n2) <- ann_expr sc i n1 ;;
        Ok (RIndex l ra ri, n2)
    | ECall l f es =>
        '(rs, n1) <- each (ann_expr sc) es n ;;
        '(rf, n2) <- ann_expr sc f n1 ;;
        Ok (RCall l rf rs, n2)
    | EBin o l a b =>
        '(ra, n1) <- ann_expr sc a n ;;
        '(rb, n2) <- ann_expr sc b n1 ;;
        Ok (RBin o l ra rb, n2)
    | EUn o l a => '(ra, n1) <- ann_expr sc a n ;; Ok (RUn o l ra, n1)
    end.

  Definition ann_opt (sc : scopes) (o : option expr) (n : nat) : res (option rexpr * nat) :=
    match o with
    | None => Ok (None, n)
    | Some e => '(r, n1) <- ann_expr sc e n ;; Ok (Some r, n1)
    end.

  (** Statements: sema.cpp:299-368, 406-421.  The state is the scope stack and
      the next free node number. *)
  Fixpoint ann_stmt (s : stmt) (st : scopes * nat) {struct s} : res (rstmt * (scopes * nat)) :=
    let '(sc, n) := st in
    match s with
    | SVar x l oe =>
        '(re, n1) <- ann_opt sc oe n ;;
        let d := VDecl n1 KLocal false x l in
        Ok (RVar d re, (declare (DV d) sc, S n1))
    | SAssign x l e =>
        '(re, n1) <- ann_expr sc e n ;;
        d <- find_var E_unknown_variable x l sc ;;
        Ok (RAssign d l re, (sc, n1))
    | SSetMem x l m lm e =>
        '(re, n1) <- ann_expr sc e n ;;
        d <- find_var E_unknown_identifier x l sc ;;
        Ok (RSetMem d l m lm re, (sc, n1))
    | SSetIdx x l i e =>
        '(ri, n1) <- ann_expr sc i n ;;
        '(re, n2) <- ann_expr sc e n1 ;;
        d <- find_var E_unknown_array x l sc ;;
        Ok (RSetIdx d l ri re, (sc, n2))
    | SCall x l lc es =>
        '(rs, n1) <- each (ann_expr sc) es n ;;
        '(rf, n2) <- ann_expr sc (EIdent x l) n1 ;;
        Ok (RCallS lc rf rs, (sc, n2))
    | SIf l c t f =>
        (* one scope for the condition and both blocks *)
        let sc1 := [] :: sc in
        '(rc, n1) <- ann_expr sc1 c n ;;
        '(rt, st2) <- each ann_stmt t (sc1, n1) ;;
        '(rf, st3) <- match f with
                      | None => Ok (None, st2)
                      | Some f => '(rf, st3) <- each ann_stmt f st2 ;; Ok (Some rf, st3)
                      end ;;
        Ok (RIf l rc (Some rt) rf, (tl (fst st3), snd st3))
    | SWhile l c b =>
        let sc1 := [] :: sc in
        '(rc, n1) <- ann_expr sc1 c n ;;
        '(rb, st2) <- each ann_stmt b (sc1, n1) ;;
        Ok (RWhile l rc (Some rb), (tl (fst st2), snd st2))
    | SFor l x lx a b body =>
        let sc1 := [] :: sc in
        d <- find_var E_unknown_variable x lx sc1 ;;
        '(ra, n1) <- ann_expr sc1 a n ;;
        '(rb, n2) <- ann_expr sc1 b n1 ;;
        '(rbody, st3) <- each ann_stmt body (sc1, n2) ;;
        Ok (RFor l d lx ra rb rbody, (tl (fst st3), snd st3))
    | SReturn l oe => '(re, n1) <- ann_opt sc oe n ;; Ok (RReturn l re, (sc, n1))
    end.

  (** The declaration node of each child.  Imports are not nodes. *)
  Definition sys_decl (name : bytes) (nargs : Z) (n : nat) : fdecl :=
    FDecl n name None true (nargs <? 0) (Z.to_nat nargs).
  Definition head_decl (c : child) (n : nat) : option decl :=
    match c with
    | CSys x k => Some (DF (sys_decl x k n))
    | CItem (TVar x l _) => Some (DV (VDecl n KGlobal false x l))
    | CItem (TConst x l _) => Some (DV (VDecl n KGlobal true x l))
    | CItem (TFunc x l args _ _) =>
        Some (DF (FDecl n x (Some l) false false (List.length args)))
    | CItem (TImport _ _) => None
    end.
  Fixpoint number (cs : list child) (n : nat) : list (decl * child) * nat :=
    match cs with
    | [] => ([], n)
    | c :: t =>
        match head_decl c n with
        | Some d => let (r, m) := number t (S n) in ((d, c) :: r, m)
        | None => number t n
        end
    end.

  (** The arguments of a function in order, sema.cpp:402-404 and 418-421. *)
  Fixpoint ann_args (args : list (bytes * line_t)) (n : nat) : list vdecl :=
    match args with
    | [] => []
    | (x, l) :: t => VDecl n KArg false x l :: ann_args t (S n)
    end.

  (** One child; [g] is the global scope (which already holds every child, so
      inserting a global again changes nothing). *)
  Definition ann_child (g : list decl) (dc : decl * child) (n : nat) : res (ritem * nat) :=
    match dc with
    | (DF f, CItem (TFunc _ _ args body lend)) =>
        let ds := ann_args args n in
        '(rb, st) <- each ann_stmt body ([fold_left (fun s d => DV d :: s) ds []; g],
                                         (n + List.length args)%nat) ;;
        Ok (RFunc f ds rb lend, snd st)
    | (DV d, CItem (TVar _ _ oe | TConst _ _ oe)) =>
        '(re, n1) <- ann_opt [g] oe n ;; Ok (RGlobal d re, n1)
    | (DF f, _) => Ok (RSys f, n)
    | (DV d, _) => Ok (RGlobal d None, n)
    end.

  (** sema.cpp:313-331.  The result carries the next free node number. *)
  Definition annotate (cs : list child) : res (list ritem * nat) :=
    let (ds, n) := number cs O in
    each (ann_child (map fst ds)) ds n.
End Annotate.

(** ** eval_t, sema.cpp:8-151 *)

(** The expression of the global declared by node [id], null if it has none. *)
Fixpoint global_expr (items : list ritem) (id : nat) : option rexpr :=
  match items with
  | [] => None
  | RGlobal d e :: t => if Nat.eqb (vd_id d) id then e else global_expr t id
  | _ :: t => global_expr t id
  end.

(** is_supported, sema.cpp:74-84 *)
Definition ev_supported (e : rexpr) : bool :=
  match e with RInt _ _ _ | RBin _ _ _ _ | RUn _ _ _ | RIdent _ _ => true | _ => false end.

(** C++ [&&], [||] and the comparisons as int *)
Definition zb (b : bool) : Z := if b then 1 else 0.

(** The operators, sema.cpp:122-139 and (the same code) optimize.cpp:271-286:
    int arithmetic, undefined on overflow; the division by zero is caught
    before. *)
Definition fold_bin (o : binop) (a b : Z) : res Z :=
  match o with
  | BAdd => chk32 (a + b)
  | BSub => chk32 (a - b)
  | BMul => chk32 (a * b)
  | BAnd => Ok (zb (negb (a =? 0) && negb (b =? 0)))
  | BOr => Ok (zb (negb (a =? 0) || negb (b =? 0)))
  | BLeq => Ok (zb (a <=? b))
  | BGeq => Ok (zb (b <=? a))
  | BLt => Ok (zb (a <? b))
  | BGt => Ok (zb (b <? a))
  | BEq => Ok (zb (a =? b))
  | BDiv => if b =? 0 then Stuck SOverflow else chk32 (Z.quot a b)
  | BMod => if b =? 0 then Stuck SOverflow else _ <- chk32 (Z.quot a b) ;; Ok (Z.rem a b)
  end.
Definition is_div (o : binop) : bool := match o with BDiv | BMod => true | _ => false end.

Section Eval.
  (** the program, for the constants *)
  Variable items : list ritem.

  (** The state is the value stack (top first) and valid_.  Node kinds other
      than the four supported ones are never reached. *)
  Fixpoint ev (e : rexpr) (st : list Z * bool) : res (list Z * bool) :=
    let '(vs, ok) := st in
    match e with
    | RInt _ v _ => Ok (v :: vs, ok)
    | RIdent d _ =>
        match d with
        | DF _ => Stuck SAssert
        | DV d =>
            match (if vd_const d then global_expr items (vd_id d) else None) with
            | Some (RInt _ v _) => Ok (v :: vs, ok)
            | _ => Ok (vs, false)
            end
        end
    | RUn o _ a =>
        if ev_supported a then
          '(vs1, ok1) <- ev a (vs, ok) ;;
          match vs1 with
          | [] => Stuck SOob                   (* value_.back() of an empty vector *)
          | v :: vs2 =>
              match o with
              | UNeg => r <- chk32 (- v) ;; Ok (r :: vs2, ok1)
              | UNot => Stuck SAssert
              end
          end
        else Ok (vs, false)
    | RBin o l a b =>
        if ev_supported a && ev_supported b then
          '(vs1, ok1) <- ev a (vs, ok) ;;
          '(vs2, ok2) <- ev b (vs1, ok1) ;;
          if negb ok2 then Ok (0 :: vs2, ok2) else
          match vs2 with
          | y :: x :: vs3 =>
              if (y =? 0) && is_div o then Err E_constant_divide_by_zero (l_line l)
              else r <- fold_bin o x y ;; Ok (r :: vs3, ok2)
          | _ => Stuck SAssert
          end
        else Ok (vs, false)
    | _ => Ok (vs, ok)
    end.

  (** eval, sema.cpp:63-71 *)
  Definition eval (e : rexpr) : res (option Z) :=
    '(vs, ok) <- ev e ([], true) ;;
    match vs with
    | [v] => Ok (if ok then Some v else None)
    | _ => Ok None
    end.
End Eval.

(** ** sema_global_var_t, sema.cpp:214-285 *)

(** visit(ast_decl_var_t), sema.cpp:227-257; the second component is change_.
    [n] is the number given to a freshly allocated literal. *)
Definition glob_expr (items : list ritem) (e : rexpr) (n : nat)
  : res (option rexpr * bool * nat) :=
  match e with
  | RNone _ => Ok (None, false, n)
  | RBin _ _ _ _ | RUn _ _ _ =>
      o <- eval items e ;;
      match o with
      | Some v => Ok (Some (RInt n v None), true, S n)
      | None => Ok (Some e, false, n)
      end
  | _ => Ok (Some e, false, n)
  end.

(** run_globals_, sema.cpp:272-280: [done] are the children already visited. *)
Fixpoint run_globals (done todo : list ritem) (ch : bool) (n : nat)
  : res (list ritem * bool * nat) :=
  match todo with
  | [] => Ok (done, ch, n)
  | RGlobal d (Some e) :: t =>
      '(e', ch', n') <- glob_expr (done ++ RGlobal d (Some e) :: t) e n ;;
      run_globals (done ++ [RGlobal d e']) t (ch || ch') n'
  | i :: t => run_globals (done ++ [i]) t ch n
  end.

(** The do-while loop, sema.cpp:259-269.  Every round that changes something
    turns an operator node into a literal. *)
Fixpoint glob_loop (fuel : nat) (items : list ritem) (n : nat) : res (list ritem * nat) :=
  match fuel with
  | O => Stuck SDiverge
  | S f =>
      '(items', ch, n') <- run_globals [] items false n ;;
      if ch then glob_loop f items' n' else Ok (items', n')
  end.
Definition global_vars (items : list ritem) (n : nat) : res (list ritem * nat) :=
  '(items1, n1) <- glob_loop (S (List.length items)) items n ;;
  '(items2, _, n2) <- run_globals [] items1 false n1 ;;
  Ok (items2, n2).

(** ** sema_const_t, sema.cpp:153-212 *)
Section Const.
  Variable items : list ritem.

  (** visit(ast_exp_ident_t), sema.cpp:164-187: the literal that takes the place
      of the identifier, [None] when it stays. *)
  Definition const_lit (d : decl) (l : line_t) : res (option rexpr) :=
    match d with
    | DF _ => Ok None
    | DV d =>
        if negb (vd_const d) then Ok None else
        match global_expr items (vd_id d) with
        | None => Ok None
        | Some (RInt _ _ _ | RStr _ _ | RFloat _ _ | RNone _) as e => Ok e
        | Some _ => Err E_cant_evaluate_constant (l_line l)
        end
    end.

  (** Default traversal (ast.h:662-701) with replace_child of each parent:
      every parent replaces its children except ast_exp_call_t, which replaces
      arguments but not the callee (ast.h:273-279). *)
  Fixpoint con_expr (e : rexpr) : res rexpr :=
    match e with
    | RInt _ _ _ | RFloat _ _ | RStr _ _ | RNone _ | RMember _ _ _ _ => Ok e
    | RIdent d l =>
        o <- const_lit d l ;;
        match o with Some e' => Ok e' | None => Ok e end
    | RArray l es => rs <- each_ con_expr es ;; Ok (RArray l rs)
    | RIndex l a i => ra <- con_expr a ;; ri <- con_expr i ;; Ok (RIndex l ra ri)
    | RCall l f es =>
        rs <- each_ con_expr es ;;
        match f with
        | RIdent d lf => _ <- const_lit d lf ;; Ok (RCall l f rs)
        | _ => rf <- con_expr f ;; Ok (RCall l rf rs)
        end
    | RBin o l a b => ra <- con_expr a ;; rb <- con_expr b ;; Ok (RBin o l ra rb)
    | RUn o l a => ra <- con_expr a ;; Ok (RUn o l ra)
    end.

  Definition con_opt (o : option rexpr) : res (option rexpr) :=
    match o with None => Ok None | Some e => r <- con_expr e ;; Ok (Some r) end.

  Definition con_call (l : line_t) (f : rexpr) (es : list rexpr) : res (rexpr * list rexpr) :=
    r <- con_expr (RCall l f es) ;;
    match r with RCall _ f' es' => Ok (f', es') | _ => Stuck SAssert end.

  (** Statements, ast.h:703-760 and sema.cpp:189-204. *)
  Fixpoint con_stmt (s : rstmt) : res rstmt :=
    match s with
    | RVar d oe => re <- con_opt oe ;; Ok (RVar d re)
    | RAssign d l e =>
        if vd_const d then Err E_cant_assign_const (l_line l)
        else re <- con_expr e ;; Ok (RAssign d l re)
    | RSetMem d l m lm e => re <- con_expr e ;; Ok (RSetMem d l m lm re)
    | RSetIdx d l i e => ri <- con_expr i ;; re <- con_expr e ;; Ok (RSetIdx d l ri re)
    | RCallS l f es => '(rf, rs) <- con_call l f es ;; Ok (RCallS l rf rs)
    | RIf l c t f =>
        rc <- con_expr c ;;
        rt <- match t with None => Ok None | Some b => r <- each_ con_stmt b ;; Ok (Some r) end ;;
        rf <- match f with None => Ok None | Some b => r <- each_ con_stmt b ;; Ok (Some r) end ;;
        Ok (RIf l rc rt rf)
    | RWhile l c b =>
        rc <- con_expr c ;;
        rb <- match b with None => Ok None | Some b => r <- each_ con_stmt b ;; Ok (Some r) end ;;
        Ok (RWhile l rc rb)
    | RFor l d lx a b body =>
        ra <- con_expr a ;; rb <- con_expr b ;; rbody <- each_ con_stmt body ;;
        Ok (RFor l d lx ra rb rbody)
    | RReturn l oe => re <- con_opt oe ;; Ok (RReturn l re)
    end.

  Definition con_item (i : ritem) : res ritem :=
    match i with
    | RSys f => Ok (RSys f)
    | RGlobal d oe =>
        re <- con_opt oe ;;
        match re with
        | None => if vd_const d then Err E_const_needs_init (l_line (vd_line d))
                  else Ok (RGlobal d None)
        | Some _ => Ok (RGlobal d re)
        end
    | RFunc f args body lend =>
        rb <- each_ con_stmt body ;; Ok (RFunc f args rb lend)
    end.
End Const.

(** The children in order; a rewritten constant is what later children see. *)
Fixpoint con_items (done todo : list ritem) : res (list ritem) :=
  match todo with
  | [] => Ok done
  | i :: t => i' <- con_item (done ++ i :: t) i ;; con_items (done ++ [i']) t
  end.
Definition consts (items : list ritem) : res (list ritem) := con_items [] items.

(** ** sema_multi_decls_t, sema.cpp:451-537 *)
Definition names : Type := list (list bytes).
(** is_def_, sema.cpp:527-536 *)
Definition is_def (x : bytes) (sc : names) : bool :=
  existsb (fun s => existsb (fun y => bytes_eqb y x) s) sc.
(** add_, sema.cpp:522-524 *)
Definition add_name (x : bytes) (sc : names) : names :=
  match sc with [] => [[x]] | s :: t => (x :: s) :: t end.

(** visit(ast_decl_var_t), sema.cpp:462-468; the initialiser is not visited. *)
Definition multi_var (d : vdecl) (sc : names) : res names :=
  if is_def (vd_name d) sc then Err E_var_already_exists (l_line (vd_line d))
  else Ok (add_name (vd_name d) sc).

Definition walk {A S} (f : A -> S -> res S) :=
  fix go (l : list A) (s : S) : res S :=
    match l with [] => Ok s | a :: t => s1 <- f a s ;; go t s1 end.

(** sema.cpp:470-499; expressions declare nothing. *)
Fixpoint multi_stmt (s : rstmt) (sc : names) : res names :=
  match s with
  | RVar d _ => multi_var d sc
  | RIf _ _ t f =>
      _ <- match t with None => Ok sc | Some b => walk multi_stmt b ([] :: sc) end ;;
      _ <- match f with None => Ok sc | Some b => walk multi_stmt b ([] :: sc) end ;;
      Ok sc
  | RWhile _ _ b =>
      _ <- match b with None => Ok sc | Some b => walk multi_stmt b ([] :: sc) end ;; Ok sc
  | RFor _ _ _ _ _ body => _ <- walk multi_stmt body ([] :: sc) ;; Ok sc
  | _ => Ok sc
  end.

(** sema.cpp:501-518.  The arguments of a syscall are null nodes; its token is
    null, so reporting a duplicate dereferences a null pointer. *)
Definition multi_item (i : ritem) (sc : names) : res names :=
  match i with
  | RGlobal d _ => multi_var d sc
  | RSys f =>
      if is_def (fd_name f) sc then Stuck SNull else Ok (add_name (fd_name f) sc)
  | RFunc f args body _ =>
      if is_def (fd_name f) sc then
        match fd_line f with
        | Some l => Err E_function_already_exists (l_line l)
        | None => Stuck SNull
        end
      else
        let sc1 := add_name (fd_name f) sc in
        sc2 <- walk multi_var args ([] :: sc1) ;;
        _ <- walk multi_stmt body sc2 ;;
        Ok sc1
  end.
Definition multi_decls (items : list ritem) : res unit :=
  _ <- walk multi_item items [[]] ;; Ok tt.

(** ** sema_num_args_t, sema.cpp:539-588 *)

(** visit(ast_exp_call_t) before descending, sema.cpp:553-573. *)
Definition arity_ok (f : rexpr) (nargs : nat) : res unit :=
  match f with
  | RIdent (DF d) l =>
      if fd_sys d && fd_var d then Ok tt
      else if Nat.ltb (fd_arity d) nargs then Err E_too_many_args (l_line l)
      else if Nat.ltb nargs (fd_arity d) then Err E_not_enough_args (l_line l)
      else Ok tt
  | _ => Ok tt
  end.

Definition all_ {A} (f : A -> res unit) :=
  fix go (l : list A) : res unit :=
    match l with [] => Ok tt | a :: t => _ <- f a ;; go t end.

Fixpoint args_expr (e : rexpr) : res unit :=
  match e with
  | RInt _ _ _ | RFloat _ _ | RStr _ _ | RNone _ | RIdent _ _ | RMember _ _ _ _ => Ok tt
  | RArray _ es => all_ args_expr es
  | RIndex _ a i => _ <- args_expr a ;; args_expr i
  | RCall _ f es =>
      _ <- arity_ok f (List.length es) ;; _ <- all_ args_expr es ;; args_expr f
  | RBin _ _ a b => _ <- args_expr a ;; args_expr b
  | RUn _ _ a => args_expr a
  end.
Definition args_opt (o : option rexpr) : res unit :=
  match o with None => Ok tt | Some e => args_expr e end.

Fixpoint args_stmt (s : rstmt) : res unit :=
  match s with
  | RVar _ oe => args_opt oe
  | RAssign _ _ e | RSetMem _ _ _ _ e => args_expr e
  | RSetIdx _ _ i e => _ <- args_expr i ;; args_expr e
  | RCallS l f es => args_expr (RCall l f es)
  | RIf _ c t f =>
      _ <- args_expr c ;;
      _ <- match t with None => Ok tt | Some b => all_ args_stmt b end ;;
      match f with None => Ok tt | Some b => all_ args_stmt b end
  | RWhile _ c b =>
      _ <- args_expr c ;; match b with None => Ok tt | Some b => all_ args_stmt b end
  | RFor _ _ _ a b body =>
      _ <- args_expr a ;; _ <- args_expr b ;; all_ args_stmt body
  | RReturn _ oe => args_opt oe
  end.
Definition args_item (i : ritem) : res unit :=
  match i with
  | RSys _ => Ok tt
  | RGlobal _ oe => args_opt oe
  | RFunc _ _ body _ => all_ args_stmt body
  end.
Definition num_args_ok (items : list ritem) : res unit := all_ args_item items.

(** ** run_sema, sema.cpp:591-598 *)
Definition run_sema (addr : nat -> Z) (cs : list child) : res (list ritem * nat) :=
  '(r, n) <- annotate addr cs ;;
  '(r1, n1) <- global_vars r n ;;
  r2 <- consts r1 ;;
  _ <- multi_decls r2 ;;
  _ <- num_args_ok r2 ;;
  Ok (r2, n1).
