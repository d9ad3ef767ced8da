(** The optimiser, lib_compiler/optimize.cpp.  [op_decl_elim_t] (lines 11-149)
    is commented out in run_optimize and is not modelled. *)
From Coq Require Import ZArith List Bool.
From Verif Require Import Base F32 Ast Sema.
Import ListNotations.
Open Scope Z_scope.

(** ** opt_post_ret_t, optimize.cpp:301-332 *)

(** visit(ast_block_t): erase what follows the first return statement of the
    block.  It does not descend, so only the body block of a function is
    visited. *)
Fixpoint cut_block (b : list rstmt) : list rstmt :=
  match b with
  | [] => []
  | RReturn l e :: _ => [RReturn l e]
  | s :: t => s :: cut_block t
  end.
Definition post_ret (i : ritem) : ritem :=
  match i with
  | RFunc f args body lend => RFunc f args (cut_block body) lend
  | i => i
  end.

(** ** opt_const_expr_t, optimize.cpp:151-299 *)

(** value_ after the node has been visited (optimize.cpp:217-229, 231-296): the
    integer of a literal or of an operator node all of whose operands have one.
    [val_] is keyed by node; operator nodes are never shared, so the entry of a
    node is what its subtree gives.  Evaluating an operator node again from its
    statement (lines 179, 189, 199, 209) gives the same result. *)
Fixpoint cval (e : rexpr) : res (option Z) :=
  match e with
  | RInt _ v _ => Ok (Some v)
  | RUn o _ a =>
      oa <- cval a ;;
      match oa with
      | Some v => match o with
                  | UNeg => r <- chk32 (- v) ;; Ok (Some r)
                  | UNot => Ok (Some (zb (v =? 0)))
                  end
      | None => Ok None
      end
  | RBin o l a b =>
      oa <- cval a ;; ob <- cval b ;;
      match oa, ob with
      | Some x, Some y =>
          if (y =? 0) && is_div o then Err E_constant_divide_by_zero (l_line l)
          else r <- fold_bin o x y ;; Ok (Some r)
      | _, _ => Ok None
      end
  | RFloat _ _ | RStr _ _ | RNone _ | RIdent _ _ | RMember _ _ _ _ => Ok None
  | RArray _ es => _ <- each_ cval es ;; Ok None
  | RIndex _ a i => _ <- cval a ;; _ <- cval i ;; Ok None
  | RCall _ f es => _ <- each_ cval es ;; _ <- cval f ;; Ok None
  end.

(** The expression of an if, while, return or assignment (optimize.cpp:173-211):
    a binary operator with a known value becomes a fresh literal with a null
    token. *)
Definition fold_top (e : rexpr) (n : nat) : res (rexpr * nat) :=
  o <- cval e ;;
  match e, o with
  | RBin _ _ _ _, Some v => Ok (RInt n v None, S n)
  | _, _ => Ok (e, n)
  end.
Definition visit_opt (o : option rexpr) : res unit :=
  match o with None => Ok tt | Some e => _ <- cval e ;; Ok tt end.

(** The children of an if, while or assignment are visited before the
    replacement; a block visited in between cannot change the expression. *)
Fixpoint fold_stmt (s : rstmt) (n : nat) : res (rstmt * nat) :=
  match s with
  | RVar d oe => _ <- visit_opt oe ;; Ok (RVar d oe, n)
  | RAssign d l e => '(e', n1) <- fold_top e n ;; Ok (RAssign d l e', n1)
  | RSetMem d l m lm e => _ <- cval e ;; Ok (s, n)
  | RSetIdx d l i e => _ <- cval i ;; _ <- cval e ;; Ok (s, n)
  | RCallS l f es => _ <- cval (RCall l f es) ;; Ok (s, n)
  | RIf l c t f =>
      _ <- cval c ;;
      '(t', n1) <- match t with
                   | None => Ok (None, n)
                   | Some b => '(b', m) <- each fold_stmt b n ;; Ok (Some b', m)
                   end ;;
      '(f', n2) <- match f with
                   | None => Ok (None, n1)
                   | Some b => '(b', m) <- each fold_stmt b n1 ;; Ok (Some b', m)
                   end ;;
      '(c', n3) <- fold_top c n2 ;;
      Ok (RIf l c' t' f', n3)
  | RWhile l c b =>
      _ <- cval c ;;
      '(b', n1) <- match b with
                   | None => Ok (None, n)
                   | Some b => '(b', m) <- each fold_stmt b n ;; Ok (Some b', m)
                   end ;;
      '(c', n2) <- fold_top c n1 ;;
      Ok (RWhile l c' b', n2)
  | RFor l d lx a b body =>
      _ <- cval a ;; _ <- cval b ;;
      '(body', n1) <- each fold_stmt body n ;;
      Ok (RFor l d lx a b body', n1)
  | RReturn l None => Ok (s, n)
  | RReturn l (Some e) => '(e', n1) <- fold_top e n ;; Ok (RReturn l (Some e'), n1)
  end.
Definition fold_item (i : ritem) (n : nat) : res (ritem * nat) :=
  match i with
  | RSys f => Ok (RSys f, n)
  | RGlobal d oe => _ <- visit_opt oe ;; Ok (RGlobal d oe, n)
  | RFunc f args body lend =>
      '(b, n1) <- each fold_stmt body n ;; Ok (RFunc f args b lend, n1)
  end.
Definition const_expr (items : list ritem) (n : nat) : res (list ritem * nat) :=
  each fold_item items n.

(** ** opt_if_remove_t, optimize.cpp:334-378

    The pass writes 1 into literal nodes.  The state is the list of the nodes
    written so far; reading [c->val] takes it into account, and the values are
    put into the tree at the end ([settle]). *)
Definition read_lit (w : list nat) (id : nat) (v : Z) : Z :=
  if existsb (Nat.eqb id) w then 1 else v.

Fixpoint ifr_stmt (s : rstmt) (w : list nat) {struct s} : rstmt * list nat :=
  let block := fix go (l : list rstmt) (w : list nat) : list rstmt * list nat :=
    match l with
    | [] => ([], w)
    | a :: t => let (a', w1) := ifr_stmt a w in
                let (t', w2) := go t w1 in (a' :: t', w2)
    end in
  let oblock (o : option (list rstmt)) (w : list nat) :=
    match o with
    | None => (None, w)
    | Some b => let (b', w1) := block b w in (Some b', w1)
    end in
  match s with
  | RIf l c t f =>
      let (t', w1) := oblock t w in
      let (f', w2) := oblock f w1 in
      match c with
      | RInt id v _ =>
          if negb (read_lit w2 id v =? 0) then (RIf l c t' None, w2)
          else (RIf l c f' None, id :: w2)
      | _ => (RIf l c t' f', w2)
      end
  | RWhile l c b =>
      let (b', w1) := oblock b w in
      match c with
      | RInt id v _ =>
          if read_lit w1 id v =? 0 then (RWhile l c None, w1) else (RWhile l c b', w1)
      | _ => (RWhile l c b', w1)
      end
  | RFor l d lx a b body =>
      let (body', w1) := block body w in (RFor l d lx a b body', w1)
  | _ => (s, w)
  end.
Fixpoint ifr_block (l : list rstmt) (w : list nat) : list rstmt * list nat :=
  match l with
  | [] => ([], w)
  | a :: t => let (a', w1) := ifr_stmt a w in
              let (t', w2) := ifr_block t w1 in (a' :: t', w2)
  end.
Fixpoint ifr_items (l : list ritem) (w : list nat) : list ritem * list nat :=
  match l with
  | [] => ([], w)
  | RFunc f args body lend :: t =>
      let (b, w1) := ifr_block body w in
      let (t', w2) := ifr_items t w1 in (RFunc f args b lend :: t', w2)
  | i :: t => let (t', w2) := ifr_items t w in (i :: t', w2)
  end.

(** Every place that points to a written literal node reads 1 afterwards. *)
Section Settle.
  Variable w : list nat.
  Fixpoint set_expr (e : rexpr) : rexpr :=
    match e with
    | RInt id v l => RInt id (read_lit w id v) l
    | RArray l es => RArray l (map set_expr es)
    | RIndex l a i => RIndex l (set_expr a) (set_expr i)
    | RCall l f es => RCall l (set_expr f) (map set_expr es)
    | RBin o l a b => RBin o l (set_expr a) (set_expr b)
    | RUn o l a => RUn o l (set_expr a)
    | e => e
    end.
  Fixpoint set_stmt (s : rstmt) : rstmt :=
    match s with
    | RVar d oe => RVar d (option_map set_expr oe)
    | RAssign d l e => RAssign d l (set_expr e)
    | RSetMem d l m lm e => RSetMem d l m lm (set_expr e)
    | RSetIdx d l i e => RSetIdx d l (set_expr i) (set_expr e)
    | RCallS l f es => RCallS l (set_expr f) (map set_expr es)
    | RIf l c t f =>
        RIf l (set_expr c) (option_map (map set_stmt) t) (option_map (map set_stmt) f)
    | RWhile l c b => RWhile l (set_expr c) (option_map (map set_stmt) b)
    | RFor l d lx a b body => RFor l d lx (set_expr a) (set_expr b) (map set_stmt body)
    | RReturn l oe => RReturn l (option_map set_expr oe)
    end.
  Definition set_item (i : ritem) : ritem :=
    match i with
    | RSys f => RSys f
    | RGlobal d oe => RGlobal d (option_map set_expr oe)
    | RFunc f args body lend => RFunc f args (map set_stmt body) lend
    end.
End Settle.

Definition if_remove (items : list ritem) : list ritem :=
  let (r, w) := ifr_items items [] in map (set_item w) r.

(** ** run_optimize, optimize.cpp:381-391 *)
Definition run_optimize (on : bool) (items : list ritem) (n : nat) : res (list ritem * nat) :=
  if on then
    '(r, n1) <- const_expr (map post_ret items) n ;;
    Ok (if_remove r, n1)
  else Ok (items, n).
