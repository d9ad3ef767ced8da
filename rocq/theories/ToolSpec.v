(** What the listing of a program and the dump of a syntax tree should look
    like. *)
From Coq Require Import ZArith List Bool String.
From Verif Require Import Base F32 Instr InstrSpec Program Source Ast Sema VM VmSpec.
Import ListNotations.
Open Scope Z_scope.

Definition one_line (s : bytes) : bytes := s ++ [10].

(** ** Listing

    [body q b a shown t shown'] : [t] lists the instructions from address [a] to
    address [b], one per line, each after a remark with its source line when that
    differs from the one shown last. *)
Inductive body (q : program_t) (b : Z) : Z -> Z -> bytes -> Z -> Prop :=
| body_end : forall shown, body q b b shown [] shown
| body_ins : forall a x shown t shown', at_ins q a x -> a + ins_len (ins_op x) <= b ->
    body q b (a + ins_len (ins_op x)) (l_line (Program.get_line q a)) t shown' ->
    body q b a shown
      ((if l_line (Program.get_line q a) =? shown then []
        else one_line (bs "# line: " ++ dec (l_line (Program.get_line q a)))) ++ one_line (text x) ++ t)
      shown'.

(** [sections q fs a shown t] : [t] lists the functions [fs] one after the other,
    each under its name and separated by empty lines; the first starts at address
    [a], each next one where the last one ends, and the last ends with the code. *)
Inductive sections (q : program_t) : list function_t -> Z -> Z -> bytes -> Prop :=
| sections_end : forall shown, sections q [] (zlen (p_code q)) shown []
| sections_more : forall f fs shown t shown' t', f_start f < f_end f ->
    body q (f_end f) (f_start f) shown t shown' -> sections q fs (f_end f) shown' t' ->
    sections q (f :: fs) (f_start f) shown
      ((if f_start f =? 0 then [] else one_line []) ++ one_line (bs "# function: " ++ cstr (f_name f)) ++ t ++ t').

(** ** Syntax trees as plain trees

    A node is shown by its kind and a remark; its children are indented below. *)
Inductive node : Type := Node (kind : string) (remark : bytes) (children : list node).

Fixpoint outline (depth : nat) (t : node) : bytes :=
  match t with
  | Node k r cs => List.concat (repeat (bs ".  ") depth) ++ one_line (bs k ++ r) ++ flat_map (outline (S depth)) cs
  end.
(** Some node is of kind [k]. *)
Fixpoint has_kind (k : string) (t : node) : Prop :=
  match t with
  | Node k' _ cs => k' = k \/ (fix go (l : list node) : Prop := match l with [] => False | c :: r => has_kind k c \/ go r end) cs
  end.

Definition note (key : string) (v : bytes) : bytes := bs " {" ++ bs key ++ v ++ bs "}".
Definition called (x : bytes) : bytes := note "name: " (cstr x).
Definition sign (o : Ast.binop) : string :=
  match o with
  | BAdd => "+" | BSub => "-" | BMul => "*" | BDiv => "/" | BMod => "%"
  | BLt => "<" | BLeq => "<=" | BGt => ">" | BGeq => ">=" | BEq => "=="
  | BAnd => "and" | BOr => "or"
  end.

(** The tree of an analysed program: the arguments of a call come before its
    callee; a block is a node of its own; missing parts have no node.  [ff] shows
    a float. *)
Section Trees.
  Variable ff : f32 -> bytes.
  Definition leaf (k : string) (r : bytes) : node := Node k r [].
  Definition maybe {A} (f : A -> node) (o : option A) : list node := match o with Some a => [f a] | None => [] end.

  Fixpoint expr_tree (e : rexpr) : node :=
    match e with
    | RInt _ v _ => leaf "ast_exp_lit_var_t" (note "value: " (dec v))
    | RFloat f _ => leaf "ast_exp_lit_var_t" (note "value: " (ff f))
    | RStr s _ => leaf "ast_exp_lit_str_t" (note "value: " (cstr s))
    | RNone _ => leaf "ast_exp_none_t" []
    | RIdent d _ => leaf "ast_exp_ident_t" (called (decl_name d))
    | RMember d _ _ _ => leaf "ast_exp_member_t" (called (vd_name d))
    | RArray _ es => Node "ast_exp_array_init_t" [] (map expr_tree es)
    | RIndex _ a i => Node "ast_exp_deref_t" [] [expr_tree a; expr_tree i]
    | RCall _ f es => Node "ast_exp_call_t" [] (map expr_tree es ++ [expr_tree f])
    | RBin o _ a b => Node "ast_exp_bin_op_t" (note "op: " (bs (sign o))) [expr_tree a; expr_tree b]
    | RUn _ _ a => Node "ast_exp_unary_op_t" [] [expr_tree a]
    end.

  Fixpoint stmt_tree (s : rstmt) : node :=
    let block (b : list rstmt) : node := Node "ast_block_t" [] (map stmt_tree b) in
    match s with
    | RVar d e => Node "ast_decl_var_t" (called (vd_name d)) (maybe expr_tree e)
    | RAssign d _ e => Node "ast_stmt_assign_var_t" (called (vd_name d)) [expr_tree e]
    | RSetMem _ _ _ _ e => Node "ast_stmt_assign_member_t" [] [expr_tree e]
    | RSetIdx _ _ i e => Node "ast_stmt_assign_array_t" [] [expr_tree i; expr_tree e]
    | RCallS l f es => Node "ast_stmt_call_t" [] [expr_tree (RCall l f es)]
    | RIf _ c t f => Node "ast_stmt_if_t" [] (expr_tree c :: maybe block t ++ maybe block f)
    | RWhile _ c b => Node "ast_stmt_while_t" [] (expr_tree c :: maybe block b)
    | RFor _ d _ a b body =>
        Node "ast_stmt_for_t" (note "name=" (cstr (vd_name d))) [expr_tree a; expr_tree b; block body]
    | RReturn _ e => Node "ast_stmt_return_t" [] (maybe expr_tree e)
    end.
  Definition block_tree (b : list rstmt) : node := Node "ast_block_t" [] (map stmt_tree b).

  Definition item_tree (i : ritem) : node :=
    match i with
    | RSys f => leaf "ast_decl_func_t" (called (fd_name f))
    | RGlobal d e => Node "ast_decl_var_t" (called (vd_name d)) (maybe expr_tree e)
    | RFunc f args body _ =>
        Node "ast_decl_func_t" (called (fd_name f))
          (map (fun d => leaf "ast_decl_var_t" (called (vd_name d))) args ++ [block_tree body])
    end.
  Definition program_tree (items : list ritem) : node := Node "ast_program_t" [] (map item_tree items).
End Trees.

(** ** Command lines

    A word that starts with a dash is an option, named by the character after the
    dash; all other words are source files, which are loaded in their order. *)
Definition is_option (w : bytes) : bool := match w with 45 :: _ => true | _ => false end.
Definition given (c : Z) (words : list bytes) : bool :=
  existsb (fun w => match w with 45 :: c' :: _ => c' =? c | _ => false end) words.
Definition operands (words : list bytes) : list bytes := filter (fun w => negb (is_option w)) words.
Fixpoint load_all (fs : bytes -> option bytes) (m : list source_t) (files : list bytes) : option (list source_t) :=
  match files with
  | [] => Some m
  | f :: r => match sm_load fs m f with (true, m') => load_all fs m' r | (false, _) => None end
  end.
