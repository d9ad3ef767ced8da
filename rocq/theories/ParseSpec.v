(** Specification of the grammar, independent of the parser: which token
    sequences are texts of which syntax trees.  Lines of tokens that leave no
    trace in the tree (parentheses, separators) are arbitrary. *)
From Coq Require Import ZArith List Bool.
From Verif Require Import Base F32 Lexer Ast.
Import ListNotations.
Open Scope Z_scope.

(** The token of a binary operator, and how tightly it binds. *)
Definition op_token (o : binop) : tok :=
  match o with
  | BAdd => TOK_ADD | BSub => TOK_SUB | BMul => TOK_MUL | BDiv => TOK_DIV
  | BMod => TOK_MOD | BAnd => TOK_AND | BOr => TOK_OR | BEq => TOK_EQ
  | BLt => TOK_LT | BGt => TOK_GT | BLeq => TOK_LEQ | BGeq => TOK_GEQ
  end.
Definition level (o : binop) : Z :=
  match o with
  | BAnd | BOr => 1
  | BEq | BLt | BGt | BLeq | BGeq => 3
  | BAdd | BSub => 4
  | BMul | BDiv | BMod => 5
  end.

(** ** Expressions

    [chain p open e ts]: [ts] is a text of [e] whose loosest operator binds with
    strength [p] (6: none).  [open] texts end in an operand that starts with a
    prefix operator; nothing may follow them within the same parentheses.  A
    binary operator needs operands that bind at least as tightly on its left and
    more tightly on its right: operators of equal strength associate to the left. *)
Inductive chain : Z -> bool -> expr -> list token -> Prop :=
| C_prim e ts : prim e ts -> chain 6 false e ts
| C_neg l o e ts : chain 6 o e ts -> chain 6 true (EUn UNeg l e) (Token TOK_SUB l :: ts)
| C_not l p o e ts : chain p o e ts -> 2 <= p ->
    chain 2 true (EUn UNot l e) (Token TOK_NOT l :: ts)
| C_bin o l a b p q op ta tb :
    chain p false a ta -> chain q op b tb -> level o <= p -> level o < q ->
    chain (level o) op (EBin o l a b) (ta ++ Token (op_token o) l :: tb)
(** Operands: atoms, parenthesised expressions, array literals, and subscripts
    and calls applied to operands. *)
with prim : expr -> list token -> Prop :=
| P_int v l : prim (EInt v l) [Token (TOK_INT v) l]
| P_float f l : prim (EFloat f l) [Token (TOK_FLOAT f) l]
| P_str s l : prim (EStr s l) [Token (TOK_STRING s) l]
| P_none l : prim (ENone l) [Token TOK_NONE l]
| P_ident x l : prim (EIdent x l) [Token (TOK_IDENT x) l]
| P_member x l m lm ld :
    prim (EMember x l m lm)
      [Token (TOK_IDENT x) l; Token TOK_DOT ld; Token (TOK_IDENT m) lm]
| P_paren e p o ts l1 l2 : chain p o e ts ->
    prim e (Token TOK_LPAREN l1 :: ts ++ [Token TOK_RPAREN l2])
| P_array l es ts l2 : elems es ts ->
    prim (EArray l es) (Token TOK_LBRACKET l :: ts ++ [Token TOK_RBRACKET l2])
| P_index l a i p o ta ti l2 : prim a ta -> chain p o i ti ->
    prim (EIndex l a i) (ta ++ Token TOK_LBRACKET l :: ti ++ [Token TOK_RBRACKET l2])
| P_call0 l f tf l2 : prim f tf ->
    prim (ECall l f []) (tf ++ [Token TOK_LPAREN l; Token TOK_RPAREN l2])
| P_call l f es tf ts l2 : prim f tf -> elems es ts ->
    prim (ECall l f es) (tf ++ Token TOK_LPAREN l :: ts ++ [Token TOK_RPAREN l2])
(** One or more expressions separated by commas. *)
with elems : list expr -> list token -> Prop :=
| L_one e p o ts : chain p o e ts -> elems [e] ts
| L_more e p o ts l es tes : chain p o e ts -> elems es tes ->
    elems (e :: es) (ts ++ Token TOK_COMMA l :: tes).

Scheme chain_mind := Minimality for chain Sort Prop
  with prim_mind := Minimality for prim Sort Prop
  with elems_mind := Minimality for elems Sort Prop.
Combined Scheme text_mind from chain_mind, prim_mind, elems_mind.

(** A complete expression. *)
Definition expr_text (e : expr) (ts : list token) : Prop := exists p o, chain p o e ts.

(** Zero or more actual arguments. *)
Definition args_text (es : list expr) (ts : list token) : Prop :=
  (es = [] /\ ts = []) \/ elems es ts.

(** ** Statements *)
Definition eols (ts : list token) : Prop := Forall (fun t => tk t = TOK_EOL) ts.

(** [ = e ], optional *)
Definition init_text (e : option expr) (ts : list token) : Prop :=
  match e with
  | None => ts = []
  | Some e => exists l te, ts = Token TOK_ASSIGN l :: te /\ expr_text e te
  end.

(** The operators with a compound assignment. *)
Definition compound (o : binop) : Prop := In o [BAdd; BSub; BMul; BDiv].

(** A statement without the line end that must follow it. *)
Inductive stmt_text : stmt -> list token -> Prop :=
| S_var x l e ts lv : init_text e ts ->
    stmt_text (SVar x l e) (Token TOK_VAR lv :: Token (TOK_IDENT x) l :: ts)
| S_assign x l e ts la : expr_text e ts ->
    stmt_text (SAssign x l e) (Token (TOK_IDENT x) l :: Token TOK_ASSIGN la :: ts)
| S_compound x l o lo e ts la : compound o -> expr_text e ts ->
    stmt_text (SAssign x l (EBin o lo (EIdent x l) e))
      (Token (TOK_IDENT x) l :: Token (op_token o) lo :: Token TOK_ASSIGN la :: ts)
| S_setmem x l m lm e ts ld la : expr_text e ts ->
    stmt_text (SSetMem x l m lm e)
      (Token (TOK_IDENT x) l :: Token TOK_DOT ld :: Token (TOK_IDENT m) lm
         :: Token TOK_ASSIGN la :: ts)
| S_setidx x l i e ti te l1 l2 l3 : expr_text i ti -> expr_text e te ->
    stmt_text (SSetIdx x l i e)
      (Token (TOK_IDENT x) l :: Token TOK_LBRACKET l1 :: ti
         ++ Token TOK_RBRACKET l2 :: Token TOK_ASSIGN l3 :: te)
| S_call x l lc es ts l2 : args_text es ts ->
    stmt_text (SCall x l lc es)
      (Token (TOK_IDENT x) l :: Token TOK_LPAREN lc :: ts ++ [Token TOK_RPAREN l2])
| S_if l c tc b tb l1 l2 l3 l4 : expr_text c tc -> body_text b tb ->
    stmt_text (SIf l c b None)
      (Token TOK_IF l :: Token TOK_LPAREN l1 :: tc ++ Token TOK_RPAREN l2
         :: Token TOK_EOL l3 :: tb ++ [Token TOK_END l4])
| S_ifelse l c tc b tb f tf l1 l2 l3 l4 l5 l6 :
    expr_text c tc -> body_text b tb -> body_text f tf ->
    stmt_text (SIf l c b (Some f))
      (Token TOK_IF l :: Token TOK_LPAREN l1 :: tc ++ Token TOK_RPAREN l2
         :: Token TOK_EOL l3 :: tb ++ Token TOK_ELSE l4 :: Token TOK_EOL l5
         :: tf ++ [Token TOK_END l6])
| S_while l c tc b tb l1 l2 l3 l4 : expr_text c tc -> body_text b tb ->
    stmt_text (SWhile l c b)
      (Token TOK_WHILE l :: Token TOK_LPAREN l1 :: tc ++ Token TOK_RPAREN l2
         :: Token TOK_EOL l3 :: tb ++ [Token TOK_END l4])
| S_for l x lx a ta b tb body tbody l1 l2 l3 l4 l5 l6 :
    expr_text a ta -> expr_text b tb -> body_text body tbody ->
    stmt_text (SFor l x lx a b body)
      (Token TOK_FOR l :: Token TOK_LPAREN l1 :: Token (TOK_IDENT x) lx
         :: Token TOK_ASSIGN l2 :: ta ++ Token TOK_TO l3 :: tb ++ Token TOK_RPAREN l4
         :: Token TOK_EOL l5 :: tbody ++ [Token TOK_END l6])
| S_return0 l : stmt_text (SReturn l None) [Token TOK_RETURN l]
| S_return l e ts : expr_text e ts ->
    stmt_text (SReturn l (Some e)) (Token TOK_RETURN l :: ts)
(** A sequence of statements: each is followed by one or more line ends, and may
    be preceded by blank lines. *)
with body_text : list stmt -> list token -> Prop :=
| B_nil : body_text [] []
| B_cons s ts pre l post b tb :
    eols pre -> stmt_text s ts -> eols post -> body_text b tb ->
    body_text (s :: b) (pre ++ ts ++ Token TOK_EOL l :: post ++ tb).

Scheme stmt_mind := Minimality for stmt_text Sort Prop
  with body_mind := Minimality for body_text Sort Prop.
Combined Scheme stmt_body_mind from stmt_mind, body_mind.

(** ** Programs *)

(** Formal parameters, separated by commas. *)
Inductive params_text : list (bytes * line_t) -> list token -> Prop :=
| A_one x l : params_text [(x, l)] [Token (TOK_IDENT x) l]
| A_more x l lc ps ts : params_text ps ts ->
    params_text ((x, l) :: ps) (Token (TOK_IDENT x) l :: Token TOK_COMMA lc :: ts).

Inductive item_text : item -> list token -> Prop :=
| I_var x l e ts lv : init_text e ts ->
    item_text (TVar x l e) (Token TOK_VAR lv :: Token (TOK_IDENT x) l :: ts)
| I_const x l e ts lv : init_text e ts ->
    item_text (TConst x l e) (Token TOK_CONST lv :: Token (TOK_IDENT x) l :: ts)
| I_func x l ps tps b tb lend lf l1 l2 l3 :
    (ps = [] /\ tps = []) \/ params_text ps tps -> body_text b tb ->
    item_text (TFunc x l ps b lend)
      (Token TOK_FUNC lf :: Token (TOK_IDENT x) l :: Token TOK_LPAREN l1 :: tps
         ++ Token TOK_RPAREN l2 :: Token TOK_EOL l3 :: tb ++ [Token TOK_END lend])
| I_import p l li :
    item_text (TImport p l) [Token TOK_IMPORT li; Token (TOK_STRING p) l].

(** Items, with any number of line ends between them (none is required), up to
    the end of the file. *)
Inductive program_text : list item -> list token -> Prop :=
| T_end l : program_text [] [Token TOK_EOF l]
| T_eol l is ts : program_text is ts -> program_text is (Token TOK_EOL l :: ts)
| T_item i ti is ts : item_text i ti -> program_text is ts ->
    program_text (i :: is) (ti ++ ts).

(** ** Operator chains

    [lead xs ts]: [ts] is the text of the operands and operators [xs], each
    operand followed by its operator.  A chain is a lead and a last operand. *)
Inductive lead : list (expr * binop * line_t) -> list token -> Prop :=
| LD_nil : lead [] []
| LD_cons e te o l xs ts : prim e te -> lead xs ts ->
    lead ((e, o, l) :: xs) (te ++ Token (op_token o) l :: ts).

(** A tree over given operands: [lefts] and [last] read it from left to right;
    [prec_ok] says that it is bracketed according to the binding strengths. *)
Inductive ptree : Type :=
| Leaf (e : expr)
| Node (o : binop) (l : line_t) (a b : ptree).

Fixpoint last (t : ptree) : expr :=
  match t with Leaf e => e | Node _ _ _ b => last b end.
Fixpoint lefts (t : ptree) : list (expr * binop * line_t) :=
  match t with
  | Leaf _ => []
  | Node o l a b => lefts a ++ (last a, o, l) :: lefts b
  end.

(** The binding strength of the root of a tree. *)
Definition strength (t : ptree) : Z := match t with Leaf _ => 6 | Node o _ _ _ => level o end.
Fixpoint prec_ok (t : ptree) : Prop :=
  match t with
  | Leaf _ => True
  | Node o _ a b =>
      prec_ok a /\ prec_ok b /\ level o <= strength a /\ level o < strength b
  end.

(** [t] is the bracketing of the chain [xs], [z]. *)
Definition brackets (t : ptree) (xs : list (expr * binop * line_t)) (z : expr) : Prop :=
  prec_ok t /\ lefts t = xs /\ last t = z.

(** The syntax tree of such a tree. *)
Fixpoint tree_expr (t : ptree) : expr :=
  match t with
  | Leaf e => e
  | Node o l a b => EBin o l (tree_expr a) (tree_expr b)
  end.

(** The syntax tree of [t] with its last operand of [and]/[or] negated, or all
    of it if the root is another operator. *)
Definition not_last (l0 : line_t) (t : ptree) : expr :=
  match t with
  | Node BAnd l a b => EBin BAnd l (tree_expr a) (EUn UNot l0 (tree_expr b))
  | Node BOr l a b => EBin BOr l (tree_expr a) (EUn UNot l0 (tree_expr b))
  | _ => EUn UNot l0 (tree_expr t)
  end.

(** ** Printing

    A fully parenthesised rendering.  Tokens that leave no trace in the tree are
    put on line [l0].  An array literal without elements has no text. *)
Fixpoint show (l0 : line_t) (e : expr) : list token :=
  let sep := fix sep (es : list expr) : list token :=
    match es with
    | [] => []
    | e :: r => show l0 e ++ match r with [] => [] | _ :: _ => Token TOK_COMMA l0 :: sep r end
    end in
  match e with
  | EInt v l => [Token (TOK_INT v) l]
  | EFloat f l => [Token (TOK_FLOAT f) l]
  | EStr s l => [Token (TOK_STRING s) l]
  | ENone l => [Token TOK_NONE l]
  | EIdent x l => [Token (TOK_IDENT x) l]
  | EMember x l m lm => [Token (TOK_IDENT x) l; Token TOK_DOT l0; Token (TOK_IDENT m) lm]
  | EArray l es => Token TOK_LBRACKET l :: sep es ++ [Token TOK_RBRACKET l0]
  | EIndex l a i => show l0 a ++ Token TOK_LBRACKET l :: show l0 i ++ [Token TOK_RBRACKET l0]
  | ECall l f es => show l0 f ++ Token TOK_LPAREN l :: sep es ++ [Token TOK_RPAREN l0]
  | EBin o l a b =>
      Token TOK_LPAREN l0 :: (show l0 a ++ Token (op_token o) l :: show l0 b) ++ [Token TOK_RPAREN l0]
  | EUn UNeg l a => Token TOK_LPAREN l0 :: (Token TOK_SUB l :: show l0 a) ++ [Token TOK_RPAREN l0]
  | EUn UNot l a => Token TOK_LPAREN l0 :: (Token TOK_NOT l :: show l0 a) ++ [Token TOK_RPAREN l0]
  end.

Definition show_sep (l0 : line_t) : list expr -> list token :=
  fix sep es :=
  match es with
  | [] => []
  | e :: r => show l0 e ++ match r with [] => [] | _ :: _ => Token TOK_COMMA l0 :: sep r end
  end.

Definition show_init (l0 : line_t) (e : option expr) : list token :=
  match e with None => [] | Some e => Token TOK_ASSIGN l0 :: show l0 e end.

Fixpoint show_stmt (l0 : line_t) (s : stmt) : list token :=
  let body := fix body (b : list stmt) : list token :=
    match b with [] => [] | s :: r => show_stmt l0 s ++ Token TOK_EOL l0 :: body r end in
  match s with
  | SVar x l e => Token TOK_VAR l0 :: Token (TOK_IDENT x) l :: show_init l0 e
  | SAssign x l e => Token (TOK_IDENT x) l :: Token TOK_ASSIGN l0 :: show l0 e
  | SSetMem x l m lm e =>
      Token (TOK_IDENT x) l :: Token TOK_DOT l0 :: Token (TOK_IDENT m) lm
        :: Token TOK_ASSIGN l0 :: show l0 e
  | SSetIdx x l i e =>
      Token (TOK_IDENT x) l :: Token TOK_LBRACKET l0 :: show l0 i
        ++ Token TOK_RBRACKET l0 :: Token TOK_ASSIGN l0 :: show l0 e
  | SCall x l lc es =>
      Token (TOK_IDENT x) l :: Token TOK_LPAREN lc :: show_sep l0 es ++ [Token TOK_RPAREN l0]
  | SIf l c b None =>
      Token TOK_IF l :: Token TOK_LPAREN l0 :: show l0 c ++ Token TOK_RPAREN l0
        :: Token TOK_EOL l0 :: body b ++ [Token TOK_END l0]
  | SIf l c b (Some f) =>
      Token TOK_IF l :: Token TOK_LPAREN l0 :: show l0 c ++ Token TOK_RPAREN l0
        :: Token TOK_EOL l0 :: body b ++ Token TOK_ELSE l0 :: Token TOK_EOL l0
        :: body f ++ [Token TOK_END l0]
  | SWhile l c b =>
      Token TOK_WHILE l :: Token TOK_LPAREN l0 :: show l0 c ++ Token TOK_RPAREN l0
        :: Token TOK_EOL l0 :: body b ++ [Token TOK_END l0]
  | SFor l x lx a b body0 =>
      Token TOK_FOR l :: Token TOK_LPAREN l0 :: Token (TOK_IDENT x) lx
        :: Token TOK_ASSIGN l0 :: show l0 a ++ Token TOK_TO l0 :: show l0 b ++ Token TOK_RPAREN l0
        :: Token TOK_EOL l0 :: body body0 ++ [Token TOK_END l0]
  | SReturn l None => [Token TOK_RETURN l]
  | SReturn l (Some e) => Token TOK_RETURN l :: show l0 e
  end.

Definition show_body (l0 : line_t) : list stmt -> list token :=
  fix body b :=
  match b with [] => [] | s :: r => show_stmt l0 s ++ Token TOK_EOL l0 :: body r end.

Fixpoint show_params (l0 : line_t) (ps : list (bytes * line_t)) : list token :=
  match ps with
  | [] => []
  | (x, l) :: r => Token (TOK_IDENT x) l
      :: match r with [] => [] | _ :: _ => Token TOK_COMMA l0 :: show_params l0 r end
  end.

Definition show_item (l0 : line_t) (i : item) : list token :=
  match i with
  | TVar x l e => Token TOK_VAR l0 :: Token (TOK_IDENT x) l :: show_init l0 e
  | TConst x l e => Token TOK_CONST l0 :: Token (TOK_IDENT x) l :: show_init l0 e
  | TFunc x l ps b lend =>
      Token TOK_FUNC l0 :: Token (TOK_IDENT x) l :: Token TOK_LPAREN l0 :: show_params l0 ps
        ++ Token TOK_RPAREN l0 :: Token TOK_EOL l0 :: show_body l0 b ++ [Token TOK_END lend]
  | TImport p l => [Token TOK_IMPORT l0; Token (TOK_STRING p) l]
  end.

Fixpoint show_items (l0 : line_t) (is : list item) : list token :=
  match is with
  | [] => [Token TOK_EOF l0]
  | i :: r => show_item l0 i ++ Token TOK_EOL l0 :: show_items l0 r
  end.

(** No array literal is empty. *)
Fixpoint filled (e : expr) : Prop :=
  let all := fix all (es : list expr) : Prop :=
    match es with [] => True | e :: r => filled e /\ all r end in
  match e with
  | EInt _ _ | EFloat _ _ | EStr _ _ | ENone _ | EIdent _ _ | EMember _ _ _ _ => True
  | EArray _ es => es <> [] /\ all es
  | EIndex _ a i => filled a /\ filled i
  | ECall _ f es => filled f /\ all es
  | EBin _ _ a b => filled a /\ filled b
  | EUn _ _ a => filled a
  end.
Definition filled_opt (e : option expr) : Prop :=
  match e with None => True | Some e => filled e end.
Fixpoint filled_stmt (s : stmt) : Prop :=
  let all := fix all (b : list stmt) : Prop :=
    match b with [] => True | s :: r => filled_stmt s /\ all r end in
  match s with
  | SVar _ _ e | SReturn _ e => filled_opt e
  | SAssign _ _ e | SSetMem _ _ _ _ e => filled e
  | SSetIdx _ _ i e => filled i /\ filled e
  | SCall _ _ _ es => Forall filled es
  | SIf _ c b None => filled c /\ all b
  | SIf _ c b (Some f) => filled c /\ all b /\ all f
  | SWhile _ c b => filled c /\ all b
  | SFor _ _ _ a b body => filled a /\ filled b /\ all body
  end.
Definition filled_item (i : item) : Prop :=
  match i with
  | TVar _ _ e | TConst _ _ e => filled_opt e
  | TFunc _ _ _ b _ => Forall filled_stmt b
  | TImport _ _ => True
  end.
