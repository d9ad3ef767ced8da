(** The parser: lib_compiler/parser.cpp, over the token stream of
    lib_compiler/token.cpp. *)
From Coq Require Import ZArith List Bool.
From Verif Require Import Base F32 Lexer Ast Source.
Import ListNotations.
Open Scope Z_scope.

(** ** Token kinds

    The enumerator (token_e, lib_compiler/token.h:12-53) of a token; TOK_ACC is
    never produced by the lexer. *)
Inductive kind : Type :=
| K_FUNC | K_END | K_IF | K_ELSE | K_WHILE | K_VAR | K_INT | K_FLOAT | K_FOR | K_TO
| K_IDENT | K_LPAREN | K_RPAREN | K_LBRACKET | K_RBRACKET | K_COMMA | K_EOL
| K_ADD | K_SUB | K_MUL | K_DIV | K_MOD | K_AND | K_OR | K_NOT
| K_ASSIGN | K_EQ | K_LT | K_GT | K_LEQ | K_GEQ | K_RETURN
| K_EOF | K_STRING | K_NONE | K_CONST | K_IMPORT | K_DOT.

Definition kind_of (t : tok) : kind :=
  match t with
  | TOK_FUNC => K_FUNC | TOK_END => K_END | TOK_IF => K_IF | TOK_ELSE => K_ELSE
  | TOK_WHILE => K_WHILE | TOK_VAR => K_VAR | TOK_INT _ => K_INT
  | TOK_FLOAT _ => K_FLOAT | TOK_FOR => K_FOR | TOK_TO => K_TO
  | TOK_IDENT _ => K_IDENT | TOK_LPAREN => K_LPAREN | TOK_RPAREN => K_RPAREN
  | TOK_LBRACKET => K_LBRACKET | TOK_RBRACKET => K_RBRACKET | TOK_COMMA => K_COMMA
  | TOK_EOL => K_EOL | TOK_ADD => K_ADD | TOK_SUB => K_SUB | TOK_MUL => K_MUL
  | TOK_DIV => K_DIV | TOK_MOD => K_MOD | TOK_AND => K_AND | TOK_OR => K_OR
  | TOK_NOT => K_NOT | TOK_ASSIGN => K_ASSIGN | TOK_EQ => K_EQ | TOK_LT => K_LT
  | TOK_GT => K_GT | TOK_LEQ => K_LEQ | TOK_GEQ => K_GEQ | TOK_RETURN => K_RETURN
  | TOK_EOF => K_EOF | TOK_STRING _ => K_STRING | TOK_NONE => K_NONE
  | TOK_CONST => K_CONST | TOK_IMPORT => K_IMPORT | TOK_DOT => K_DOT
  end.

Definition kind_eqb (a b : kind) : bool :=
  match a, b with
  | K_FUNC, K_FUNC | K_END, K_END | K_IF, K_IF | K_ELSE, K_ELSE | K_WHILE, K_WHILE
  | K_VAR, K_VAR | K_INT, K_INT | K_FLOAT, K_FLOAT | K_FOR, K_FOR | K_TO, K_TO
  | K_IDENT, K_IDENT | K_LPAREN, K_LPAREN | K_RPAREN, K_RPAREN
  | K_LBRACKET, K_LBRACKET | K_RBRACKET, K_RBRACKET | K_COMMA, K_COMMA | K_EOL, K_EOL
  | K_ADD, K_ADD | K_SUB, K_SUB | K_MUL, K_MUL | K_DIV, K_DIV | K_MOD, K_MOD
  | K_AND, K_AND | K_OR, K_OR | K_NOT, K_NOT | K_ASSIGN, K_ASSIGN | K_EQ, K_EQ
  | K_LT, K_LT | K_GT, K_GT | K_LEQ, K_LEQ | K_GEQ, K_GEQ | K_RETURN, K_RETURN
  | K_EOF, K_EOF | K_STRING, K_STRING | K_NONE, K_NONE | K_CONST, K_CONST
  | K_IMPORT, K_IMPORT | K_DOT, K_DOT => true
  | _, _ => false
  end.

(** token_t::str_, val_ and valf_, lib_compiler/token.h:55-80, 141-149 *)
Definition t_str (t : token) : bytes :=
  match tk t with TOK_IDENT s | TOK_STRING s => s | _ => [] end.
Definition t_val (t : token) : Z := match tk t with TOK_INT v => v | _ => 0 end.
Definition t_valf (t : token) : f32 :=
  match tk t with TOK_FLOAT f => f | _ => f_zero end.

(** ** Errors

    [token_t::string()] is evaluated for the message of most errors
    (lib_compiler/token.h:97-106); token_name (token.cpp:63-107) has no case for
    TOK_IMPORT and TOK_STRING and asserts.  [string()] does not call token_name
    for TOK_STRING. *)
Definition perr {A} (e : errkind) (l : line_t) (t : token) : res A :=
  match kind_of (tk t) with K_IMPORT => Stuck SAssert | _ => Err e (l_line l) end.

(** ** Parser state

    token_stream_t (token.h:152-192): the tokens from [index_] on and [line_];
    parser_t (parser.h): op_stack_ and exp_stack_, top first. *)
Record pst : Type := PSt {
  p_toks : list token;
  p_line : line_t;
  p_ops : list token;
  p_exp : list expr }.

Definition set_stacks (ops : list token) (es : list expr) (s : pst) : pst :=
  PSt (p_toks s) (p_line s) ops es.
Definition push_exp (e : expr) (s : pst) : pst := set_stacks (p_ops s) (e :: p_exp s) s.

(** token_stream_t::type, token.cpp:15-17 (operator[] is unchecked). *)
Definition ptype (s : pst) : res kind :=
  match p_toks s with [] => Stuck SOob | t :: _ => Ok (kind_of (tk t)) end.

(** token_stream_t::peek, token.cpp:44-48 *)
Definition peek (s : pst) : res kind :=
  match p_toks s with [] => Stuck SAssert | t :: _ => Ok (kind_of (tk t)) end.

(** token_stream_t::pop(), token.cpp:36-42 *)
Definition pop (s : pst) : res (token * pst) :=
  match p_toks s with
  | [] => Stuck SOob
  | t :: r => Ok (t, PSt r (tk_line t) (p_ops s) (p_exp s))
  end.

(** token_stream_t::found, token.cpp:19-23 *)
Definition found (k : kind) (s : pst) : res (option token * pst) :=
  c <- ptype s ;;
  if kind_eqb c k then '(t, s1) <- pop s ;; Ok (Some t, s1) else Ok (None, s).

(** token_stream_t::pop(token_e), token.cpp:25-34; the error is
    unexpected_token(t, e), errors.h:178-181. *)
Definition popk (k : kind) (s : pst) : res (token * pst) :=
  '(o, s1) <- found k s ;;
  match o, p_toks s with
  | Some t, _ => Ok (t, s1)
  | None, t :: _ =>
      match k with
      | K_STRING | K_IMPORT => Stuck SAssert
      | _ => perr E_unexpected_token (tk_line t) t
      end
  | None, [] => Stuck SOob
  end.

(** [while (stream_.found(TOK_EOL));] parser.cpp:532, 597 *)
Fixpoint skip_eols_from (ts : list token) (l : line_t) : res (list token * line_t) :=
  match ts with
  | [] => Stuck SOob
  | t :: r =>
      if kind_eqb (kind_of (tk t)) K_EOL then skip_eols_from r (tk_line t) else Ok (ts, l)
  end.
Definition skip_eols (s : pst) : res pst :=
  '(ts, l) <- skip_eols_from (p_toks s) (p_line s) ;;
  Ok (PSt ts l (p_ops s) (p_exp s)).

(** ** Operators *)

(** token_t::is_binary_op, token.h:108-126 *)
Definition binop_of (k : kind) : option binop :=
  match k with
  | K_ADD => Some BAdd | K_SUB => Some BSub | K_MUL => Some BMul | K_DIV => Some BDiv
  | K_MOD => Some BMod | K_AND => Some BAnd | K_OR => Some BOr | K_EQ => Some BEq
  | K_LT => Some BLt | K_GT => Some BGt | K_LEQ => Some BLeq | K_GEQ => Some BGeq
  | _ => None
  end.

(** op_type_, parser.cpp:83-109 *)
Definition op_type (k : kind) : Z :=
  match k with
  | K_AND | K_OR => 1
  | K_NOT => 2
  | K_LT | K_GT | K_LEQ | K_GEQ | K_EQ => 3
  | K_ADD | K_SUB => 4
  | K_MUL | K_DIV | K_MOD => 5
  | _ => 0
  end.
Definition tprec (t : token) : Z := op_type (kind_of (tk t)).

(** is_operator_, parser.cpp:111-114 *)
Definition is_operator (s : pst) : res bool := k <- ptype s ;; Ok (0 <? op_type k).

(** op_reduce_ on the popped operator and the expression stack,
    parser.cpp:744-768; [is_unary_op] holds for [not] only (token.h:128-135). *)
Definition op_reduce (op : token) (es : list expr) : res (list expr) :=
  match binop_of (kind_of (tk op)) with
  | Some o =>
      match es with
      | b :: a :: r => Ok (EBin o (tk_line op) a b :: r)
      | _ => Stuck SAssert
      end
  | None =>
      match kind_of (tk op) with
      | K_NOT =>
          match es with
          | a :: r => Ok (EUn UNot (tk_line op) a :: r)
          | [] => Stuck SAssert
          end
      | _ => Ok es
      end
  end.

(** The loops of op_push_ (parser.cpp:770-781; [q] is the precedence of the new
    operator) and op_pop_all_ (786-792; [q] = 0 and no operator has a negative
    precedence): reduce while there is an operator above [tide] whose precedence
    is not below [q]. *)
Fixpoint reduce_while (q : Z) (tide : nat) (ops : list token) (es : list expr)
  : res (list token * list expr) :=
  match ops with
  | [] => Ok ([], es)
  | t :: r =>
      if Nat.ltb tide (List.length ops) && negb (tprec t <? q)
      then es1 <- op_reduce t es ;; reduce_while q tide r es1
      else Ok (ops, es)
  end.

(** op_push_, parser.cpp:770-784 *)
Definition op_push (op : token) (tide : nat) (s : pst) : res pst :=
  '(ops, es) <- reduce_while (tprec op) tide (p_ops s) (p_exp s) ;;
  Ok (set_stacks (op :: ops) es s).

(** op_pop_all_, parser.cpp:786-792 *)
Definition op_pop_all (tide : nat) (s : pst) : res pst :=
  '(ops, es) <- reduce_while 0 tide (p_ops s) (p_exp s) ;;
  Ok (set_stacks ops es s).

(** [exp_stack_.back()] with [pop_back()], guarded by an assert in parse_expr_
    and for call; unguarded (undefined on an empty vector) elsewhere: [x] is the
    outcome for the empty stack. *)
Definition pop_exp (x : stuck) (s : pst) : res (expr * pst) :=
  match p_exp s with
  | [] => Stuck x
  | e :: r => Ok (e, set_stacks (p_ops s) r s)
  end.

(** ** Expressions

    The C++ functions are mutually recursive; [n] bounds the depth of the
    recursion (including loop iterations) and running out of it is
    [Stuck SDiverge].
    - [parse_expr]    parse_expr_, parser.cpp:287-301
    - [parse_expr_ex] parse_expr_ex_, parser.cpp:220-285
    - [parse_suffix]  its loop, parser.cpp:248-278
    - [parse_lhs]     parse_lhs_, parser.cpp:133-218
    - [parse_exprs]   the do-while loops of parse_array_init_ (parser.cpp:125-128)
                      and parse_call_ (351-354)
    - [parse_call]    parse_call_, parser.cpp:339-359: the arguments *)
Fixpoint parse_expr (n : nat) (s : pst) {struct n} : res (expr * pst) :=
  match n with
  | O => Stuck SDiverge
  | S n =>
      let tide := List.length (p_ops s) in
      s1 <- parse_expr_ex n tide s ;;
      s2 <- op_pop_all tide s1 ;;
      pop_exp SAssert s2
  end
with parse_expr_ex (n : nat) (tide : nat) (s : pst) {struct n} : res pst :=
  match n with
  | O => Stuck SDiverge
  | S n =>
      '(o, s1) <- found K_NOT s ;;
      match o with
      | Some t => s2 <- parse_expr_ex n tide s1 ;; op_push t tide s2
      | None =>
      '(o, s1) <- found K_SUB s ;;
      match o with
      | Some t =>
          s2 <- parse_expr_ex n tide s1 ;;
          '(e, s3) <- pop_exp SOob s2 ;;
          Ok (push_exp (EUn UNeg (tk_line t) e) s3)
      | None =>
          s2 <- parse_lhs n s ;;
          s3 <- parse_suffix n s2 ;;
          b <- is_operator s3 ;;
          if b : bool then
            '(op, s4) <- pop s3 ;;
            s5 <- op_push op tide s4 ;;
            parse_expr_ex n tide s5
          else Ok s3
      end end
  end
with parse_suffix (n : nat) (s : pst) {struct n} : res pst :=
  match n with
  | O => Stuck SDiverge
  | S n =>
      '(o, s1) <- found K_LBRACKET s ;;
      match o with
      | Some t =>
          '(a, s2) <- pop_exp SOob s1 ;;
          '(i, s3) <- parse_expr n s2 ;;
          '(_, s4) <- popk K_RBRACKET (push_exp (EIndex (tk_line t) a i) s3) ;;
          parse_suffix n s4
      | None =>
      '(o, s1) <- found K_LPAREN s ;;
      match o with
      | Some t =>
          '(es, s2) <- parse_call n s1 ;;
          '(f, s3) <- pop_exp SAssert s2 ;;
          parse_suffix n (push_exp (ECall (tk_line t) f es) s3)
      | None => Ok s
      end end
  end
with parse_lhs (n : nat) (s : pst) {struct n} : res pst :=
  match n with
  | O => Stuck SDiverge
  | S n =>
      '(o, s1) <- found K_LBRACKET s ;;
      match o with
      | Some t =>
          '(es, s2) <- parse_exprs n s1 ;;
          '(_, s3) <- popk K_RBRACKET (push_exp (EArray (tk_line t) es) s2) ;;
          Ok s3
      | None =>
      '(o, s1) <- found K_LPAREN s ;;
      match o with
      | Some _ =>
          '(e, s2) <- parse_expr n s1 ;;
          '(_, s3) <- popk K_RPAREN (push_exp e s2) ;;
          Ok s3
      | None =>
      '(o, s1) <- found K_IDENT s ;;
      match o with
      | Some t =>
          '(d, s2) <- found K_DOT s1 ;;
          match d with
          | Some _ =>
              '(m, s3) <- popk K_IDENT s2 ;;
              Ok (push_exp (EMember (t_str t) (tk_line t) (t_str m) (tk_line m)) s3)
          | None => Ok (push_exp (EIdent (t_str t) (tk_line t)) s2)
          end
      | None =>
      '(o, s1) <- found K_INT s ;;
      match o with
      | Some t => Ok (push_exp (EInt (t_val t) (tk_line t)) s1)
      | None =>
      '(o, s1) <- found K_FLOAT s ;;
      match o with
      | Some t => Ok (push_exp (EFloat (t_valf t) (tk_line t)) s1)
      | None =>
      '(o, s1) <- found K_STRING s ;;
      match o with
      | Some t => Ok (push_exp (EStr (t_str t) (tk_line t)) s1)
      | None =>
      '(o, s1) <- found K_NONE s ;;
      match o with
      | Some t => Ok (push_exp (ENone (tk_line t)) s1)
      | None =>
          '(t, s1) <- pop s ;;
          perr E_expecting_lit_or_ident (p_line s1) t
      end end end end end end end
  end
with parse_exprs (n : nat) (s : pst) {struct n} : res (list expr * pst) :=
  match n with
  | O => Stuck SDiverge
  | S n =>
      '(e, s1) <- parse_expr n s ;;
      '(o, s2) <- found K_COMMA s1 ;;
      match o with
      | Some _ => '(es, s3) <- parse_exprs n s2 ;; Ok (e :: es, s3)
      | None => Ok ([e], s2)
      end
  end
with parse_call (n : nat) (s : pst) {struct n} : res (list expr * pst) :=
  match n with
  | O => Stuck SDiverge
  | S n =>
      '(o, s1) <- found K_RPAREN s ;;
      match o with
      | Some _ => Ok ([], s1)
      | None =>
          '(es, s2) <- parse_exprs n s ;;
          '(_, s3) <- popk K_RPAREN s2 ;;
          Ok (es, s3)
      end
  end.

(** ** Statements *)

(** parse_decl_var_ (parser.cpp:303-324), parse_const_ (715-727) and
    parse_global_ (729-742): name, its line and the initialiser. *)
Definition parse_decl_var (n : nat) (s : pst) : res (bytes * line_t * option expr * pst) :=
  '(t, s1) <- popk K_IDENT s ;;
  '(o, s2) <- found K_ASSIGN s1 ;;
  match o with
  | Some _ => '(e, s3) <- parse_expr n s2 ;; Ok (t_str t, tk_line t, Some e, s3)
  | None => Ok (t_str t, tk_line t, None, s2)
  end.

(** parse_compound_, parser.cpp:493-511; [t] is the identifier. *)
Definition parse_compound (n : nat) (t : token) (s : pst) : res (stmt * pst) :=
  '(op, s1) <- pop s ;;
  '(o, s2) <- found K_ASSIGN s1 ;;
  match o with
  | None => Err E_equals_expected_after_operator (l_line (p_line s2))
  | Some _ =>
      '(e, s3) <- parse_expr n s2 ;;
      match binop_of (kind_of (tk op)) with
      | Some o =>
          Ok (SAssign (t_str t) (tk_line t)
                (EBin o (tk_line op) (EIdent (t_str t) (tk_line t)) e), s3)
      | None => Stuck SAssert (* not reached: called on + - * / only *)
      end
  end.

(** parse_member_assign_, parser.cpp:602-622 *)
Definition parse_member_assign (n : nat) (t : token) (s : pst) : res (stmt * pst) :=
  '(_, s1) <- popk K_DOT s ;;
  '(m, s2) <- popk K_IDENT s1 ;;
  '(_, s3) <- popk K_ASSIGN s2 ;;
  '(e, s4) <- parse_expr n s3 ;;
  Ok (SSetMem (t_str t) (tk_line t) (t_str m) (tk_line m) e, s4).

(** parse_array_set_, parser.cpp:693-713 *)
Definition parse_array_set (n : nat) (t : token) (s : pst) : res (stmt * pst) :=
  '(i, s1) <- parse_expr n s ;;
  '(_, s2) <- popk K_RBRACKET s1 ;;
  '(_, s3) <- popk K_ASSIGN s2 ;;
  '(e, s4) <- parse_expr n s3 ;;
  Ok (SSetIdx (t_str t) (tk_line t) i e, s4).

(** The TOK_IDENT case of parse_stmt_, parser.cpp:542-577 (with parse_assign_,
    326-337). *)
Definition parse_ident_stmt (n : nat) (t : token) (s : pst) : res (stmt * pst) :=
  k <- peek s ;;
  match k with
  | K_ADD | K_SUB | K_MUL | K_DIV => parse_compound n t s
  | K_DOT => parse_member_assign n t s
  | K_ASSIGN =>
      '(_, s1) <- pop s ;;
      '(e, s2) <- parse_expr n s1 ;;
      Ok (SAssign (t_str t) (tk_line t) e, s2)
  | K_LPAREN =>
      '(c, s1) <- pop s ;;
      '(es, s2) <- parse_call n s1 ;;
      Ok (SCall (t_str t) (tk_line t) (tk_line c) es, s2)
  | K_LBRACKET =>
      '(_, s1) <- pop s ;;
      parse_array_set n t s1
  | _ => perr E_assign_or_call_expected_after (p_line s) t
  end.

(** parse_return_, parser.cpp:469-486 *)
Definition parse_return (n : nat) (t : token) (s : pst) : res (stmt * pst) :=
  k <- peek s ;;
  match k with
  | K_EOL => Ok (SReturn (tk_line t) None, s)
  | _ => '(e, s1) <- parse_expr n s ;; Ok (SReturn (tk_line t) (Some e), s1)
  end.

(** - [parse_stmt]  parse_stmt_, parser.cpp:513-600, with parse_if_ (361-404),
                    parse_while_ (406-434) and parse_for_ (436-467)
    - [parse_body]  the loops up to [end], parser.cpp:396-399, 426-429, 460-463 and
                    660-669; also returns the [end] token
    - [parse_then]  the first loop of parse_if_, parser.cpp:384-392; the flag is
                    [has_else] *)
Fixpoint parse_stmt (n : nat) (s : pst) {struct n} : res (stmt * pst) :=
  match n with
  | O => Stuck SDiverge
  | S n =>
      s0 <- skip_eols s ;;
      '(t, s1) <- pop s0 ;;
      '(st, s2) <-
        match kind_of (tk t) with
        | K_VAR => '(x, l, e, s2) <- parse_decl_var n s1 ;; Ok (SVar x l e, s2)
        | K_IDENT => parse_ident_stmt n t s1
        | K_IF =>
            '(_, s2) <- popk K_LPAREN s1 ;;
            '(c, s3) <- parse_expr n s2 ;;
            '(_, s4) <- popk K_RPAREN s3 ;;
            '(_, s5) <- popk K_EOL s4 ;;
            '(b, els, s6) <- parse_then n s5 ;;
            if els : bool then
              '(f, _, s7) <- parse_body n s6 ;; Ok (SIf (tk_line t) c b (Some f), s7)
            else Ok (SIf (tk_line t) c b None, s6)
        | K_WHILE =>
            '(_, s2) <- popk K_LPAREN s1 ;;
            '(c, s3) <- parse_expr n s2 ;;
            '(_, s4) <- popk K_RPAREN s3 ;;
            '(_, s5) <- popk K_EOL s4 ;;
            '(b, _, s6) <- parse_body n s5 ;;
            Ok (SWhile (tk_line t) c b, s6)
        | K_FOR =>
            '(_, s2) <- popk K_LPAREN s1 ;;
            '(x, s3) <- popk K_IDENT s2 ;;
            '(_, s4) <- popk K_ASSIGN s3 ;;
            '(a, s5) <- parse_expr n s4 ;;
            '(_, s6) <- popk K_TO s5 ;;
            '(b, s7) <- parse_expr n s6 ;;
            '(_, s8) <- popk K_RPAREN s7 ;;
            '(_, s9) <- popk K_EOL s8 ;;
            '(body, _, s10) <- parse_body n s9 ;;
            Ok (SFor (tk_line t) (t_str x) (tk_line x) a b body, s10)
        | K_RETURN => parse_return n t s1
        | _ => perr E_statement_expected (p_line s1) t
        end ;;
      '(_, s3) <- popk K_EOL s2 ;;
      s4 <- skip_eols s3 ;;
      Ok (st, s4)
  end
with parse_body (n : nat) (s : pst) {struct n} : res (list stmt * token * pst) :=
  match n with
  | O => Stuck SDiverge
  | S n =>
      '(o, s1) <- found K_END s ;;
      match o with
      | Some t => Ok ([], t, s1)
      | None =>
          '(st, s2) <- parse_stmt n s ;;
          '(b, t, s3) <- parse_body n s2 ;;
          Ok (st :: b, t, s3)
      end
  end
with parse_then (n : nat) (s : pst) {struct n} : res (list stmt * bool * pst) :=
  match n with
  | O => Stuck SDiverge
  | S n =>
      '(o, s1) <- found K_END s ;;
      match o with
      | Some _ => Ok ([], false, s1)
      | None =>
      '(o, s1) <- found K_ELSE s ;;
      match o with
      | Some _ => '(_, s2) <- popk K_EOL s1 ;; Ok ([], true, s2)
      | None =>
          '(st, s2) <- parse_stmt n s ;;
          '(b, els, s3) <- parse_then n s2 ;;
          Ok (st :: b, els, s3)
      end end
  end.

(** ** Top level *)

(** The loop of parse_function_ over the arguments, parser.cpp:645-651 *)
Fixpoint parse_args (n : nat) (s : pst) {struct n} : res (list (bytes * line_t) * pst) :=
  match n with
  | O => Stuck SDiverge
  | S n =>
      '(t, s1) <- popk K_IDENT s ;;
      '(o, s2) <- found K_COMMA s1 ;;
      match o with
      | Some _ => '(l, s3) <- parse_args n s2 ;; Ok ((t_str t, tk_line t) :: l, s3)
      | None => Ok ([(t_str t, tk_line t)], s2)
      end
  end.

(** parse_function_, parser.cpp:624-672 *)
Definition parse_function (n : nat) (s : pst) : res (item * pst) :=
  '(t, s1) <- popk K_IDENT s ;;
  '(_, s2) <- popk K_LPAREN s1 ;;
  '(o, s3) <- found K_RPAREN s2 ;;
  '(args, s4) <-
    match o with
    | Some _ => Ok ([], s3)
    | None =>
        '(args, s4) <- parse_args n s2 ;;
        '(_, s5) <- popk K_RPAREN s4 ;;
        Ok (args, s5)
    end ;;
  '(_, s5) <- popk K_EOL s4 ;;
  '(b, e, s6) <- parse_body n s5 ;;
  Ok (TFunc (t_str t) (tk_line t) args b (tk_line e), s6).

(** parse_import_, parser.cpp:68-81.  [fs] is the file system, [src] the source
    being compiled, [m] the source manager (Source.v). *)
Definition parse_import (fs : bytes -> option bytes) (src : source_t)
    (m : list source_t) (s : pst) : res (item * list source_t * pst) :=
  '(t, s1) <- popk K_STRING s ;;
  let (ok, m1) := sm_load fs m (imported_path src (t_str t)) in
  if ok : bool then Ok (TImport (t_str t) (tk_line t), m1, s1)
  else perr E_bad_import (tk_line t) t.

(** The loop of parse, parser.cpp:24-59; [TOK_EOF] ends it. *)
Fixpoint parse_items (fs : bytes -> option bytes) (src : source_t) (n : nat)
    (m : list source_t) (s : pst) {struct n} : res (list item * list source_t * pst) :=
  match n with
  | O => Stuck SDiverge
  | S n =>
      '(o, s1) <- found K_EOF s ;;
      match o with
      | Some _ => Ok ([], m, s1)
      | None =>
          '(t, s1) <- pop s ;;
          match kind_of (tk t) with
          | K_EOL => parse_items fs src n m s1
          | K_VAR =>
              '(x, l, e, s2) <- parse_decl_var n s1 ;;
              '(r, m1, s3) <- parse_items fs src n m s2 ;;
              Ok (TVar x l e :: r, m1, s3)
          | K_CONST =>
              '(x, l, e, s2) <- parse_decl_var n s1 ;;
              '(r, m1, s3) <- parse_items fs src n m s2 ;;
              Ok (TConst x l e :: r, m1, s3)
          | K_FUNC =>
              '(f, s2) <- parse_function n s1 ;;
              '(r, m1, s3) <- parse_items fs src n m s2 ;;
              Ok (f :: r, m1, s3)
          | K_IMPORT =>
              '(i, m1, s2) <- parse_import fs src m s1 ;;
              '(r, m2, s3) <- parse_items fs src n m1 s2 ;;
              Ok (i :: r, m2, s3)
          | _ =>
              '(t2, s2) <- pop s1 ;;
              perr E_unexpected_token (tk_line t2) t2
          end
      end
  end.

(** A recursion depth no parse of [ts] can exceed (PropertiesParser.v, C29). *)
Definition parse_fuel (ts : list token) : nat := 4 * List.length ts + 16.

(** parse, parser.cpp:13-66, on a fresh token stream; op_stack_ is empty after
    reset() (794-796), exp_stack_ holds what earlier parses left behind. *)
Definition parse (fs : bytes -> option bytes) (src : source_t) (m : list source_t)
    (left : list expr) (ts : list token) : res (list item * list source_t * pst) :=
  parse_items fs src (parse_fuel ts) m (PSt ts (Line 0 0) [] left).
