(** The syntax tree built by the parser: lib_compiler/ast.h. *)
From Coq Require Import ZArith List Bool.
From Verif Require Import Base F32.
Import ListNotations.
Open Scope Z_scope.

(** Operators of [ast_exp_bin_op_t::op] (the tokens for which
    [token_t::is_binary_op] holds, lib_compiler/token.h:108-126) and of
    [ast_exp_unary_op_t::op] (unary minus and [not], parser.cpp:228-244). *)
Inductive binop : Type :=
| BAdd | BSub | BMul | BDiv | BMod | BAnd | BOr | BEq | BLt | BGt | BLeq | BGeq.
Inductive unop : Type := UNeg | UNot.

(** Expressions.  Where the C++ node keeps a [token_t*], the tree keeps what is
    read from it: the text and the line.
    - [EInt]    ast_exp_lit_var_t, lib_compiler/ast.h:148-167
    - [EFloat]  ast_exp_lit_float_t, ast.h:128-146
    - [EStr]    ast_exp_lit_str_t, ast.h:109-126
    - [ENone]   ast_exp_none_t, ast.h:169-183
    - [EIdent]  ast_exp_ident_t, ast.h:95-107
    - [EMember] ast_exp_member_t, ast.h:185-199 (name, its line, member, its line)
    - [EArray]  ast_exp_array_init_t, ast.h:201-220
    - [EIndex]  ast_exp_deref_t, ast.h:223-243
    - [ECall]   ast_exp_call_t, ast.h:264-288
    - [EBin]    ast_exp_bin_op_t, ast.h:290-309
    - [EUn]     ast_exp_unary_op_t, ast.h:311-326 *)
Inductive expr : Type :=
| EInt (v : Z) (l : line_t)
| EFloat (f : f32) (l : line_t)
| EStr (s : bytes) (l : line_t)
| ENone (l : line_t)
| EIdent (x : bytes) (l : line_t)
| EMember (x : bytes) (l : line_t) (m : bytes) (lm : line_t)
| EArray (l : line_t) (es : list expr)
| EIndex (l : line_t) (a i : expr)
| ECall (l : line_t) (f : expr) (es : list expr)
| EBin (o : binop) (l : line_t) (a b : expr)
| EUn (o : unop) (l : line_t) (a : expr).

(** Statements.
    - [SVar]    ast_decl_var_t with scope e_local, ast.h:583-628
    - [SAssign] ast_stmt_assign_var_t, ast.h:463-481
    - [SSetMem] ast_stmt_assign_member_t, ast.h:505-525
    - [SSetIdx] ast_stmt_assign_array_t, ast.h:483-503
    - [SCall]   ast_stmt_call_t (ast.h:245-262) around an ast_exp_call_t whose
                callee is an identifier: name, its line, line of the parenthesis
    - [SIf]     ast_stmt_if_t, ast.h:328-355
    - [SWhile]  ast_stmt_while_t, ast.h:384-405
    - [SFor]    ast_stmt_for_t, ast.h:407-444
    - [SReturn] ast_stmt_return_t, ast.h:446-461
    Blocks (ast_block_t, ast.h:357-382) are lists. *)
Inductive stmt : Type :=
| SVar (x : bytes) (l : line_t) (e : option expr)
| SAssign (x : bytes) (l : line_t) (e : expr)
| SSetMem (x : bytes) (l : line_t) (m : bytes) (lm : line_t) (e : expr)
| SSetIdx (x : bytes) (l : line_t) (i e : expr)
| SCall (x : bytes) (l : line_t) (lc : line_t) (es : list expr)
| SIf (l : line_t) (c : expr) (t : list stmt) (f : option (list stmt))
| SWhile (l : line_t) (c : expr) (b : list stmt)
| SFor (l : line_t) (x : bytes) (lx : line_t) (a b : expr) (body : list stmt)
| SReturn (l : line_t) (e : option expr).

(** Children of ast_program_t (ast.h:77-93).
    - [TVar]/[TConst] ast_decl_var_t with scope e_global
    - [TFunc] ast_decl_func_t, ast.h:527-581: name, its line, arguments (name,
      line), body, line of the closing [end]
    - [TImport] is not a node: it records that parse_import_ asked the source
      manager to load a path, parser.cpp:68-81 *)
Inductive item : Type :=
| TVar (x : bytes) (l : line_t) (e : option expr)
| TConst (x : bytes) (l : line_t) (e : option expr)
| TFunc (x : bytes) (l : line_t) (args : list (bytes * line_t)) (body : list stmt) (lend : line_t)
| TImport (path : bytes) (l : line_t).
