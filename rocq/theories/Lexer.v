(** The lexer: lib_compiler/lexer.cpp and the tokens of lib_compiler/token.h. *)
From Coq Require Import ZArith List Bool String.
From Verif Require Import Base F32.
Import ListNotations.
Open Scope Z_scope.

(** ** Tokens

    token_e, lib_compiler/token.h:12-53.  The payloads of token_t (str_ and the
    val_/valf_ union, token.h:55-125) are arguments of the constructors that use
    them.  TOK_ACC is never produced and is left out. *)
Inductive tok : Type :=
| TOK_FUNC | TOK_END | TOK_IF | TOK_ELSE | TOK_WHILE | TOK_VAR
| TOK_INT (v : Z) | TOK_FLOAT (f : f32) | TOK_FOR | TOK_TO
| TOK_IDENT (s : bytes)
| TOK_LPAREN | TOK_RPAREN | TOK_LBRACKET | TOK_RBRACKET | TOK_COMMA | TOK_EOL
| TOK_ADD | TOK_SUB | TOK_MUL | TOK_DIV | TOK_MOD | TOK_AND | TOK_OR | TOK_NOT
| TOK_ASSIGN | TOK_EQ | TOK_LT | TOK_GT | TOK_LEQ | TOK_GEQ | TOK_RETURN
| TOK_EOF | TOK_STRING (s : bytes) | TOK_NONE | TOK_CONST | TOK_IMPORT | TOK_DOT.

(** token_t, lib_compiler/token.h:55-125: a token and the line it was found on. *)
Record token : Type := Token { tk : tok; tk_line : line_t }.

(** ** Character classes

    Characters are bytes 0..255; [char] is signed on the supported targets, so
    bytes from 128 on compare as negative.  lib_compiler/lexer.cpp:10-12 *)
Definition is_alpha (t : byte) : bool :=
  ((97 <=? t) && (t <=? 122)) || ((65 <=? t) && (t <=? 90))
  || ((95 <=? t) && (t <=? 127)).

(** lib_compiler/lexer.cpp:14-16 *)
Definition is_numeric (t : byte) : bool := (48 <=? t) && (t <=? 57).

(** lib_compiler/lexer.cpp:18-21 *)
Definition is_alpha_numeric (t : byte) : bool := is_alpha t || is_numeric t.

(** tolower of the "C" locale. *)
Definition tolower (t : byte) : byte :=
  if (65 <=? t) && (t <=? 90) then t + 32 else t.

(** The character under a pointer: the text is NUL terminated. *)
Definition cur (s : bytes) : byte := match s with [] => 0 | c :: _ => c end.

(** munch, lib_compiler/lexer.cpp:23-38.  The result is the text from [t] on;
    the caller's [s = t - 1] followed by the loop's [++s] resumes there. *)
Fixpoint munch (s kw : bytes) {struct kw} : option bytes :=
  match kw with
  | [] => if is_alpha_numeric (cur s) then None else Some s
  | k :: kw' =>
      if tolower (cur s) =? tolower k
      then match s with [] => None | _ :: s' => munch s' kw' end
      else None
  end.

(** [for (; f( *t ); ++t);] : the text passed over and the rest.  No class used
    contains NUL. *)
Fixpoint span (f : byte -> bool) (s : bytes) : bytes * bytes :=
  match s with
  | [] => ([], [])
  | c :: r => if f c then let (a, b) := span f r in (c :: a, b) else ([], s)
  end.

(** The loop of push_val_, lib_compiler/lexer.cpp:296-306.  [f] is 0 before the
    decimal point. *)
Fixpoint val_loop (s : bytes) (v f : Z) : res (Z * Z) :=
  match s with
  | [] => Ok (v, f)
  | c :: r =>
      if c =? 46 then
        _ <- assert_ (f =? 0) ;; val_loop r v 1
      else
        _ <- assert_ (is_numeric c) ;;
        v10 <- chk32 (v * 10) ;;
        v' <- chk32 (v10 + (c - 48)) ;;
        f' <- chk32 (f * 10) ;;
        val_loop r v' f'
  end.

(** push_val_, lib_compiler/lexer.cpp:293-314 *)
Definition push_val (s : bytes) : res tok :=
  '(v, f) <- val_loop s 0 0 ;;
  if f =? 0 then Ok (TOK_INT v) else Ok (TOK_FLOAT (f_div (f_of_int v) (f_of_int f))).

(** The digits, and optionally a point and more digits:
    lib_compiler/lexer.cpp:244-249. *)
Definition scan_number (s : bytes) : bytes * bytes :=
  let (a, t) := span is_numeric s in
  match t with
  | c :: t' => if c =? 46
               then let (b, t'') := span is_numeric t' in (a ++ c :: b, t'')
               else (a, t)
  | [] => (a, t)
  end.

(** The keywords tried after each first letter, in the order they are tried:
    lib_compiler/lexer.cpp:94-175. *)
Definition keywords_for (c : byte) : list (bytes * tok) :=
  if c =? 97 then [(bs "and", TOK_AND)]
  else if c =? 99 then [(bs "const", TOK_CONST)]
  else if c =? 101 then [(bs "end", TOK_END); (bs "else", TOK_ELSE)]
  else if c =? 102 then [(bs "for", TOK_FOR); (bs "function", TOK_FUNC)]
  else if c =? 105 then [(bs "if", TOK_IF); (bs "import", TOK_IMPORT)]
  else if c =? 110 then [(bs "not", TOK_NOT); (bs "none", TOK_NONE)]
  else if c =? 111 then [(bs "or", TOK_OR)]
  else if c =? 114 then [(bs "return", TOK_RETURN)]
  else if c =? 116 then [(bs "to", TOK_TO)]
  else if c =? 118 then [(bs "var", TOK_VAR)]
  else if c =? 119 then [(bs "while", TOK_WHILE)]
  else [].

Fixpoint try_keywords (l : list (bytes * tok)) (s : bytes) : option (tok * bytes) :=
  match l with
  | [] => None
  | (kw, t) :: l' =>
      match munch s kw with Some r => Some (t, r) | None => try_keywords l' s end
  end.

(** The single-character cases of the switch, lib_compiler/lexer.cpp:176-205
    and 236-238. *)
Definition punct (c : byte) : option tok :=
  if c =? 40 then Some TOK_LPAREN
  else if c =? 41 then Some TOK_RPAREN
  else if c =? 91 then Some TOK_LBRACKET
  else if c =? 93 then Some TOK_RBRACKET
  else if c =? 44 then Some TOK_COMMA
  else if c =? 43 then Some TOK_ADD
  else if c =? 45 then Some TOK_SUB
  else if c =? 42 then Some TOK_MUL
  else if c =? 47 then Some TOK_DIV
  else if c =? 37 then Some TOK_MOD
  else if c =? 46 then Some TOK_DOT
  else None.

(** The cases with a second character '=', lib_compiler/lexer.cpp:212-235. *)
Definition punct_eq (c : byte) : option (tok * tok) :=
  if c =? 61 then Some (TOK_ASSIGN, TOK_EQ)
  else if c =? 60 then Some (TOK_LT, TOK_LEQ)
  else if c =? 62 then Some (TOK_GT, TOK_GEQ)
  else None.

Definition is_blank (c : byte) : bool := (c =? 32) || (c =? 13) || (c =? 9).
Definition not_string_end (c : byte) : bool := negb ((c =? 34) || (c =? 10)).
Definition not_newline (c : byte) : bool := negb (c =? 10).

(** One iteration of the loop of lexer_t::lex, lib_compiler/lexer.cpp:48-275,
    on the text [s = c :: r], at line [line] of the file [file].  The result is
    the token pushed, if any, the line afterwards and the text the next
    iteration starts with.  (new_line_, which is only used by an assert that
    always holds, is left out; a call of tolower on a byte above 127 returns it
    unchanged.) *)
Definition lex1 (file line : Z) (c : byte) (r : bytes)
  : res (option token * Z * bytes) :=
  let s := c :: r in
  let tokn t := Some (Token t (Line file line)) in
  (* 50-59: white space *)
  if is_blank c then Ok (None, line, r)
  (* 61-76: strings *)
  else if c =? 34 then
    let (b, t) := span not_string_end r in
    match t with
    | e :: t' => if e =? 34 then Ok (tokn (TOK_STRING b), line, t')
                 else Err E_string_quote_mismatch line
    | [] => Err E_string_quote_mismatch line
    end
  (* 78-90: comments; at the terminating NUL the loop's ++s leaves the buffer *)
  else if c =? 35 then
    let (_, t) := span not_newline s in
    match t with
    | _ :: t' => Ok (Some (Token TOK_EOL (Line file (line + 1))), line + 1, t')
    | [] => Stuck SOob
    end
  (* 92-239: the switch *)
  else match try_keywords (keywords_for (tolower c)) s with
  | Some (t, r') => Ok (tokn t, line, r')
  | None =>
  match punct c with
  | Some t => Ok (tokn t, line, r)
  | None =>
  if c =? 10 then Ok (Some (Token TOK_EOL (Line file (line + 1))), line + 1, r)
  else match punct_eq c with
  | Some (t1, t2) =>
      if cur r =? 61 then Ok (tokn t2, line, tl r) else Ok (tokn t1, line, r)
  | None =>
  (* 241-256: numbers *)
  if is_numeric c then
    let (n, t) := scan_number s in
    v <- push_val n ;; Ok (tokn v, line, t)
  (* 258-270: identifiers *)
  else if is_alpha c then
    let (a, t) := span is_alpha_numeric s in Ok (tokn (TOK_IDENT a), line, t)
  (* 272-273 *)
  else Err E_unexpected_character line
  end end end.

(** The loop, lib_compiler/lexer.cpp:48-278.  Every iteration consumes at least
    one character, so the length of the text is enough fuel. *)
Fixpoint lex_loop (fuel : nat) (file line : Z) (s : bytes) : res (list token) :=
  match s with
  | [] => Ok [Token TOK_EOF (Line file line)]
  | c :: r =>
      match fuel with
      | O => Stuck SDiverge
      | S fuel' =>
          '(t, line', r') <- lex1 file line c r ;;
          ts <- lex_loop fuel' file line' r' ;;
          Ok (match t with Some t' => t' :: ts | None => ts end)
      end
  end.

Definition lex_from (file line : Z) (s : bytes) : res (list token) :=
  lex_loop (List.length s) file line s.

(** lexer_t::lex, lib_compiler/lexer.cpp:43-279, on a NUL terminated text. *)
Definition lex (file : Z) (s : bytes) : res (list token) := lex_from file 1 (cstr s).
