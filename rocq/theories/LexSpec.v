(** The lexical grammar, stated without reference to the lexer: which texts are
    lexemes, which token each denotes, and how far a lexeme extends. *)
From Coq Require Import ZArith List Bool String.
From Verif Require Import Base F32 Lexer.
Import ListNotations.
Open Scope Z_scope.

(** Letters, digits, blanks.  "Letters" are what the language accepts in names:
    a-z, A-Z and the ASCII characters from '_' to 127. *)
Definition letter (c : Z) : Prop :=
  97 <= c <= 122 \/ 65 <= c <= 90 \/ 95 <= c <= 127.
Definition digit (c : Z) : Prop := 48 <= c <= 57.
Definition name_char (c : Z) : Prop := letter c \/ digit c.
Definition blank (c : Z) : Prop := c = 32 \/ c = 13 \/ c = 9.

(** A name: a letter followed by letters and digits. *)
Definition name (w : bytes) : Prop :=
  exists c r, w = c :: r /\ letter c /\ Forall name_char r.

Definition number_run (w : bytes) : Prop := w <> [] /\ Forall digit w.

(** Decimal value of a digit string. *)
Definition decimal (ds : bytes) : Z :=
  fold_left (fun v d => 10 * v + (d - 48)) ds 0.

(** The reserved words. *)
Definition reserved : list (bytes * tok) :=
  [(bs "and", TOK_AND); (bs "const", TOK_CONST); (bs "end", TOK_END);
   (bs "else", TOK_ELSE); (bs "for", TOK_FOR); (bs "function", TOK_FUNC);
   (bs "if", TOK_IF); (bs "import", TOK_IMPORT); (bs "not", TOK_NOT);
   (bs "none", TOK_NONE); (bs "or", TOK_OR); (bs "return", TOK_RETURN);
   (bs "to", TOK_TO); (bs "var", TOK_VAR); (bs "while", TOK_WHILE)].

Definition lower_char (c : Z) : Z := if (65 <=? c) && (c <=? 90) then c + 32 else c.

Definition word_tok (w : bytes) : tok :=
  match find (fun p => bytes_eqb (map lower_char w) (fst p)) reserved with
  | Some p => snd p
  | None => TOK_IDENT w
  end.

(** Punctuation. *)
Definition symbols : list (bytes * tok) :=
  [(bs "(", TOK_LPAREN); (bs ")", TOK_RPAREN); (bs "[", TOK_LBRACKET);
   (bs "]", TOK_RBRACKET); (bs ",", TOK_COMMA); (bs "+", TOK_ADD);
   (bs "-", TOK_SUB); (bs "*", TOK_MUL); (bs "/", TOK_DIV); (bs "%", TOK_MOD);
   (bs ".", TOK_DOT); (bs "=", TOK_ASSIGN); (bs "==", TOK_EQ);
   (bs "<", TOK_LT); (bs "<=", TOK_LEQ); (bs ">", TOK_GT); (bs ">=", TOK_GEQ)].

(** [lexeme u t]: the text [u] is one lexeme, denoting [t] ([None] for a blank). *)
Inductive lexeme : bytes -> option tok -> Prop :=
| lx_blank c : blank c -> lexeme [c] None
| lx_newline : lexeme [10] (Some TOK_EOL)
| lx_comment b : ~ In 10 b -> lexeme (35 :: b ++ [10]) (Some TOK_EOL)
| lx_string b : ~ In 34 b -> ~ In 10 b ->
    lexeme (34 :: b ++ [34]) (Some (TOK_STRING b))
| lx_word w : name w -> lexeme w (Some (word_tok w))
| lx_symbol u t : In (u, t) symbols -> lexeme u (Some t)
| lx_int ds : number_run ds -> decimal ds < 2 ^ 31 ->
    lexeme ds (Some (TOK_INT (decimal ds)))
| lx_float ds fs : number_run ds -> Forall digit fs ->
    decimal (ds ++ fs) < 2 ^ 31 -> 10 ^ zlen fs < 2 ^ 31 ->
    lexeme (ds ++ 46 :: fs)
           (Some (TOK_FLOAT (f_div (f_of_int (decimal (ds ++ fs)))
                                   (f_of_int (10 ^ zlen fs))))).

(** [extends u c]: the character [c] right after the lexeme [u] would belong to
    a longer lexeme, so that [u] does not end there. *)
Inductive extends : bytes -> Z -> Prop :=
| ext_word w c : name w -> name_char c -> extends w c
| ext_int ds c : number_run ds -> digit c \/ c = 46 -> extends ds c
| ext_float ds fs c : number_run ds -> Forall digit fs -> digit c ->
    extends (ds ++ 46 :: fs) c
| ext_eq u : u = [61] \/ u = [60] \/ u = [62] -> extends u 61.

Definition newlines (s : bytes) : Z := zlen (filter (fun c => c =? 10) s).

(** [lexemes file line s ts]: starting at [line], the text [s] is a sequence of
    maximal lexemes whose tokens, with their lines, are [ts].  The line of a
    token is the one reached after its lexeme, which differs from the line it
    starts on only for the end-of-line token. *)
Inductive lexemes (file : Z) : Z -> bytes -> list token -> Prop :=
| lxs_nil line : lexemes file line [] [Token TOK_EOF (Line file line)]
| lxs_blank line u s ts :
    lexeme u None -> lexemes file (line + newlines u) s ts ->
    lexemes file line (u ++ s) ts
| lxs_tok line u t s ts :
    lexeme u (Some t) -> (forall c r, s = c :: r -> ~ extends u c) ->
    lexemes file (line + newlines u) s ts ->
    lexemes file line (u ++ s) (Token t (Line file (line + newlines u)) :: ts).

(** Where a text stands after its last character: in ordinary text, inside a
    string literal, or inside a comment. *)
Inductive place := PCode | PString | PComment.
Definition place_step (p : place) (c : Z) : place :=
  match p with
  | PCode => if c =? 34 then PString else if c =? 35 then PComment else PCode
  | PString => if c =? 34 then PCode else PString
  | PComment => if c =? 10 then PCode else PComment
  end.
Definition place_after (s : bytes) : place := fold_left place_step s PCode.
