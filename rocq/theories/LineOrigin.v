(** Vocabulary for C98: where a line of a source text comes from. *)
From Coq Require Import ZArith List Bool.
From Verif Require Import Base F32 Source Lexer LexSpec Events.
Import ListNotations.
Open Scope Z_scope.
Open Scope list_scope.

(** The source managers a host can make: it adds texts and files, in any order.
    Files may be read at different times, so each has its own file system. *)
Inductive loaded : list source_t -> Prop :=
| loaded_none : loaded []
| loaded_text : forall m text, loaded m -> loaded (snd (sm_load_from_string m text))
| loaded_file : forall m fs path, loaded m -> loaded (snd (sm_load fs m path)).

(** The line of a text that holds [word]: from the last newline before it to the
    first one after it. *)
Definition line_around (before word after text : bytes) : Prop :=
  exists b x y a,
    before = b ++ x /\ ~ In 10 x /\ (b = [] \/ exists b', b = b' ++ [10]) /\
    after = y ++ a /\ ((~ In 10 y /\ a = []) \/ exists y', y = y' ++ [10] /\ ~ In 10 y') /\
    text = x ++ word ++ y.

(** The line [l] is that of a word of one of the sources: the word is one of the
    tokens of that source, not an end of line; the number counts the newlines
    before it; and the text the sources answer for [l] is the line around it. *)
Definition line_of_word (m : list source_t) (l : line_t) : Prop :=
  exists s data before word after t ts text,
    znth m (l_file l) = Some s /\ so_data s = Some data /\
    cstr data = before ++ word ++ after /\ lexeme word (Some t) /\ t <> TOK_EOL /\
    lex (l_file l) data = Ok ts /\ In (Token t l) ts /\
    l_line l = 1 + newlines before /\
    sm_line m l = Ok text /\ line_around before word after text.
