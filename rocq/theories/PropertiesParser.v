(** Parser properties C24-C29 and C75-C77. *)
From Coq Require Import ZArith List Bool Lia ZifyBool String.
From Verif Require Import Base BaseFacts F32 Lexer LexSpec Ast Source Parser ParseSpec
  ParseFacts ParseSafe ParseRound ParseChain PrintFacts PropertiesLexer.
Import ListNotations.
Open Scope Z_scope.

(** [var x = e] on a line of its own, and its syntax tree. *)
Definition one_line (x : bytes) (lv lx la le : line_t) (te : list token) : list token :=
  Token TOK_VAR lv :: Token (TOK_IDENT x) lx :: Token TOK_ASSIGN la :: te ++ [Token TOK_EOF le].

(** Sample lines, tokens and operands for the examples. *)
Definition ln : line_t := Line 0 1.
Definition nm (s : string) : expr := EIdent (bs s) ln.
Definition nmt (s : string) : list token := [Token (TOK_IDENT (bs s)) ln].
Definition nosrc : source_t := Source (bs "/t.ccml") (Some []) [0].
Definition nofs : bytes -> option bytes := fun _ => None.
Lemma nm_prim s : prim (nm s) (nmt s). Proof. constructor. Qed.

(** ** C24: precedence and associativity *)

(** Every chain of operands and operators has exactly one bracketing, which is the
    tree the parser builds for it, wherever an expression may stand ([expr_text],
    C25 and C26) and in particular as an initialiser. *)
Theorem C24_precedence xs z ts tz :
  lead xs ts -> prim z tz ->
  exists t, brackets t xs z /\ (forall t', brackets t' xs z -> t' = t) /\
    expr_text (tree_expr t) (ts ++ tz) /\
    forall fs src m left x lv lx la le,
      parse fs src m left (one_line x lv lx la le (ts ++ tz))
      = Ok ([TVar x lx (Some (tree_expr t))], m, PSt [] le [] left).
Proof.
  intros HL HZ. destruct (brackets_exists xs z) as (t & B). exists t.
  assert (HT : expr_text (tree_expr t) (ts ++ tz)).
  { destruct B as (P & <- & <-). eexists _, _. now apply brackets_text. }
  split; [exact B|]. split; [intros t' B'; eapply brackets_unique; eassumption|]. split; [exact HT|].
  intros fs src m left x lv lx la le. apply parse_var; [eapply expr_no_eof; exact HT|].
  destruct (expr_ok _ _ la [] left [Token TOK_EOF le] HT) as (n & l' & E); [stop_tac|]. eauto.
Qed.

(** a + b * c - d < e and f == g *)
Example C24_ex :
  let xs := [(nm "a", BAdd, ln); (nm "b", BMul, ln); (nm "c", BSub, ln); (nm "d", BLt, ln);
             (nm "e", BAnd, ln); (nm "f", BEq, ln)] in
  exists ts, lead xs ts /\
    brackets (Node BAnd ln
                (Node BLt ln
                   (Node BSub ln (Node BAdd ln (Leaf (nm "a"))
                      (Node BMul ln (Leaf (nm "b")) (Leaf (nm "c")))) (Leaf (nm "d")))
                   (Leaf (nm "e")))
                (Node BEq ln (Leaf (nm "f")) (Leaf (nm "g")))) xs (nm "g").
Proof.
  cbv zeta. eexists. split.
  - repeat (apply LD_cons; [apply nm_prim|]). apply LD_nil.
  - unfold brackets. cbn. repeat split; lia.
Qed.
Print Assumptions C24_precedence.

(** ** C25: expressions *)

(** Any text of an expression, used as an initialiser, parses to that expression
    and all of it is consumed. *)
Theorem C25_expression_text fs src m left x lv lx la le e ts :
  expr_text e ts ->
  parse fs src m left (one_line x lv lx la le ts)
  = Ok ([TVar x lx (Some e)], m, PSt [] le [] left).
Proof.
  intros HT. apply parse_var; [eapply expr_no_eof; exact HT|].
  destruct (expr_ok _ _ la [] left [Token TOK_EOF le] HT) as (n & l' & E); [stop_tac|]. eauto.
Qed.

(** In particular its fully parenthesised rendering does. *)
Theorem C25_print_parse fs src m left x lv lx la le l0 e :
  filled e ->
  parse fs src m left (one_line x lv lx la le (show l0 e))
  = Ok ([TVar x lx (Some e)], m, PSt [] le [] left).
Proof. intros F. apply C25_expression_text. now apply show_expr. Qed.

(** So no two expressions share a text. *)
Corollary C25_unambiguous e e' ts : expr_text e ts -> expr_text e' ts -> e = e'.
Proof.
  intros H H'.
  pose proof (C25_expression_text nofs nosrc [] [] [] ln ln ln ln e ts H) as A.
  rewrite (C25_expression_text nofs nosrc [] [] [] ln ln ln ln e' ts H') in A. congruence.
Qed.

Example C25_ex : let e := EUn UNot ln (EBin BLt ln (EIndex ln (nm "a") (EUn UNeg ln (EInt 1 ln)))
    (ECall ln (nm "f") [EArray ln [EStr (bs "s") ln; ENone ln]; EMember (bs "p") ln (bs "x") ln])) in
  filled e /\ List.length (show ln e) = 25%nat.
Proof. cbn. repeat split; try reflexivity; discriminate. Qed.
Print Assumptions C25_expression_text.
Print Assumptions C25_print_parse.
Print Assumptions C25_unambiguous.

(** ** C26: programs *)

(** A text of a program whose imports can be loaded parses to that program. *)
Theorem C26_program_text fs src m m' left is ts :
  program_text is ts -> load_all fs src m is = Some m' ->
  exists le, parse fs src m left ts = Ok (is, m', PSt [] le [] left).
Proof.
  intros HT HL. destruct (program_ok fs src is ts HT m m' (Line 0 0) left HL) as (n & l' & E).
  exists l'. apply (parse_at _ _ _ _ _ n); [|exact E].
  destruct (program_split _ _ HT) as (ts' & le & -> & H). now apply good_app.
Qed.

(** In particular the rendering of any program does. *)
Theorem C26_print_parse fs src m m' left l0 is :
  Forall filled_item is -> load_all fs src m is = Some m' ->
  exists le, parse fs src m left (show_items l0 is) = Ok (is, m', PSt [] le [] left).
Proof. intros F. apply C26_program_text. now apply show_program_text. Qed.

(** From characters to the tree: a source that splits into lexemes denoting a
    program text is parsed to that program. *)
Theorem C26_source fs src m m' left file s is ts :
  ~ In 0 s -> lexemes file 1 s ts -> program_text is ts -> load_all fs src m is = Some m' ->
  exists le, (toks <- lex file s ;; parse fs src m left toks) = Ok (is, m', PSt [] le [] left).
Proof.
  intros N0 HX HT HL. rewrite (proj2 (C74_lexical_grammar file s ts N0) HX).
  cbn [bind]. now apply C26_program_text.
Qed.

(** No program text has two readings. *)
Corollary C26_unambiguous is is' ts : program_text is ts -> program_text is' ts -> is = is'.
Proof.
  intros H H'.
  assert (L : forall is m, exists m', load_all (fun _ => Some [32]) nosrc m is = Some m').
  { clear. induction is as [|[x l e|x l e|x l a b le|p l] is IH]; intros m; cbn [load_all]; eauto.
    unfold sm_load. destruct (existsb _ _); apply IH. }
  destruct (L is []) as (m1 & L1), (L is' []) as (m2 & L2).
  destruct (C26_program_text _ _ _ _ [] _ _ H L1) as (le & A).
  destruct (C26_program_text _ _ _ _ [] _ _ H' L2) as (le' & A'). congruence.
Qed.

(** What [load_all] does without imports. *)
Lemma load_all_none fs src m is :
  (forall p l, ~ In (TImport p l) is) -> load_all fs src m is = Some m.
Proof.
  induction is as [|i is IH]; intros H; [reflexivity|].
  destruct i; cbn [load_all]; try (apply IH; intros p q Hi; apply (H p q); now right).
  exfalso. apply (H path l). now left.
Qed.

Example C26_ex :
  let is := [TConst (bs "K") ln (Some (EInt 3 ln)); TVar (bs "g") ln None;
    TFunc (bs "f") ln [(bs "a", ln); (bs "b", ln)]
      [SVar (bs "r") ln (Some (EInt 0 ln));
       SFor ln (bs "r") ln (EInt 0 ln) (nm "a")
         [SIf ln (EBin BEq ln (nm "r") (nm "b")) [SReturn ln (Some (nm "K"))]
            (Some [SSetIdx (bs "g") ln (nm "r") (nm "b"); SCall (bs "f") ln ln [nm "r"; nm "b"]])];
       SWhile ln (nm "g") []; SReturn ln None] ln] in
  Forall filled_item is /\ load_all nofs nosrc [] is = Some [].
Proof. cbn. repeat (split || constructor). Qed.

(** The same program from its source text, with blank lines and comments. *)
Example C26_source_ex :
  let s := bs "
# a comment
var g
function f(a, b)
  if (a < b)

    return a * (b + 1)
  end
end
" in
  exists is m st, (toks <- lex 0 s ;; parse nofs nosrc [] [] toks) = Ok (is, m, st) /\
    match is with [TVar _ _ None; TFunc _ _ [_; _] [SIf _ _ [SReturn _ (Some _)] None] _] => True | _ => False end.
Proof. eexists _, _, _. split; [vm_compute; reflexivity|exact I]. Qed.
Print Assumptions C26_program_text.
Print Assumptions C26_print_parse.
Print Assumptions C26_source.
Print Assumptions C26_unambiguous.

(** ** C27 (finding): unary minus *)

(** A minus sign in front of any operand of a chain ends up on the last operand. *)
Theorem C27_minus_on_last fs src m left x lv lx la le l0 xs1 xs2 z ts1 ts2 tz :
  lead xs1 ts1 -> lead xs2 ts2 -> prim z tz ->
  exists t, brackets t (xs1 ++ xs2) (EUn UNeg l0 z) /\
    parse fs src m left (one_line x lv lx la le (ts1 ++ Token TOK_SUB l0 :: ts2 ++ tz))
    = Ok ([TVar x lx (Some (tree_expr t))], m, PSt [] le [] left).
Proof.
  intros H1 H2 HZ. destruct (brackets_exists (xs1 ++ xs2) (EUn UNeg l0 z)) as (t & B).
  exists t. split; [exact B|]. apply parse_var.
  - apply lead_no_eof in H1, H2. apply (proj1 (proj2 texts_no_eof)) in HZ. neof.
  - destruct (neg_run t xs1 xs2 z l0 ts1 ts2 tz la [] left [Token TOK_EOF le] B H1 H2 HZ ltac:(stop_tac))
      as (n & l' & E).
    exists n, l'. rewrite <- E. f_equal. f_equal. repeat (rewrite <- app_assoc; cbn [app]). reflexivity.
Qed.

(** [-a o b] is read as [a o (-b)]. *)
Corollary C27_minus_pair fs src m left x lv lx la le l0 a ta o lo b tb :
  prim a ta -> prim b tb ->
  parse fs src m left (one_line x lv lx la le (Token TOK_SUB l0 :: ta ++ Token (op_token o) lo :: tb))
  = Ok ([TVar x lx (Some (EBin o lo a (EUn UNeg l0 b)))], m, PSt [] le [] left).
Proof.
  intros HA HB.
  destruct (C27_minus_on_last fs src m left x lv lx la le l0 [] [(a, o, lo)] b
              [] (ta ++ [Token (op_token o) lo]) tb) as (t & B & E);
    [constructor|apply LD_cons; [exact HA|constructor]|exact HB|].
  assert (B' : brackets (Node o lo (Leaf a) (Leaf (EUn UNeg l0 b))) [(a, o, lo)] (EUn UNeg l0 b)).
  { pose proof (level_lt6 o). repeat split; cbn [strength]; lia. }
  rewrite (brackets_unique _ _ _ _ B B') in E.
  cbn [app tree_expr] in E. rewrite <- app_assoc in E. exact E.
Qed.

(** -1 + 2 evaluates as 1 + (-2). *)
Example C27_ex : (toks <- lex 0 (bs "var x = -1 + 2") ;;
    '(is, _, _) <- parse nofs nosrc [] [] toks ;; Ok is)
  = Ok [TVar (bs "x") ln (Some (EBin BAdd ln (EInt 1 ln) (EUn UNeg ln (EInt 2 ln))))].
Proof. reflexivity. Qed.
Print Assumptions C27_minus_on_last.
Print Assumptions C27_minus_pair.

(** ** C28 (finding): not *)

(** [not] in front of any operand of a chain negates the last operand of the
    chain's [and]/[or], or the whole chain if there is none. *)
Theorem C28_not_on_last fs src m left x lv lx la le l0 xs1 xs2 z ts1 ts2 tz :
  lead xs1 ts1 -> lead xs2 ts2 -> prim z tz ->
  exists t, brackets t (xs1 ++ xs2) z /\
    parse fs src m left (one_line x lv lx la le (ts1 ++ Token TOK_NOT l0 :: ts2 ++ tz))
    = Ok ([TVar x lx (Some (not_last l0 t))], m, PSt [] le [] left).
Proof.
  intros H1 H2 HZ. destruct (brackets_exists (xs1 ++ xs2) z) as (t & B).
  exists t. split; [exact B|]. apply parse_var.
  - apply lead_no_eof in H1, H2. apply (proj1 (proj2 texts_no_eof)) in HZ. neof.
  - destruct (not_run t xs1 xs2 z l0 ts1 ts2 tz la [] left [Token TOK_EOF le] B H1 H2 HZ ltac:(stop_tac))
      as (n & l' & E).
    exists n, l'. rewrite <- E. f_equal. f_equal. repeat (rewrite <- app_assoc; cbn [app]). reflexivity.
Qed.

(** [not a and b] is read as [a and (not b)], the same for [or]. *)
Corollary C28_not_pair fs src m left x lv lx la le l0 a ta o lo b tb :
  prim a ta -> prim b tb -> o = BAnd \/ o = BOr ->
  parse fs src m left (one_line x lv lx la le (Token TOK_NOT l0 :: ta ++ Token (op_token o) lo :: tb))
  = Ok ([TVar x lx (Some (EBin o lo a (EUn UNot l0 b)))], m, PSt [] le [] left).
Proof.
  intros HA HB HO.
  destruct (C28_not_on_last fs src m left x lv lx la le l0 [] [(a, o, lo)] b
              [] (ta ++ [Token (op_token o) lo]) tb) as (t & B & E);
    [constructor|apply LD_cons; [exact HA|constructor]|exact HB|].
  assert (B' : brackets (Node o lo (Leaf a) (Leaf b)) [(a, o, lo)] b).
  { pose proof (level_lt6 o). repeat split; cbn [strength]; lia. }
  rewrite (brackets_unique _ _ _ _ B B') in E.
  cbn [app] in E. rewrite <- app_assoc in E. destruct HO; subst o; exact E.
Qed.

(** [a o not b] is read as [not (a o b)] for every other operator [o]. *)
Corollary C28_not_right fs src m left x lv lx la le l0 a ta o lo b tb :
  prim a ta -> prim b tb -> o <> BAnd -> o <> BOr ->
  parse fs src m left (one_line x lv lx la le (ta ++ Token (op_token o) lo :: Token TOK_NOT l0 :: tb))
  = Ok ([TVar x lx (Some (EUn UNot l0 (EBin o lo a b)))], m, PSt [] le [] left).
Proof.
  intros HA HB N1 N2.
  destruct (C28_not_on_last fs src m left x lv lx la le l0 [(a, o, lo)] [] b
              (ta ++ [Token (op_token o) lo]) [] tb) as (t & B & E);
    [apply LD_cons; [exact HA|constructor]|constructor|exact HB|].
  assert (B' : brackets (Node o lo (Leaf a) (Leaf b)) [(a, o, lo)] b).
  { pose proof (level_lt6 o). repeat split; cbn [strength]; lia. }
  rewrite app_nil_r in B. rewrite (brackets_unique _ _ _ _ B B') in E.
  cbn [app] in E. rewrite <- app_assoc in E. destruct o; try congruence; exact E.
Qed.

(** [a not b] is accepted as [not b]; [a] stays on the parser's operand stack. *)
Theorem C28_infix_not fs src m left x lv lx la le l0 a ta b tb :
  prim a ta -> prim b tb ->
  parse fs src m left (one_line x lv lx la le (ta ++ Token TOK_NOT l0 :: tb))
  = Ok ([TVar x lx (Some (EUn UNot l0 b))], m, PSt [] le [] (a :: left)).
Proof.
  intros HA HB. apply parse_var.
  - apply (proj1 (proj2 texts_no_eof)) in HA, HB. neof.
  - destruct (infix_not_run a b ta tb l0 la [] left [Token TOK_EOF le] HA HB ltac:(stop_tac)) as (n & l' & E).
    exists n, l'. rewrite <- E. f_equal. f_equal. repeat (rewrite <- app_assoc; cbn [app]). reflexivity.
Qed.

(** As an argument it replaces the function called: [f(a not b)] is read as
    [a(not b)]. *)
Theorem C28_infix_not_argument fs src m left x lv lx la le l0 f lf lc lr a ta b tb :
  prim a ta -> prim b tb ->
  parse fs src m left (one_line x lv lx la le
     (Token (TOK_IDENT f) lf :: Token TOK_LPAREN lc :: ta ++ Token TOK_NOT l0 :: tb ++ [Token TOK_RPAREN lr]))
  = Ok ([TVar x lx (Some (ECall lc a [EUn UNot l0 b]))], m, PSt [] le [] (EIdent f lf :: left)).
Proof.
  intros HA HB. apply parse_var.
  - pose proof (proj1 (proj2 texts_no_eof) _ _ HA). pose proof (proj1 (proj2 texts_no_eof) _ _ HB). neof.
  - destruct (infix_not_run a b ta tb l0 lc [] (EIdent f lf :: left)
                (Token TOK_RPAREN lr :: [Token TOK_EOF le]) HA HB ltac:(stop_tac)) as (n & l' & E).
    exists (S (S (S (S (S (S n)))))), lr.
    replace ((Token (TOK_IDENT f) lf :: Token TOK_LPAREN lc :: ta ++ Token TOK_NOT l0 :: tb ++ [Token TOK_RPAREN lr])
               ++ [Token TOK_EOF le])
      with (Token (TOK_IDENT f) lf :: Token TOK_LPAREN lc :: ta ++ Token TOK_NOT l0 :: tb ++
              Token TOK_RPAREN lr :: [Token TOK_EOF le])
      by (cbn [app]; repeat (rewrite <- app_assoc; cbn [app]); reflexivity).
    rewrite parse_expr_S. cbv zeta. cbn [p_ops].
    rewrite (expr_ex_prim _ _ (PSt (Token (TOK_IDENT f) lf :: Token TOK_LPAREN lc :: ta ++ Token TOK_NOT l0 :: tb ++
              Token TOK_RPAREN lr :: [Token TOK_EOF le]) la [] left) _ _ eq_refl) by discriminate.
    rewrite parse_lhs_S. pstep. rewrite parse_suffix_S. pstep. rewrite parse_call_S.
    assert (HF : forall st rest', found K_RPAREN (PSt (ta ++ rest') lc [] st)
                 = Ok (None, PSt (ta ++ rest') lc [] st)).
    { intros st rest'. destruct (proj1 (proj2 texts_ok) _ _ HA) as ((t & r & -> & _ & _ & _) & H).
      cbn [app]. apply (found_miss _ (PSt (t :: r ++ rest') lc [] st) t (r ++ rest') eq_refl). intros K.
      destruct (H lc [] st [Token TOK_EOF le] ltac:(cbn; discriminate)) as (l1 & HH).
      destruct (HH 1%nat _ (suffix_stop 0 (PSt [Token TOK_EOF le] l1 [] (a :: st)) ltac:(stop_tac))) as (k & E2).
      apply bind_ok in E2 as (s2 & E2 & _). destruct k; [discriminate E2|]. rewrite parse_lhs_S in E2.
      cbn [app] in E2.
      repeat (rewrite (found_miss _ (PSt (t :: r ++ [Token TOK_EOF le]) lc [] st) t (r ++ [Token TOK_EOF le]) eq_refl) in E2
               by (rewrite K; discriminate); cbn [bind] in E2).
      cbn [pop p_toks bind] in E2. unfold perr in E2. rewrite K in E2. discriminate E2. }
    rewrite HF. cbn [bind]. rewrite parse_exprs_S.
    rewrite (expr_up _ _ _ _ E) by lia. pstep. rewrite parse_suffix_S. pstep.
    reflexivity.
Qed.

Example C28_ex : (toks <- lex 0 (bs "var x = not a and b
var y = a == not b
var z = f(a not b)") ;;
    '(is, _, _) <- parse nofs nosrc [] [] toks ;; Ok is)
  = Ok [TVar (bs "x") ln (Some (EBin BAnd ln (nm "a") (EUn UNot ln (nm "b"))));
        TVar (bs "y") (Line 0 2) (Some (EUn UNot (Line 0 2)
          (EBin BEq (Line 0 2) (EIdent (bs "a") (Line 0 2)) (EIdent (bs "b") (Line 0 2)))));
        TVar (bs "z") (Line 0 3) (Some (ECall (Line 0 3) (EIdent (bs "a") (Line 0 3))
          [EUn UNot (Line 0 3) (EIdent (bs "b") (Line 0 3))]))].
Proof. reflexivity. Qed.
Print Assumptions C28_not_on_last.
Print Assumptions C28_not_pair.
Print Assumptions C28_not_right.
Print Assumptions C28_infix_not.
Print Assumptions C28_infix_not_argument.

(** ** C29: termination within the token stream *)

(** Parsing a token list that ends with its only end-of-file token either
    succeeds having consumed every token, reports an error, or trips the assert of
    the error reporter, the latter only if the list holds an [import]; in
    particular it neither runs away nor reads past the end. *)
Theorem C29_terminates fs src m left ts le :
  ~ In TOK_EOF (map tk ts) ->
  match parse fs src m left (ts ++ [Token TOK_EOF le]) with
  | Ok (_, _, s) => p_toks s = [] /\ p_ops s = []
  | Err _ _ => True
  | Stuck x => x = SAssert /\ In TOK_IMPORT (map tk ts)
  end.
Proof.
  intros H.
  assert (G : good (In TOK_IMPORT (map tk ts)) (ts ++ [Token TOK_EOF le])).
  { assert (G : forall (imp : Prop) ts, ~ In TOK_EOF (map tk ts) -> (In TOK_IMPORT (map tk ts) -> imp) ->
                  good imp (ts ++ [Token TOK_EOF le])).
    { clear. induction ts as [|t ts IH]; intros H HI; cbn [app good].
      - split; [discriminate|reflexivity].
      - split.
        + intros K. apply HI. left. destruct (tk t); try discriminate K. reflexivity.
        + destruct (kind_eqb (kind_of (tk t)) K_EOF) eqn:K.
          * exfalso. apply H. left. apply kind_eqb_eq in K. destruct (tk t); try discriminate K. reflexivity.
          * apply IH; [|intros HH; apply HI; now right]. intros HH; apply H; now right. }
    apply G; [exact H|auto]. }
  pose proof (items_safe _ fs src (parse_fuel (ts ++ [Token TOK_EOF le])) m
                (PSt (ts ++ [Token TOK_EOF le]) (Line 0 0) [] left) G) as S.
  specialize (S ltac:(unfold parse_fuel, len; cbn [p_toks]; lia)).
  unfold parse. destruct (parse_items _ _ _ _ _) as [[[a b] c]| |]; cbn [okout p_ops] in S; auto.
Qed.

(** So the front end is total on source texts that can be lexed: the result of
    lexing always qualifies. *)
Theorem C29_front_end fs src m left file s toks :
  lex file s = Ok toks ->
  match parse fs src m left toks with
  | Ok (_, _, st) => p_toks st = [] /\ p_ops st = []
  | Err _ _ => True
  | Stuck x => x = SAssert /\ In TOK_IMPORT (map tk toks)
  end.
Proof.
  intros H. pose proof (lex_from_outcomes file (List.length (cstr s)) (cstr s) 1 (le_n _)) as O.
  unfold lex in H. rewrite H in O. destruct O as (ts' & -> & NE).
  pose proof (C29_terminates fs src m left ts' (Line file (1 + newlines (cstr s))) NE) as T.
  destruct (parse _ _ _ _ _) as [[[? ?] ?]| |]; auto.
  destruct T as [-> T]. split; [reflexivity|]. rewrite map_app, in_app_iff. auto.
Qed.

Example C29_ex : exists toks l, lex 0 (bs "function f( ((( 1 + ] end") = Ok toks /\
  parse nofs nosrc [] [] toks = Err E_unexpected_token l.
Proof. eexists _, _. split; reflexivity. Qed.
Print Assumptions C29_terminates.
Print Assumptions C29_front_end.

(** ** C75 (finding): an unexpected token at top level is blamed on its successor *)
Theorem C75_wrong_token fs src m left t t2 rest :
  ~ In (tk t) [TOK_EOL; TOK_VAR; TOK_CONST; TOK_FUNC; TOK_IMPORT; TOK_EOF] ->
  tk t2 <> TOK_IMPORT ->
  parse fs src m left (t :: t2 :: rest) = Err E_unexpected_token (l_line (tk_line t2)).
Proof.
  intros H H2. unfold parse, parse_fuel.
  replace (4 * List.length (t :: t2 :: rest) + 16)%nat with (S (4 * List.length (t :: t2 :: rest) + 15)) by lia.
  rewrite parse_items_S. unfold found, ptype. cbn [p_toks bind pop].
  assert (K : kind_eqb (kind_of (tk t)) K_EOF = false)
    by (destruct (tk t); try reflexivity; exfalso; apply H; cbn; tauto).
  rewrite K. cbn [bind pop p_toks p_ops p_exp].
  assert (P : forall l, perr (A := list item * list source_t * pst) E_unexpected_token l t2
              = Err E_unexpected_token (l_line l))
    by (intros l; unfold perr; destruct (tk t2); try reflexivity; congruence).
  destruct (tk t); cbn [kind_of]; try (rewrite P; reflexivity); exfalso; apply H; cbn; tauto.
Qed.

(** The stray [x] is on line 1; line 2 is reported. *)
Example C75_ex : exists toks, lex 0 (bs "x
var y") = Ok toks /\ parse nofs nosrc [] [] toks = Err E_unexpected_token 2 /\
  match toks with t :: _ => tk_line t = Line 0 1 | [] => False end.
Proof. eexists. repeat split; reflexivity. Qed.
Print Assumptions C75_wrong_token.

(** ** C76 (finding): a function body of blank lines only is rejected *)

(** An empty body is accepted (C26); with one or more blank lines in it, it is
    an error. *)
Theorem C76_blank_body fs src m left x lf lx l1 l2 l3 ps tps blank lend rest :
  (ps = [] /\ tps = []) \/ params_text ps tps -> eols blank -> blank <> [] ->
  parse fs src m left
    (Token TOK_FUNC lf :: Token (TOK_IDENT x) lx :: Token TOK_LPAREN l1 :: tps
       ++ Token TOK_RPAREN l2 :: Token TOK_EOL l3 :: blank ++ Token TOK_END lend :: rest)
  = Err E_statement_expected (l_line lend).
Proof.
  intros HP HB NB. unfold parse, parse_fuel.
  set (N := List.length _).
  replace (4 * N + 16)%nat with (S (S (S (4 * N + 13)))) by lia.
  rewrite parse_items_S. pstep. unfold parse_function. pstep.
  set (R := blank ++ Token TOK_END lend :: rest) in *.
  assert (HBODY : forall k l st, parse_body (S (S k)) (PSt R l [] st) = Err E_statement_expected (l_line lend)).
  { intros k l st. rewrite parse_body_S.
    assert (HF : found K_END (PSt R l [] st) = Ok (None, PSt R l [] st)).
    { unfold R. destruct HB as [|t blank Ht HB]; [congruence|]. cbn [app].
      eapply found_miss; [reflexivity|]. rewrite Ht. discriminate. }
    rewrite HF. cbn [bind]. rewrite parse_stmt_S.
    destruct (skip_eols_app blank (Token TOK_END lend :: rest) l [] st HB ltac:(cbn; discriminate)) as (l' & E).
    unfold R. rewrite E. cbn [bind]. pstep. reflexivity. }
  destruct HP as [[-> ->]|HP].
  - pstep. rewrite HBODY. reflexivity.
  - assert (HF : found K_RPAREN (PSt (tps ++ Token TOK_RPAREN l2 :: Token TOK_EOL l3 :: R) l1 [] left)
       = Ok (None, PSt (tps ++ Token TOK_RPAREN l2 :: Token TOK_EOL l3 :: R) l1 [] left)).
    { destruct HP; cbn [app]; (eapply found_miss; [reflexivity|discriminate]). }
    rewrite HF. cbn [bind].
    assert (LEN : (List.length tps <= N)%nat).
    { unfold N. cbn [List.length]. rewrite app_length. lia. }
    assert (HA : forall ps tps, params_text ps tps -> forall n l ops es rest,
        (List.length tps < n)%nat -> head_is (fun k => k <> K_COMMA) rest ->
        exists l', parse_args n (PSt (tps ++ rest) l ops es) = Ok (ps, PSt rest l' ops es)).
    { clear. induction 1 as [y ly|y ly lc ps ts H IH]; intros n l ops es rest L HR;
        (destruct n as [|n]; [lia|]).
      - exists ly. rewrite parse_args_S. pstep. destruct rest as [|t rest]; [destruct HR|].
        rewrite (found_miss _ (PSt (t :: rest) ly ops es) t rest eq_refl HR). reflexivity.
      - destruct (IH n lc ops es rest ltac:(cbn [List.length] in L; lia) HR) as (l' & E).
        exists l'. rewrite parse_args_S. pstep. rewrite E. reflexivity. }
    destruct (HA _ _ HP (S (S (4 * N + 13))) l1 [] left (Token TOK_RPAREN l2 :: Token TOK_EOL l3 :: R)
               ltac:(lia) ltac:(cbn; discriminate)) as (l' & E).
    rewrite E. pstep. rewrite HBODY. reflexivity.
Qed.

Example C76_ex : exists t1 t2 is m st,
  lex 0 (bs "function f()
end") = Ok t1 /\ lex 0 (bs "function f()

end") = Ok t2 /\ parse nofs nosrc [] [] t1 = Ok (is, m, st) /\
  parse nofs nosrc [] [] t2 = Err E_statement_expected 3.
Proof. eexists _, _, _, _, _. repeat split; reflexivity. Qed.
Print Assumptions C76_blank_body.

(** ** C77 (finding): some syntax errors abort the process *)

(** [import] not followed by a string: the message for the error asks for the name
    of the string token, which has none. *)
Theorem C77_import_abort fs src m left li t rest :
  (forall s, tk t <> TOK_STRING s) ->
  parse fs src m left (Token TOK_IMPORT li :: t :: rest) = Stuck SAssert.
Proof.
  intros H. unfold parse, parse_fuel.
  set (N := List.length _). replace (4 * N + 16)%nat with (S (4 * N + 15)) by lia.
  rewrite parse_items_S. pstep. unfold parse_import, popk, found, ptype. cbn [p_toks bind].
  replace (kind_eqb (kind_of (tk t)) K_STRING) with false
    by (destruct (tk t) eqn:E; try reflexivity; exfalso; eapply H; reflexivity).
  reflexivity.
Qed.

(** The word [import] where a name is expected. *)
Theorem C77_var_import_abort fs src m left lv li rest :
  parse fs src m left (Token TOK_VAR lv :: Token TOK_IMPORT li :: rest) = Stuck SAssert.
Proof.
  unfold parse, parse_fuel.
  set (N := List.length _). replace (4 * N + 16)%nat with (S (4 * N + 15)) by lia.
  rewrite parse_items_S. pstep. reflexivity.
Qed.

Example C77_ex : exists toks, lex 0 (bs "import 5") = Ok toks /\
  parse nofs nosrc [] [] toks = Stuck SAssert.
Proof. eexists. split; reflexivity. Qed.
Print Assumptions C77_import_abort.
Print Assumptions C77_var_import_abort.
