(** Lexer properties C17-C23 and C74. *)
From Coq Require Import ZArith List Bool Lia ZifyBool String.
From Verif Require Import Base BaseFacts F32 Lexer LexSpec LexFacts.
From Verif Require InstrProofs.
Import ListNotations.
Open Scope Z_scope.

Lemma cstr_id s : ~ In 0 s -> cstr s = s.
Proof.
  induction s as [|c s IH]; intros H; [reflexivity|]. cbn [cstr].
  destruct (Z.eqb_spec c 0); [subst; exfalso; apply H; left; reflexivity|].
  rewrite IH; [reflexivity|]. intros Hi; apply H; right; assumption.
Qed.

Lemma lex_text file s : ~ In 0 s -> lex file s = lex_from file 1 s.
Proof. intros H. unfold lex. rewrite cstr_id by assumption. reflexivity. Qed.

(** ** C74: the lexer implements the lexical grammar *)

(** A source text is accepted with tokens [ts] iff it splits into maximal
    lexemes denoting [ts]. *)
Theorem C74_lexical_grammar file s ts : ~ In 0 s ->
  (lex file s = Ok ts <-> lexemes file 1 s ts).
Proof. intros H. rewrite lex_text by assumption. apply lex_from_lexemes. Qed.

(** In particular a text has at most one such reading. *)
Corollary C74_unambiguous file line s ts1 ts2 :
  lexemes file line s ts1 -> lexemes file line s ts2 -> ts1 = ts2.
Proof. intros H1 H2. apply lex_from_lexemes in H1, H2. congruence. Qed.

Example C74_ex : exists ts, lex 0 (bs "x=1.5 # c
y <= ""s"" ANDy and 7") = Ok ts /\
  map tk ts = [TOK_IDENT (bs "x"); TOK_ASSIGN; TOK_FLOAT (f_div (f_of_int 15) (f_of_int 10));
               TOK_EOL; TOK_IDENT (bs "y"); TOK_LEQ; TOK_STRING (bs "s");
               TOK_IDENT (bs "ANDy"); TOK_AND; TOK_INT 7; TOK_EOF].
Proof. eexists. split; reflexivity. Qed.

(** ** C17: lexing is total *)

(** All numbers written anywhere in [s] fit the 32-bit accumulators. *)
Definition literals_fit (s : bytes) : Prop :=
  forall p n q, s = p ++ n ++ q ->
    (number_run n -> decimal n < 2 ^ 31) /\
    (forall ds fs, n = ds ++ 46 :: fs -> number_run ds -> Forall digit fs ->
       decimal (ds ++ fs) < 2 ^ 31 /\ 10 ^ zlen fs < 2 ^ 31).

Lemma literals_fit_app u v : literals_fit (u ++ v) -> literals_fit v.
Proof. intros H p n q E. apply (H (u ++ p) n q). rewrite E, <- app_assoc. reflexivity. Qed.

Lemma lex1_fits file line c r : literals_fit (c :: r) ->
  lex1 file line c r <> Stuck SOverflow.
Proof.
  intros Hf H. pose proof (lex1_outcomes file line c r) as Ho. rewrite H in Ho.
  pose proof Ho as Hd. unfold digit in Hd.
  unfold lex1 in H.
  replace (is_blank c) with false in H by (unfold is_blank; lia).
  replace (c =? 34) with false in H by lia. replace (c =? 35) with false in H by lia.
  rewrite find_none_nonletter in H by (unfold letter; lia).
  destruct (punct c); [discriminate|]. destruct (c =? 10); [discriminate|].
  destruct (punct_eq c) as [[t1 t2]|]; [destruct (cur r =? 61); discriminate|].
  replace (is_numeric c) with true in H by (unfold is_numeric; lia).
  destruct (scan_number (c :: r)) as [nn tt] eqn:Es.
  destruct (scan_number_spec _ _ _ c r eq_refl Ho Es) as (Happ & Hcase).
  destruct (Hf [] nn tt Happ) as (Hint & Hflt).
  destruct Hcase as [(Hn & He)|(ds & fs & -> & Hds & Hfs & He)].
  - rewrite (push_val_int nn Hn) in H. specialize (Hint Hn).
    replace (decimal nn <? 2 ^ 31) with true in H by lia. discriminate.
  - rewrite (push_val_float ds fs Hds Hfs) in H.
    destruct (Hflt ds fs eq_refl Hds Hfs).
    replace ((decimal (ds ++ fs) <? 2 ^ 31) && (10 ^ zlen fs <? 2 ^ 31)) with true in H by lia.
    discriminate.
Qed.

Lemma place_run s : ~ In 34 s -> ~ In 35 s -> fold_left place_step s PCode = PCode.
Proof.
  induction s as [|c s IH]; intros H1 H2; [reflexivity|]. cbn [fold_left place_step].
  destruct (Z.eqb_spec c 34); [subst; exfalso; apply H1; left; reflexivity|].
  destruct (Z.eqb_spec c 35); [subst; exfalso; apply H2; left; reflexivity|].
  apply IH; intros Hi; [apply H1|apply H2]; right; assumption.
Qed.

Lemma place_comment s : ~ In 10 s -> fold_left place_step s PComment = PComment.
Proof.
  induction s as [|c s IH]; intros H; [reflexivity|]. cbn [fold_left place_step].
  destruct (Z.eqb_spec c 10); [subst; exfalso; apply H; left; reflexivity|].
  apply IH. intros Hi; apply H; right; assumption.
Qed.
Lemma place_string s : ~ In 34 s -> fold_left place_step s PString = PString.
Proof.
  induction s as [|c s IH]; intros H; [reflexivity|]. cbn [fold_left place_step].
  destruct (Z.eqb_spec c 34); [subst; exfalso; apply H; left; reflexivity|].
  apply IH. intros Hi; apply H; right; assumption.
Qed.

Lemma digits_plain w c : Forall digit w -> In c w -> 48 <= c <= 57.
Proof. rewrite Forall_forall. intros H Hi. apply (H _ Hi). Qed.

Lemma lexeme_place u k : lexeme u k -> fold_left place_step u PCode = PCode.
Proof.
  intros H; inversion H; subst.
  - unfold blank in *. cbn [fold_left place_step].
    replace (c =? 34) with false by lia. replace (c =? 35) with false by lia. reflexivity.
  - reflexivity.
  - cbn [fold_left place_step]. cbn [Z.eqb Pos.eqb]. rewrite fold_left_app, place_comment by assumption. reflexivity.
  - cbn [fold_left place_step]. cbn [Z.eqb Pos.eqb]. rewrite fold_left_app, place_string by assumption. reflexivity.
  - assert (Hw : forall c, In c u -> name_char c).
    { destruct H0 as (c & r & -> & Hc & Hr). rewrite Forall_forall in Hr.
      intros x [<-|Hx]; [left; assumption|auto]. }
    apply place_run; intros Hi; specialize (Hw _ Hi);
      unfold name_char, letter, digit in Hw; lia.
  - unfold symbols in H0. cbn [In] in H0.
    repeat match type of H0 with _ \/ _ => destruct H0 as [H0|H0] end;
      try contradiction; inversion H0; subst; reflexivity.
  - destruct H0 as [_ Hd]. apply place_run;
      intros Hi; pose proof (digits_plain _ _ Hd Hi); lia.
  - destruct H0 as [_ Hd]. apply place_run;
      intros Hi; apply in_app_or in Hi as [Hi|[Hi|Hi]]; try lia;
      [pose proof (digits_plain _ _ Hd Hi)|pose proof (digits_plain _ _ H1 Hi)
      |pose proof (digits_plain _ _ Hd Hi)|pose proof (digits_plain _ _ H1 Hi)]; lia.
Qed.

Lemma lex_from_outcomes file : forall nn s line, (List.length s <= nn)%nat ->
  match lex_from file line s with
  | Ok ts => exists ts', ts = ts' ++ [Token TOK_EOF (Line file (line + newlines s))] /\
                         ~ In TOK_EOF (map tk ts')
  | Err e l => True
  | Stuck SOob => fold_left place_step s PCode = PComment
  | Stuck SOverflow => ~ literals_fit s
  | Stuck _ => False
  end.
Proof.
  induction nn as [|nn IH]; intros s line Hn.
  { destruct s; [|cbn in Hn; lia]. rewrite lex_from_nil. exists []. split; [|cbn; tauto].
    cbn [app]. change (newlines []) with 0. rewrite Z.add_0_r. reflexivity. }
  destruct s as [|c r].
  { rewrite lex_from_nil. exists []. split; [|cbn; tauto].
    cbn [app]. change (newlines []) with 0. rewrite Z.add_0_r. reflexivity. }
  rewrite lex_from_cons. pose proof (lex1_outcomes file line c r) as Ho.
  destruct (lex1 file line c r) as [[[t l'] v]|e l|x] eqn:E; cbn [bind]; [|exact I|].
  - pose proof (lex1_shorter _ _ _ _ _ _ _ E). cbn [List.length] in Hn.
    specialize (IH v l' ltac:(lia)).
    destruct (lex1_sound _ _ _ _ _ _ _ E) as (u & k & Eu & Hne & Hl & He & Hl' & Ht).
    rewrite Eu. destruct (lex_from file l' v) as [ts0|e ll|x] eqn:E2; cbn [bind]; [|exact I|].
    + destruct IH as (ts' & -> & Hno).
      exists (match t with Some t' => t' :: ts' | None => ts' end).
      rewrite newlines_app, Z.add_assoc, <- Hl'. split; [destruct t; reflexivity|].
      subst t. destruct k; cbn [at_line option_map map]; [|assumption].
      cbn [map In tk]. intros [Hk|Hk]; [|contradiction]. subst t.
      inversion Hl; subst.
      * unfold word_tok in *. destruct (find _ reserved) as [p|] eqn:Ef; [|discriminate].
        apply find_some in Ef as [Ef _].
        unfold reserved in Ef. cbn [In] in Ef.
        repeat match type of Ef with _ \/ _ => destruct Ef as [Ef|Ef] end;
          try contradiction; subst p; discriminate.
      * unfold symbols in *. cbn [In] in *.
        repeat match goal with H : _ \/ _ |- _ => destruct H as [H|H] end; try contradiction; discriminate.
    + destruct x; try contradiction.
      * intros Hf. apply IH. eapply literals_fit_app; eassumption.
      * rewrite fold_left_app, (lexeme_place u k Hl). assumption.
  - destruct x; try contradiction.
    + intros Hf. eapply lex1_fits; eassumption.
    + destruct Ho as [-> Hr]. cbn [fold_left place_step]. cbn [Z.eqb Pos.eqb].
      apply place_comment. assumption.
Qed.

(** A source text that does not end inside a comment and whose numbers fit is
    either rejected with an error or lexed to a list of tokens with exactly one
    end-of-file token, at the end.  No other outcome is possible, in particular
    no read outside the buffer. *)
Theorem C17_total file s :
  ~ In 0 s -> place_after s <> PComment -> literals_fit s ->
  (exists ts, lex file s = Ok (ts ++ [Token TOK_EOF (Line file (1 + newlines s))]) /\
              ~ In TOK_EOF (map tk ts)) \/
  (exists e l, lex file s = Err e l).
Proof.
  intros H0 Hp Hf. rewrite lex_text by assumption.
  pose proof (lex_from_outcomes file (List.length s) s 1 (le_n _)) as H.
  destruct (lex_from file 1 s) as [ts|e l|x].
  - left. destruct H as (ts' & -> & Hn). eauto.
  - right. eauto.
  - destruct x; try contradiction.
Qed.

(** Without the side conditions two more outcomes exist, each for one reason. *)
Theorem C17_outcomes file s : ~ In 0 s ->
  match lex file s with
  | Ok _ | Err _ _ => True
  | Stuck SOob => place_after s = PComment
  | Stuck SOverflow => ~ literals_fit s
  | Stuck _ => False
  end.
Proof.
  intros H0. rewrite lex_text by assumption.
  pose proof (lex_from_outcomes file (List.length s) s 1 (le_n _)) as H.
  destruct (lex_from file 1 s) as [ts|e l|x]; auto.
Qed.

Example C17_ex :
  let s := bs "var x = 3 # three
" in ~ In 0 s /\ place_after s <> PComment /\ exists ts, lex 0 s = Ok ts.
Proof.
  cbv zeta. repeat split.
  - cbn. intuition discriminate.
  - discriminate.
  - eexists. reflexivity.
Qed.

(** ** Putting texts together *)

(** [may_join a b]: characters that can be adjacent inside one lexeme. *)
Definition may_join (a b : Z) : Prop :=
  (name_char a /\ name_char b) \/ (digit a /\ b = 46) \/ (a = 46 /\ digit b) \/
  ((a = 61 \/ a = 60 \/ a = 62) /\ b = 61).

(** The last character of [p] and the first of [q] do not join. *)
Definition separate (p q : bytes) : Prop :=
  forall p' a c q', p = p' ++ [a] -> q = c :: q' -> ~ may_join a c.

Lemma last_Forall {A} (P : A -> Prop) l : l <> [] -> Forall P l ->
  exists l' a, l = l' ++ [a] /\ P a.
Proof.
  intros Hne H. destruct (exists_last Hne) as (l' & a & ->). apply Forall_app in H as [_ H].
  inversion H; subst. eauto.
Qed.

Lemma extends_join u c : extends u c -> exists u' a, u = u' ++ [a] /\ may_join a c.
Proof.
  intros H; inversion H; subst.
  - destruct H0 as (x & r & -> & Hx & Hr).
    destruct (last_Forall name_char (x :: r)) as (l' & a & -> & Ha);
      [discriminate|constructor; [left|]; assumption|].
    exists l', a. split; [reflexivity|]. left; auto.
  - destruct H0 as [Hne Hd]. destruct (last_Forall digit u Hne Hd) as (l' & a & -> & Ha).
    exists l', a. split; [reflexivity|].
    destruct H1 as [H1| ->]; [left; split; right; assumption|right; left; auto].
  - destruct fs as [|f fs].
    + exists ds, 46. split; [reflexivity|]. right; right; left; auto.
    + destruct (last_Forall digit (f :: fs)) as (l' & a & E & Ha); [discriminate|assumption|].
      exists (ds ++ 46 :: l'), a. rewrite E. split; [rewrite <- app_assoc; reflexivity|].
      left; split; right; assumption.
  - destruct H0 as [->|[->| ->]]; exists []; eexists; (split; [reflexivity|]); right; right; right; auto.
Qed.

Lemma lex_from_app file line p q tsp :
  lex_from file line p = Ok tsp -> separate p q ->
  exists ts, tsp = ts ++ [Token TOK_EOF (Line file (line + newlines p))] /\
    lex_from file line (p ++ q) =
    (tq <- lex_from file (line + newlines p) q ;; Ok (ts ++ tq)).
Proof.
  intros H. apply lex_from_lexemes in H.
  induction H as [line|line u s ts Hu H IH|line u t s ts Hu He H IH]; intros Hs.
  - exists []. cbn [app]. change (newlines []) with 0. rewrite Z.add_0_r.
    split; [reflexivity|]. destruct (lex_from file line q); reflexivity.
  - destruct IH as (ts' & -> & Hq).
    { intros p' a c q' -> Ec. apply (Hs (u ++ p') a c q'); [rewrite app_assoc; reflexivity|assumption]. }
    exists ts'. rewrite newlines_app, Z.add_assoc. split; [reflexivity|].
    rewrite <- app_assoc.
    rewrite (lex_from_lexeme file line u None (s ++ q) Hu (blank_ends _ _ Hu)), Hq.
    destruct (lex_from file (line + newlines u + newlines s) q); reflexivity.
  - destruct IH as (ts' & -> & Hq).
    { intros p' a c q' -> Ec. apply (Hs (u ++ p') a c q'); [rewrite app_assoc; reflexivity|assumption]. }
    exists (Token t (Line file (line + newlines u)) :: ts').
    rewrite newlines_app, Z.add_assoc. split; [reflexivity|].
    rewrite <- app_assoc.
    rewrite (lex_from_lexeme file line u (Some t) (s ++ q) Hu), Hq.
    + destruct (lex_from file (line + newlines u + newlines s) q); reflexivity.
    + intros c r E. destruct s as [|x s].
      * cbn [app] in E. intros Hx. destruct (extends_join _ _ Hx) as (u' & a & -> & Hj).
        apply (Hs u' a c r); [rewrite app_nil_r; reflexivity|assumption|assumption].
      * cbn [app] in E. inversion E; subst. apply (He c s). reflexivity.
Qed.

(** ** C18: a comment on the last line *)

(** If the text before it lexes, a comment that is not followed by a newline
    sends the lexer past the terminating NUL. *)
Theorem C18_comment_at_eof file p ts c :
  ~ In 0 p -> ~ In 0 c -> lex file p = Ok ts -> ~ In 10 c ->
  lex file (p ++ 35 :: c) = Stuck SOob.
Proof.
  intros Hp Hc H Hn. rewrite lex_text in H by assumption. rewrite lex_text.
  2:{ intros Hi. apply in_app_or in Hi as [Hi|[Hi|Hi]]; [contradiction|lia|contradiction]. }
  destruct (lex_from_app file 1 p (35 :: c) ts H) as (ts' & _ & ->).
  - intros p' a x q' _ E. inversion E; subst. unfold may_join, name_char, letter, digit. lia.
  - rewrite lex_from_cons.
    replace (lex1 file (1 + newlines p) 35 c) with (@Stuck (option token * Z * bytes) SOob); [reflexivity|].
    unfold lex1. cbn [is_blank Z.eqb Pos.eqb orb].
    assert (E : span not_newline ((35 :: c) ++ []) = (35 :: c, [])).
    { apply span_app; [|discriminate]. apply in_not_newline. intros [Hi|Hi]; [lia|contradiction]. }
    rewrite app_nil_r in E. rewrite E. reflexivity.
Qed.

Example C18_ex : exists ts, lex 0 (bs "var x = 1 ") = Ok ts /\
  lex 0 (bs "var x = 1 # one") = Stuck SOob.
Proof. eexists. split; reflexivity. Qed.

(** ** C20: words *)

(** A maximal run of name characters that starts with a letter, after any text
    that lexes, is one token: the keyword it spells in any letter case, or else
    an identifier spelled as written. *)
Theorem C20_words file p w q tsp :
  ~ In 0 (p ++ w ++ q) -> name w -> lex file p = Ok tsp ->
  (forall p' a, p = p' ++ [a] -> ~ name_char a) ->
  (forall c q', q = c :: q' -> ~ name_char c) ->
  exists ts t, tsp = ts ++ [Token TOK_EOF (Line file (1 + newlines p))] /\
    lex file (p ++ w ++ q) =
      (tq <- lex_from file (1 + newlines p) q ;;
       Ok (ts ++ Token t (Line file (1 + newlines p)) :: tq)) /\
    ((exists kw, In (kw, t) reserved /\ map lower_char w = kw) \/
     (t = TOK_IDENT w /\ forall kw k, In (kw, k) reserved -> map lower_char w <> kw)).
Proof.
  intros H0 Hw H Hl Hr.
  rewrite lex_text in H.
  2:{ intros Hi; apply H0; apply in_or_app; left; assumption. }
  rewrite lex_text by assumption.
  destruct (lex_from_app file 1 p (w ++ q) tsp H) as (ts & Ets & Hpq).
  { destruct Hw as (c & r & -> & Hc & _). intros p' a x q' Ep Eq.
    cbn [app] in Eq. inversion Eq; subst x q'. specialize (Hl p' a Ep).
    unfold may_join, name_char, letter, digit in *. lia. }
  exists ts, (word_tok w). split; [assumption|]. split.
  - rewrite Hpq, (lex_from_lexeme file _ w (Some (word_tok w)) q).
    + rewrite (name_newlines w Hw), Z.add_0_r.
      destruct (lex_from file (1 + newlines p) q); reflexivity.
    + constructor; assumption.
    + intros c r E. rewrite (extends_word w c Hw). eauto.
  - unfold word_tok. destruct (find _ reserved) as [[kw t]|] eqn:Ef.
    + left. apply find_some in Ef as [Hin Heq]. exists kw. split; [assumption|].
      apply bytes_eqb_eq in Heq. assumption.
    + right. split; [reflexivity|]. intros kw k Hin E.
      pose proof (find_none _ _ Ef (kw, k) Hin) as Hn. cbv beta in Hn. cbn [fst] in Hn.
      rewrite E, bytes_eqb_refl in Hn. discriminate.
Qed.

Example C20_ex : exists ts1 ts2, lex 0 (bs "(Whilex)") = Ok ts1 /\ lex 0 (bs "(WhILE)") = Ok ts2 /\
  map tk ts1 = [TOK_LPAREN; TOK_IDENT (bs "Whilex"); TOK_RPAREN; TOK_EOF] /\
  map tk ts2 = [TOK_LPAREN; TOK_WHILE; TOK_RPAREN; TOK_EOF].
Proof. eexists. eexists. repeat split; reflexivity. Qed.

(** ** C21: integer literals *)
Theorem C21_integers file p ds q tsp :
  ~ In 0 (p ++ ds ++ q) -> number_run ds -> lex file p = Ok tsp ->
  (forall p' a, p = p' ++ [a] -> ~ name_char a /\ a <> 46) ->
  (forall c q', q = c :: q' -> ~ digit c /\ c <> 46) ->
  exists ts, tsp = ts ++ [Token TOK_EOF (Line file (1 + newlines p))] /\
    lex file (p ++ ds ++ q) =
      if decimal ds <? 2 ^ 31
      then (tq <- lex_from file (1 + newlines p) q ;;
            Ok (ts ++ Token (TOK_INT (decimal ds)) (Line file (1 + newlines p)) :: tq))
      else Stuck SOverflow.
Proof.
  intros H0 Hw H Hl Hr.
  rewrite lex_text in H.
  2:{ intros Hi; apply H0; apply in_or_app; left; assumption. }
  rewrite lex_text by assumption.
  destruct (lex_from_app file 1 p (ds ++ q) tsp H) as (ts & Ets & Hpq).
  { destruct (first_digit ds q Hw) as (c & r & -> & Hc). intros p' a x q' Ep Eq.
    inversion Eq; subst x q'. specialize (Hl p' a Ep).
    unfold may_join, name_char, letter, digit in *. lia. }
  exists ts. split; [assumption|].
  rewrite Hpq. destruct (decimal ds <? 2 ^ 31) eqn:Eo.
  - rewrite (lex_from_lexeme file _ ds (Some (TOK_INT (decimal ds))) q).
    + rewrite (digits_no_newline ds (proj2 Hw)), Z.add_0_r.
      destruct (lex_from file (1 + newlines p) q); reflexivity.
    + constructor; [assumption|lia].
    + intros c r E. rewrite (extends_int ds c Hw). specialize (Hr c r E). tauto.
  - destruct ds as [|c ds]; [destruct Hw; contradiction|]. cbn [app]. rewrite lex_from_cons.
    destruct Hw as [Hne Hd]. pose proof Hd as Hd'. inversion Hd' as [|? ? Hc Hu]; subst.
    assert (Hs : span is_numeric (c :: ds ++ q) = (c :: ds, q)).
    { change (c :: ds ++ q) with ((c :: ds) ++ q). apply span_app.
      - apply Forall_digit_iff. assumption.
      - intros x y Hx. destruct (is_numeric x) eqn:Ex; [|reflexivity].
        exfalso. apply is_numeric_iff in Ex. apply (proj1 (Hr x y Hx)). assumption. }
    assert (Hsn : scan_number (c :: ds ++ q) = (c :: ds, q)).
    { unfold scan_number. rewrite Hs. destruct q as [|x q]; [reflexivity|].
      destruct (Z.eqb_spec x 46); [|reflexivity]. exfalso. apply (proj2 (Hr x q eq_refl)). assumption. }
    unfold digit in Hc.
    unfold lex1. replace (is_blank c) with false by (unfold is_blank; lia).
    replace (c =? 34) with false by lia. replace (c =? 35) with false by lia.
    rewrite find_none_nonletter by (unfold letter; lia).
    replace (punct c) with (@None tok)
      by (unfold punct; symmetry; repeat match goal with |- context [c =? ?k] => replace (c =? k) with false by lia end; reflexivity).
    replace (c =? 10) with false by lia.
    replace (punct_eq c) with (@None (tok * tok))
      by (unfold punct_eq; symmetry; repeat match goal with |- context [c =? ?k] => replace (c =? k) with false by lia end; reflexivity).
    replace (is_numeric c) with true by (unfold is_numeric; lia).
    rewrite Hsn, (push_val_int (c :: ds)) by (split; assumption). rewrite Eo. reflexivity.
Qed.

(** A digit string alone. *)
Corollary C21_alone file ds : number_run ds ->
  lex file ds = if decimal ds <? 2 ^ 31
                then Ok [Token (TOK_INT (decimal ds)) (Line file 1); Token TOK_EOF (Line file 1)]
                else Stuck SOverflow.
Proof.
  intros H. pose proof (C21_integers file [] ds [] [Token TOK_EOF (Line file 1)]) as G.
  cbn [app] in G. rewrite app_nil_r in G.
  destruct G as (ts & E & ->).
  - intros Hi. pose proof (digits_plain ds 0 (proj2 H) Hi). lia.
  - assumption.
  - reflexivity.
  - intros p' a E. destruct p'; discriminate.
  - discriminate.
  - destruct ts as [|t ts]; [|destruct ts; discriminate].
    destruct (decimal ds <? 2 ^ 31); reflexivity.
Qed.

Example C21_ex : lex 0 (bs "2147483647") =
    Ok [Token (TOK_INT 2147483647) (Line 0 1); Token TOK_EOF (Line 0 1)] /\
  lex 0 (bs "2147483648") = Stuck SOverflow.
Proof. split; reflexivity. Qed.

(** ** C22: line numbers *)

(** Every token but an end-of-line token carries one plus the number of newlines
    in the part of the source before it; that part lexes to the tokens before
    it.  (An end-of-line token also counts its own newline.) *)
Theorem C22_lines file s a t b : ~ In 0 s ->
  lex file s = Ok (a ++ t :: b) -> tk t <> TOK_EOL ->
  exists p q, s = p ++ q /\
    lex file p = Ok (a ++ [Token TOK_EOF (Line file (1 + newlines p))]) /\
    tk_line t = Line file (1 + newlines p) /\
    match q with
    | [] => tk t = TOK_EOF
    | _ => exists u, lexeme u (Some (tk t)) /\ exists v, q = u ++ v
    end.
Proof.
  intros H0. rewrite lex_text by assumption. intros H Ht.
  assert (G : exists p q, s = p ++ q /\
    lex_from file 1 p = Ok (a ++ [Token TOK_EOF (Line file (1 + newlines p))]) /\
    tk_line t = Line file (1 + newlines p) /\
    match q with
    | [] => tk t = TOK_EOF
    | _ => exists u, lexeme u (Some (tk t)) /\ exists v, q = u ++ v
    end).
  { clear H0. apply lex_from_lexemes in H. revert H. generalize 1 as line.
    remember (a ++ t :: b) as ts eqn:Ets. intros line H. revert a Ets.
    induction H as [line|line u s ts Hu H IH|line u k s ts Hu He H IH]; intros a Ets.
    - exists [], []. destruct a as [|x a]; [|destruct a; discriminate].
      cbn [app] in Ets. inversion Ets; subst. cbn [app].
      change (newlines []) with 0. rewrite Z.add_0_r. repeat split.
    - destruct (IH a Ets) as (p & q & -> & Hp & Hlt & Hq).
      exists (u ++ p), q. rewrite app_assoc, newlines_app, Z.add_assoc.
      split; [reflexivity|]. split; [|split; assumption].
      rewrite (lex_from_lexeme file line u None p Hu (blank_ends _ _ Hu)), Hp. reflexivity.
    - destruct a as [|x a].
      + cbn [app] in Ets. inversion Ets; subst. cbn [tk tk_line] in *.
        exists [], (u ++ s). cbn [app]. change (newlines []) with 0. rewrite Z.add_0_r.
        split; [reflexivity|]. split; [reflexivity|].
        assert (Hnl : newlines u = 0).
        { inversion Hu; subst; try congruence.
          - rewrite newlines_cons, newlines_app, (newlines_none b0) by assumption. reflexivity.
          - apply name_newlines; assumption.
          - unfold symbols in *. cbn [In] in *.
            repeat match goal with H : _ \/ _ |- _ => destruct H as [H|H] end; try contradiction;
            match goal with H : (_, _) = (_, _) |- _ => inversion H; subst; reflexivity end.
          - match goal with H : number_run _ |- _ => apply digits_no_newline; apply H end.
          - match goal with H : number_run _, F : Forall digit _ |- _ =>
              rewrite newlines_app, (digits_no_newline ds (proj2 H)), newlines_cons, (digits_no_newline fs F) end.
            reflexivity. }
        rewrite Hnl, Z.add_0_r. split; [reflexivity|].
        destruct u as [|c u].
        { cbn [app]. exfalso. pose proof (lex_from_lexeme file line [] (Some k) [] Hu) as Hx.
          cbn [app] in Hx. rewrite lex_from_nil in Hx. change (newlines []) with 0 in Hx.
          assert (Hend : ends [] []) by (intros ? ? ?; discriminate).
          specialize (Hx Hend). rewrite Z.add_0_r, lex_from_nil in Hx. cbn in Hx. discriminate. }
        cbn [app]. exists (c :: u). split; [assumption|]. exists s. reflexivity.
      + cbn [app] in Ets. inversion Ets; subst.
        destruct (IH a eq_refl) as (p & q & -> & Hp & Hlt & Hq).
        exists (u ++ p), q. rewrite app_assoc, newlines_app, Z.add_assoc.
        split; [reflexivity|]. split; [|split; assumption].
        rewrite (lex_from_lexeme file line u (Some k) p Hu), Hp; [reflexivity|].
        intros c r E. destruct p as [|y p]; [discriminate|]. cbn [app] in He.
        inversion E; subst. apply (He c (r ++ q)). reflexivity. }
  destruct G as (p & q & Es & Hp & Hlt & Hq). exists p, q. repeat split; try assumption.
  rewrite lex_text; [assumption|]. intros Hi; apply H0. rewrite Es. apply in_or_app; left; assumption.
Qed.

Example C22_ex : exists ts, lex 3 (bs "a

# c
b") = Ok ts /\ In (Token (TOK_IDENT (bs "b")) (Line 3 4)) ts.
Proof. eexists. split; [reflexivity|]. cbn. auto 10. Qed.

(** ** C23: blanks *)

(** Inserting blanks at a token boundary (a point where the tokens of the text
    are those of the part before it followed by those of the part after it)
    changes nothing, not even an error in the part after it. *)
Theorem C23_blanks file p bl q tsp tsq : ~ In 0 (p ++ q) -> Forall blank bl ->
  lex file p = Ok (tsp ++ [Token TOK_EOF (Line file (1 + newlines p))]) ->
  lex_from file (1 + newlines p) q = tsq ->
  lex file (p ++ q) = (tq <- tsq ;; Ok (tsp ++ tq)) ->
  lex file (p ++ bl ++ q) = lex file (p ++ q).
Proof.
  intros H0 Hb Hp Hq Hpq.
  assert (Hp0 : ~ In 0 p) by (intros Hi; apply H0; apply in_or_app; left; assumption).
  rewrite lex_text in Hp by assumption.
  destruct bl as [|c bl]; [reflexivity|].
  rewrite Hpq, lex_text.
  2:{ intros Hi. apply in_app_or in Hi as [Hi|Hi]; [contradiction|].
      apply in_app_or in Hi as [Hi|Hi].
      - rewrite Forall_forall in Hb. specialize (Hb _ Hi). unfold blank in Hb; lia.
      - apply H0; apply in_or_app; right; assumption. }
  destruct (lex_from_app file 1 p ((c :: bl) ++ q) _ Hp) as (ts & Ets & ->).
  { intros p' a x q' _ E. cbn [app] in E. inversion E; subst x q'. inversion Hb; subst.
    unfold may_join, name_char, letter, digit, blank in *. lia. }
  apply app_inj_tail in Ets as [<- _].
  assert (Hskip : forall bl, Forall blank bl ->
    lex_from file (1 + newlines p) (bl ++ q) = lex_from file (1 + newlines p) q).
  { induction 1 as [|x l Hx Hl IH]; [reflexivity|].
    change ((x :: l) ++ q) with ([x] ++ (l ++ q)).
    assert (Hlx : lexeme [x] None) by (constructor; assumption).
    rewrite (lex_from_lexeme file _ [x] None _ Hlx (blank_ends _ _ Hlx)).
    replace (newlines [x]) with 0.
    - rewrite Z.add_0_r, IH. cbn [at_line option_map].
      destruct (lex_from file (1 + newlines p) q); reflexivity.
    - rewrite newlines_cons. unfold blank in Hx. replace (x =? 10) with false by lia. reflexivity. }
  rewrite (Hskip (c :: bl) Hb), Hq. reflexivity.
Qed.

(** The hypotheses hold wherever the characters at the boundary do not join. *)
Theorem C23_boundaries file p q tsp : ~ In 0 (p ++ q) ->
  lex file p = Ok tsp -> separate p q ->
  exists ts, tsp = ts ++ [Token TOK_EOF (Line file (1 + newlines p))] /\
    lex file (p ++ q) = (tq <- lex_from file (1 + newlines p) q ;; Ok (ts ++ tq)).
Proof.
  intros H0 Hp Hs.
  rewrite lex_text in Hp by (intros Hi; apply H0; apply in_or_app; left; assumption).
  rewrite lex_text by assumption. apply lex_from_app; assumption.
Qed.

Example C23_ex : lex 0 (bs "f(" ++ [32; 9; 13] ++ bs "x)") = lex 0 (bs "f(" ++ bs "x)").
Proof. reflexivity. Qed.

(** ** C19: rendering tokens and lexing them back *)

(** The spelling of a token. *)
Definition spelling (t : tok) : bytes :=
  match t with
  | TOK_IDENT s => s
  | TOK_STRING s => 34 :: s ++ [34]
  | TOK_INT v => dec v
  | TOK_EOL => [10]
  | TOK_FUNC => bs "function" | TOK_END => bs "end" | TOK_IF => bs "if"
  | TOK_ELSE => bs "else" | TOK_WHILE => bs "while" | TOK_VAR => bs "var"
  | TOK_FOR => bs "for" | TOK_TO => bs "to" | TOK_AND => bs "and"
  | TOK_OR => bs "or" | TOK_NOT => bs "not" | TOK_RETURN => bs "return"
  | TOK_NONE => bs "none" | TOK_CONST => bs "const" | TOK_IMPORT => bs "import"
  | TOK_LPAREN => bs "(" | TOK_RPAREN => bs ")" | TOK_LBRACKET => bs "["
  | TOK_RBRACKET => bs "]" | TOK_COMMA => bs "," | TOK_ADD => bs "+"
  | TOK_SUB => bs "-" | TOK_MUL => bs "*" | TOK_DIV => bs "/" | TOK_MOD => bs "%"
  | TOK_ASSIGN => bs "=" | TOK_EQ => bs "==" | TOK_LT => bs "<" | TOK_GT => bs ">"
  | TOK_LEQ => bs "<=" | TOK_GEQ => bs ">=" | TOK_DOT => bs "."
  | TOK_FLOAT _ | TOK_EOF => []
  end.

(** The tokens that have a spelling of their own: names that are not reserved,
    strings without quote, newline and NUL, non-negative 32-bit integers, every
    keyword and punctuation sign. *)
Definition spellable (t : tok) : Prop :=
  match t with
  | TOK_IDENT s => name s /\ forall kw k, In (kw, k) reserved -> map lower_char s <> kw
  | TOK_STRING s => ~ In 34 s /\ ~ In 10 s /\ ~ In 0 s
  | TOK_INT v => 0 <= v < 2 ^ 31
  | TOK_FLOAT _ | TOK_EOF => False
  | _ => True
  end.

(** Each token followed by a space. *)
Definition render (ts : list tok) : bytes := List.concat (map (fun t => spelling t ++ [32]) ts).

Lemma decimal_dval l a :
  fold_left (fun v d => 10 * v + (d - 48)) l a = fold_left (fun a c => a * 10 + (c - 48)) l a.
Proof.
  revert a. induction l as [|c l IH]; intros a; [reflexivity|]. cbn [fold_left].
  rewrite IH. f_equal. lia.
Qed.

Lemma decimal_dec v : 0 <= v -> number_run (dec v) /\ decimal (dec v) = v.
Proof.
  intros H. unfold dec. replace (v <? 0) with false by lia.
  destruct (InstrProofs.dec_nonneg_spec v H) as (Hv & Hd & Hne).
  split; [split; [assumption|exact Hd]|].
  rewrite <- Hv at 2. apply decimal_dval.
Qed.

Lemma spelling_lexeme t : spellable t -> lexeme (spelling t) (Some t) /\ ~ In 0 (spelling t).
Proof.
  assert (W : forall w k, name w -> word_tok w = k -> ~ In 0 w ->
    lexeme w (Some k) /\ ~ In 0 w) by (intros w k H <- H0; split; [constructor|]; assumption).
  assert (S : forall w k, In (w, k) symbols -> ~ In 0 w -> lexeme w (Some k) /\ ~ In 0 w)
    by (intros w k H H0; split; [constructor|]; assumption).
  destruct t; cbn [spellable spelling]; intros H; try contradiction;
    try (apply S; cbn; intuition discriminate);
    try (apply W; [cbn; eexists; eexists; split; [reflexivity|split; [unfold letter; lia|
           repeat (apply Forall_cons; [unfold name_char, letter; lia|]); apply Forall_nil]]
         |reflexivity|cbn; intuition discriminate]).
  - destruct (decimal_dec v) as [Hr Hv]; [lia|]. split.
    + rewrite <- Hv at 2. constructor; [assumption|lia].
    + intros Hi. pose proof (digits_plain _ _ (proj2 Hr) Hi). lia.
  - destruct H as [Hn Hk]. split.
    + replace (TOK_IDENT s) with (word_tok s); [constructor; assumption|].
      unfold word_tok. destruct (find _ reserved) as [[kw k]|] eqn:Ef; [|reflexivity].
      exfalso. apply find_some in Ef as [Hin Heq]. apply bytes_eqb_eq in Heq. eapply Hk; eassumption.
    + destruct Hn as (c & r & -> & Hc & Hr). rewrite Forall_forall in Hr.
      intros [Hi|Hi]; [unfold letter in Hc; lia|]. specialize (Hr _ Hi).
      unfold name_char, letter, digit in Hr; lia.
  - split; [constructor|]. cbn. intuition discriminate.
  - destruct H as (H1 & H2 & H3). split; [constructor; assumption|].
    intros [Hi|Hi]; [lia|]. apply in_app_or in Hi as [Hi|[Hi|[]]]; [contradiction|lia].
Qed.

Theorem C19_round_trip file ts : Forall spellable ts ->
  exists toks, lex file (render ts) = Ok toks /\ map tk toks = ts ++ [TOK_EOF].
Proof.
  intros H.
  assert (H0 : ~ In 0 (render ts)).
  { unfold render. intros Hi. apply in_concat in Hi as (x & Hx & Hi).
    apply in_map_iff in Hx as (t & <- & Ht). rewrite Forall_forall in H.
    apply in_app_or in Hi as [Hi|[Hi|[]]]; [|lia].
    eapply spelling_lexeme; eauto. }
  rewrite lex_text by assumption. generalize 1 as line. clear H0.
  induction H as [|t ts Ht Hts IH]; intros line.
  - exists [Token TOK_EOF (Line file line)]. split; reflexivity.
  - unfold render. cbn [map List.concat]. fold (render ts). rewrite <- app_assoc.
    destruct (spelling_lexeme t Ht) as [Hl _].
    rewrite (lex_from_lexeme file line _ (Some t) _ Hl).
    2:{ intros c r E Hx. cbn [app] in E. inversion E; subst c r.
        destruct (extends_join _ _ Hx) as (u' & a & _ & Hj).
        unfold may_join, name_char, letter, digit in Hj; lia. }
    cbn [app]. change (32 :: render ts) with ([32] ++ render ts).
    assert (Hb : lexeme [32] None) by (constructor; left; reflexivity).
    rewrite (lex_from_lexeme file _ [32] None _ Hb (blank_ends _ _ Hb)).
    destruct (IH (line + newlines (spelling t) + newlines [32])) as (toks & -> & Hm).
    cbn [bind at_line option_map]. eexists. split; [reflexivity|].
    cbn [map tk]. rewrite Hm. reflexivity.
Qed.

Example C19_ex :
  let ts := [TOK_IF; TOK_LPAREN; TOK_IDENT (bs "x1"); TOK_LEQ; TOK_INT 42; TOK_RPAREN; TOK_EOL;
             TOK_STRING (bs "if # x"); TOK_END] in
  Forall spellable ts /\
  exists toks, lex 0 (render ts) = Ok toks /\ map tk toks = ts ++ [TOK_EOF].
Proof.
  cbv zeta. assert (H : Forall spellable
    [TOK_IF; TOK_LPAREN; TOK_IDENT (bs "x1"); TOK_LEQ; TOK_INT 42; TOK_RPAREN; TOK_EOL;
             TOK_STRING (bs "if # x"); TOK_END]).
  { repeat constructor; cbn [spellable]; try lia;
      try (cbn; intuition discriminate).
    - exists 120, [49]. split; [reflexivity|]. split; [unfold letter; lia|].
      apply Forall_cons; [right; unfold digit; lia|apply Forall_nil].
    - intros kw k Hin. cbn [reserved In] in Hin.
      repeat match type of Hin with _ \/ _ => destruct Hin as [Hin|Hin] end;
        try contradiction; inversion Hin; subst; discriminate. }
  split; [exact H|]. apply C19_round_trip. exact H.
Qed.

Print Assumptions C74_lexical_grammar.
Print Assumptions C74_unambiguous.
Print Assumptions C17_total.
Print Assumptions C17_outcomes.
Print Assumptions C18_comment_at_eof.
Print Assumptions C19_round_trip.
Print Assumptions C20_words.
Print Assumptions C21_integers.
Print Assumptions C21_alone.
Print Assumptions C22_lines.
Print Assumptions C23_blanks.
Print Assumptions C23_boundaries.
