(** The lexer implements the lexical grammar of [LexSpec]. *)
From Coq Require Import ZArith List Bool Lia ZifyBool.
From Verif Require Import Base BaseFacts F32 Lexer LexSpec.
Import ListNotations.
Open Scope Z_scope.

Ltac iflia :=
  repeat match goal with
  | |- context [if ?b then _ else _] => let E := fresh in destruct b eqn:E
  | H : context [if ?b then _ else _] |- _ => let E := fresh in destruct b eqn:E
  end; lia.

Lemma is_alpha_iff c : is_alpha c = true <-> letter c.
Proof. unfold is_alpha, letter. lia. Qed.
Lemma is_numeric_iff c : is_numeric c = true <-> digit c.
Proof. unfold is_numeric, digit. lia. Qed.
Lemma is_alnum_iff c : is_alpha_numeric c = true <-> name_char c.
Proof.
  unfold is_alpha_numeric, name_char. rewrite orb_true_iff, is_alpha_iff, is_numeric_iff.
  tauto.
Qed.
Lemma is_blank_iff c : is_blank c = true <-> blank c.
Proof. unfold is_blank, blank. lia. Qed.

Lemma span_spec f s a b : span f s = (a, b) ->
  s = a ++ b /\ Forall (fun c => f c = true) a /\
  (forall c r, b = c :: r -> f c = false).
Proof.
  revert a b. induction s as [|c s IH]; cbn [span]; intros a b H.
  - inversion H; subst. repeat split; [constructor|discriminate].
  - destruct (f c) eqn:Ef.
    + destruct (span f s) as [a' b'] eqn:E. inversion H; subst.
      destruct (IH _ _ eq_refl) as (H1 & H2 & H3). subst s.
      repeat split; [constructor; assumption|assumption].
    + inversion H; subst. repeat split; [constructor|].
      intros x r Hx; inversion Hx; subst; assumption.
Qed.

Lemma span_app f a b :
  Forall (fun c => f c = true) a -> (forall c r, b = c :: r -> f c = false) ->
  span f (a ++ b) = (a, b).
Proof.
  induction 1 as [|c a Hc _ IH]; intros Hb; cbn [app span].
  - destruct b as [|c r]; cbn [span]; [reflexivity|]. rewrite (Hb c r eq_refl). reflexivity.
  - rewrite Hc, IH by assumption. reflexivity.
Qed.

(** ** Reserved words *)
Lemma tolower_lower c : tolower c = lower_char c.
Proof. reflexivity. Qed.

Definition lowercase (kw : bytes) : Prop := Forall (fun k => 97 <= k <= 122) kw.

Lemma munch_word kw : lowercase kw -> forall s w r,
  span is_alpha_numeric s = (w, r) ->
  munch s kw = if bytes_eqb (map lower_char w) kw then Some r else None.
Proof.
  induction 1 as [|k kw Hk Hkw IH]; intros s w r Hs; cbn [munch].
  - destruct s as [|c s]; cbn [span] in Hs; cbn [cur].
    + inversion Hs; subst. reflexivity.
    + destruct (is_alpha_numeric c) eqn:Ec.
      * destruct (span is_alpha_numeric s). inversion Hs; subst. reflexivity.
      * inversion Hs; subst. reflexivity.
  - cbv beta in Hk. assert (Tk : tolower k = k) by (unfold tolower; iflia).
    destruct s as [|c s]; cbn [span] in Hs; cbn [cur].
    + inversion Hs; subst. cbn [map bytes_eqb].
      replace (tolower 0 =? tolower k) with false by (unfold tolower; iflia). reflexivity.
    + rewrite Tk, tolower_lower.
      destruct (is_alpha_numeric c) eqn:Ec.
      * destruct (span is_alpha_numeric s) as [w' r'] eqn:E. inversion Hs; subst.
        cbn [map bytes_eqb]. destruct (lower_char c =? k); cbn [andb]; [|reflexivity].
        apply IH; assumption.
      * inversion Hs; subst. cbn [map bytes_eqb].
        destruct (Z.eqb_spec (lower_char c) k); [|reflexivity].
        exfalso. unfold is_alpha_numeric, is_alpha, is_numeric, lower_char in *. iflia.
Qed.

Lemma try_keywords_word l s w r :
  Forall (fun p => lowercase (fst p)) l ->
  span is_alpha_numeric s = (w, r) ->
  try_keywords l s =
  option_map (fun p => (snd p, r))
    (find (fun p => bytes_eqb (map lower_char w) (fst p)) l).
Proof.
  intros Hl Hs. induction Hl as [|[kw t] l Hkw _ IH]; cbn [try_keywords find fst snd]; [reflexivity|].
  rewrite (munch_word kw Hkw s w r Hs).
  destruct (bytes_eqb (map lower_char w) kw); [reflexivity|assumption].
Qed.

Lemma keywords_for_lowercase c : Forall (fun p => lowercase (fst p)) (keywords_for c).
Proof.
  unfold keywords_for.
  repeat match goal with |- context [if ?b then _ else _] => destruct b end;
    repeat constructor; cbv; intuition discriminate.
Qed.

Lemma find_reserved c w :
  find (fun p => bytes_eqb (c :: w) (fst p)) (keywords_for c) =
  find (fun p => bytes_eqb (c :: w) (fst p)) reserved.
Proof.
  unfold keywords_for, reserved.
  repeat match goal with
  | |- context [if c =? ?k then _ else _] =>
      destruct (Z.eqb_spec c k); [subst c; cbn [find fst bs bytes_eqb]; cbv [Ascii.nat_of_ascii Ascii.N_of_ascii Ascii.N_of_digits N.to_nat]; cbn; reflexivity|]
  end.
  cbn [find fst].
  repeat match goal with
  | |- context [bytes_eqb (c :: w) (bs ?s)] =>
      replace (bytes_eqb (c :: w) (bs s)) with false
        by (cbn; match goal with |- _ = (c =? ?k) && _ => destruct (Z.eqb_spec c k); [contradiction|reflexivity] end)
  end.
  reflexivity.
Qed.

Lemma keywords_none c : letter c \/ keywords_for (tolower c) = [].
Proof.
  destruct (is_alpha c) eqn:E; [left; apply is_alpha_iff; assumption|right].
  unfold keywords_for.
  repeat match goal with
  | |- context [if ?x =? ?k then _ else _] => replace (x =? k) with false
      by (unfold tolower, is_alpha in *; iflia)
  end. reflexivity.
Qed.

(** ** Numbers *)
Lemma decimal_app a b : decimal (a ++ b) =
  fold_left (fun v d => 10 * v + (d - 48)) b (decimal a).
Proof. apply fold_left_app. Qed.

Lemma decimal_fold_ge b : Forall digit b -> forall v, 0 <= v ->
  v <= fold_left (fun v d => 10 * v + (d - 48)) b v.
Proof.
  induction 1 as [|d b Hd _ IH]; intros v Hv; cbn [fold_left]; [lia|].
  unfold digit in Hd. specialize (IH (10 * v + (d - 48)) ltac:(lia)). lia.
Qed.

Lemma decimal_nonneg b : Forall digit b -> 0 <= decimal b.
Proof. intros H. apply (decimal_fold_ge b H 0). lia. Qed.

Lemma val_loop_int ds : Forall digit ds -> forall v rest, 0 <= v ->
  val_loop (ds ++ rest) v 0 =
  if fold_left (fun v d => 10 * v + (d - 48)) ds v <? 2 ^ 31
  then val_loop rest (fold_left (fun v d => 10 * v + (d - 48)) ds v) 0
  else match ds with [] => val_loop rest v 0 | _ => Stuck SOverflow end.
Proof.
  induction 1 as [|d ds Hd Hds IH]; intros v rest Hv.
  - cbn [app fold_left]. destruct (v <? 2 ^ 31); reflexivity.
  - cbn [app val_loop fold_left].
    pose proof (decimal_fold_ge ds Hds (10 * v + (d - 48)) ltac:(unfold digit in Hd; lia)) as Hge.
    replace (d =? 46) with false by (unfold digit in Hd; lia).
    replace (is_numeric d) with true by (symmetry; apply is_numeric_iff; assumption).
    cbn [assert_ bind]. unfold chk32, in_i32, i32_min, i32_max.
    unfold digit in Hd.
    destruct (fold_left _ ds _ <? 2 ^ 31) eqn:E.
    + replace ((-2147483648 <=? v * 10) && (v * 10 <=? 2147483647)) with true by lia.
      cbn [bind].
      replace ((-2147483648 <=? v * 10 + (d - 48)) && (v * 10 + (d - 48) <=? 2147483647)) with true by lia.
      cbn [bind Z.mul].
      replace (v * 10) with (10 * v) by lia.
      cbn [Z.leb Z.compare andb bind].
      rewrite IH by lia. rewrite E. reflexivity.
    + destruct ((-2147483648 <=? v * 10) && (v * 10 <=? 2147483647)) eqn:E1; cbn [bind]; [|reflexivity].
      destruct ((-2147483648 <=? v * 10 + (d - 48)) && (v * 10 + (d - 48) <=? 2147483647)) eqn:E2;
        cbn [bind]; [|reflexivity].
      cbn [Z.mul Z.leb Z.compare andb bind].
      replace (v * 10) with (10 * v) by lia.
      rewrite IH by lia. rewrite E. destruct ds; [|reflexivity].
      cbn [fold_left] in E. exfalso. lia.
Qed.

Lemma pow10_succ n : 0 <= n -> 10 ^ (n + 1) = 10 * 10 ^ n.
Proof. intros. replace (n + 1) with (Z.succ n) by lia. apply Z.pow_succ_r. lia. Qed.

Lemma val_loop_frac fs : Forall digit fs -> forall v f, 0 <= v < 2 ^ 31 -> 0 < f < 2 ^ 31 ->
  val_loop fs v f =
  if (fold_left (fun v d => 10 * v + (d - 48)) fs v <? 2 ^ 31) && (f * 10 ^ zlen fs <? 2 ^ 31)
  then Ok (fold_left (fun v d => 10 * v + (d - 48)) fs v, f * 10 ^ zlen fs)
  else Stuck SOverflow.
Proof.
  induction 1 as [|d fs Hd Hfs IH]; intros v f Hv Hf.
  - cbn [val_loop fold_left]. replace (f * 10 ^ zlen []) with f by (unfold zlen; cbn [List.length Z.of_nat]; lia).
    replace (v <? 2 ^ 31) with true by lia. replace (f <? 2 ^ 31) with true by lia. reflexivity.
  - cbn [val_loop fold_left].
    pose proof (decimal_fold_ge fs Hfs (10 * v + (d - 48)) ltac:(unfold digit in Hd; lia)) as Hge.
    replace (d =? 46) with false by (unfold digit in Hd; lia).
    replace (is_numeric d) with true by (symmetry; apply is_numeric_iff; assumption).
    cbn [assert_ bind]. unfold chk32, in_i32, i32_min, i32_max. unfold digit in Hd.
    rewrite zlen_cons, pow10_succ by apply zlen_nonneg.
    pose proof (Z.pow_pos_nonneg 10 (zlen fs) ltac:(lia) (zlen_nonneg fs)) as Hp.
    assert (Hff : f * (10 * 10 ^ zlen fs) = (f * 10) * 10 ^ zlen fs) by lia.
    rewrite Hff.
    destruct ((-2147483648 <=? v * 10) && (v * 10 <=? 2147483647)) eqn:E1; cbn [bind].
    2:{ replace (fold_left _ fs _ <? 2 ^ 31) with false by lia. reflexivity. }
    destruct ((-2147483648 <=? v * 10 + (d - 48)) && (v * 10 + (d - 48) <=? 2147483647)) eqn:E2;
        cbn [bind].
    2:{ replace (fold_left _ fs _ <? 2 ^ 31) with false by lia. reflexivity. }
    destruct ((-2147483648 <=? f * 10) && (f * 10 <=? 2147483647)) eqn:E3; cbn [bind].
    2:{ replace (f * 10 * 10 ^ zlen fs <? 2 ^ 31) with false by nia.
        rewrite andb_false_r. reflexivity. }
    replace (v * 10) with (10 * v) by lia.
    rewrite IH by lia. reflexivity.
Qed.

Lemma push_val_int ds : number_run ds ->
  push_val ds = if decimal ds <? 2 ^ 31 then Ok (TOK_INT (decimal ds)) else Stuck SOverflow.
Proof.
  intros [Hne Hd]. unfold push_val.
  pose proof (val_loop_int ds Hd 0 [] ltac:(lia)) as H. rewrite app_nil_r in H. rewrite H.
  fold (decimal ds). destruct (decimal ds <? 2 ^ 31); [reflexivity|].
  destruct ds; [contradiction|reflexivity].
Qed.

Lemma push_val_float ds fs : number_run ds -> Forall digit fs ->
  push_val (ds ++ 46 :: fs) =
  if (decimal (ds ++ fs) <? 2 ^ 31) && (10 ^ zlen fs <? 2 ^ 31)
  then Ok (TOK_FLOAT (f_div (f_of_int (decimal (ds ++ fs))) (f_of_int (10 ^ zlen fs))))
  else Stuck SOverflow.
Proof.
  intros [Hne Hd] Hf. unfold push_val. rewrite (val_loop_int ds Hd) by lia.
  fold (decimal ds). rewrite decimal_app.
  pose proof (decimal_nonneg ds Hd) as H0.
  pose proof (decimal_fold_ge fs Hf (decimal ds) H0) as Hge.
  destruct (decimal ds <? 2 ^ 31) eqn:E.
  - cbn [val_loop]. cbn [Z.eqb assert_ bind]. cbn [Pos.eqb].
    rewrite (val_loop_frac fs Hf) by lia.
    rewrite Z.mul_1_l.
    destruct ((fold_left _ fs _ <? 2 ^ 31) && (10 ^ zlen fs <? 2 ^ 31)); cbn [bind]; [|reflexivity].
    replace (10 ^ zlen fs =? 0) with false; [reflexivity|].
    pose proof (Z.pow_pos_nonneg 10 (zlen fs) ltac:(lia) (zlen_nonneg fs)). lia.
  - replace (fold_left _ fs _ <? 2 ^ 31) with false by lia.
    destruct ds; [contradiction|reflexivity].
Qed.

Lemma Forall_digit_iff l : Forall (fun c => is_numeric c = true) l <-> Forall digit l.
Proof. split; intros H; eapply Forall_impl; try eassumption; intros; apply is_numeric_iff; assumption. Qed.
Lemma Forall_name_iff l : Forall (fun c => is_alpha_numeric c = true) l <-> Forall name_char l.
Proof. split; intros H; eapply Forall_impl; try eassumption; intros; apply is_alnum_iff; assumption. Qed.

(** [ends u s]: the lexeme [u] is not continued by the text [s]. *)
Definition ends (u s : bytes) : Prop := forall c r, s = c :: r -> ~ extends u c.

Lemma name_not_number w : name w -> ~ number_run w.
Proof.
  intros (c & r & -> & Hc & _) (_ & Hd). inversion Hd; subst.
  unfold letter, digit in *; lia.
Qed.

Lemma first_digit ds rest : number_run ds -> exists c r, ds ++ rest = c :: r /\ digit c.
Proof.
  intros (Hne & Hd). destruct ds as [|c r]; [contradiction|].
  inversion Hd; subst. exists c, (r ++ rest). auto.
Qed.

Lemma no_dot_digits ds fs gs : Forall digit gs -> gs = ds ++ 46 :: fs -> False.
Proof.
  intros H ->. apply Forall_app in H as [_ H]. inversion H; subst. unfold digit in *; lia.
Qed.

(** How [extends] reads for each kind of lexeme. *)
Lemma extends_word w c : name w -> (extends w c <-> name_char c).
Proof.
  intros Hw. split; [|intros; apply ext_word; assumption].
  intros H; inversion H; subst; [assumption|..]; exfalso.
  - eapply name_not_number; eassumption.
  - destruct Hw as (x & y & E & Hx & _). destruct (first_digit ds (46 :: fs) H0) as (d & r' & E' & Hd).
    rewrite E in E'. inversion E'; subst. unfold letter, digit in *; lia.
  - destruct Hw as (x & y & E & Hx & _). subst w. unfold letter in *.
    destruct H0 as [H0|[H0|H0]]; inversion H0; subst; lia.
Qed.

Lemma extends_int ds c : number_run ds -> (extends ds c <-> (digit c \/ c = 46)).
Proof.
  intros Hw. split; [|intros; apply ext_int; assumption].
  intros H; inversion H; subst; [|assumption|..]; exfalso.
  - eapply name_not_number; eassumption.
  - destruct Hw as (_ & Hd). eapply no_dot_digits; [exact Hd|reflexivity].
  - destruct Hw as (_ & Hd). destruct H0 as [->|[->| ->]]; inversion Hd; subst; unfold digit in *; lia.
Qed.

Lemma extends_float ds fs c : number_run ds -> Forall digit fs ->
  (extends (ds ++ 46 :: fs) c <-> digit c).
Proof.
  intros Hw Hf. split; [|intros; apply ext_float; assumption].
  intros H; inversion H; subst; [| | assumption |]; exfalso.
  - destruct H0 as (x & y & E & Hx & _). destruct (first_digit ds (46 :: fs) Hw) as (d & r' & E' & Hd).
    rewrite E in E'. inversion E'; subst. unfold letter, digit in *; lia.
  - destruct H0 as (_ & Hd). eapply no_dot_digits; [exact Hd|reflexivity].
  - destruct (first_digit ds (46 :: fs) Hw) as (d & r' & E' & Hd).
    rewrite E' in *. unfold digit in *.
    match goal with H : _ = [61] \/ _ |- _ => destruct H as [H|[H|H]]; inversion H; subst; lia end.
Qed.

Lemma extends_eq u c : u = [61] \/ u = [60] \/ u = [62] -> (extends u c <-> c = 61).
Proof.
  intros Hu. split; [|intros ->; apply ext_eq; assumption].
  intros H; inversion H; subst; [..|reflexivity]; exfalso.
  - destruct H0 as (x & y & E & Hx & _). subst u. unfold letter in *.
    destruct Hu as [E|[E|E]]; inversion E; subst; lia.
  - destruct H0 as (_ & Hd). unfold digit in *.
    destruct Hu as [->|[->| ->]]; inversion Hd; subst; unfold digit in *; lia.
  - destruct (first_digit ds (46 :: fs) H0) as (d & r' & E' & Hd). rewrite E' in *.
    unfold digit in *. destruct Hu as [E|[E|E]]; inversion E; subst; lia.
Qed.

(** No other lexeme is extended by anything. *)
Lemma extends_other c0 r c :
  ~ letter c0 -> ~ digit c0 -> (forall u, In u [[61]; [60]; [62]] -> c0 :: r <> u) ->
  ~ extends (c0 :: r) c.
Proof.
  intros Hl Hd Hu H. inversion H; subst.
  - destruct H0 as (x & y & E & Hx & _). inversion E; subst. contradiction.
  - destruct H0 as (_ & Hds). inversion Hds; subst. contradiction.
  - destruct (first_digit ds (46 :: fs) H1) as (d & r' & E' & Hd'). rewrite E' in *.
    inversion H0; subst. contradiction.
  - destruct H0 as [E|[E|E]]; apply (Hu (c0 :: r)); rewrite E; cbn; auto.
Qed.

Lemma newlines_app a b : newlines (a ++ b) = newlines a + newlines b.
Proof. unfold newlines. rewrite filter_app, zlen_app. reflexivity. Qed.
Lemma newlines_cons c b : newlines (c :: b) = (if c =? 10 then 1 else 0) + newlines b.
Proof. unfold newlines. cbn [filter]. destruct (c =? 10); [rewrite zlen_cons|]; lia. Qed.
Lemma newlines_none b : ~ In 10 b -> newlines b = 0.
Proof.
  induction b as [|c b IH]; intros H; [reflexivity|]. rewrite newlines_cons.
  destruct (Z.eqb_spec c 10); [subst; exfalso; apply H; left; reflexivity|].
  rewrite IH; [lia|]. intros Hb; apply H; right; assumption.
Qed.
Lemma newlines_nonneg s : 0 <= newlines s.
Proof. apply zlen_nonneg. Qed.

Lemma name_chars_no_newline w : Forall name_char w -> newlines w = 0.
Proof.
  intros H. apply newlines_none. intros Hi. rewrite Forall_forall in H.
  specialize (H _ Hi). unfold name_char, letter, digit in H; lia.
Qed.
Lemma digits_no_newline w : Forall digit w -> newlines w = 0.
Proof.
  intros H. apply newlines_none. intros Hi. rewrite Forall_forall in H.
  specialize (H _ Hi). unfold digit in H; lia.
Qed.
Lemma name_newlines w : name w -> newlines w = 0.
Proof.
  intros (c & r & -> & Hc & Hr). apply name_chars_no_newline.
  constructor; [left; assumption|assumption].
Qed.

(** ** One iteration of the lexer reads one maximal lexeme *)
Definition at_line (file l : Z) (t : option tok) : option token :=
  option_map (fun k => Token k (Line file l)) t.

Lemma scan_number_spec s n t c r : s = c :: r -> digit c -> scan_number s = (n, t) ->
  s = n ++ t /\
  ((number_run n /\ ends n t) \/
   (exists ds fs, n = ds ++ 46 :: fs /\ number_run ds /\ Forall digit fs /\ ends n t)).
Proof.
  intros Es Hc H. unfold scan_number in H.
  destruct (span is_numeric s) as [a b] eqn:E1.
  destruct (span_spec _ _ _ _ E1) as (Hs & Ha & Hb).
  assert (Ra : number_run a).
  { split; [|apply Forall_digit_iff; assumption].
    intros ->. cbn [app] in Hs. subst s b.
    specialize (Hb c r eq_refl). apply is_numeric_iff in Hc. congruence. }
  destruct b as [|d b].
  - inversion H; subst n t. split; [exact Hs|left]. split; [assumption|].
    intros x y Hx; discriminate.
  - destruct (Z.eqb_spec d 46).
    + destruct (span is_numeric b) as [a2 b2] eqn:E2. inversion H; subst n t d.
      destruct (span_spec _ _ _ _ E2) as (Hs2 & Ha2 & Hb2).
      apply Forall_digit_iff in Ha2.
      split; [rewrite Hs, Hs2, <- app_assoc; reflexivity|right].
      exists a, a2. repeat split; try assumption; [apply Ra|apply Ra|].
      intros x y Hx. rewrite (extends_float a a2 x Ra Ha2). intros Hd.
      apply is_numeric_iff in Hd. rewrite (Hb2 x y Hx) in Hd. discriminate.
    + inversion H; subst n t. split; [exact Hs|left]. split; [assumption|].
      intros x y Hx. inversion Hx; subst x y. rewrite (extends_int a d Ra).
      intros [Hd|Hd]; [|contradiction]. apply is_numeric_iff in Hd.
      rewrite (Hb d b eq_refl) in Hd. discriminate.
Qed.

Lemma in_not_string_end b : Forall (fun c => not_string_end c = true) b <-> (~ In 34 b /\ ~ In 10 b).
Proof.
  rewrite Forall_forall. unfold not_string_end. split.
  - intros H; split; intros Hi; specialize (H _ Hi); discriminate.
  - intros [H1 H2] x Hx. destruct (Z.eqb_spec x 34), (Z.eqb_spec x 10); subst; tauto.
Qed.
Lemma in_not_newline b : Forall (fun c => not_newline c = true) b <-> ~ In 10 b.
Proof.
  rewrite Forall_forall. unfold not_newline. split.
  - intros H Hi; specialize (H _ Hi); discriminate.
  - intros H1 x Hx. destruct (Z.eqb_spec x 10); subst; tauto.
Qed.

Lemma punct_symbol c t : punct c = Some t ->
  In ([c], t) symbols /\ ~ letter c /\ ~ digit c /\ c <> 61 /\ c <> 60 /\ c <> 62 /\ c <> 10.
Proof.
  unfold punct, letter, digit. intros H.
  repeat match type of H with
  | (if c =? ?k then _ else _) = _ => destruct (Z.eqb_spec c k);
      [subst c; inversion H; subst t; split; [cbn; tauto|lia]|]
  end. discriminate.
Qed.

Lemma word_ends w t : name w -> (forall c r, t = c :: r -> is_alpha_numeric c = false) -> ends w t.
Proof.
  intros Hw H c r Hc. rewrite (extends_word w c Hw). intros Hn.
  apply is_alnum_iff in Hn. rewrite (H c r Hc) in Hn. discriminate.
Qed.

Lemma lex1_sound file line c r t line' v :
  lex1 file line c r = Ok (t, line', v) ->
  exists u k, c :: r = u ++ v /\ u <> [] /\ lexeme u k /\ ends u v /\
    line' = line + newlines u /\ t = at_line file line' k.
Proof.
  unfold lex1. intros H.
  destruct (is_blank c) eqn:Eb.
  { inversion H; subst. apply is_blank_iff in Eb. exists [c], None.
    repeat split; try discriminate; [constructor; assumption| |].
    - intros x y _. apply extends_other; unfold blank, letter, digit in *; try lia.
      cbn [In]. intros u [<-|[<-|[<-|[]]]] E; inversion E; subst; lia.
    - rewrite newlines_cons. unfold blank in Eb. replace (c =? 10) with false by lia.
      change (newlines []) with 0. lia. }
  destruct (Z.eqb_spec c 34).
  { subst c. destruct (span not_string_end r) as [b s] eqn:E.
    destruct (span_spec _ _ _ _ E) as (Hs & Hb & _). apply in_not_string_end in Hb as [Hb1 Hb2].
    destruct s as [|e s]; [discriminate|]. destruct (Z.eqb_spec e 34); [|discriminate].
    inversion H; subst. exists (34 :: b ++ [34]), (Some (TOK_STRING b)).
    repeat split; try discriminate.
    - cbn [app]. rewrite <- app_assoc. reflexivity.
    - constructor; assumption.
    - intros x y _. apply extends_other; unfold letter, digit; try lia.
      cbn [In]. intros u [<-|[<-|[<-|[]]]]; discriminate.
    - rewrite newlines_cons, newlines_app, (newlines_none b Hb2). change (newlines []) with 0; try change (newlines [34]) with 0; try change (newlines [10]) with 1; cbn; lia. }
  destruct (Z.eqb_spec c 35).
  { subst c. destruct (span not_newline (35 :: r)) as [b s] eqn:E.
    destruct (span_spec _ _ _ _ E) as (Hs & Hb & Hn). apply in_not_newline in Hb.
    destruct s as [|e s]; [discriminate|].
    assert (e = 10).
    { specialize (Hn e s eq_refl). unfold not_newline in Hn. lia. }
    destruct b as [|b0 b].
    { cbn [app] in Hs. inversion Hs; subst. discriminate. }
    cbn [app] in Hs. inversion Hs; subst b0 r.
    inversion H; subst. exists (35 :: b ++ [10]), (Some TOK_EOL).
    repeat split; try discriminate.
    - cbn [app]. rewrite <- app_assoc. reflexivity.
    - constructor. intros Hi; apply Hb; right; assumption.
    - intros x y _. apply extends_other; unfold letter, digit; try lia.
      cbn [In]. intros u [<-|[<-|[<-|[]]]]; discriminate.
    - rewrite newlines_cons, newlines_app, (newlines_none b); [change (newlines []) with 0; try change (newlines [34]) with 0; try change (newlines [10]) with 1; cbn; lia|].
      intros Hi; apply Hb; right; assumption. }
  destruct (span is_alpha_numeric (c :: r)) as [w rest] eqn:Ew.
  destruct (span_spec _ _ _ _ Ew) as (Hs & Hw & Hrest).
  rewrite (try_keywords_word _ _ _ _ (keywords_for_lowercase _) Ew) in H.
  assert (NW : is_alpha c = true -> exists w', w = c :: w' /\ name w).
  { intros Ha. cbn [span] in Ew. unfold is_alpha_numeric at 1 in Ew. rewrite Ha in Ew.
    cbn [orb] in Ew. destruct (span is_alpha_numeric r) as [w' r']. inversion Ew; subst.
    exists w'. split; [reflexivity|]. exists c, w'. split; [reflexivity|].
    split; [apply is_alpha_iff; assumption|]. inversion Hw; subst.
    apply Forall_name_iff; assumption. }
  destruct (find _ (keywords_for (tolower c))) as [[kw k]|] eqn:Ef; cbn [option_map snd] in H.
  { inversion H; subst. destruct (keywords_none c) as [Hl|Hn].
    2:{ rewrite Hn in Ef. discriminate. }
    destruct (NW (proj2 (is_alpha_iff c) Hl)) as (w' & -> & Hname).
    cbn [map] in Ef. change (tolower c) with (lower_char c) in Ef; rewrite find_reserved in Ef.
    exists (c :: w'), (Some k).
    assert (Ek : k = word_tok (c :: w')).
    { unfold word_tok. cbn [map]. rewrite Ef. reflexivity. }
    repeat split; try discriminate.
    - assumption.
    - rewrite Ek. constructor. assumption.
    - apply word_ends; assumption.
    - rewrite (name_newlines _ Hname). lia. }
  destruct (punct c) eqn:Ep.
  { destruct (punct_symbol _ _ Ep) as (Hin & Hl & Hd & H1 & H2 & H3 & H4).
    inversion H; subst. exists [c], (Some t0).
    repeat split; try discriminate.
    - constructor; assumption.
    - intros x y _. apply extends_other; try assumption.
      cbn [In]. intros u [<-|[<-|[<-|[]]]] E; inversion E; subst; lia.
    - rewrite newlines_cons. replace (c =? 10) with false by lia. change (newlines []) with 0; try change (newlines [34]) with 0; try change (newlines [10]) with 1; cbn; lia. }
  destruct (Z.eqb_spec c 10).
  { subst c. inversion H; subst. exists [10], (Some TOK_EOL).
    repeat split; try discriminate; [constructor|].
    intros x y _. apply extends_other; unfold letter, digit; try lia.
    cbn [In]. intros u [<-|[<-|[<-|[]]]]; discriminate. }
  destruct (punct_eq c) as [[t1 t2]|] eqn:Eq.
  { assert (Hc : (c = 61 /\ t1 = TOK_ASSIGN /\ t2 = TOK_EQ) \/ (c = 60 /\ t1 = TOK_LT /\ t2 = TOK_LEQ)
                 \/ (c = 62 /\ t1 = TOK_GT /\ t2 = TOK_GEQ)).
    { unfold punct_eq in Eq.
      destruct (Z.eqb_spec c 61); [inversion Eq; subst; auto|].
      destruct (Z.eqb_spec c 60); [inversion Eq; subst; auto|].
      destruct (Z.eqb_spec c 62); [inversion Eq; subst; auto|]. discriminate. }
    destruct (Z.eqb_spec (cur r) 61) as [Ec|Ec].
    - destruct r as [|x r]; [discriminate|]. cbn [cur] in Ec. subst x. cbn [tl] in H.
      inversion H; subst. exists [c; 61], (Some t2).
      repeat split; try discriminate.
      + apply lx_symbol. destruct Hc as [(-> & _ & ->)|[(-> & _ & ->)|(-> & _ & ->)]]; cbn; tauto.
      + intros x y _. apply extends_other; unfold letter, digit; try lia.
        cbn [In]. intros u [<-|[<-|[<-|[]]]]; discriminate.
      + rewrite !newlines_cons. replace (c =? 10) with false by lia. change (newlines []) with 0; try change (newlines [34]) with 0; try change (newlines [10]) with 1; cbn; lia.
    - inversion H; subst. exists [c], (Some t1).
      repeat split; try discriminate.
      + apply lx_symbol. destruct Hc as [(-> & -> & _)|[(-> & -> & _)|(-> & -> & _)]]; cbn; tauto.
      + intros x y Hx. rewrite extends_eq; [|intuition (subst; auto)].
        intros ->. subst v. apply Ec. reflexivity.
      + rewrite !newlines_cons. replace (c =? 10) with false by lia. change (newlines []) with 0; try change (newlines [34]) with 0; try change (newlines [10]) with 1; cbn; lia. }
  destruct (is_numeric c) eqn:En.
  { apply is_numeric_iff in En. destruct (scan_number (c :: r)) as [nn tt] eqn:Es.
    destruct (scan_number_spec _ _ _ c r eq_refl En Es) as (Happ & Hcase).
    destruct Hcase as [(Hn & He)|(ds & fs & -> & Hd & Hf & He)].
    - rewrite (push_val_int nn Hn) in H. destruct (decimal nn <? 2 ^ 31) eqn:Eo; [|discriminate].
      cbn [bind] in H. inversion H; subst. exists nn, (Some (TOK_INT (decimal nn))).
      repeat split; try assumption.
      + apply Hn.
      + constructor; [assumption|lia].
      + rewrite (digits_no_newline nn (proj2 Hn)). lia.
    - rewrite (push_val_float ds fs Hd Hf) in H.
      destruct ((decimal (ds ++ fs) <? 2 ^ 31) && (10 ^ zlen fs <? 2 ^ 31)) eqn:Eo; [|discriminate].
      cbn [bind] in H. apply andb_true_iff in Eo as [Eo1 Eo2].
      inversion H; subst.
      exists (ds ++ 46 :: fs), (Some (TOK_FLOAT (f_div (f_of_int (decimal (ds ++ fs))) (f_of_int (10 ^ zlen fs))))).
      repeat split; try assumption.
      + destruct ds; discriminate.
      + constructor; try assumption; lia.
      + rewrite newlines_app, newlines_cons, (digits_no_newline ds (proj2 Hd)), (digits_no_newline fs Hf).
        change (newlines []) with 0; try change (newlines [34]) with 0; try change (newlines [10]) with 1; cbn; lia. }
  destruct (is_alpha c) eqn:Ea; [|discriminate].
  destruct (NW eq_refl) as (w' & -> & Hname).
  inversion H; subst. exists (c :: w'), (Some (TOK_IDENT (c :: w'))).
  repeat split; try discriminate; try assumption.
  - cbn [map] in Ef. change (tolower c) with (lower_char c) in Ef; rewrite find_reserved in Ef.
    replace (TOK_IDENT (c :: w')) with (word_tok (c :: w')); [constructor; assumption|].
    unfold word_tok. cbn [map]. rewrite Ef. reflexivity.
  - apply word_ends; assumption.
  - rewrite (name_newlines _ Hname). lia.
Qed.

Lemma find_none_nonletter c s :
  ~ letter c -> try_keywords (keywords_for (tolower c)) s = None.
Proof. intros H. destruct (keywords_none c) as [Hl| ->]; [contradiction|reflexivity]. Qed.

Lemma lex1_complete file line c u v k :
  lexeme (c :: u) k -> ends (c :: u) v ->
  lex1 file line c (u ++ v) =
  Ok (at_line file (line + newlines (c :: u)) k, line + newlines (c :: u), v).
Proof.
  intros H He. remember (c :: u) as cu eqn:Ecu. destruct H.
  - (* blank *)
    inversion Ecu; subst. unfold lex1. rewrite (proj2 (is_blank_iff c) H).
    replace (line + newlines [c]) with line; [reflexivity|].
    rewrite newlines_cons. unfold blank in H. replace (c =? 10) with false by lia.
    change (newlines []) with 0. lia.
  - (* newline *)
    inversion Ecu; subst. unfold lex1. reflexivity.
  - (* comment *)
    inversion Ecu; subst. clear Ecu. unfold lex1. cbn [is_blank Z.eqb Pos.eqb orb].
    rewrite <- app_assoc. cbn [app].
    assert (Hs : span not_newline (35 :: b ++ 10 :: v) = (35 :: b, 10 :: v)).
    { change (35 :: b ++ 10 :: v) with ((35 :: b) ++ 10 :: v). apply span_app.
      - apply in_not_newline. intros [Hc|Hc]; [lia|contradiction].
      - intros x y Hx; inversion Hx; subst; reflexivity. }
    rewrite Hs. rewrite newlines_cons, newlines_app, (newlines_none b H).
    change (newlines [10]) with 1. reflexivity.
  - (* string *)
    inversion Ecu; subst. clear Ecu. unfold lex1. cbn [is_blank Z.eqb Pos.eqb orb].
    rewrite <- app_assoc. cbn [app]. rewrite span_app.
    + cbn [Z.eqb Pos.eqb].
      replace (line + newlines (34 :: b ++ [34])) with line; [reflexivity|].
      rewrite newlines_cons, newlines_app, (newlines_none b H0).
      change (newlines [34]) with 0. cbn. lia.
    + apply in_not_string_end. auto.
    + intros x y Hx; inversion Hx; subst; reflexivity.
  - (* word *)
    subst w. pose proof H as Hn. destruct H as (c' & r' & E & Hc & Hr). inversion E; subst c' r'. clear E.
    assert (Hs : span is_alpha_numeric (c :: u ++ v) = (c :: u, v)).
    { change (c :: u ++ v) with ((c :: u) ++ v). apply span_app.
      - apply Forall_name_iff. constructor; [left|]; assumption.
      - intros x y Hx. destruct (is_alpha_numeric x) eqn:Ex; [|reflexivity].
        exfalso. apply (He x y Hx). constructor; [assumption|]. apply is_alnum_iff; assumption. }
    unfold lex1. rewrite Hs, (name_newlines _ Hn), Z.add_0_r.
    rewrite (try_keywords_word _ _ _ _ (keywords_for_lowercase _) Hs).
    unfold letter in Hc.
    replace (is_blank c) with false by (unfold is_blank; lia).
    replace (c =? 34) with false by lia. replace (c =? 35) with false by lia.
    cbn [map]. change (tolower c) with (lower_char c). rewrite find_reserved.
    change (lower_char c :: map lower_char u) with (map lower_char (c :: u)).
    unfold word_tok. destruct (find _ reserved) as [[kw t]|]; cbn [option_map snd]; [reflexivity|].
    replace (punct c) with (@None tok)
      by (unfold punct; symmetry; repeat match goal with |- context [c =? ?k] => replace (c =? k) with false by lia end; reflexivity).
    replace (c =? 10) with false by lia.
    replace (punct_eq c) with (@None (tok * tok))
      by (unfold punct_eq; symmetry; repeat match goal with |- context [c =? ?k] => replace (c =? k) with false by lia end; reflexivity).
    replace (is_numeric c) with false by (unfold is_numeric; lia).
    replace (is_alpha c) with true by (symmetry; apply is_alpha_iff; unfold letter; lia).
    reflexivity.
  - (* symbol *)
    subst u0. unfold symbols in H. cbn [In] in H.
    repeat match type of H with
    | _ \/ _ => destruct H as [H|H]
    end; try contradiction; inversion H; subst; clear H;
    try (unfold lex1; change (newlines _) with 0; rewrite Z.add_0_r; reflexivity).
    all: cbn [app]; unfold lex1; change (newlines _) with 0; rewrite Z.add_0_r;
      cbn [is_blank Z.eqb Pos.eqb orb];
      rewrite find_none_nonletter by (unfold letter; lia);
      cbn [punct punct_eq Z.eqb Pos.eqb];
      destruct (Z.eqb_spec (cur v) 61) as [Ec|Ec]; [|reflexivity];
      destruct v as [|x v]; [discriminate|]; cbn [cur] in Ec; subst x;
      exfalso; eapply He; [reflexivity|]; apply ext_eq; auto.
  - (* integer *)
    subst ds. destruct H as [Hne Hd].
    pose proof Hd as Hd'. inversion Hd' as [|? ? Hc Hu]; subst.
    assert (Hs : span is_numeric (c :: u ++ v) = (c :: u, v)).
    { change (c :: u ++ v) with ((c :: u) ++ v). apply span_app.
      - apply Forall_digit_iff. assumption.
      - intros x y Hx. destruct (is_numeric x) eqn:Ex; [|reflexivity].
        exfalso. apply (He x y Hx). apply ext_int; [split; assumption|].
        left. apply is_numeric_iff; assumption. }
    unfold lex1. unfold digit in Hc.
    replace (is_blank c) with false by (unfold is_blank; lia).
    replace (c =? 34) with false by lia. replace (c =? 35) with false by lia.
    rewrite find_none_nonletter by (unfold letter; lia).
    replace (punct c) with (@None tok)
      by (unfold punct; symmetry; repeat match goal with |- context [c =? ?k] => replace (c =? k) with false by lia end; reflexivity).
    replace (c =? 10) with false by lia.
    replace (punct_eq c) with (@None (tok * tok))
      by (unfold punct_eq; symmetry; repeat match goal with |- context [c =? ?k] => replace (c =? k) with false by lia end; reflexivity).
    replace (is_numeric c) with true by (unfold is_numeric; lia).
    unfold scan_number. rewrite Hs.
    rewrite (digits_no_newline _ Hd), Z.add_0_r.
    destruct v as [|x v].
    + rewrite push_val_int by (split; assumption).
      replace (decimal (c :: u) <? 2 ^ 31) with true by lia. reflexivity.
    + destruct (Z.eqb_spec x 46).
      * exfalso. apply (He x v eq_refl). apply ext_int; [split; assumption|]. right; assumption.
      * rewrite push_val_int by (split; assumption).
        replace (decimal (c :: u) <? 2 ^ 31) with true by lia. reflexivity.
  - (* float *)
    destruct H as [Hne Hd]. destruct ds as [|c' ds]; [contradiction|].
    cbn [app] in Ecu. inversion Ecu; subst c' u. clear Ecu Hne.
    pose proof Hd as Hd'. inversion Hd' as [|? ? Hc Hu]; subst.
    assert (Hs : span is_numeric (c :: ds ++ 46 :: fs ++ v) = (c :: ds, 46 :: fs ++ v)).
    { change (c :: ds ++ 46 :: fs ++ v) with ((c :: ds) ++ 46 :: fs ++ v). apply span_app.
      - apply Forall_digit_iff. assumption.
      - intros x y Hx. inversion Hx; subst. reflexivity. }
    assert (Hs2 : span is_numeric (fs ++ v) = (fs, v)).
    { apply span_app.
      - apply Forall_digit_iff. assumption.
      - intros x y Hx. destruct (is_numeric x) eqn:Ex; [|reflexivity].
        exfalso. apply (He x y Hx). apply (ext_float (c :: ds)); [split; [discriminate|assumption]|assumption|].
        apply is_numeric_iff; assumption. }
    unfold lex1. unfold digit in Hc.
    replace (is_blank c) with false by (unfold is_blank; lia).
    replace (c =? 34) with false by lia. replace (c =? 35) with false by lia.
    rewrite find_none_nonletter by (unfold letter; lia).
    replace (punct c) with (@None tok)
      by (unfold punct; symmetry; repeat match goal with |- context [c =? ?k] => replace (c =? k) with false by lia end; reflexivity).
    replace (c =? 10) with false by lia.
    replace (punct_eq c) with (@None (tok * tok))
      by (unfold punct_eq; symmetry; repeat match goal with |- context [c =? ?k] => replace (c =? k) with false by lia end; reflexivity).
    replace (is_numeric c) with true by (unfold is_numeric; lia).
    unfold scan_number. rewrite <- app_assoc. cbn [app].
    rewrite Hs. cbn [Z.eqb Pos.eqb]. rewrite Hs2.
    rewrite push_val_float by (try split; try assumption; discriminate).
    replace ((decimal ((c :: ds) ++ fs) <? 2 ^ 31) && (10 ^ zlen fs <? 2 ^ 31)) with true by lia.
    cbn [bind].
    replace (newlines (c :: ds ++ 46 :: fs)) with 0; [rewrite Z.add_0_r; reflexivity|].
    change (c :: ds ++ 46 :: fs) with ((c :: ds) ++ 46 :: fs).
    rewrite newlines_app, (digits_no_newline _ Hd), newlines_cons, (digits_no_newline fs H0). reflexivity.
Qed.

(** ** The loop *)
Lemma lex1_shorter file line c r t line' v :
  lex1 file line c r = Ok (t, line', v) -> (List.length v <= List.length r)%nat.
Proof.
  intros H. destruct (lex1_sound _ _ _ _ _ _ _ H) as (u & k & E & Hne & _).
  destruct u as [|x u]; [contradiction|]. inversion E; subst. rewrite app_length. lia.
Qed.

Lemma lex_loop_fuel file s : forall f1 f2 line,
  (List.length s <= f1)%nat -> (List.length s <= f2)%nat ->
  lex_loop f1 file line s = lex_loop f2 file line s.
Proof.
  assert (G : forall nn s f1 f2 line, (List.length s <= nn)%nat ->
    (List.length s <= f1)%nat -> (List.length s <= f2)%nat ->
    lex_loop f1 file line s = lex_loop f2 file line s).
  { induction nn as [|nn IH]; intros s' f1 f2 line Hn H1 H2.
    - destruct s'; [destruct f1, f2; reflexivity|cbn in Hn; lia].
    - destruct s' as [|c r]; [destruct f1, f2; reflexivity|].
      cbn [List.length] in *. destruct f1 as [|f1]; [lia|]. destruct f2 as [|f2]; [lia|].
      cbn [lex_loop]. destruct (lex1 file line c r) as [[[t l'] v]|e l|x] eqn:E; cbn [bind]; try reflexivity.
      pose proof (lex1_shorter _ _ _ _ _ _ _ E).
      rewrite (IH v f1 f2 l') by lia. reflexivity. }
  intros. eapply G; eauto.
Qed.

Lemma lex_from_nil file line : lex_from file line [] = Ok [Token TOK_EOF (Line file line)].
Proof. reflexivity. Qed.

Lemma lex_from_cons file line c r : lex_from file line (c :: r) =
  ('(t, line', r') <- lex1 file line c r ;;
   ts <- lex_from file line' r' ;;
   Ok (match t with Some t' => t' :: ts | None => ts end)).
Proof.
  unfold lex_from at 1. cbn [List.length lex_loop].
  destruct (lex1 file line c r) as [[[t l'] v]|e l|x] eqn:E; cbn [bind]; try reflexivity.
  pose proof (lex1_shorter _ _ _ _ _ _ _ E).
  unfold lex_from. rewrite (lex_loop_fuel file v (List.length r) (List.length v)) by lia. reflexivity.
Qed.

(** One lexeme in front of a text it does not run into. *)
Lemma lex_from_lexeme file line u k v : lexeme u k -> ends u v ->
  lex_from file line (u ++ v) =
  (ts <- lex_from file (line + newlines u) v ;;
   Ok (match at_line file (line + newlines u) k with Some t' => t' :: ts | None => ts end)).
Proof.
  intros H He. destruct u as [|c u].
  { exfalso. inversion H; subst.
    - destruct H0 as (c & r & E & _). discriminate.
    - unfold symbols in *. cbn [In] in *. repeat match goal with H : _ \/ _ |- _ => destruct H as [H|H] end;
        try contradiction; discriminate.
    - destruct H0; contradiction.
    - destruct ds; discriminate. }
  cbn [app]. rewrite lex_from_cons, (lex1_complete _ _ _ _ _ _ H He). reflexivity.
Qed.

Lemma blank_ends u v : lexeme u None -> ends u v.
Proof.
  intros H; inversion H; subst. intros x y _. apply extends_other; unfold blank, letter, digit in *; try lia.
  cbn [In]. intros w [<-|[<-|[<-|[]]]] E; inversion E; subst; lia.
Qed.

Lemma lex_from_lexemes file line s ts :
  lex_from file line s = Ok ts <-> lexemes file line s ts.
Proof.
  split.
  - assert (G : forall nn s line ts, (List.length s <= nn)%nat ->
      lex_from file line s = Ok ts -> lexemes file line s ts).
    { induction nn as [|nn IH]; intros s' l ts' Hn H.
      - destruct s'; [|cbn in Hn; lia]. rewrite lex_from_nil in H. inversion H. constructor.
      - destruct s' as [|c r]; [rewrite lex_from_nil in H; inversion H; constructor|].
        rewrite lex_from_cons in H.
        destruct (lex1 file l c r) as [[[t l'] v]|e ll|x] eqn:E; cbn [bind] in H; try discriminate.
        destruct (lex_from file l' v) as [ts0|e ll|x] eqn:E2; cbn [bind] in H; try discriminate.
        pose proof (lex1_shorter _ _ _ _ _ _ _ E). cbn [List.length] in Hn.
        apply IH in E2; [|lia].
        destruct (lex1_sound _ _ _ _ _ _ _ E) as (u & k & Eu & Hne & Hl & He & Hl' & Ht).
        rewrite Eu. subst l' t. inversion H; subst ts'. destruct k; cbn [at_line option_map].
        + constructor; assumption.
        + constructor; assumption. }
    intros; eapply G; eauto.
  - induction 1.
    + reflexivity.
    + rewrite (lex_from_lexeme file line u None s H (blank_ends u s H)), IHlexemes. reflexivity.
    + rewrite (lex_from_lexeme file line u (Some t) s H H0), IHlexemes. reflexivity.
Qed.

(** ** What can go wrong *)
Lemma lex1_outcomes file line c r :
  match lex1 file line c r with
  | Ok _ => True
  | Err e l => l = line /\ (e = E_string_quote_mismatch \/ e = E_unexpected_character)
  | Stuck SOob => c = 35 /\ ~ In 10 r
  | Stuck SOverflow => digit c
  | Stuck _ => False
  end.
Proof.
  unfold lex1. destruct (is_blank c); [exact I|].
  destruct (Z.eqb_spec c 34).
  { destruct (span not_string_end r) as [b s]. destruct s as [|e' s]; [auto|].
    destruct (e' =? 34); auto. }
  destruct (Z.eqb_spec c 35).
  { subst c. destruct (span not_newline (35 :: r)) as [b s] eqn:E.
    destruct (span_spec _ _ _ _ E) as (Hs & Hb & _). destruct s; [|exact I].
    split; [reflexivity|]. rewrite app_nil_r in Hs. subst b. apply in_not_newline in Hb.
    intros Hi; apply Hb; right; assumption. }
  destruct (try_keywords _ _) as [[t r']|]; [exact I|].
  destruct (punct c); [exact I|]. destruct (c =? 10); [exact I|].
  destruct (punct_eq c) as [[t1 t2]|]; [destruct (cur r =? 61); exact I|].
  destruct (is_numeric c) eqn:En.
  { apply is_numeric_iff in En. destruct (scan_number (c :: r)) as [nn tt] eqn:Es.
    destruct (scan_number_spec _ _ _ c r eq_refl En Es) as (Happ & Hcase).
    destruct Hcase as [(Hn & He)|(ds & fs & -> & Hd & Hf & He)].
    - rewrite (push_val_int nn Hn). destruct (decimal nn <? 2 ^ 31); [exact I|exact En].
    - rewrite (push_val_float ds fs Hd Hf).
      destruct ((decimal (ds ++ fs) <? 2 ^ 31) && (10 ^ zlen fs <? 2 ^ 31)); [exact I|exact En]. }
  destruct (is_alpha c); [destruct (span is_alpha_numeric (c :: r)); exact I|auto].
Qed.
