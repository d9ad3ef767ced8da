(** C123: float literals. *)
From Coq Require Import ZArith QArith Qabs Qpower List Bool Lia ZifyBool String Floats.SpecFloat.
From Verif Require Import Base BaseFacts F32 F32Facts FloatBits Lexer LexSpec LexFacts PropertiesLexer Instr InstrSpec
  InstrProofs Program VM Gc GcSpec Host Demo VmSpec VmFacts PropertiesOps PropertiesFloat PropertiesRound PropertiesNumText.
Import ListNotations.
Open Scope Z_scope.
Open Scope list_scope.

(** ** Specification *)

(** The number that digits, a point and digits stand for. *)
Definition written (ds fs : bytes) : Q := (digits_value (ds ++ fs) # Z.to_pos (10 ^ zlen fs))%Q.

(** ** Proofs *)
Lemma rounded_eq v w r : (v == w)%Q -> rounded v r -> rounded w r.
Proof.
  intros E (A & B & C & D). unfold rounded. split; [|split; [|split]].
  - intros L. rewrite <- E in L. destruct (A L) as (V & R & N). split; [exact V|]. split; [exact R|]. intros y Ry. destruct (N y Ry) as [N1 N2].
    rewrite <- E. split; assumption.
  - intros L. rewrite <- E in L. exact (B L).
  - intros L. rewrite <- E in L. exact (C L).
  - intros L. rewrite <- E in L. exact (D L).
Qed.
Lemma int_rounded z : rounded (inject_Z z) (f_of_int z).
Proof. apply (C121_integer z). constructor. Qed.
Lemma small_limit z : Z.abs z <= 2 ^ 31 -> (Qabs (inject_Z z) < limit)%Q.
Proof. intros H. unfold limit, Qlt, Qabs, inject_Z. cbn [Qnum Qden]. rewrite !Z.mul_1_r. eapply Z.le_lt_trans; [exact H|reflexivity]. Qed.
Lemma int_fine z : Z.abs z <= 2 ^ 31 -> finite (f_of_int z) /\ f_valid (f_of_int z) = true.
Proof.
  intros H. destruct (int_rounded z) as (A & _). destruct (A (small_limit z H)) as (V & R & _). split; [|exact V].
  destruct (f_of_int z); cbn in *; tauto.
Qed.
Lemma int_exact z : 0 <= z <= 2 ^ 24 -> (number (f_of_int z) == inject_Z z)%Q.
Proof.
  intros H. destruct (Z.eq_dec z (2 ^ 24)) as [->|N]; [reflexivity|]. destruct z as [|p|p]; [reflexivity| |lia].
  assert (R : representable (S754_finite false p 0)) by (cbn [representable]; lia).
  apply (C121_exact _ _ (S754_finite false p 0) (int_rounded (Zpos p)) R). cbn [number]. rewrite Qmult_1_r. reflexivity.
Qed.
Lemma ten_exact k : 0 <= k <= 9 -> (number (f_of_int (10 ^ k)) == inject_Z (10 ^ k))%Q.
Proof.
  intros H. assert (C : k = 0 \/ k = 1 \/ k = 2 \/ k = 3 \/ k = 4 \/ k = 5 \/ k = 6 \/ k = 7 \/ k = 8 \/ k = 9) by lia.
  repeat (destruct C as [->|C]; [vm_compute; reflexivity|]). subst k. vm_compute; reflexivity.
Qed.
Lemma ten_range k : 0 <= k <= 9 -> 0 < 10 ^ k <= 1000000000.
Proof. intros H. split; [apply Z.pow_pos_nonneg; lia|]. change 1000000000 with (10 ^ 9). apply Z.pow_le_mono_r; lia. Qed.
Lemma lit_twice V k : 0 <= V < 2 ^ 31 -> 0 <= k <= 9 ->
  rounded (number (f_of_int V) / inject_Z (10 ^ k)) (f_div (f_of_int V) (f_of_int (10 ^ k))).
Proof.
  intros HV K. pose proof (ten_range k K) as T. destruct (int_fine V) as [F1 V1]; [lia|]. destruct (int_fine (10 ^ k)) as [F2 V2]; [lia|].
  pose proof (ten_exact k K) as E.
  apply (rounded_eq (number (f_of_int V) / number (f_of_int (10 ^ k)))); [rewrite E; reflexivity|].
  apply div_rounded; auto. rewrite E. unfold Qeq. cbn. lia.
Qed.
Lemma lit_once V k : 0 <= V <= 2 ^ 24 -> 0 <= k <= 9 ->
  rounded (V # Z.to_pos (10 ^ k)) (f_div (f_of_int V) (f_of_int (10 ^ k))).
Proof.
  intros HV K. pose proof (ten_range k K) as T. eapply rounded_eq; [|apply lit_twice; [lia|exact K]].
  rewrite (int_exact V HV). rewrite (Qmake_Qdiv V). rewrite Z2Pos.id by lia. reflexivity.
Qed.
Lemma lit_sign V k : 0 <= V < 2 ^ 31 -> 0 <= k <= 9 -> negative (f_div (f_of_int V) (f_of_int (10 ^ k))) = false.
Proof.
  intros HV K. pose proof (ten_range k K) as T. destruct (Z.eq_dec V 0) as [->|N].
  - assert (C : k = 0 \/ k = 1 \/ k = 2 \/ k = 3 \/ k = 4 \/ k = 5 \/ k = 6 \/ k = 7 \/ k = 8 \/ k = 9) by lia.
    repeat (destruct C as [->|C]; [vm_compute; reflexivity|]). subst k. vm_compute; reflexivity.
  - destruct (lit_twice V k HV K) as (_ & _ & P & _). apply P.
    assert (P0 : (0 < number (f_of_int V))%Q).
    { destruct (int_rounded V) as (A & _ & S & _). specialize (S ltac:(unfold Qlt; cbn; lia)).
      destruct (A (small_limit V ltac:(lia))) as (Vv & R & Near).
      assert (R1 : representable (S754_finite false 1 0)) by (cbn [representable]; lia).
      destruct (Qlt_le_dec 0 (number (f_of_int V))) as [|L]; [assumption|exfalso].
      destruct (Near _ R1) as [B _]. change (number (S754_finite false 1 0)) with 1%Q in B.
      assert (Qabs (1 - inject_Z V) == inject_Z V - 1)%Q.
      { rewrite Qabs_Qminus. apply Qabs_pos. unfold Qle, Qminus, Qplus, Qopp, inject_Z; cbn; lia. }
      assert (Qabs (number (f_of_int V) - inject_Z V) == inject_Z V - number (f_of_int V))%Q.
      { rewrite Qabs_Qminus. apply Qabs_pos. apply (Qle_trans _ (inject_Z V - 0)); [unfold Qle, Qminus, Qplus, Qopp, inject_Z; cbn; lia|].
        apply Qplus_le_r, Qopp_le_compat, L. }
      rewrite H, H0 in B. apply Qplus_le_r in B. apply Qopp_le_compat in B. rewrite !Qopp_involutive in B.
      apply (Qle_trans 1 _ 0) in B; [|exact L]. now apply B. }
    apply Qlt_shift_div_l; [unfold Qlt; cbn; lia|]. rewrite Qmult_0_l. exact P0.
Qed.
Lemma number_pos x : negative x = false -> (0 <= number x)%Q.
Proof.
  destruct x as [s|s| |s m e]; cbn [negative number]; intros N; try (subst s); try apply Qle_refl.
  apply Qmult_le_0_compat; [unfold Qle; cbn; lia|]. apply Qpower_pos. discriminate.
Qed.
(** Below 16 some float lies within 2^-21. *)
Lemma near16 V k : 0 <= k -> 0 <= V < 16 * 10 ^ k ->
  exists y, representable y /\ (Qabs (number y - (V # Z.to_pos (10 ^ k))) <= 1 # 2097152)%Q.
Proof.
  intros K HV. assert (P : 0 < 10 ^ k) by (apply Z.pow_pos_nonneg; lia). set (d := 10 ^ k) in *.
  set (n := (V * 2097152 + d) / (2 * d)).
  assert (B : n * (2 * d) <= V * 2097152 + d < (n + 1) * (2 * d)).
  { unfold n. pose proof (Z.mul_div_le (V * 2097152 + d) (2 * d)). pose proof (Z.mul_succ_div_gt (V * 2097152 + d) (2 * d)). lia. }
  assert (N0 : 0 <= n) by (unfold n; apply Z.div_pos; lia).
  assert (N1 : n <= 16777216).
  { destruct (Z_le_gt_dec n 16777216); [assumption|exfalso]. assert (16777217 * (2 * d) <= n * (2 * d)) by (apply Z.mul_le_mono_nonneg_r; lia). lia. }
  clearbody d n.
  assert (E : (Qabs ((n # 1048576) - (V # Z.to_pos d)) <= 1 # 2097152)%Q).
  { unfold Qabs, Qle, Qminus, Qplus, Qopp. cbn [Qnum Qden]. rewrite Pos2Z.inj_mul, Z2Pos.id by lia.
    assert (Z.abs (n * d + - V * 1048576) * 2 <= d) by lia. lia. }
  destruct n as [|p|p]; [exists (S754_zero false)| |lia].
  - split; [exact Logic.I|]. cbn [number]. setoid_replace 0%Q with (0 # 1048576)%Q by reflexivity. exact E.
  - destruct (Z.eq_dec (Zpos p) 16777216) as [Q|Q].
    + exists (S754_finite false 1 4). split; [cbn [representable]; lia|]. rewrite Q in E. setoid_replace (number (S754_finite false 1 4)) with (16777216 # 1048576)%Q by reflexivity. exact E.
    + exists (S754_finite false p (-20)). split; [cbn [representable]; lia|].
      assert (En : (number (S754_finite false p (-20)) == Zpos p # 1048576)%Q).
      { cbn [number]. change ((2 # 1) ^ (-20))%Q with (1 # 1048576)%Q. unfold Qeq, Qmult, inject_Z. cbn [Qnum Qden]. lia. }
      rewrite En. exact E.
Qed.
Lemma dv_more l k : digits_value (l ++ repeat 48 k) = digits_value l * 10 ^ Z.of_nat k.
Proof.
  induction k as [|k IH]; [cbn [repeat]; rewrite app_nil_r; lia|]. replace (repeat 48 (S k)) with (repeat 48 k ++ [48]) by (symmetry; apply repeat_cons).
  rewrite app_assoc, dv_snoc, IH. rewrite Nat2Z.inj_succ, Z.pow_succ_r by lia. lia.
Qed.
Lemma as_written i d x : numeral i -> Forall digit d -> zlen d <= 6 -> (written i d < 16)%Q -> rounded (written i d) x -> negative x = false ->
  f_valid x = true /\ float_text x (i ++ bs "." ++ d ++ repeat 48 (6 - List.length d)).
Proof.
  intros Ni Dd L Lt R Sg. pose proof Ni as (_ & Di & _). set (k := zlen d) in *. assert (K0 : 0 <= k) by apply zlen_nonneg.
  assert (Dv : Forall digit (i ++ d)) by (apply Forall_app; split; assumption).
  pose proof (dv_bound _ Dv) as [V0 _]. unfold written in *. fold k in Lt, R. set (V := digits_value (i ++ d)) in *.
  assert (P : 0 < 10 ^ k) by (apply Z.pow_pos_nonneg; lia).
  assert (HV : V < 16 * 10 ^ k).
  { unfold Qlt in Lt. cbn [Qnum Qden] in Lt. rewrite Z2Pos.id in Lt by lia. lia. }
  destruct (near16 V k K0 (conj V0 HV)) as (y & Ry & Ny).
  set (v := (V # Z.to_pos (10 ^ k))%Q) in *.
  assert (Small : (Qabs v < limit)%Q).
  { rewrite Qabs_pos; [|unfold v, Qle; cbn [Qnum Qden]; lia]. eapply Qlt_trans; [exact Lt|reflexivity]. }
  destruct R as (A & _). destruct (A Small) as (Vx & Rx & Near). destruct (Near y Ry) as [C _].
  assert (C' : (Qabs (number x - v) <= 1 # 2097152)%Q) by (eapply Qle_trans; eassumption). clear C A Near Small Ny.
  split; [exact Vx|]. pose proof (number_pos x Sg) as Px.
  assert (G : exists i0 d0, i ++ bs "." ++ d ++ repeat 48 (6 - List.length d) = (if negative x then bs "-" else []) ++ i0 ++ bs "." ++ d0 /\
      numeral i0 /\ Forall digit d0 /\ List.length d0 = 6%nat /\
      let n := inject_Z (digits_value (i0 ++ d0)) in
      let v := (Qabs (number x) * inject_Z (10 ^ 6))%Q in
      (Qabs (n - v) <= 1 # 2)%Q /\ ((Qabs (n - v) == 1 # 2)%Q -> Z.even (digits_value (i0 ++ d0)) = true)).
  { exists i, (d ++ repeat 48 (6 - List.length d)). rewrite Sg. split; [reflexivity|]. split; [exact Ni|].
    split. { apply Forall_app. split; [exact Dd|]. apply Forall_forall. intros c I. apply repeat_spec in I. subst c. unfold digit. lia. }
    assert (Ln : (List.length d <= 6)%nat) by (unfold k in L; rewrite zlen_len in L; lia).
    split. { rewrite app_length, repeat_length. lia. }
    cbv zeta. rewrite app_assoc, dv_more. fold V. rewrite (Qabs_pos (number x)) by exact Px.
    assert (E : (inject_Z (V * 10 ^ Z.of_nat (6 - List.length d)) == v * inject_Z (10 ^ 6))%Q).
    { unfold v, Qeq, Qmult, inject_Z. cbn [Qnum Qden]. rewrite Pos.mul_1_r, Z2Pos.id by lia. rewrite !Z.mul_1_r.
      rewrite <- Z.mul_assoc, <- Z.pow_add_r by lia. do 2 f_equal. unfold k. rewrite zlen_len. lia. }
    rewrite E.
    assert (S : (Qabs (v * inject_Z (10 ^ 6) - number x * inject_Z (10 ^ 6)) < 1 # 2)%Q).
    { setoid_replace (v * inject_Z (10 ^ 6) - number x * inject_Z (10 ^ 6))%Q with ((v - number x) * inject_Z (10 ^ 6))%Q by ring.
      rewrite Qabs_Qmult, Qabs_Qminus. change (Qabs (inject_Z (10 ^ 6))) with (inject_Z (10 ^ 6)).
      eapply Qle_lt_trans; [apply Qmult_le_compat_r; [exact C'|discriminate]|reflexivity]. }
    split; [apply Qlt_le_weak, S|]. intros Q. rewrite Q in S. now apply Qlt_irrefl in S. }
  destruct x as [s|s| |s m e]; cbn [float_text]; try exact G; cbn in Rx; contradiction.
Qed.
Lemma ten_small n : 0 <= n -> (10 ^ n <? 2 ^ 31) = (n <=? 9).
Proof.
  intros H. destruct (Z_le_gt_dec n 9) as [L|L].
  - pose proof (ten_range n (conj H L)). lia.
  - assert (10 ^ 10 <= 10 ^ n) by (apply Z.pow_le_mono_r; lia). lia.
Qed.

(** ** C123 *)

(** A float literal after a text that lexes.  With digits that fit, it is one
    token, whose float is the number of the digits, rounded, divided by the
    power of ten and rounded again; otherwise an overflow. *)
Theorem C123_token : forall file p ds fs q tsp,
  ~ In 0 (p ++ (ds ++ [46] ++ fs) ++ q) -> number_run ds -> Forall digit fs -> lex file p = Ok tsp ->
  (forall p' a, p = p' ++ [a] -> ~ name_char a /\ a <> 46) ->
  (forall c q', q = c :: q' -> ~ digit c) ->
  exists ts, tsp = ts ++ [Token TOK_EOF (Line file (1 + newlines p))] /\
  (digits_value (ds ++ fs) < 2 ^ 31 -> zlen fs <= 9 -> exists x,
     lex file (p ++ (ds ++ [46] ++ fs) ++ q) =
       (tq <- lex_from file (1 + newlines p) q ;;
        Ok (ts ++ Token (TOK_FLOAT x) (Line file (1 + newlines p)) :: tq)) /\
     negative x = false /\
     (exists y, rounded (inject_Z (digits_value (ds ++ fs))) y /\ rounded (number y / inject_Z (10 ^ zlen fs)) x) /\
     (digits_value (ds ++ fs) <= 2 ^ 24 -> rounded (written ds fs) x)) /\
  (2 ^ 31 <= digits_value (ds ++ fs) \/ 9 < zlen fs ->
     lex file (p ++ (ds ++ [46] ++ fs) ++ q) = Stuck SOverflow).
Proof.
  intros file p ds fs q tsp H0 Hw Hf H Hl Hr.
  rewrite lex_text in H by (intros Hi; apply H0; apply in_or_app; left; assumption).
  assert (Fd : forall rest, exists c r, (ds ++ [46] ++ fs) ++ rest = c :: r /\ digit c).
  { intros rest. rewrite <- app_assoc. apply first_digit. exact Hw. }
  destruct (lex_from_app file 1 p ((ds ++ [46] ++ fs) ++ q) tsp H) as (ts & Ets & Hpq).
  { destruct (Fd q) as (c & r & -> & Hc). intros p' a x q' Ep Eq.
    inversion Eq; subst x q'. specialize (Hl p' a Ep).
    unfold may_join, name_char, letter, digit, LexSpec.digit in *. lia. }
  exists ts. split; [assumption|]. rewrite lex_text by assumption. rewrite Hpq. cbn [app] in *.
  assert (Dv : Forall digit (ds ++ fs)) by (apply Forall_app; split; [apply Hw|exact Hf]).
  pose proof (dv_bound _ Dv) as [V0 _]. pose proof (zlen_nonneg fs) as K0. split.
  - intros B K. exists (f_div (f_of_int (digits_value (ds ++ fs))) (f_of_int (10 ^ zlen fs))). split; [|split; [|split]].
    + rewrite (lex_from_lexeme file _ (ds ++ 46 :: fs) (Some (TOK_FLOAT (f_div (f_of_int (digits_value (ds ++ fs))) (f_of_int (10 ^ zlen fs))))) q).
      * assert (Nl : newlines (ds ++ 46 :: fs) = 0).
        { rewrite newlines_app. rewrite (digits_no_newline ds (proj2 Hw)). change (46 :: fs) with ([46] ++ fs). rewrite newlines_app, (digits_no_newline fs Hf). reflexivity. }
        rewrite Nl, Z.add_0_r. destruct (lex_from file (1 + newlines p) q); reflexivity.
      * apply lx_float; auto. pose proof (ten_small (zlen fs) K0). lia.
      * intros c r E. rewrite (extends_float ds fs c Hw Hf). exact (Hr c r E).
    + apply lit_sign; lia.
    + exists (f_of_int (digits_value (ds ++ fs))). split; [apply int_rounded|apply lit_twice; lia].
    + intros S. apply lit_once; lia.
  - intros O.
    assert (Sn : scan_number ((ds ++ 46 :: fs) ++ q) = (ds ++ 46 :: fs, q)).
    { unfold scan_number. rewrite <- app_assoc. rewrite span_app; [|apply Forall_digit_iff; apply Hw|intros x y E; cbn [app] in E; inversion E; subst; reflexivity].
      cbn [app]. rewrite Z.eqb_refl. rewrite span_app; [reflexivity|apply Forall_digit_iff; exact Hf|].
      intros x y E. destruct (is_numeric x) eqn:Ex; [|reflexivity]. exfalso. apply is_numeric_iff in Ex. exact (Hr x y E Ex). }
    destruct (Fd q) as (c & r & Ec & Hc). cbn [app] in Ec. rewrite Ec in *. rewrite lex_from_cons. unfold digit in Hc.
    unfold lex1. replace (is_blank c) with false by (unfold is_blank; lia).
    replace (c =? 34) with false by lia. replace (c =? 35) with false by lia.
    rewrite find_none_nonletter by (unfold letter; lia).
    replace (punct c) with (@None tok)
      by (unfold punct; symmetry; repeat match goal with |- context [c =? ?k] => replace (c =? k) with false by lia end; reflexivity).
    replace (c =? 10) with false by lia.
    replace (punct_eq c) with (@None (tok * tok))
      by (unfold punct_eq; symmetry; repeat match goal with |- context [c =? ?k] => replace (c =? k) with false by lia end; reflexivity).
    replace (is_numeric c) with true by (unfold is_numeric; lia).
    rewrite Sn, (push_val_float ds fs Hw Hf). change (decimal (ds ++ fs)) with (digits_value (ds ++ fs)).
    replace ((digits_value (ds ++ fs) <? 2 ^ 31) && (10 ^ zlen fs <? 2 ^ 31)) with false by (rewrite (ten_small _ K0); lia). reflexivity.
Qed.
Print Assumptions C123_token.

(** Below 16 and with up to six decimals, a literal added to a string is there as
    it was written, filled up with zeros to six decimals. *)
Theorem C123_as_written : forall file ds fs, numeral ds -> Forall digit fs -> zlen fs <= 6 -> (written ds fs < 16)%Q ->
  exists x, lex file (ds ++ [46] ++ fs) = Ok [Token (TOK_FLOAT x) (Line file 1); Token TOK_EOF (Line file 1)] /\
    let t := ds ++ [46] ++ fs ++ repeat 48 (6 - List.length fs) in
    float_text x t /\
    forall s, pushes2 INS_ADD (PStr s) (PFlt x) (SStr (s ++ t)) /\ pushes2 INS_ADD (PFlt x) (PStr s) (SStr (t ++ s)).
Proof.
  intros file ds fs N F L W. pose proof N as (Ne & D & _).
  assert (Nr : number_run ds) by (split; assumption).
  assert (HV : 0 <= digits_value (ds ++ fs) < 16 * 10 ^ zlen fs).
  { assert (Dv : Forall digit (ds ++ fs)) by (apply Forall_app; split; assumption). pose proof (dv_bound _ Dv) as [V0 _]. split; [exact V0|].
    unfold written, Qlt in W. cbn [Qnum Qden] in W. rewrite Z2Pos.id in W by (apply Z.pow_pos_nonneg; [lia|apply zlen_nonneg]). lia. }
  assert (T : 10 ^ zlen fs <= 1000000) by (change 1000000 with (10 ^ 6); apply Z.pow_le_mono_r; lia).
  destruct (C123_token file [] ds fs [] [Token TOK_EOF (Line file 1)]) as (ts & Ets & (A & _)); auto.
  - intros I. cbn [app] in I. rewrite app_nil_r in I. apply in_app_or in I. rewrite Forall_forall in D, F. unfold digit in *.
    destruct I as [I|[I|I]]; [apply D in I|discriminate|apply F in I]; lia.
  - intros p' a E. now destruct p'.
  - discriminate.
  - destruct A as (x & E & Sg & _ & R); [lia|lia|]. exists x.
    assert (ts = []) as -> by (destruct ts as [|y [|z ts]]; [reflexivity|discriminate|discriminate]).
    cbn [app] in E. rewrite app_nil_r in E. split; [cbn [app]; rewrite E; reflexivity|]. cbv zeta.
    specialize (R ltac:(lia)). destruct (as_written ds fs x N F L W R Sg) as [Vx T0]. split; [exact T0|]. intros s.
    assert (Fx : finite x).
    { destruct R as (A & _). assert (Sm : (Qabs (written ds fs) < limit)%Q).
      { rewrite Qabs_pos by (unfold written, Qle; cbn [Qnum Qden]; lia). eapply Qlt_trans; [exact W|reflexivity]. }
      destruct (A Sm) as (_ & Rx & _). destruct x; cbn in *; tauto. }
    assert (Hi : (Qabs (number x) <= inject_Z 99999999)%Q).
    { destruct R as (A & _). assert (Sm : (Qabs (written ds fs) < limit)%Q).
      { rewrite Qabs_pos by (unfold written, Qle; cbn [Qnum Qden]; lia). eapply Qlt_trans; [exact W|reflexivity]. }
      destruct (A Sm) as (_ & Rx & Near). destruct (Near (S754_zero false) Logic.I) as [B _]. cbn [number] in B.
      set (v := written ds fs) in *. assert (P : (0 <= v)%Q) by (unfold v, written, Qle; cbn [Qnum Qden]; lia).
      assert (Q1 : (Qabs (0 - v) <= 16)%Q).
      { rewrite Qabs_Qminus, Qabs_pos by (unfold Qminus; rewrite Qplus_0_r; exact P). unfold Qminus. rewrite Qplus_0_r. apply Qlt_le_weak, W. }
      setoid_replace (number x) with ((number x - v) + v)%Q by ring. eapply Qle_trans; [apply Qabs_triangle|].
      apply (Qle_trans _ (16 + 16)); [apply Qplus_le_compat; [eapply Qle_trans; eassumption|rewrite Qabs_pos by exact P; apply Qlt_le_weak, W]|discriminate]. }
    pose proof (C122_fits x _ Vx Fx T0 (or_intror (conj Sg Hi))) as Ft.
    destruct (C122_float s x _ Vx T0) as [P1 P2]. rewrite Ft in P1, P2. split; assumption.
Qed.
Print Assumptions C123_as_written.

(** Finding: with eight digits a literal need not be the float
    nearest to it, since it is rounded twice: 1677721.7 is read as 1677721.625
    although 1677721.75 is nearer. *)
Theorem C123_not_the_nearest : exists file ds fs x y,
  lex file (ds ++ [46] ++ fs) = Ok [Token (TOK_FLOAT x) (Line file 1); Token TOK_EOF (Line file 1)] /\
  numeral ds /\ Forall digit fs /\ representable y /\ f_valid y = true /\
  (Qabs (number y - written ds fs) < Qabs (number x - written ds fs))%Q.
Proof.
  exists 0, (bs "1677721"), (bs "7"), (S754_finite false 13421773 (-3)), (S754_finite false 13421774 (-3)).
  split; [vm_compute; reflexivity|]. split; [repeat split; try discriminate; repeat constructor; unfold digit; cbn; lia|].
  split; [repeat constructor; unfold digit; cbn; lia|]. split; [cbn; lia|]. split; reflexivity.
Qed.
Print Assumptions C123_not_the_nearest.

(** Finding: from 16 on six decimals may not survive. *)
Theorem C123_not_as_written : exists file ds fs x t,
  lex file (ds ++ [46] ++ fs) = Ok [Token (TOK_FLOAT x) (Line file 1); Token TOK_EOF (Line file 1)] /\
  numeral ds /\ Forall digit fs /\ zlen fs = 6 /\ float_text x t /\ t <> ds ++ [46] ++ fs.
Proof.
  exists 0, (bs "16"), (bs "000001"), (S754_finite false 8388609 (-19)), (bs "16.000002").
  split; [vm_compute; reflexivity|]. split; [repeat split; try discriminate; repeat constructor; unfold digit; cbn; lia|].
  split; [repeat constructor; unfold digit; cbn; lia|]. split; [reflexivity|].
  split; [apply float_text_is; [reflexivity|vm_compute; reflexivity]|vm_compute; discriminate].
Qed.
Print Assumptions C123_not_as_written.

Example C123_ex :
  numeral (bs "3") /\ Forall digit (bs "14159") /\ (written (bs "3") (bs "14159") < 16)%Q /\
  (written (bs "3") (bs "14159") == 314159 # 100000)%Q /\
  (exists ts, lex 0 (bs "x = 3.14159 * 2") = Ok ts /\ nth 2 (map tk ts) TOK_EOF = TOK_FLOAT (S754_finite false 13176784 (-22))) /\
  lex 0 (bs "0.0000000000") = Stuck SOverflow /\ lex 0 (bs "214748364.8") = Stuck SOverflow.
Proof.
  split; [repeat split; try discriminate; repeat constructor; unfold digit; cbn; lia|].
  split; [repeat constructor; unfold digit; cbn; lia|]. split; [reflexivity|]. split; [reflexivity|].
  split; [eexists; split; vm_compute; reflexivity|]. split; vm_compute; reflexivity.
Qed.
