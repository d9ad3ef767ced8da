(** C122: the text of a number in a concatenation. *)
From Coq Require Import ZArith QArith Qabs Qpower List Bool Lia ZifyBool String Floats.SpecFloat.
From Verif Require Import Base BaseFacts F32 F32Facts FloatBits Instr InstrSpec
  InstrProofs Program VM Gc GcSpec Host Demo VmSpec VmFacts PropertiesOps PropertiesFloat PropertiesRound.
Import ListNotations.
Open Scope Z_scope.
Open Scope list_scope.

(** ** Specification *)
Definition digit (c : Z) : Prop := 48 <= c <= 57.
(** What a row of digits stands for. *)
Definition digits_value (l : bytes) : Z := fold_left (fun a c => 10 * a + (c - 48)) l 0.
(** Digits without leading zeros. *)
Definition numeral (l : bytes) : Prop := l <> [] /\ Forall digit l /\ (hd 0 l = 48 -> l = [48]).
Definition int_text (z : Z) (t : bytes) : Prop :=
  (0 <= z /\ numeral t /\ digits_value t = z) \/
  (z < 0 /\ exists d, t = [45] ++ d /\ numeral d /\ digits_value d = - z).
(** A sign, a numeral, a point and six digits: the number to the nearest
    millionth, and to the even one if two are equally near. *)
Definition float_text (f : f32) (t : bytes) : Prop :=
  match f with
  | S754_nan => t = bs "nan"
  | S754_infinity s => t = (if s then bs "-" else []) ++ bs "inf"
  | _ => exists i d, t = (if negative f then bs "-" else []) ++ i ++ bs "." ++ d /\
      numeral i /\ Forall digit d /\ List.length d = 6%nat /\
      let n := inject_Z (digits_value (i ++ d)) in
      let v := (Qabs (number f) * inject_Z (10 ^ 6))%Q in
      (Qabs (n - v) <= 1 # 2)%Q /\ ((Qabs (n - v) == 1 # 2)%Q -> Z.even (digits_value (i ++ d)) = true)
  end.

(** ** Proofs *)
Lemma dv_dval l : digits_value l = dval l.
Proof.
  unfold digits_value, dval. generalize 0. induction l as [|c l IH]; intros a; [reflexivity|]. cbn [fold_left]. rewrite IH. f_equal. lia.
Qed.
Lemma dv_snoc l c : digits_value (l ++ [c]) = 10 * digits_value l + (c - 48).
Proof. unfold digits_value. rewrite fold_left_app. reflexivity. Qed.
Lemma dv_bound l : Forall digit l -> 0 <= digits_value l < 10 ^ zlen l.
Proof.
  induction l as [|c l IH] using rev_ind; intros H; [vm_compute; split; [discriminate|reflexivity]|]. apply Forall_app in H. destruct H as [H1 H2]. inversion H2; subst.
  rewrite dv_snoc, zlen_app. specialize (IH H1). unfold digit in *. change (zlen [c]) with 1. rewrite Z.pow_add_r by (try apply zlen_nonneg; lia). lia.
Qed.
Lemma dv_app a b : Forall digit b -> digits_value (a ++ b) = digits_value a * 10 ^ zlen b + digits_value b.
Proof.
  induction b as [|c b IH] using rev_ind; intros H; [rewrite app_nil_r; change (digits_value []) with 0; change (10 ^ zlen []) with 1; lia|]. apply Forall_app in H. destruct H as [H1 _].
  rewrite app_assoc, !dv_snoc, IH, zlen_app by assumption. change (zlen [c]) with 1. rewrite Z.pow_add_r by (try apply zlen_nonneg; lia). lia.
Qed.
Lemma dv_inj : forall a b, Forall digit a -> Forall digit b -> zlen a = zlen b -> digits_value a = digits_value b -> a = b.
Proof.
  induction a as [|c a IH] using rev_ind; intros b Ha Hb L V.
  - destruct b; [reflexivity|]. rewrite zlen_cons, zlen_nil in L. pose proof (zlen_nonneg b). lia.
  - destruct b as [|d b _] using rev_ind; [rewrite zlen_app, zlen_nil in L; change (zlen [c]) with 1 in L; pose proof (zlen_nonneg a); lia|].
    apply Forall_app in Ha, Hb. destruct Ha as [Ha Hc], Hb as [Hb Hd]. inversion Hc; inversion Hd; subst. unfold digit in *.
    rewrite !dv_snoc in V. rewrite !zlen_app in L. change (zlen [c]) with 1 in L. change (zlen [d]) with 1 in L.
    assert (digits_value a = digits_value b /\ c = d) by lia. destruct H as [H ->]. f_equal. apply IH; auto. lia.
Qed.
Lemma numeral_low l : numeral l -> l <> [48] -> 10 ^ (zlen l - 1) <= digits_value l.
Proof.
  intros (N & D & Z0) Nz. destruct l as [|c l]; [congruence|]. cbn [hd] in Z0. inversion D; subst. unfold digit in *.
  assert (c <> 48) by (intros ->; apply Nz, Z0; reflexivity).
  change (c :: l) with ([c] ++ l). rewrite dv_app by assumption. rewrite zlen_app. change (zlen [c]) with 1.
  replace (1 + zlen l - 1) with (zlen l) by lia. pose proof (dv_bound l H2). unfold digits_value at 1. cbn [fold_left].
  assert (0 < 10 ^ zlen l) by (apply Z.pow_pos_nonneg; [lia|apply zlen_nonneg]). nia.
Qed.
Lemma numeral_inj a b : numeral a -> numeral b -> digits_value a = digits_value b -> a = b.
Proof.
  intros Na Nb V. pose proof Na as (N1 & D1 & Z1). pose proof Nb as (N2 & D2 & Z2).
  pose proof (dv_bound a D1) as B1. pose proof (dv_bound b D2) as B2.
  assert (G : forall x y, numeral x -> Forall digit y -> y <> [] -> x <> [48] -> digits_value x = digits_value y -> zlen x <= zlen y).
  { intros x y Nx Dy Ny X E. pose proof (numeral_low x Nx X) as L. pose proof (dv_bound y Dy) as B.
    destruct (Z_le_gt_dec (zlen x) (zlen y)); [assumption|exfalso].
    assert (10 ^ zlen y <= 10 ^ (zlen x - 1)) by (apply Z.pow_le_mono_r; lia). lia. }
  assert (O : forall y : bytes, y <> [] -> 1 <= zlen y) by (intros [|c y] Y; [congruence|]; rewrite zlen_cons; pose proof (zlen_nonneg y); lia).
  destruct (list_eq_dec Z.eq_dec a [48]) as [->|A]; destruct (list_eq_dec Z.eq_dec b [48]) as [->|B]; [reflexivity| | |].
  - pose proof (numeral_low b Nb B) as L. pose proof (O b N2). assert (0 < 10 ^ (zlen b - 1)) by (apply Z.pow_pos_nonneg; lia).
    change (digits_value [48]) with 0 in V. lia.
  - pose proof (numeral_low a Na A) as L. pose proof (O a N1). assert (0 < 10 ^ (zlen a - 1)) by (apply Z.pow_pos_nonneg; lia).
    change (digits_value [48]) with 0 in V. lia.
  - apply dv_inj; auto. pose proof (G a b Na D2 N2 A V). pose proof (G b a Nb D1 N1 B (eq_sym V)). lia.
Qed.

Lemma dec_numeral n : 0 <= n -> numeral (dec_nonneg n) /\ digits_value (dec_nonneg n) = n.
Proof.
  intros H. destruct (dec_nonneg_spec n H) as (V & D & N). rewrite dv_dval. split; [|exact V]. split; [exact N|]. split; [exact D|].
  assert (G : forall f m acc, 0 < m < 2 ^ Z.of_nat f -> hd 0 (dec_digits f m acc) <> 48).
  { induction f as [|f IH]; intros m acc Rm; [cbn in Rm; lia|]. cbn [dec_digits]. destruct (m / 10 =? 0) eqn:Q.
    - cbn [hd]. assert (m < 10) by (destruct (Z_lt_le_dec m 10); [assumption|]; assert (1 <= m / 10) by (apply Z.div_le_lower_bound; lia); lia).
      rewrite Z.mod_small by lia. lia.
    - apply IH. assert (0 <= m / 10) by (apply Z.div_pos; lia). split; [lia|]. apply Z.div_lt_upper_bound; [lia|].
      rewrite Nat2Z.inj_succ, Z.pow_succ_r in Rm by lia. lia. }
  destruct (Z.eq_dec n 0) as [->|Nz]; [reflexivity|]. intros C. exfalso. revert C. unfold dec_nonneg. apply G. split; [lia|].
  pose proof (Z.log2_nonneg n). replace (Z.of_nat (S (Z.to_nat (Z.log2 n)))) with (Z.succ (Z.log2 n)) by lia. apply Z.log2_spec. lia.
Qed.
Lemma int_text_dec z t : int_text z t <-> t = dec z.
Proof.
  split.
  - intros [(Hz & N & V)|(Hz & d & -> & N & V)]; unfold dec.
    + replace (z <? 0) with false by lia. destruct (dec_numeral z Hz) as [N' V']. apply numeral_inj; auto. lia.
    + replace (z <? 0) with true by lia. cbn [app]. f_equal. destruct (dec_numeral (- z)) as [N' V']; [lia|]. apply numeral_inj; auto. lia.
  - intros ->. unfold int_text, dec. destruct (z <? 0) eqn:E.
    + right. split; [lia|]. exists (dec_nonneg (- z)). split; [reflexivity|]. apply dec_numeral. lia.
    + left. split; [lia|]. apply dec_numeral. lia.
Qed.
Lemma zlen_short n : 0 <= n < 1000000 -> (List.length (dec_nonneg n) <= 6)%nat.
Proof.
  intros R. destruct (dec_numeral n) as [N V]; [lia|]. destruct (list_eq_dec Z.eq_dec (dec_nonneg n) [48]) as [->|Q]; [cbn; lia|].
  pose proof (numeral_low _ N Q) as L. rewrite V in L. destruct (Nat.le_gt_cases (List.length (dec_nonneg n)) 6) as [|G]; [assumption|exfalso].
  assert (10 ^ 6 <= 10 ^ (zlen (dec_nonneg n) - 1)) by (apply Z.pow_le_mono_r; [lia|unfold zlen; lia]). change (10 ^ 6) with 1000000 in *. lia.
Qed.
Lemma dv_zeros k l : digits_value (repeat 48 k ++ l) = digits_value l.
Proof. induction k as [|k IH]; [reflexivity|]. cbn [repeat app]. unfold digits_value in *. cbn [fold_left]. exact IH. Qed.
Lemma pad6_spec n : 0 <= n < 1000000 -> Forall digit (pad6 n) /\ List.length (pad6 n) = 6%nat /\ digits_value (pad6 n) = n.
Proof.
  intros R. unfold pad6. destruct (dec_numeral n) as [(N & D & _) V]; [lia|]. pose proof (zlen_short n R). split; [|split].
  - apply Forall_app. split; [|exact D]. apply Forall_forall. intros c I. apply repeat_spec in I. subst. unfold digit. lia.
  - rewrite app_length, repeat_length. lia.
  - rewrite dv_zeros. exact V.
Qed.
Lemma zlen_6 (d : bytes) : List.length d = 6%nat -> 10 ^ zlen d = 1000000.
Proof. intros L. unfold zlen. rewrite L. reflexivity. Qed.
(** The two parts are determined by the number of millionths, and there are such. *)
Lemma parts_exist n : 0 <= n -> numeral (dec_nonneg (n / 1000000)) /\ Forall digit (pad6 (n mod 1000000)) /\
  List.length (pad6 (n mod 1000000)) = 6%nat /\ digits_value (dec_nonneg (n / 1000000) ++ pad6 (n mod 1000000)) = n.
Proof.
  intros H. destruct (dec_numeral (n / 1000000)) as [N V]; [apply Z.div_pos; lia|].
  destruct (pad6_spec (n mod 1000000)) as (D & L & W); [apply Z.mod_pos_bound; lia|].
  split; [exact N|]. split; [exact D|]. split; [exact L|]. rewrite dv_app, V, W, zlen_6 by assumption.
  pose proof (Z.div_mod n 1000000 ltac:(lia)). lia.
Qed.
Lemma parts_only n i d : numeral i -> Forall digit d -> List.length d = 6%nat -> digits_value (i ++ d) = n ->
  i = dec_nonneg (n / 1000000) /\ d = pad6 (n mod 1000000) /\ 0 <= n.
Proof.
  intros Ni Dd L V. rewrite dv_app, (zlen_6 d L) in V by assumption.
  pose proof (dv_bound d Dd) as Bd. rewrite (zlen_6 d L) in Bd. assert (Bi : 0 <= digits_value i) by (apply dv_bound, Ni).
  assert (Q : n / 1000000 = digits_value i) by (symmetry; apply Z.div_unique with (r := digits_value d); lia).
  assert (R : n mod 1000000 = digits_value d) by (symmetry; apply Z.mod_unique with (q := digits_value i); lia).
  rewrite Q, R. split; [|split; [|lia]].
  - destruct (dec_numeral _ Bi) as [N' V']. apply numeral_inj; auto.
  - destruct (pad6_spec (digits_value d)) as (D' & L' & V'); [lia|]. apply dv_inj; auto. unfold zlen. now rewrite L, L'.
Qed.

(** The number of millionths of [a / b]. *)
Definition millionths (num den n : Z) : Prop :=
  2 * Z.abs (n * den - num) <= den /\ (2 * Z.abs (n * den - num) = den -> Z.even n = true).
Lemma millionths_only num den n n' : 0 < den -> millionths num den n -> millionths num den n' -> n = n'.
Proof.
  intros H (A & B) (A' & B'). destruct (Z.eq_dec n n') as [|Ne]; [assumption|exfalso].
  set (t := n * den - num) in *. assert (E : n' * den - num = t + (n' - n) * den) by (unfold t; ring). rewrite E in *. clear E. clearbody t.
  set (k := n' - n) in *. assert (K : k <> 0) by (unfold k; lia).
  assert (X : Z.abs (k * den) = Z.abs k * den) by (rewrite Z.abs_mul, (Z.abs_eq den) by lia; reflexivity).
  assert (Q : 1 * den <= Z.abs k * den) by (apply Z.mul_le_mono_nonneg_r; lia).
  assert (T : 2 * Z.abs t = den) by lia. assert (T' : 2 * Z.abs (t + k * den) = den) by lia.
  specialize (B T). specialize (B' T'). assert (D1 : Z.abs k * den <= 1 * den) by lia. apply Z.mul_le_mono_pos_r in D1; [|exact H].
  assert (C : n' = n + 1 \/ n' = n + -1) by (unfold k in *; lia). destruct C as [->| ->]; rewrite Z.even_add, B in B'; discriminate.
Qed.
Lemma round_half_even_spec num den : 0 < den -> millionths num den (round_half_even num den).
Proof.
  intros H. unfold round_half_even, millionths. pose proof (Z.div_mod num den ltac:(lia)) as DM. pose proof (Z.mod_pos_bound num den H) as MB.
  set (q := num / den) in *. set (r := num mod den) in *. clearbody q r.
  assert (E0 : q * den - num = - r) by lia. assert (E1 : (q + 1) * den - num = den - r) by lia.
  destruct (Z.compare_spec (2 * r) den) as [C|C|C].
  - destruct (Z.even q) eqn:Ev; rewrite ?E0, ?E1; [split; [lia|auto]|]. split; [lia|]. intros _. rewrite Z.even_add, Ev. reflexivity.
  - rewrite E0. split; [lia|]. intros; exfalso; lia.
  - rewrite E1. split; [lia|]. intros; exfalso; lia.
Qed.

Lemma number_frac x : f_valid x = true -> (number x == f_num x # Z.to_pos (f_den x))%Q.
Proof.
  intros V. destruct x as [s|s| |s m e]; cbn [number f_num f_den]; try reflexivity.
  destruct (Z.le_gt_cases 0 e) as [E|E].
  - rewrite (Z.max_l e 0), (Z.max_r (- e) 0) by lia. rewrite pow_Q, <- inject_Z_mult by lia. reflexivity.
  - rewrite (Z.max_r e 0), (Z.max_l (- e) 0) by lia. rewrite Z.mul_1_r.
    assert (P : 0 < 2 ^ (- e)) by (apply Z.pow_pos_nonneg; lia).
    rewrite (Qmake_Qdiv (if s then Zneg m else Zpos m)). rewrite Z2Pos.id by exact P. rewrite <- pow_Q by lia. rewrite Qpower_opp.
    unfold Qdiv. rewrite Qinv_involutive. reflexivity.
Qed.
Lemma half_apart v a d n : (v == a # d)%Q ->
  ((Qabs (inject_Z n - v) <= 1 # 2)%Q <-> 2 * Z.abs (n * Zpos d - a) <= Zpos d) /\
  ((Qabs (inject_Z n - v) == 1 # 2)%Q <-> 2 * Z.abs (n * Zpos d - a) = Zpos d).
Proof.
  intros V. assert (E : (Qabs (inject_Z n - v) == Z.abs (n * Zpos d - a) # d)%Q).
  { rewrite V. assert (X : (inject_Z n - (a # d) == (n * Zpos d - a) # d)%Q).
    { unfold Qeq, Qminus, Qplus, Qopp, inject_Z. cbn [Qnum Qden]. rewrite Pos.mul_1_l. ring. }
    rewrite X. reflexivity. }
  rewrite E. unfold Qle, Qeq. cbn [Qnum Qden]. split; lia.
Qed.
(** The number of millionths of a float. *)
Definition micro (f : f32) : Z :=
  match f with
  | S754_finite s m e => if 0 <=? e then Zpos m * 2 ^ e * 1000000 else round_half_even (Zpos m * 1000000) (2 ^ (- e))
  | _ => 0
  end.
Lemma micro_spec f : finite f -> f_valid f = true -> forall n,
  ((Qabs (inject_Z n - Qabs (number f) * inject_Z (10 ^ 6)) <= 1 # 2)%Q /\
   ((Qabs (inject_Z n - Qabs (number f) * inject_Z (10 ^ 6)) == 1 # 2)%Q -> Z.even n = true)) <-> n = micro f.
Proof.
  intros F V n. set (num := Z.abs (f_num f) * 1000000). pose proof (den_pos f) as P.
  assert (E : (Qabs (number f) * inject_Z (10 ^ 6) == num # Z.to_pos (f_den f))%Q).
  { rewrite (number_frac f V). change (Qabs (f_num f # Z.to_pos (f_den f)))%Q with (Z.abs (f_num f) # Z.to_pos (f_den f))%Q.
    unfold Qeq, Qmult, inject_Z, num. cbn [Qnum Qden]. rewrite Pos.mul_1_r. reflexivity. }
  destruct (half_apart _ _ _ n E) as [H1 H2]. rewrite H1, H2. rewrite Z2Pos.id by exact P.
  assert (M : millionths num (f_den f) (micro f)).
  { unfold num. destruct f as [s|s| |s m e]; try contradiction; cbn [f_num f_den micro]; [split; cbn; [lia|intros; exfalso; lia]|].
    destruct (0 <=? e) eqn:Q.
    - rewrite (Z.max_l e 0), (Z.max_r (- e) 0) by lia. change (2 ^ 0) with 1.
      assert (Z.abs ((if s then Zneg m else Zpos m) * 2 ^ e) = Zpos m * 2 ^ e) as ->.
      { rewrite Z.abs_mul, (Z.abs_eq (2 ^ e)) by (apply Z.pow_nonneg; lia). destruct s; reflexivity. }
      unfold millionths. rewrite Z.mul_1_r, Z.sub_diag. split; [cbn; lia|intros; exfalso; cbn in *; lia].
    - rewrite (Z.max_r e 0), (Z.max_l (- e) 0) by lia. change (2 ^ 0) with 1. rewrite Z.mul_1_r.
      replace (Z.abs (if s then Zneg m else Zpos m)) with (Zpos m) by (destruct s; reflexivity).
      apply round_half_even_spec. apply Z.pow_pos_nonneg; lia. }
  split.
  - intros K. eapply millionths_only; [exact P|exact K|exact M].
  - intros ->. exact M.
Qed.
Lemma micro_nonneg f : 0 <= micro f.
Proof.
  destruct f as [s|s| |s m e]; cbn [micro]; try lia. destruct (0 <=? e) eqn:Q.
  - assert (0 < 2 ^ e) by (apply Z.pow_pos_nonneg; lia). nia.
  - assert (P : 0 < 2 ^ (- e)) by (apply Z.pow_pos_nonneg; lia). pose proof (Z.div_pos (Zpos m * 1000000) (2 ^ (- e)) ltac:(lia) P).
    unfold round_half_even. destruct (_ ?= _); [destruct (Z.even _)|..]; lia.
Qed.
Lemma f_text_micro f : finite f -> f_text f = (if negative f then bs "-" else []) ++ dec_nonneg (micro f / 1000000) ++ bs "." ++ pad6 (micro f mod 1000000).
Proof. intros F. destruct f as [s|s| |s m e]; try contradiction; [destruct s; vm_compute; reflexivity|reflexivity]. Qed.
Lemma float_text_is f t : f_valid f = true -> float_text f t <-> t = f_text f.
Proof.
  intros V. assert (G : finite f -> (exists i d, t = (if negative f then bs "-" else []) ++ i ++ bs "." ++ d /\
      numeral i /\ Forall digit d /\ List.length d = 6%nat /\
      let n := inject_Z (digits_value (i ++ d)) in
      let v := (Qabs (number f) * inject_Z (10 ^ 6))%Q in
      (Qabs (n - v) <= 1 # 2)%Q /\ ((Qabs (n - v) == 1 # 2)%Q -> Z.even (digits_value (i ++ d)) = true)) <-> t = f_text f).
  { intros F. rewrite (f_text_micro f F). split.
    - intros (i & d & -> & Ni & Dd & L & H). apply (micro_spec f F V) in H.
      destruct (parts_only _ _ _ Ni Dd L H) as (-> & -> & _). reflexivity.
    - intros ->. destruct (parts_exist (micro f) (micro_nonneg f)) as (Ni & Dd & L & H).
      exists (dec_nonneg (micro f / 1000000)), (pad6 (micro f mod 1000000)). split; [reflexivity|]. split; [exact Ni|]. split; [exact Dd|]. split; [exact L|].
      cbv zeta. apply (micro_spec f F V). exact H. }
  destruct f as [s|s| |s m e]; cbn [float_text]; try (apply G; exact Logic.I); reflexivity.
Qed.

Lemma micro_between f (lo hi : Z) : finite f -> f_valid f = true ->
  ((inject_Z lo <= Qabs (number f))%Q -> lo * 1000000 <= micro f) /\
  ((Qabs (number f) <= inject_Z hi)%Q -> micro f <= hi * 1000000).
Proof.
  intros F V. destruct (proj2 (micro_spec f F V (micro f)) eq_refl) as [H _]. pose proof (den_pos f) as P.
  assert (E : (Qabs (number f) == Z.abs (f_num f) # Z.to_pos (f_den f))%Q) by (rewrite (number_frac f V); reflexivity).
  assert (E6 : (Qabs (number f) * inject_Z (10 ^ 6) == Z.abs (f_num f) * 1000000 # Z.to_pos (f_den f))%Q).
  { rewrite E. unfold Qeq, Qmult, inject_Z. cbn [Qnum Qden]. rewrite Pos.mul_1_r. reflexivity. }
  apply (half_apart _ _ _ (micro f) E6) in H. rewrite Z2Pos.id in H by exact P. rewrite E. unfold Qle, inject_Z. cbn [Qnum Qden]. rewrite Z2Pos.id by exact P.
  set (a := Z.abs (f_num f)) in *. set (d := f_den f) in *. set (n := micro f) in *. clearbody a d n. rewrite !Z.mul_1_r. split; intros K.
  - destruct (Z_le_gt_dec (lo * 1000000) n); [assumption|exfalso]. assert (n * d <= (lo * 1000000 - 1) * d) by (apply Z.mul_le_mono_nonneg_r; lia). lia.
  - destruct (Z_le_gt_dec n (hi * 1000000)); [assumption|exfalso]. assert ((hi * 1000000 + 1) * d <= n * d) by (apply Z.mul_le_mono_nonneg_r; lia). lia.
Qed.
Lemma dec_len n k : 0 <= n < 10 ^ k -> 0 < k -> zlen (dec_nonneg n) <= k.
Proof.
  intros R K. destruct (dec_numeral n) as [N V]; [lia|]. destruct (list_eq_dec Z.eq_dec (dec_nonneg n) [48]) as [->|Q]; [change (zlen [48]) with 1; lia|].
  pose proof (numeral_low _ N Q) as L. rewrite V in L. destruct (Z_le_gt_dec (zlen (dec_nonneg n)) k) as [|G]; [assumption|exfalso].
  assert (10 ^ k <= 10 ^ (zlen (dec_nonneg n) - 1)) by (apply Z.pow_le_mono_r; lia). lia.
Qed.
Lemma zlen_len (l : bytes) : zlen l = Z.of_nat (List.length l).
Proof. reflexivity. Qed.

(** ** C122 *)

(** A string and an integer: the decimal numeral of the integer, whole. *)
Theorem C122_integer : forall s z t, - 2 ^ 31 <= z < 2 ^ 31 -> int_text z t ->
  pushes2 INS_ADD (PStr s) (PInt z) (SStr (s ++ t)) /\ pushes2 INS_ADD (PInt z) (PStr s) (SStr (t ++ s)).
Proof.
  intros s z t R T. apply int_text_dec in T. subst t. destruct (C46_integer_text s z R) as [A _]. split; [exact A|].
  assert (L : zfirstn 15 (dec z) = dec z).
  { apply zfirstn_all. unfold dec. destruct (z <? 0) eqn:E; [rewrite zlen_cons; pose proof (dec_len (- z) 10)|pose proof (dec_len z 10)]; change (10 ^ 10) with 10000000000 in *; lia. }
  rewrite <- L at 1. apply C46_concat_right; [constructor|discriminate].
Qed.
Print Assumptions C122_integer.

(** A string and a float: the first fifteen characters of its text. *)
Theorem C122_float : forall s f t, f_valid f = true -> float_text f t ->
  pushes2 INS_ADD (PStr s) (PFlt f) (SStr (s ++ zfirstn 15 t)) /\ pushes2 INS_ADD (PFlt f) (PStr s) (SStr (zfirstn 15 t ++ s)).
Proof.
  intros s f t V T. apply (float_text_is f t V) in T. subst t. split; [apply C46_concat_left; constructor|apply C46_concat_right; [constructor|discriminate]].
Qed.
Print Assumptions C122_float.

(** Every number has one text. *)
Theorem C122_one_text : forall f, f_valid f = true -> exists t, float_text f t /\ forall t', float_text f t' -> t' = t.
Proof.
  intros f V. exists (f_text f). split; [apply float_text_is; auto|]. intros t' T. now apply float_text_is in T.
Qed.
Print Assumptions C122_one_text.
Theorem C122_one_integer_text : forall z, exists t, int_text z t /\ forall t', int_text z t' -> t' = t.
Proof. intros z. exists (dec z). split; [now apply int_text_dec|]. intros t' T. now apply int_text_dec in T. Qed.
Print Assumptions C122_one_integer_text.

(** Up to seven digits before the point, eight without a sign, nothing is cut. *)
Theorem C122_fits : forall f t, f_valid f = true -> finite f -> float_text f t ->
  (Qabs (number f) <= inject_Z 9999999)%Q \/ (negative f = false /\ (Qabs (number f) <= inject_Z 99999999)%Q) -> zfirstn 15 t = t.
Proof.
  intros f t V F T H. apply (float_text_is f t V) in T. subst t. rewrite (f_text_micro f F). apply zfirstn_all.
  destruct (parts_exist (micro f) (micro_nonneg f)) as (_ & _ & L & _). rewrite !zlen_app, (zlen_len (pad6 _)), L.
  change (zlen (bs ".")) with 1. change (Z.of_nat 6) with 6.
  pose proof (micro_nonneg f). destruct H as [H|[N H]].
  - apply (proj2 (micro_between f 0 9999999 F V)) in H.
    assert (zlen (dec_nonneg (micro f / 1000000)) <= 7).
    { apply dec_len; [|lia]. change (10 ^ 7) with 10000000. split; [apply Z.div_pos; lia|apply Z.div_lt_upper_bound; lia]. }
    destruct (negative f); [change (zlen (bs "-")) with 1|change (zlen (@nil Z)) with 0]; lia.
  - apply (proj2 (micro_between f 0 99999999 F V)) in H.
    assert (zlen (dec_nonneg (micro f / 1000000)) <= 8).
    { apply dec_len; [|lia]. change (10 ^ 8) with 100000000. split; [apply Z.div_pos; lia|apply Z.div_lt_upper_bound; lia]. }
    rewrite N. change (zlen (@nil Z)) with 0. lia.
Qed.
Print Assumptions C122_fits.

(** Finding: from 10^15 on the text that remains is the numeral of a smaller
    number, without a point. *)
Theorem C122_cut : forall f s, f_valid f = true -> finite f -> negative f = false -> (inject_Z (10 ^ 15) <= number f)%Q ->
  exists t, pushes2 INS_ADD (PStr s) (PFlt f) (SStr (s ++ t)) /\ numeral t /\ digits_value t < 10 ^ 15.
Proof.
  intros f s V F N H.
  assert (Hm : (10 ^ 15 * 1000000 <= micro f)).
  { apply (proj1 (micro_between f (10 ^ 15) 0 F V)). eapply Qle_trans; [exact H|apply Qle_Qabs]. }
  exists (zfirstn 15 (f_text f)). split; [apply C46_concat_left; constructor|].
  rewrite (f_text_micro f F), N. cbn [app]. destruct (dec_numeral (micro f / 1000000)) as [Nu Vn]; [apply Z.div_pos; [|lia]; pose proof (micro_nonneg f); lia|].
  assert (Big : 10 ^ 15 <= micro f / 1000000) by (apply Z.div_le_lower_bound; lia).
  set (i := dec_nonneg (micro f / 1000000)) in *. destruct Nu as (Ne & D & Z0).
  assert (L : 15 < zlen i).
  { pose proof (dv_bound i D) as B. destruct (Z_lt_le_dec 15 (zlen i)); [assumption|exfalso].
    assert (10 ^ zlen i <= 10 ^ 15) by (apply Z.pow_le_mono_r; lia). lia. }
  assert (E : zfirstn 15 (i ++ bs "." ++ pad6 (micro f mod 1000000)) = zfirstn 15 i).
  { apply zfirstn_app1. lia. }
  rewrite E. clearbody i.
  assert (D' : Forall digit (zfirstn 15 i)).
  { apply Forall_forall. intros c I. rewrite Forall_forall in D. apply D.
    rewrite <- (zfirstn_zskipn i 15). apply in_or_app. left. exact I. }
  assert (L' : zlen (zfirstn 15 i) = 15).
  { apply zlen_zfirstn. lia. }
  split.
  - split; [intros C; rewrite C in L'; discriminate|]. split; [exact D'|].
    destruct i as [|c i]; [congruence|]. cbn in *. intros C. specialize (Z0 C).
    rewrite Z0 in L. change (zlen [48]) with 1 in L. lia.
  - pose proof (dv_bound _ D') as B. rewrite L' in B. lia.
Qed.
Print Assumptions C122_cut.

(** A tenth, a half millionth (rounded to the even neighbour, zero), two to the
    power of 60, and integers. *)
Example C122_ex :
  let tenth := S754_finite false 13421773 (-27) in
  let big := S754_finite false 8388608 37 in
  f_valid tenth = true /\ finite tenth /\ float_text tenth (bs "0.100000") /\
  (Qabs (number tenth) <= inject_Z 9999999)%Q /\
  float_text (S754_finite true 12582912 (-23)) (bs "-1.500000") /\
  float_text (S754_finite false 8388608 (-44)) (bs "0.000000") /\
  float_text (S754_zero true) (bs "-0.000000") /\
  f_valid big = true /\ finite big /\ negative big = false /\ (inject_Z (10 ^ 15) <= number big)%Q /\
  float_text big (bs "1152921504606846976.000000") /\
  int_text (-2147483648) (bs "-2147483648") /\ int_text 0 (bs "0").
Proof.
  cbv zeta. split; [reflexivity|]. split; [exact Logic.I|]. split; [apply float_text_is; [reflexivity|vm_compute; reflexivity]|].
  split; [discriminate|].
  do 3 (split; [apply float_text_is; [reflexivity|vm_compute; reflexivity]|]).
  split; [reflexivity|]. split; [exact Logic.I|]. split; [reflexivity|]. split; [discriminate|].
  split; [apply float_text_is; [reflexivity|vm_compute; reflexivity]|].
  split; apply int_text_dec; vm_compute; reflexivity.
Qed.
