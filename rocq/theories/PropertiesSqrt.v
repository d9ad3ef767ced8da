(** C124: square roots. *)
From Coq Require Import ZArith QArith Qabs Qpower List Bool Lia Lqa ZifyBool Floats.SpecFloat.
From Verif Require Import Base BaseFacts F32 F32Facts FloatBits FloatValid FloatRound Instr InstrSpec
  InstrProofs Program VM Gc GcSpec Host Demo VmSpec VmFacts PropertiesOps PropertiesFloat PropertiesMem PropertiesRun PropertiesSched PropertiesBuiltins PropertiesRound.
Import ListNotations.
Open Scope Z_scope.

(** ** Specification *)

(** [r] is the float nearest to the square root of [v], and the one whose last bit
    is zero if two are equally near: seen from any other float, the root lies on
    the side of [r] of the middle between the two. *)
Definition nearest_root (v : Q) (r : f32) : Prop :=
  f_valid r = true /\ representable r /\ negative r = false /\
  forall y, representable y -> (0 <= number y)%Q ->
    let middle := ((number y + number r) * (1 # 2))%Q in
    (number y < number r -> middle * middle <= v)%Q /\
    (number r < number y -> v <= middle * middle)%Q /\
    (middle * middle == v -> number y == number r \/ last_bit_zero r)%Q.

(** ** Proofs *)
Definition cell (v : Q) (r : f32) : Prop :=
  exists lo hi, (0 < lo /\ lo < hi /\ lo * lo < v /\ v < hi * hi /\ hi * hi <= 4 * v)%Q /\
    forall s, (lo < s)%Q -> (s < hi)%Q -> rounded s r.
Lemma pow2_pos e : (0 < (2 # 1) ^ e)%Q.
Proof. apply Qpower_0_lt. reflexivity. Qed.
Lemma root_digits m e : 0 < m ->
  let d := Zdigits2 m in
  let e' := Z.min (fexp prec emax (Z.div2 (d + e + 1))) (Z.div2 e) in
  let q := Z.sqrt (m * 2 ^ (e - 2 * e')) in
  0 <= e - 2 * e' /\ 0 < q /\ e' <= fexp prec emax (Zdigits2 q + e').
Proof.
  intros H d e' q. pose proof (zdig_bounds m ltac:(lia)) as (D0 & D1 & D2). specialize (D2 H). fold d in D0, D1, D2. destruct D2 as [D2 D3].
  pose proof (Zdiv2_odd_eqn e) as Oe. pose proof (Zdiv2_odd_eqn (d + e + 1)) as Od.
  assert (S0 : 0 <= e - 2 * e'). { assert (e' <= Z.div2 e) by (unfold e'; lia). destruct (Z.odd e); lia. }
  split; [exact S0|]. set (s := e - 2 * e') in *.
  set (n := Z.div2 (d + e + 1) - e').
  assert (N : 2 * n - 1 <= d + s <= 2 * n) by (unfold n, s; destruct (Z.odd (d + e + 1)); lia).
  assert (P : 0 < 2 ^ s) by (apply Z.pow_pos_nonneg; lia).
  assert (Lo : 2 ^ (d + s - 1) <= m * 2 ^ s).
  { replace (d + s - 1) with ((d - 1) + s) by lia. rewrite Z.pow_add_r by lia. apply Z.mul_le_mono_nonneg_r; lia. }
  assert (Hi : m * 2 ^ s < 2 ^ (d + s)).
  { rewrite Z.pow_add_r by lia. apply Z.mul_lt_mono_pos_r; lia. }
  assert (M0 : 0 <= m * 2 ^ s) by (apply Z.mul_nonneg_nonneg; lia).
  assert (Q1 : 2 ^ (n - 1) <= q).
  { apply Z.sqrt_le_square; [exact M0|apply Z.pow_nonneg; lia|]. rewrite <- Z.pow_add_r by lia.
    eapply Z.le_trans; [|exact Lo]. apply Z.pow_le_mono_r; lia. }
  assert (Q2 : q < 2 ^ n).
  { apply Z.sqrt_lt_square; [exact M0|apply Z.pow_nonneg; lia|]. rewrite <- Z.pow_add_r by lia.
    eapply Z.lt_le_trans; [exact Hi|]. apply Z.pow_le_mono_r; lia. }
  assert (Q0 : 0 < q) by (assert (0 < 2 ^ (n - 1)) by (apply Z.pow_pos_nonneg; lia); lia).
  split; [exact Q0|]. rewrite (zdig_is q n) by lia. unfold n. replace (Z.div2 (d + e + 1) - e' + e') with (Z.div2 (d + e + 1)) by lia. unfold e'. lia.
Qed.
Lemma half_located t q c : 0 < q ->
  (match c with Lt => inject_Z q < t /\ t < (2 * q + 1 # 2) | Gt => (2 * q + 1 # 2) < t /\ t < inject_Z (q + 1) | Eq => False end)%Q ->
  located (Qnum t) (Zpos (Qden t)) q (loc_Inexact c).
Proof.
  intros Q0 H. destruct t as [A B]. cbn [Qnum Qden]. unfold located. destruct c; [contradiction| |]; destruct H as [H1 H2]; unfold Qlt, inject_Z in H1, H2; cbn [Qnum Qden] in H1, H2.
  - split; [lia|]. split; [lia|]. split; [lia|]. apply Z.compare_lt_iff. lia.
  - split; [lia|]. split; [lia|]. split; [lia|]. apply Z.compare_gt_iff. lia.
Qed.
Lemma in_cell q e' l c t : l = loc_Inexact c -> 0 < q -> e' <= fexp prec emax (Zdigits2 q + e') ->
  (match c with Lt => inject_Z q < t /\ t < (2 * q + 1 # 2) | Gt => (2 * q + 1 # 2) < t /\ t < inject_Z (q + 1) | Eq => False end)%Q ->
  rounded (t * (2 # 1) ^ e') (binary_round_aux prec emax false q e' l).
Proof.
  intros -> Q0 E H. pose proof (half_located t q c Q0 H) as L. apply (aux_rounded false q e' _ (Qnum t) (Qden t)); [lia|exact E|exact L| |].
  - destruct L as (_ & L & _). nia.
  - cbn [sg]. assert (T : (t * inject_Z (Zpos (Qden t)) == inject_Z (Qnum t))%Q).
    { destruct t as [A B]. unfold Qeq, Qmult, inject_Z. cbn [Qnum Qden]. lia. }
    rewrite <- T. ring.
Qed.
Lemma root_cell m e : let v := (inject_Z (Zpos m) * (2 # 1) ^ e)%Q in let r := SFsqrt prec emax (S754_finite false m e) in
  (exists s, (0 < s)%Q /\ (s * s == v)%Q /\ rounded s r) \/ cell v r.
Proof.
  intros v r. pose proof (root_digits (Zpos m) e ltac:(lia)) as R. cbv zeta in R. unfold r, SFsqrt, SFsqrt_core_binary. clear r.
  set (e' := Z.min (fexp prec emax (Z.div2 (Zdigits2 (Zpos m) + e + 1))) (Z.div2 e)) in *. destruct R as (S0 & Q0 & Ef).
  set (s := e - 2 * e') in *. set (M := Zpos m * 2 ^ s) in *.
  replace (match s with 0 => Zpos m | Zpos _ => Z.shiftl (Zpos m) s | Zneg _ => 0 end) with M.
  2:{ unfold M. destruct s as [|p|p] eqn:E; [cbn; lia| |lia]. rewrite Z.shiftl_mul_pow2 by lia. reflexivity. }
  assert (M0 : 0 <= M) by (unfold M; apply Z.mul_nonneg_nonneg; [lia|apply Z.pow_nonneg; lia]).
  pose proof (Z.sqrtrem_sqrt M) as Sq. pose proof (Z.sqrtrem_spec M M0) as Sp. destruct (Z.sqrtrem M) as [q d]. cbn [fst] in Sq. subst q. set (q := Z.sqrt M) in *.
  destruct Sp as [Sp1 Sp2].
  set (U := ((2 # 1) ^ e')%Q). pose proof (pow2_pos e') as Up. fold U in Up.
  assert (V : (v == inject_Z M * (U * U))%Q).
  { unfold v, M, U. rewrite inject_Z_mult. rewrite <- (pow_Q s S0). rewrite <- Qpower_plus by discriminate. rewrite <- Qmult_assoc, <- Qpower_plus by discriminate.
    replace (s + (e' + e')) with e by (unfold s; lia). reflexivity. }
  clearbody s M q v. clear S0 s.  destruct (Zeq_bool d 0) eqn:D.
  - left. apply Zeq_bool_eq in D. exists (inject_Z q * U)%Q. split; [|split].
    + apply Qmult_lt_0_compat; [unfold Qlt; cbn; lia|exact Up].
    + rewrite V, Sp1, D, Z.add_0_r, inject_Z_mult. ring.
    + apply (aux_rounded false q e' loc_Exact q 1%positive); [lia|exact Ef|apply exact_located; lia|lia|]. cbn [sg]. unfold U. change (inject_Z 1) with 1%Q. ring.
  - right. apply Zeq_bool_neq in D.
    assert (Hs : forall a b, (a < b)%Q -> (a * U < b * U)%Q) by (intros; apply Qmult_lt_compat_r; assumption).
    assert (Sc : forall a b c d, (a == c * (U * U))%Q -> (b == d * (U * U))%Q -> (c < d)%Q -> (a < b)%Q).
    { intros a b c d0 -> -> L. apply Qmult_lt_compat_r; [apply Qmult_lt_0_compat; exact Up|exact L]. }
    assert (Dv : forall s, (s == (s / U) * U)%Q) by (intros s; field; intros C; rewrite C in Up; discriminate).
    assert (Bt : forall a s, (a * U < s)%Q -> (a < s / U)%Q) by (intros; apply Qlt_shift_div_l; assumption).
    assert (Bu : forall a s, (s < a * U)%Q -> (s / U < a)%Q) by (intros; apply Qlt_shift_div_r; assumption).
    assert (Four : (v * 4 == inject_Z (4 * M) * (U * U))%Q) by (rewrite V, inject_Z_mult; change (inject_Z 4) with 4%Q; ring).
    assert (Re : forall v w r, (v == w)%Q -> rounded v r -> rounded w r).
    { clear. intros v w r E (A & B & C & D). unfold rounded. split; [|split; [|split]].
      - intros L. rewrite <- E in L. destruct (A L) as (V & R & N). split; [exact V|]. split; [exact R|]. intros y Ry. destruct (N y Ry) as [N1 N2].
        rewrite <- E. split; assumption.
      - intros L. rewrite <- E in L. exact (B L).
      - intros L. rewrite <- E in L. exact (C L).
      - intros L. rewrite <- E in L. exact (D L). }
    destruct (Zle_bool d q) eqn:L.
    + apply Zle_bool_imp_le in L. exists (inject_Z q * U)%Q, ((2 * q + 1 # 2) * U)%Q. split; [split; [|split; [|split; [|split]]]|].
      * apply Qmult_lt_0_compat; [unfold Qlt; cbn; lia|exact Up].
      * apply Hs. unfold Qlt, inject_Z. cbn [Qnum Qden]. lia.
      * eapply (Sc _ _ (inject_Z (q * q)) (inject_Z M)); [rewrite inject_Z_mult; ring|exact V|]. rewrite <- Zlt_Qlt. lia.
      * eapply (Sc _ _ (inject_Z M) ((2 * q + 1 # 2) * (2 * q + 1 # 2))%Q); [exact V|ring|]. unfold Qlt, Qmult, inject_Z. cbn [Qnum Qden]. rewrite Pos2Z.inj_mul. lia.
      * rewrite (Qmult_comm 4 v), Four. setoid_replace ((2 * q + 1 # 2) * U * ((2 * q + 1 # 2) * U))%Q with ((2 * q + 1 # 2) * (2 * q + 1 # 2) * (U * U))%Q by ring.
        apply Qmult_le_compat_r; [|apply Qlt_le_weak, Qmult_lt_0_compat; exact Up]. unfold Qle, Qmult, inject_Z. cbn [Qnum Qden]. rewrite Pos2Z.inj_mul. nia.
      * intros s B1 B2. apply (Re (s / U * U)%Q); [symmetry; apply Dv|]. eapply in_cell; [reflexivity|exact Q0|exact Ef|]. split; [apply Bt, B1|apply Bu, B2].
    + assert (q < d) by (pose proof (Zle_cases d q) as X; rewrite L in X; lia). exists ((2 * q + 1 # 2) * U)%Q, (inject_Z (q + 1) * U)%Q. split; [split; [|split; [|split; [|split]]]|].
      * apply Qmult_lt_0_compat; [unfold Qlt; cbn [Qnum Qden]; lia|exact Up].
      * apply Hs. unfold Qlt, inject_Z. cbn [Qnum Qden]. lia.
      * eapply (Sc _ _ ((2 * q + 1 # 2) * (2 * q + 1 # 2))%Q (inject_Z M)); [ring|exact V|]. unfold Qlt, Qmult, inject_Z. cbn [Qnum Qden]. rewrite Pos2Z.inj_mul. lia.
      * eapply (Sc _ _ (inject_Z M) (inject_Z ((q + 1) * (q + 1)))); [exact V|rewrite (inject_Z_mult (q + 1)); ring|]. rewrite <- Zlt_Qlt. lia.
      * rewrite (Qmult_comm 4 v), Four. setoid_replace (inject_Z (q + 1) * U * (inject_Z (q + 1) * U))%Q with (inject_Z ((q + 1) * (q + 1)) * (U * U))%Q by (rewrite (inject_Z_mult (q + 1)); ring).
        apply Qmult_le_compat_r; [|apply Qlt_le_weak, Qmult_lt_0_compat; exact Up]. rewrite <- Zle_Qle. nia.
      * intros s B1 B2. apply (Re (s / U * U)%Q); [symmetry; apply Dv|]. eapply in_cell; [reflexivity|exact Q0|exact Ef|]. split; [apply Bt, B1|apply Bu, B2].
Qed.
Lemma square_lt a b : (0 <= a)%Q -> (0 <= b)%Q -> (a * a < b * b)%Q -> (a < b)%Q.
Proof.
  intros A B H. destruct (Qlt_le_dec a b) as [|L]; [assumption|exfalso]. apply (Qle_not_lt (b * b) (a * a)); [|exact H].
  apply (Qle_trans _ (a * b)); [apply Qmult_le_compat_r; assumption|]. rewrite (Qmult_comm a b).
  apply Qmult_le_compat_r; assumption.
Qed.
Lemma square_lt_up a b : (0 <= a)%Q -> (a < b)%Q -> (a * a < b * b)%Q.
Proof. intros A L. nra. Qed.
Lemma small_root v s : (s * s <= 4 * v)%Q -> (0 <= s)%Q -> (v < inject_Z (2 ^ 128))%Q -> (Qabs s < limit)%Q.
Proof.
  intros S P V. rewrite Qabs_pos by exact P. apply (Qlt_trans _ (inject_Z (2 ^ 65))); [|reflexivity].
  apply square_lt; [exact P|discriminate|]. apply (Qle_lt_trans _ (4 * v)); [exact S|].
  setoid_replace (inject_Z (2 ^ 65) * inject_Z (2 ^ 65))%Q with (4 * inject_Z (2 ^ 128))%Q by reflexivity. lra.
Qed.
(** A rational between the root of [v] and a number above it, or below it. *)
Lemma above_root v w : (0 < v)%Q -> (0 < w)%Q -> (v < w * w)%Q -> exists s, (0 < s)%Q /\ (s < w)%Q /\ (v < s * s)%Q.
Proof.
  intros V W H. exists ((v / w + w) * (1 # 2))%Q. set (u := (v / w)%Q).
  assert (U : (u * w == v)%Q) by (unfold u; field; intros C; rewrite C in W; discriminate).
  assert (U0 : (0 < u)%Q) by (apply Qlt_shift_div_l; [exact W|rewrite Qmult_0_l; exact V]).
  assert (L : (u < w)%Q) by (apply Qlt_shift_div_r; assumption). clearbody u. rewrite <- U in *.
  split; [lra|]. split; [lra|]. assert (0 < (w - u) * (w - u))%Q by (apply Qmult_lt_0_compat; lra). lra.
Qed.
Lemma below_root v w : (0 < v)%Q -> (0 < w)%Q -> (w * w < v)%Q -> exists s, (0 < s)%Q /\ (w < s)%Q /\ (s * s < v)%Q.
Proof.
  intros V W H. destruct (above_root v (v / w)) as (t & T0 & T1 & T2); [exact V| | |].
  - apply Qlt_shift_div_l; [exact W|rewrite Qmult_0_l; exact V].
  - set (u := (v / w)%Q). assert (U : (u * w == v)%Q) by (unfold u; field; intros C; rewrite C in W; discriminate).
    assert (L : (w < u)%Q) by (apply Qlt_shift_div_l; assumption). clearbody u. rewrite <- U. rewrite (Qmult_comm u w). apply Qmult_lt_compat_r; lra.
  - exists (v / t)%Q. set (s := (v / t)%Q). assert (U : (s * t == v)%Q) by (unfold s; field; intros C; rewrite C in T0; discriminate).
    assert (S0 : (0 < s)%Q) by (apply Qlt_shift_div_l; [exact T0|rewrite Qmult_0_l; exact V]).
    assert (St : (s < t)%Q) by (apply Qlt_shift_div_r; assumption).
    assert (E : (v == (v / w) * w)%Q) by (field; intros C; rewrite C in W; discriminate). set (u := (v / w)%Q) in *. clearbody u s. split; [exact S0|]. split.
    + destruct (Qlt_le_dec w s) as [|L]; [assumption|exfalso]. assert (s * t < w * u)%Q by nra. lra.
    + rewrite <- U. nra.
Qed.
Lemma abs_closer a b s : (a < b)%Q -> (s < (a + b) * (1 # 2))%Q -> (Qabs (a - s) < Qabs (b - s))%Q.
Proof.
  intros L M. rewrite (Qabs_pos (b - s)) by lra. apply Qabs_Qlt_condition. split; lra.
Qed.
Lemma abs_closer' a b s : (b < a)%Q -> ((a + b) * (1 # 2) < s)%Q -> (Qabs (a - s) < Qabs (b - s))%Q.
Proof.
  intros L M. rewrite (Qabs_neg (b - s)) by lra. apply Qabs_Qlt_condition. split; lra.
Qed.
Lemma cell_nearest v r : (0 < v)%Q -> (v < inject_Z (2 ^ 128))%Q -> cell v r -> nearest_root v r.
Proof.
  intros V0 V1 (lo & hi & (L0 & LH & LV & HV & H4) & R).
  assert (Sm : forall s, (lo < s)%Q -> (s < hi)%Q -> (Qabs s < limit)%Q).
  { intros s A B. apply (small_root v); [nra|lra|exact V1]. }
  assert (Mid : (lo < (lo + hi) * (1 # 2) < hi)%Q) by lra.
  destruct (R _ (proj1 Mid) (proj2 Mid)) as (A & _ & P & _). destruct (A (Sm _ (proj1 Mid) (proj2 Mid))) as (Va & Re & _).
  assert (Ng : negative r = false) by (apply P; lra). split; [exact Va|]. split; [exact Re|]. split; [exact Ng|]. clear A P Mid.
  assert (Np : (0 <= number r)%Q).
  { destruct r as [s|s| |s m e]; cbn [negative number] in *; try (subst s); try apply Qle_refl.
    apply Qlt_le_weak, Qmult_lt_0_compat; [unfold Qlt; cbn; lia|apply pow2_pos]. }
  intros y Ry Y0. cbv zeta. set (a := number y) in *. set (b := number r) in *.
  assert (Near : forall s, (lo < s)%Q -> (s < hi)%Q -> (Qabs (b - s) <= Qabs (a - s))%Q /\ ((Qabs (a - s) == Qabs (b - s))%Q -> (a == b)%Q \/ last_bit_zero r)).
  { intros s B1 B2. destruct (R s B1 B2) as (A & _). destruct (A (Sm s B1 B2)) as (_ & _ & N). exact (N y Ry). }
  clearbody a b. split; [|split].
  - intros L. destruct (Qlt_le_dec v ((a + b) * (1 # 2) * ((a + b) * (1 # 2)))) as [C|C]; [exfalso|exact C].
    set (mid := ((a + b) * (1 # 2))%Q) in *. assert (M0 : (0 < mid)%Q) by (unfold mid; lra).
    assert (W : exists w, (0 < w)%Q /\ (w <= mid)%Q /\ (w <= hi)%Q /\ (v < w * w)%Q).
    { destruct (Qlt_le_dec mid hi); [exists mid|exists hi]; repeat split; try lra; assumption. }
    destruct W as (w & W0 & W1 & W2 & W3). destruct (above_root v w V0 W0 W3) as (s & S0 & S1 & S2).
    assert (lo < s)%Q by (apply square_lt; lra).
    destruct (Near s) as [N _]; [assumption|lra|]. apply (Qle_not_lt _ _ N). apply abs_closer; [exact L|fold mid; lra].
  - intros L. destruct (Qlt_le_dec ((a + b) * (1 # 2) * ((a + b) * (1 # 2))) v) as [C|C]; [exfalso|exact C].
    set (mid := ((a + b) * (1 # 2))%Q) in *. assert (M0 : (0 < mid)%Q) by (unfold mid; lra).
    assert (W : exists w, (0 < w)%Q /\ (mid <= w)%Q /\ (lo <= w)%Q /\ (w * w < v)%Q).
    { destruct (Qlt_le_dec mid lo); [exists lo|exists mid]; repeat split; try lra; assumption. }
    destruct W as (w & W0 & W1 & W2 & W3). destruct (below_root v w V0 W0 W3) as (s & S0 & S1 & S2).
    assert (s < hi)%Q by (apply square_lt; lra).
    destruct (Near s) as [N _]; [lra|assumption|]. apply (Qle_not_lt _ _ N). apply abs_closer'; [exact L|fold mid; lra].
  - intros E. set (mid := ((a + b) * (1 # 2))%Q) in *. assert (M0 : (0 <= mid)%Q) by (unfold mid; lra).
    assert (lo < mid)%Q by (apply square_lt; lra). assert (mid < hi)%Q by (apply square_lt; lra).
    destruct (Near mid) as [_ T]; [assumption|assumption|]. apply T.
    setoid_replace (a - mid)%Q with (- (b - mid))%Q by (unfold mid; ring). apply Qabs_opp.
Qed.
Lemma exact_nearest v r s : (0 < v)%Q -> (v < inject_Z (2 ^ 128))%Q -> (0 < s)%Q -> (s * s == v)%Q -> rounded s r -> nearest_root v r.
Proof.
  intros V0 V1 S0 S2 (A & _ & P & _). assert (Sm : (Qabs s < limit)%Q) by (apply (small_root v); lra).
  destruct (A Sm) as (Va & Re & Near). pose proof (P S0) as Ng. split; [exact Va|]. split; [exact Re|]. split; [exact Ng|]. clear A P.
  assert (Np : (0 <= number r)%Q).
  { destruct r as [t|t| |t m e]; cbn [negative number] in *; try (subst t); try apply Qle_refl.
    apply Qlt_le_weak, Qmult_lt_0_compat; [unfold Qlt; cbn; lia|apply pow2_pos]. }
  intros y Ry Y0. cbv zeta. destruct (Near y Ry) as [N T]. set (a := number y) in *. set (b := number r) in *. clearbody a b. set (mid := ((a + b) * (1 # 2))%Q).
  split; [|split].
  - intros L. destruct (Qlt_le_dec s mid) as [C|C]; [exfalso|rewrite <- S2; unfold mid in *; nra].
    apply (Qle_not_lt _ _ N). apply abs_closer; assumption.
  - intros L. destruct (Qlt_le_dec mid s) as [C|C]; [exfalso|rewrite <- S2; unfold mid in *; nra].
    apply (Qle_not_lt _ _ N). apply abs_closer'; assumption.
  - intros E. assert (mid == s)%Q.
    { destruct (Q_dec mid s) as [[C|C]|C]; [| |exact C]; exfalso; apply square_lt_up in C; unfold mid in *; lra. }
    apply T. setoid_replace (a - s)%Q with (- (b - s))%Q by (rewrite <- H; unfold mid; ring). apply Qabs_opp.
Qed.
Lemma finite_number_lt m e : f_valid (S754_finite false m e) = true ->
  (0 < number (S754_finite false m e) /\ number (S754_finite false m e) < inject_Z (2 ^ 128))%Q.
Proof.
  intros V. cbn [f_valid] in V. cbn [number]. pose proof (pow2_pos e) as Up. split; [apply Qmult_lt_0_compat; [unfold Qlt; cbn; lia|exact Up]|].
  assert (R : Zpos m < 2 ^ 24 /\ e <= 104) by (change (2 ^ 24) with 16777216; destruct (canonical_cases _ _ V) as [[]|[]]; lia).
  apply (Qlt_le_trans _ (inject_Z (2 ^ 24) * (2 # 1) ^ e)); [apply Qmult_lt_compat_r; [exact Up|rewrite <- Zlt_Qlt; lia]|].
  rewrite <- (pow_Q 24), <- Qpower_plus, <- (pow_Q 128) by (discriminate || lia). apply Qpower_le_compat_l; [lia|discriminate].
Qed.
Lemma root_nearest x : finite x -> f_valid x = true -> (0 < number x)%Q -> nearest_root (number x) (SFsqrt prec emax x).
Proof.
  intros F V P. destruct x as [s|s| |[|] m e]; try contradiction; try (cbn [number] in P; discriminate P).
  - exfalso. cbn [number] in P. pose proof (pow2_pos e) as Up. change (Z.neg m) with (- Zpos m) in P. rewrite inject_Z_opp in P. assert (0 < inject_Z (Zpos m))%Q by (unfold Qlt; cbn; lia). nra.
  - destruct (finite_number_lt m e V) as [_ V1]. destruct (root_cell m e) as [(s & S0 & S2 & R)|C].
    + eapply exact_nearest; eassumption.
    + apply cell_nearest; assumption.
Qed.
Lemma nonzero_number m e : (0 < number (S754_finite false m e))%Q.
Proof. cbn [number]. apply Qmult_lt_0_compat; [unfold Qlt; cbn; lia|apply pow2_pos]. Qed.
Lemma sqrt_returns v x : operand v x -> returns1 F_sqrt v (SFlt (SFsqrt prec emax x)).
Proof.
  intros O. change (SFsqrt prec emax x) with (f_sqrt x).
  assert (Nv : is_number v = true) by (destruct O; reflexivity). assert (Av : as_float v = Ok x) by (destruct O; reflexivity).
  sys1. rw Nv. rw Av. rw Nw. done1.
Qed.

(** ** C124 *)

(** sqrt of a positive number, integer or float: an integer is first rounded to a
    float (C121). *)
Theorem C124_sqrt : forall v x, operand v x -> finite x -> f_valid x = true -> (0 < number x)%Q ->
  exists r, returns1 F_sqrt v (SFlt r) /\ nearest_root (number x) r.
Proof.
  intros v x O F V P. exists (SFsqrt prec emax x). split; [now apply sqrt_returns|now apply root_nearest].
Qed.
Print Assumptions C124_sqrt.

(** Zero stays, with its sign; negative numbers and NaN give NaN; infinity stays. *)
Theorem C124_special :
  (forall s, returns1 F_sqrt (PFlt (S754_zero s)) (SFlt (S754_zero s))) /\
  (forall v x, operand v x -> f_valid x = true -> (number x < 0)%Q -> returns1 F_sqrt v (SFlt S754_nan)) /\
  returns1 F_sqrt (PFlt (S754_infinity false)) (SFlt (S754_infinity false)) /\
  returns1 F_sqrt (PFlt (S754_infinity true)) (SFlt S754_nan) /\
  returns1 F_sqrt (PFlt S754_nan) (SFlt S754_nan).
Proof.
  pose proof sqrt_returns as G.
  split; [intros s; apply (G _ (S754_zero s)); constructor|]. split.
  - intros v x O V N. assert (E : SFsqrt prec emax x = S754_nan).
    { destruct x as [s|s| |[|] m e]; try discriminate N; [reflexivity|exfalso]. pose proof (nonzero_number m e). cbn [number] in *. lra. }
    rewrite <- E. now apply G.
  - split; [apply (G _ (S754_infinity false)); constructor|]. split; [apply (G _ (S754_infinity true)); constructor|apply (G _ S754_nan); constructor].
Qed.
Print Assumptions C124_special.

(** A root that a float can hold is exact. *)
Theorem C124_exact : forall v r y, nearest_root v r -> representable y -> (0 <= number y)%Q -> (number y * number y == v)%Q ->
  (number r == number y)%Q.
Proof.
  intros v r y (_ & _ & Ng & N) Ry Y0 E. destruct (N y Ry Y0) as (A & B & _).
  destruct (Q_dec (number r) (number y)) as [[L|L]|L]; [exfalso|exfalso|exact L].
  - specialize (B L). assert (Np : (0 <= number r)%Q).
    { destruct r as [s|s| |s m e]; cbn [negative] in Ng; try (subst s); try apply Qle_refl. apply Qlt_le_weak, nonzero_number. }
    assert (((number y + number r) * (1 # 2)) * ((number y + number r) * (1 # 2)) < number y * number y)%Q by (apply square_lt_up; lra). lra.
  - specialize (A L).
    assert (number y * number y < ((number y + number r) * (1 # 2)) * ((number y + number r) * (1 # 2)))%Q by (apply square_lt_up; lra). lra.
Qed.
Print Assumptions C124_exact.

(** If the root is a fraction, it is that fraction rounded, in the sense of C121. *)
Theorem C124_fraction : forall s r, (0 < s)%Q -> (Qabs s < limit)%Q -> nearest_root (s * s) r -> rounded s r.
Proof.
  intros s r S0 Sm (V & R & Ng & N). split; [|split; [|split]].
  - intros _. split; [exact V|]. split; [exact R|].
    assert (Np : (0 <= number r)%Q).
    { destruct r as [t|t| |t m e]; cbn [negative] in Ng; try (subst t); try apply Qle_refl. apply Qlt_le_weak, nonzero_number. }
    assert (G : forall y, representable y -> (0 <= number y)%Q ->
       (Qabs (number r - s) <= Qabs (number y - s))%Q /\ ((Qabs (number y - s) == Qabs (number r - s))%Q -> (number y == number r)%Q \/ last_bit_zero r)).
    { intros y Ry Y0. destruct (N y Ry Y0) as (A & B & C). set (a := number y) in *. set (b := number r) in *. clearbody a b. set (mid := ((a + b) * (1 # 2))%Q) in *.
      destruct (Q_dec a b) as [[L|L]|L].
      - specialize (A L). assert (M : (mid <= s)%Q) by (destruct (Qlt_le_dec s mid) as [X|X]; [exfalso; apply square_lt_up in X; lra|exact X]).
        assert (D : (Qabs (a - s) == s - a)%Q) by (rewrite Qabs_neg by (unfold mid in *; lra); ring).
        split; [rewrite D; apply Qabs_Qle_condition; unfold mid in *; split; lra|]. rewrite D. intros E. apply C.
        assert (mid == s)%Q; [|rewrite H; reflexivity]. revert E. apply (Qabs_case (b - s)); intros; unfold mid in *; lra.
      - specialize (B L). assert (M : (s <= mid)%Q) by (destruct (Qlt_le_dec mid s) as [X|X]; [exfalso; apply square_lt_up in X; unfold mid in *; lra|exact X]).
        assert (D : (Qabs (a - s) == a - s)%Q) by (apply Qabs_pos; unfold mid in *; lra).
        split; [rewrite D; apply Qabs_Qle_condition; unfold mid in *; split; lra|]. rewrite D. intros E. apply C.
        assert (mid == s)%Q; [|rewrite H; reflexivity]. revert E. apply (Qabs_case (b - s)); intros; unfold mid in *; lra.
      - rewrite L. split; [apply Qle_refl|]. intros _. left. reflexivity. }
    intros y Ry. destruct (Qlt_le_dec (number y) 0) as [Y|Y]; [|now apply G].
    destruct (G (S754_zero false) Logic.I (Qle_refl _)) as [Z0 _]. cbn [number] in Z0.
    assert (Qabs (0 - s) < Qabs (number y - s))%Q by (rewrite !Qabs_neg by lra; lra).
    split; [lra|]. intros E. exfalso. lra.
  - intros L. exfalso. apply (Qle_not_lt _ _ L Sm).
  - intros _. exact Ng.
  - intros L. exfalso. lra.
Qed.
Print Assumptions C124_fraction.

(** There is only one such float. *)
Theorem C124_unique : forall v r r', (0 < v)%Q -> (v < inject_Z (2 ^ 128))%Q -> nearest_root v r -> nearest_root v r' -> r = r'.
Proof.
  assert (Pos : forall r, negative r = false -> (0 <= number r)%Q).
  { intros [s|s| |s m e] Ng; cbn [negative] in Ng; try (subst s); try apply Qle_refl. apply Qlt_le_weak, nonzero_number. }
  assert (Eq : forall v r r', nearest_root v r -> nearest_root v r' -> (number r == number r')%Q -> r = r').
  { intros v r r' (V & R & Ng & _) (V' & R' & Ng' & _) E. destruct (Qeq_dec (number r) 0) as [Z0|Z0].
    - assert (K : forall x, representable x -> negative x = false -> (number x == 0)%Q -> x = S754_zero false).
      { intros [s|s| |s m e] Rx Nx Ex; cbn in Rx, Nx; try contradiction; [now subst|exfalso]. subst s. pose proof (nonzero_number m e). lra. }
      rewrite (K r R Ng Z0), (K r' R' Ng' (Qeq_trans _ _ _ (Qeq_sym _ _ E) Z0)). reflexivity.
    - apply (C121_unique (number r)); [exact Z0|apply self_rounded|apply self_rounded]; auto; try reflexivity; [destruct r|destruct r']; cbn in *; tauto. }
  assert (G : forall v r r', (0 < v)%Q -> (v < inject_Z (2 ^ 128))%Q -> nearest_root v r -> nearest_root v r' -> (number r < number r')%Q -> r = r').
  { intros v r r' V0 V1 N N' L. pose proof N as (V & R & Ng & Nr). pose proof N' as (V' & R' & Ng' & Nr').
    destruct (Nr r' R' (Pos _ Ng')) as (_ & A & _). destruct (Nr' r R (Pos _ Ng)) as (B & _). specialize (A L). specialize (B L).
    set (s := ((number r + number r') * (1 # 2))%Q) in *.
    assert (E : (s * s == v)%Q).
    { apply Qle_antisym; [exact B|]. unfold s. rewrite (Qplus_comm (number r) (number r')). exact A. }
    assert (S0 : (0 < s)%Q) by (pose proof (Pos r Ng); unfold s; lra).
    assert (Sm : (Qabs s < limit)%Q) by (apply (small_root v); lra).
    assert (K : forall x, nearest_root v x -> nearest_root (s * s) x).
    { intros x (X1 & X2 & X3 & X4). split; [exact X1|]. split; [exact X2|]. split; [exact X3|]. intros y Ry Y0. cbv zeta. rewrite E. exact (X4 y Ry Y0). }
    apply (C121_unique s); [lra|apply C124_fraction; auto|apply C124_fraction; auto]. }
  intros v r r' V0 V1 N N'. destruct (Q_dec (number r) (number r')) as [[L|L]|L]; [now apply (G v)|symmetry; now apply (G v)|now apply (Eq v)].
Qed.
Print Assumptions C124_unique.

(** sin, cos and tan answer what the functions of the C library answer for the
    argument as a float; they change nothing. *)
Theorem C124_trigonometry : forall P H (ops : hops P H) prog s n p w rest h q v x f g, operand v x ->
  (f = F_sin /\ g = w_sin (m_world s)) \/ (f = F_cos /\ g = w_cos (m_world s)) \/ (f = F_tan /\ g = w_tan (m_world s)) ->
  sys_state prog s f n (p :: rest) -> h_view ops (m_heap s) p = Ok w -> plain w = v -> h_newS ops (m_heap s) (SFlt (g x)) = Ok (h, q) ->
  step_imp ops prog s = Ok (tt, after s (pc s + 9) (q :: rest) h).
Proof.
  intros P H ops prog s n p w rest h q v x f g O C St Hv Pv Nw.
  assert (Nv : is_number v = true) by (destruct O; reflexivity). assert (Av : as_float v = Ok x) by (destruct O; reflexivity).
  rewrite (sys_step _ _ _ _ _ _ _ _ St). destruct St as (Q & Es & _).
  destruct C as [[-> ->]|[[-> ->]|[-> ->]]]; cbn [run_sys]; unfold sys_float; dstate s; mcbv; subst; mcbv; rw Hv; rw Nv; rw Av; rw Nw; done1.
Qed.
Print Assumptions C124_trigonometry.

(** sqrt(2) is 1.41421354 and sqrt(2.25) is 1.5.  States in which a builtin is
    called are met as in C69_example. *)
Example C124_ex :
  let two := S754_finite false 8388608 (-22) in
  operand (PInt 2) two /\ finite two /\ f_valid two = true /\ (0 < number two)%Q /\
  nearest_root 2 (S754_finite false 11863283 (-23)) /\
  nearest_root (9 # 4) (S754_finite false 12582912 (-23)).
Proof.
  cbv zeta. split; [apply (op_int 2)|]. split; [exact Logic.I|]. split; [reflexivity|]. split; [reflexivity|].
  assert (K : forall v w r, (v == w)%Q -> nearest_root v r -> nearest_root w r).
  { intros v w r E (X1 & X2 & X3 & X4). split; [exact X1|]. split; [exact X2|]. split; [exact X3|]. intros y Ry Y0. cbv zeta. rewrite <- E. exact (X4 y Ry Y0). }
  split.
  - pose proof (root_nearest (S754_finite false 8388608 (-22)) Logic.I eq_refl eq_refl) as R. vm_compute (SFsqrt _ _ _) in R. revert R. apply K. reflexivity.
  - pose proof (root_nearest (S754_finite false 9437184 (-22)) Logic.I eq_refl eq_refl) as R. vm_compute (SFsqrt _ _ _) in R. revert R. apply K. reflexivity.
Qed.
