(** C85: arithmetic and comparison when at least one operand is a float. *)
From Coq Require Import ZArith List Bool Lia ZifyBool Floats.SpecFloat.
From Verif Require Import Base BaseFacts F32 F32Facts FloatBits FloatValid Instr InstrSpec
  InstrProofs Program VM Gc GcSpec Host Demo VmSpec VmFacts PropertiesOps.
Import ListNotations.
Open Scope Z_scope.

(** ** Specification *)

(** The number an operand stands for: a float is itself, an integer is converted
    to the nearest binary32 number. *)
Inductive operand : pv -> f32 -> Prop :=
| op_int : forall z, operand (PInt z) (f_of_int z)
| op_flt : forall x, operand (PFlt x) x.
Definition some_float (l r : pv) : Prop := (exists x, l = PFlt x) \/ (exists x, r = PFlt x).

(** The order of the numbers themselves: fractions compared by cross
    multiplication, infinities at the ends, NaN in no relation to anything. *)
Definition below (x y : f32) : Prop :=
  match x, y with
  | S754_nan, _ | _, S754_nan => False
  | S754_infinity true, S754_infinity true => False
  | S754_infinity true, _ => True
  | _, S754_infinity true => False
  | S754_infinity false, _ => False
  | _, S754_infinity false => True
  | _, _ => f_num x * f_den y < f_num y * f_den x
  end.
Definition equal (x y : f32) : Prop :=
  match x, y with
  | S754_nan, _ | _, S754_nan => False
  | S754_infinity a, S754_infinity b => a = b
  | S754_infinity _, _ | _, S754_infinity _ => False
  | _, _ => f_num x * f_den y = f_num y * f_den x
  end.

(** [i] answers the question [Q] about [l] and [r]: 1 for yes, 0 for no. *)
Definition answers2 (i : instr) (l r : pv) (Q : Prop) : Prop :=
  (Q -> pushes2 i l r (SInt 1)) /\ (~ Q -> pushes2 i l r (SInt 0)).

(** ** Proofs *)

(** The value of a finite number in units of 2^-149. *)
Definition units (x : f32) : Z :=
  match x with
  | S754_finite s m e => (if s then Zneg m else Zpos m) * 2 ^ (e + 149)
  | _ => 0
  end.
Lemma units_frac : forall x, f_valid x = true -> f_num x * 2 ^ 149 = units x * f_den x.
Proof.
  intros [s|s| |s m e] V; cbn [f_num f_den units]; try lia. cbn [f_valid] in V.
  assert (B : -149 <= e) by (destruct (canonical_cases _ _ V) as [[]|[]]; lia).
  set (k := if s then Zneg m else Zpos m). rewrite <- !Z.mul_assoc. f_equal.
  rewrite <- !Z.pow_add_r by lia. f_equal. lia.
Qed.
Lemma den_pos : forall x, 0 < f_den x.
Proof. intros [s|s| |s m e]; cbn [f_den]; try reflexivity. apply Z.pow_pos_nonneg; lia. Qed.
Lemma frac_compare : forall x y, f_valid x = true -> f_valid y = true ->
  (f_num x * f_den y ?= f_num y * f_den x) = (units x ?= units y).
Proof.
  intros x y Vx Vy. pose proof (den_pos x) as Px. pose proof (den_pos y) as Py.
  pose proof (units_frac x Vx) as Ux. pose proof (units_frac y Vy) as Uy.
  assert (P : 0 < 2 ^ 149) by (apply Z.pow_pos_nonneg; lia).
  set (K := 2 ^ 149) in *. clearbody K.
  assert (E1 : K * (f_num x * f_den y) = (f_den x * f_den y) * units x) by nia.
  assert (E2 : K * (f_num y * f_den x) = (f_den x * f_den y) * units y) by nia.
  rewrite (Zmult_compare_compat_l (f_num x * f_den y) (f_num y * f_den x) K) by lia. rewrite E1, E2.
  symmetry. apply Zmult_compare_compat_l. nia.
Qed.

Lemma pow_units : forall e, -149 <= e -> 0 < 2 ^ (e + 149).
Proof. intros. apply Z.pow_pos_nonneg; lia. Qed.

(** A larger exponent is a larger magnitude. *)
Lemma exp_order : forall m e n f, bounded prec emax m e = true -> bounded prec emax n f = true ->
  e < f -> Zpos m * 2 ^ (e + 149) < Zpos n * 2 ^ (f + 149).
Proof.
  intros m e n f Bm Bn L.
  assert (Hm : Zpos m < 2 ^ 24 /\ -149 <= e).
  { change (2 ^ 24) with 16777216. destruct (canonical_cases _ _ Bm) as [[]|[]]; lia. }
  assert (Hn : 2 ^ 23 <= Zpos n).
  { change (2 ^ 23) with 8388608. destruct (canonical_cases _ _ Bn) as [[]|[]]; lia. }
  destruct Hm as [Hm He]. pose proof (pow_units e He) as Pe.
  replace (f + 149) with ((e + 149) + 1 + (f - e - 1)) by lia.
  rewrite (Z.pow_add_r 2 (e + 149 + 1)), (Z.pow_add_r 2 (e + 149)) by lia. assert (0 < 2 ^ (f - e - 1)) by (apply Z.pow_pos_nonneg; lia).
  change (2 ^ 24) with (2 * 2 ^ 23) in Hm. change (2 ^ 1) with 2. set (A := 2 ^ (e + 149)) in *.
  set (B := 2 ^ (f - e - 1)) in *. clearbody A B. 
  change (2 ^ 23) with 8388608 in *.
  assert (K1 : Zpos m * A < 16777216 * A) by nia. assert (K2 : 16777216 * A <= Zpos n * (A * 2)) by nia.
  assert (K3 : Zpos n * (A * 2) * 1 <= Zpos n * (A * 2) * B) by (apply Z.mul_le_mono_nonneg_l; nia).
  rewrite (Z.mul_assoc (Zpos n)). lia.
Qed.

Lemma mag_compare : forall m e n f, bounded prec emax m e = true -> bounded prec emax n f = true ->
  (Zpos m * 2 ^ (e + 149) ?= Zpos n * 2 ^ (f + 149)) =
  match e ?= f with Lt => Lt | Gt => Gt | Eq => Pos.compare_cont Eq m n end.
Proof.
  intros m e n f Bm Bn. destruct (Z.compare_spec e f) as [->|L|L].
  - assert (-149 <= f) by (destruct (canonical_cases _ _ Bm) as [[]|[]]; lia).
    pose proof (pow_units f H). rewrite !(Z.mul_comm _ (2 ^ (f + 149))).
    rewrite <- Zmult_compare_compat_l by lia. reflexivity.
  - apply Z.compare_lt_iff, exp_order; auto.
  - apply Z.compare_gt_iff, exp_order; auto.
Qed.

Lemma compare_units : forall x y, finite x -> finite y -> f_valid x = true -> f_valid y = true ->
  SFcompare x y = Some (units x ?= units y).
Proof.
  assert (P : forall m e, bounded prec emax m e = true -> 0 < Zpos m * 2 ^ (e + 149)).
  { intros m e B. assert (-149 <= e) by (destruct (canonical_cases _ _ B) as [[]|[]]; lia).
    pose proof (pow_units e H). lia. }
  assert (N : forall m k, Zneg m * k = - (Zpos m * k)) by (intros; lia).
  intros [s|s| |s m e] [s'|s'| |s' n f] Fx Fy Vx Vy; try contradiction; cbn [f_valid] in Vx, Vy;
    cbn [SFcompare units].
  - reflexivity.
  - pose proof (P _ _ Vy). destruct s'; rewrite ?N; f_equal; symmetry; [apply Z.compare_gt_iff|apply Z.compare_lt_iff]; lia.
  - pose proof (P _ _ Vx). destruct s; rewrite ?N; f_equal; symmetry; [apply Z.compare_lt_iff|apply Z.compare_gt_iff]; lia.
  - pose proof (P _ _ Vx). pose proof (P _ _ Vy). destruct s, s'; rewrite ?N.
    + rewrite Z.compare_opp, (mag_compare _ _ _ _ Vy Vx), (Z.compare_antisym e f).
      destruct (e ?= f); cbn [CompOpp]; try reflexivity. f_equal.
      symmetry. apply (Pos.compare_antisym m n).
    + f_equal; symmetry. apply Z.compare_lt_iff; lia.
    + f_equal; symmetry. apply Z.compare_gt_iff; lia.
    + rewrite (mag_compare _ _ _ _ Vx Vy). destruct (e ?= f); reflexivity.
Qed.

Lemma f_lt_below : forall x y, f_valid x = true -> f_valid y = true -> f_lt x y = true <-> below x y.
Proof.
  intros x y Vx Vy.
  assert (G : finite x -> finite y -> f_lt x y = true <-> f_num x * f_den y < f_num y * f_den x).
  { intros Fx Fy. unfold f_lt, SFltb. rewrite compare_units by auto. rewrite <- frac_compare by auto.
    rewrite <- Z.compare_lt_iff. destruct (_ ?= _); split; intros; congruence. }
  destruct x as [s|[]| |s m e], y as [s'|[]| |s' n f]; try (apply G; exact Logic.I);
    cbn; split; intros; try discriminate; try contradiction; auto.
Qed.
Lemma f_eqb_equal : forall x y, f_valid x = true -> f_valid y = true -> f_eqb x y = true <-> equal x y.
Proof.
  intros x y Vx Vy.
  assert (G : finite x -> finite y -> f_eqb x y = true <-> f_num x * f_den y = f_num y * f_den x).
  { intros Fx Fy. unfold f_eqb, SFeqb. rewrite compare_units by auto. rewrite <- frac_compare by auto.
    rewrite <- Z.compare_eq_iff. destruct (_ ?= _); split; intros; congruence. }
  destruct x as [s|[]| |s m e], y as [s'|[]| |s' n f]; try (apply G; exact Logic.I);
    cbn; split; intros; try discriminate; try contradiction; auto.
Qed.
Lemma f_leb_or : forall x y, f_leb x y = true <-> f_lt x y = true \/ f_eqb x y = true.
Proof.
  intros x y. unfold f_leb, f_lt, f_eqb, SFleb, SFltb, SFeqb.
  destruct (SFcompare x y) as [[]|]; split; intros; auto; try discriminate; destruct H; discriminate.
Qed.

Lemma number_operand : forall v x, operand v x -> is_number v = true /\ as_float v = Ok x.
Proof. intros v x []; auto. Qed.
Lemma not_ints : forall l r, some_float l r -> ~ exists a b, l = PInt a /\ r = PInt b.
Proof. intros l r [[x ->]|[x ->]] (a & b & E1 & E2); discriminate. Qed.

Lemma float_case : forall l r x y k, operand l x -> operand r y ->
  float_op k l r = Ok (OPush (SFlt (k x y))) /\ forall q, float_cmp q l r = Ok (OPush (SInt (b2z (q x y)))).
Proof.
  intros l r x y k [z|u] [z'|u']; split; reflexivity.
Qed.

(** ** C85 *)

(** Arithmetic: both operands as floats, and the IEEE 754 operation on 24 bits
    of precision and exponents up to 128 (the standard library's
    specification), whatever the values are; there is no remainder of floats. *)
Theorem C85_arithmetic : forall l r x y, operand l x -> operand r y -> some_float l r ->
  pushes2 INS_ADD l r (SFlt (SFadd 24 128 x y)) /\
  pushes2 INS_SUB l r (SFlt (SFsub 24 128 x y)) /\
  pushes2 INS_MUL l r (SFlt (SFmul 24 128 x y)) /\
  pushes2 INS_DIV l r (SFlt (SFdiv 24 128 x y)) /\
  raises2 INS_MOD l r e_bad_type_operation.
Proof.
  intros l r x y [z|u] [z'|u'] [[w Q]|[w Q]]; try discriminate;
    repeat split; try push2; try raise2; reflexivity.
Qed.
Print Assumptions C85_arithmetic.

(** Comparison decides the order of the numbers. *)
Theorem C85_comparison : forall l r x y, operand l x -> operand r y -> some_float l r ->
  f_valid x = true -> f_valid y = true ->
  answers2 INS_LT l r (below x y) /\
  answers2 INS_GT l r (below y x) /\
  answers2 INS_LEQ l r (below x y \/ equal x y) /\
  answers2 INS_GEQ l r (below y x \/ equal y x) /\
  answers2 INS_EQ l r (equal x y).
Proof.
  intros l r x y Ol Or Sf Vx Vy.
  pose proof (f_lt_below x y Vx Vy) as L1. pose proof (f_lt_below y x Vy Vx) as L2.
  pose proof (f_eqb_equal x y Vx Vy) as E1. pose proof (f_eqb_equal y x Vy Vx) as E2.
  pose proof (f_leb_or x y) as G1. pose proof (f_leb_or y x) as G2.
  assert (K : op_lt l r = Ok (OPush (SInt (b2z (f_lt x y)))) /\
              op_gt l r = Ok (OPush (SInt (b2z (f_lt y x)))) /\
              op_leq l r = Ok (OPush (SInt (b2z (f_leb x y)))) /\
              op_geq l r = Ok (OPush (SInt (b2z (f_leb y x)))) /\
              op_eq l r = Ok (OPush (SInt (b2z (f_eqb x y))))).
  { destruct Ol, Or; destruct Sf as [[w Q]|[w Q]]; try discriminate; repeat split; reflexivity. }
  destruct K as (K1 & K2 & K3 & K4 & K5).
  unfold answers2. repeat split; intros Q; push2.
  all: rewrite ?K1, ?K2, ?K3, ?K4, ?K5.
  all: match goal with |- context [b2z ?b] => destruct b eqn:B; cbn [b2z]; try reflexivity; exfalso; intuition congruence end.
Qed.
Print Assumptions C85_comparison.

(** The validity asked for above is no restriction: converted integers and the
    results of the operations have it, and so has every float that a constant
    can put on the stack. *)
Theorem C85_valid : forall x y, f_valid x = true -> f_valid y = true ->
  f_valid (SFadd 24 128 x y) = true /\ f_valid (SFsub 24 128 x y) = true /\
  f_valid (SFmul 24 128 x y) = true /\ f_valid (SFdiv 24 128 x y) = true /\
  (forall z, f_valid (f_of_int z) = true) /\
  (forall b, 0 <= b < 2 ^ 32 -> f_valid (f_of_bits b) = true).
Proof.
  intros x y Vx Vy. change 24 with prec. change 128 with emax.
  repeat split.
  - destruct x as [[]|[]| |s m e], y as [[]|[]| |s' n f]; try reflexivity; auto. apply normalize_valid.
  - destruct x as [[]|[]| |s m e], y as [[]|[]| |s' n f]; try reflexivity; auto. apply normalize_valid.
  - destruct x as [s|s| |s m e], y as [s'|s'| |s' n f]; try reflexivity. cbn [SFmul].
    apply round_aux_valid; [lia|]. cbn [Zdigits2]. cbn [f_valid] in Vx, Vy.
    assert (D : forall p k, 2 ^ k <= Zpos p -> k + 1 <= Zpos (digits2_pos p)).
    { intros p k L. destruct (Z_lt_le_dec k 0); [pose proof (digits_bounds p); lia|].
      destruct (Z_le_gt_dec (k + 1) (Zpos (digits2_pos p))); auto.
      pose proof (digits_bounds p) as [_ U].
      assert (2 ^ Zpos (digits2_pos p) <= 2 ^ k) by (apply Z.pow_le_mono_r; lia). lia. }
    unfold fexp, emin, prec, emax.
    destruct (canonical_cases _ _ Vx) as [[M1 E1]|[M1 E1]], (canonical_cases _ _ Vy) as [[M2 E2]|[M2 E2]]; try lia;
      assert (23 + 1 <= Zpos (digits2_pos (m * n))) by (apply D; change (2 ^ 23) with 8388608; nia); lia.
  - apply f_div_valid.
  - intros z. apply f_of_int_valid.
  - intros b B. unfold f_of_bits.
    set (ex := (b / 8388608) mod 256). set (m := b mod 8388608).
    assert (Bm : 0 <= m < 8388608) by (apply Z.mod_pos_bound; lia).
    assert (Be : 0 <= ex < 256) by (apply Z.mod_pos_bound; lia). clearbody ex m.
    destruct (ex =? 0) eqn:Q.
    + destruct m as [|p|p]; auto. cbn [f_valid]. unfold bounded, canonical_mantissa, fexp, emin, prec, emax.
      pose proof (digits_bounds p) as [L _].
      assert (Zpos (digits2_pos p) <= 23).
      { destruct (Z_le_gt_dec (Zpos (digits2_pos p)) 23); auto.
        assert (2 ^ 23 <= 2 ^ (Zpos (digits2_pos p) - 1)) by (apply Z.pow_le_mono_r; lia).
        change (2 ^ 23) with 8388608 in *. lia. }
      rewrite (proj1 (Zeq_is_eq_bool _ _)) by lia. reflexivity.
    + destruct (ex =? 255) eqn:Q2; [destruct (m =? 0); auto|].
      destruct (m + 8388608) as [|p|p] eqn:Ep; auto. cbn [f_valid].
      unfold bounded, canonical_mantissa, fexp, emin, prec, emax.
      assert (Zpos (digits2_pos p) = 24) by (apply digits_unique; change (2 ^ (24 - 1)) with 8388608; change (2 ^ 24) with 16777216; lia).
      rewrite (proj1 (Zeq_is_eq_bool _ _)) by lia. cbn [andb]. lia.
Qed.
Print Assumptions C85_valid.

(** 1.5 against the integers 1 and 2, and NaN against itself. *)
Definition one_half3 : f32 := S754_finite false 12582912 (-23).
Example C85_example :
  f_valid one_half3 = true /\
  operand (PInt 1) (f_of_int 1) /\ operand (PFlt one_half3) one_half3 /\
  some_float (PInt 1) (PFlt one_half3) /\
  below (f_of_int 1) one_half3 /\ below one_half3 (f_of_int 2) /\ ~ equal one_half3 (f_of_int 2) /\
  ~ equal S754_nan S754_nan /\ ~ below S754_nan one_half3 /\ below one_half3 (S754_infinity false) /\
  SFadd 24 128 one_half3 (f_of_int 1) = S754_finite false 10485760 (-22).
Proof.
  split; [reflexivity|]. split; [constructor|]. split; [constructor|].
  split; [right; eexists; reflexivity|]. vm_compute. repeat split; intros; try discriminate; auto.
Qed.

