(** C121: arithmetic on floats is exact arithmetic rounded once. *)
From Coq Require Import ZArith QArith Qabs Qpower List Bool Lia ZifyBool Floats.SpecFloat.
From Verif Require Import Base BaseFacts F32 F32Facts FloatBits FloatValid FloatRound Instr InstrSpec
  InstrProofs Program VM Gc GcSpec Host Demo VmSpec VmFacts PropertiesOps PropertiesFloat.
Import ListNotations.
Open Scope Z_scope.

(** ** Specification *)

(** The rational number a float stands for. *)
Definition number (x : f32) : Q :=
  match x with
  | S754_finite s m e => inject_Z (if s then Zneg m else Zpos m) * (2 # 1) ^ e
  | _ => 0
  end.

(** The numbers a [float] can hold: 24 bits, times a power of two from -149 to 104. *)
Definition representable (x : f32) : Prop :=
  match x with
  | S754_zero _ => True
  | S754_finite _ m e => Zpos m < 2 ^ 24 /\ -149 <= e <= 104
  | _ => False
  end.
Definition last_bit_zero (x : f32) : Prop :=
  match x with S754_finite _ m _ => Z.even (Zpos m) = true | _ => True end.
Definition negative (x : f32) : bool :=
  match x with S754_zero s | S754_infinity s | S754_finite s _ _ => s | S754_nan => false end.

(** Where rounding starts to give infinity: half way between the largest float,
    2^128 - 2^104, and 2^128. *)
Definition limit : Q := inject_Z (2 ^ 128 - 2 ^ 103).

(** [r] is [v] rounded to the nearest float, and to the one whose last bit is
    zero when two are equally near. *)
Definition rounded (v : Q) (r : f32) : Prop :=
  (Qabs v < limit -> f_valid r = true /\ representable r /\
     forall y, representable y ->
       Qabs (number r - v) <= Qabs (number y - v) /\
       (Qabs (number y - v) == Qabs (number r - v) -> number y == number r \/ last_bit_zero r))%Q /\
  (limit <= Qabs v -> exists s, r = S754_infinity s)%Q /\
  (0 < v -> negative r = false)%Q /\ (v < 0 -> negative r = true)%Q.

(** ** Proofs *)
Definition P149 : positive := Pos.pow 2 149.
Lemma P149_Z : Zpos P149 = 2 ^ 149.
Proof. reflexivity. Qed.

Lemma pow_Q : forall k, 0 <= k -> ((2 # 1) ^ k == inject_Z (2 ^ k))%Q.
Proof. intros k K. symmetry. apply Zpower_Qpower. exact K. Qed.
Lemma two_pos : ~ ((2 # 1) == 0)%Q.
Proof. discriminate. Qed.
Lemma pow_frac : forall e D, Zpos D = down e -> ((2 # 1) ^ e == up e # (P149 * D))%Q.
Proof.
  intros e D HD.
  assert (E : ((2 # 1) ^ e * inject_Z (2 ^ 149 * down e) == inject_Z (up e))%Q).
  { unfold down, up. rewrite <- Z.pow_add_r, <- !pow_Q by lia. rewrite <- Qpower_plus by exact two_pos.
    replace (e + (149 + Z.max (- e - 149) 0)) with (Z.max (e + 149) 0) by lia. reflexivity. }
  rewrite (Qmake_Qdiv (up e)), Pos2Z.inj_mul, P149_Z, HD.
  apply Qmult_inj_r with (z := inject_Z (2 ^ 149 * down e)).
  - intros C. assert (0 < 2 ^ 149 * down e) by (apply Z.mul_pos_pos; [reflexivity|apply down_pos]).
    unfold Qeq in C. cbn [Qnum Qden inject_Z] in C. lia.
  - rewrite E. field. intros C. assert (0 < 2 ^ 149 * down e) by (apply Z.mul_pos_pos; [reflexivity|apply down_pos]).
    unfold Qeq in C. cbn [Qnum Qden inject_Z] in C. lia.
Qed.
Lemma scaled : forall z e D, Zpos D = down e -> (inject_Z z * (2 # 1) ^ e == z * up e # (P149 * D))%Q.
Proof. intros z e D HD. rewrite (pow_frac e D HD). reflexivity. Qed.

Definition uni (x : f32) : Z :=
  match x with S754_finite s m e => (if s then Zneg m else Zpos m) * 2 ^ (e + 149) | _ => 0 end.
Lemma number_uni : forall x, representable x -> (number x == uni x # P149)%Q.
Proof.
  intros [s|s| |s m e] R; try contradiction; cbn [number uni]; [reflexivity|]. destruct R as [_ R].
  rewrite (scaled _ e 1%positive) by (unfold down; rewrite Z.max_r by lia; reflexivity).
  unfold up. rewrite Z.max_l by lia. rewrite Pos.mul_1_r. reflexivity.
Qed.
Lemma distance : forall x N D v, representable x -> (v == N # (P149 * D))%Q ->
  (Qabs (number x - v) == Z.abs (N - uni x * Zpos D) # (P149 * D))%Q.
Proof.
  intros x N D v R V. rewrite V, (number_uni x R). rewrite Qabs_Qminus.
  assert (E : ((N # (P149 * D)) - (uni x # P149) == (N - uni x * Zpos D) # (P149 * D))%Q).
  { unfold Qeq, Qminus, Qplus, Qopp. cbn [Qnum Qden]. rewrite !Pos2Z.inj_mul. ring. }
  rewrite E. reflexivity.
Qed.
Lemma same_den_le : forall a b d, (a # d <= b # d)%Q <-> a <= b.
Proof. intros. unfold Qle. cbn [Qnum Qden]. split; intros; nia. Qed.
Lemma same_den_eq : forall a b d, (a # d == b # d)%Q <-> a = b.
Proof. intros. unfold Qeq. cbn [Qnum Qden]. split; intros; nia. Qed.

Lemma made_negative s n e r : made s n e r -> negative r = s.
Proof. intros [[_ ->]|[(p & _ & _ & _ & ->)|[(p & _ & _ & _ & ->)|(_ & _ & ->)]]]; reflexivity. Qed.
Definition sg (s : bool) (z : Z) : Z := if s then - z else z.
Lemma made_finite s n k r : 0 <= k -> 0 <= n -> made s n (k - 149) r -> ~ (104 < k - 149 \/ (k - 149 = 104 /\ n = 2 ^ 24)) ->
  representable r /\ uni r = sg s (n * 2 ^ k) /\ (Z.even n = true -> last_bit_zero r).
Proof.
  intros K Hn [[-> ->]|[(p & -> & A & B & ->)|[(p & -> & A & B & ->)|(C & _)]]] Fin; [| | |contradiction]; cbn [representable uni last_bit_zero].
  - split; [exact Logic.I|]. split; [destruct s; reflexivity|auto].
  - split; [lia|]. replace (k - 149 + 149) with k by lia. split; [destruct s; unfold sg; lia|auto].
  - split; [rewrite A; split; [reflexivity|lia]|]. split.
    + replace (k - 149 + 1 + 149) with (k + 1) by lia. rewrite Z.pow_add_r by lia. change (2 ^ 1) with 2.
      change (2 ^ 24) with (2 ^ 23 * 2). rewrite <- A. destruct s; unfold sg; [change (Zneg p) with (- Zpos p)|]; lia.
    + intros _. rewrite A. reflexivity.
Qed.
Lemma uni_form : forall y, representable y -> exists m j, uni y = m * 2 ^ j /\ Z.abs m < 2 ^ 24 /\ 0 <= j.
Proof.
  intros [s|s| |s m e] R; try contradiction.
  - exists 0, 0. cbn [uni]. repeat split; lia.
  - destruct R as [R1 R2]. exists (if s then Zneg m else Zpos m), (e + 149). cbn [uni]. split; [reflexivity|].
    split; [destruct s; lia|lia].
Qed.

Lemma grid_rounded : forall s n k N D v r, 0 <= N -> on_grid N (Zpos D) n k -> made s n (k - 149) r -> f_valid r = true ->
  (v == sg s N # (P149 * D))%Q -> rounded v r.
Proof.
  intros s n k N D v r HN G Mk Vr V.
  assert (Kn : 0 <= k /\ 0 <= n) by (destruct G as (K & Rn & _); lia). destruct Kn as [K Hn].
  assert (Av : (Qabs v == N # (P149 * D))%Q).
  { rewrite V. change (Qabs (sg s N # P149 * D))%Q with (Z.abs (sg s N) # P149 * D)%Q. destruct s; cbn [sg]; rewrite ?Z.abs_opp, Z.abs_eq by lia; reflexivity. }
  assert (Lim : (limit <= Qabs v)%Q <-> (2 ^ 277 - 2 ^ 252) * Zpos D <= N).
  { rewrite Av. unfold limit, Qle. cbn [Qnum Qden inject_Z]. rewrite Pos2Z.inj_mul, P149_Z, Z.mul_1_r.
    replace ((2 ^ 277 - 2 ^ 252) * Zpos D) with ((2 ^ 128 - 2 ^ 103) * (2 ^ 149 * Zpos D)) by (rewrite Z.mul_assoc; reflexivity). reflexivity. }
  destruct (Z_le_gt_dec ((2 ^ 277 - 2 ^ 252) * Zpos D) N) as [Big|Sm].
  - assert (C : 104 < k - 149 \/ (k - 149 = 104 /\ n = 2 ^ 24)).
    { destruct (Z_lt_ge_dec 104 (k - 149)) as [|X]; [auto|]. destruct (Z.eq_dec (k - 149) 104); [destruct (Z.eq_dec n (2 ^ 24)); [auto|]|];
      (pose proof (grid_no_overflow N (Zpos D) n k G ltac:(lia)) as F; exfalso; apply (Z.lt_irrefl N); eapply Z.lt_le_trans; [apply F|exact Big]; lia). }
    split; [intros L; exfalso; apply Lim in Big; apply (Qlt_not_le _ _ L Big)|].
    split; [intros _; exists s|].
    + destruct Mk as [[-> _]|[(p & -> & A & B & _)|[(p & -> & A & B & _)|(_ & _ & ->)]]]; [| | |reflexivity]; exfalso.
      * pose proof (grid_overflow N (Zpos D) 0 k G ltac:(lia) C). destruct G as (_ & _ & _ & L & G1 & _). specialize (L ltac:(lia)).
        rewrite Z.mul_0_l, Z.sub_0_r in G1. assert (0 < Zpos D * 2 ^ k) by (apply Z.mul_pos_pos; [lia|apply Z.pow_pos_nonneg; lia]).
        change (2 ^ 23) with 8388608 in L. lia.
      * lia.
      * lia.
    + rewrite (made_negative _ _ _ _ Mk). rewrite V. unfold Qlt. cbn [Qnum Qden]. destruct s; cbn [sg]; split; intros; try reflexivity; lia.
  - assert (C : ~ (104 < k - 149 \/ (k - 149 = 104 /\ n = 2 ^ 24))).
    { intros C. pose proof (grid_overflow N (Zpos D) n k G ltac:(lia) C). lia. }
    destruct (made_finite s n k r K Hn Mk C) as (R & U & Ev).
    split; [intros _; split; [exact Vr|]; split; [exact R|]; intros y Ry|split].
    + rewrite (distance r _ _ _ R V), (distance y _ _ _ Ry V). rewrite same_den_le, same_den_eq.
      destruct (uni_form y Ry) as (m & j & Uy & Mm & J).
      assert (M' : Z.abs (sg s m) < 2 ^ 24) by (destruct s; cbn [sg]; lia).
      destruct (nearest_units N (Zpos D) n k HN G ltac:(lia) (sg s m) j M' J) as [B1 B2].
      assert (E1 : Z.abs (sg s N - uni r * Zpos D) = Z.abs (N - n * 2 ^ k * Zpos D)) by (rewrite U; destruct s; cbn [sg]; lia).
      assert (E2 : Z.abs (sg s N - uni y * Zpos D) = Z.abs (N - sg s m * 2 ^ j * Zpos D)) by (rewrite Uy; destruct s; cbn [sg]; lia).
      rewrite E1, E2. split; [exact B1|]. intros T. destruct (B2 (eq_sym T)) as [Q|Q]; [left|right; exact (Ev Q)].
      rewrite (number_uni y Ry), (number_uni r R). apply same_den_eq. rewrite U, Uy. destruct s; cbn [sg] in *; lia.
    + intros L. apply Lim in L. lia.
    + rewrite (made_negative _ _ _ _ Mk). rewrite V. unfold Qlt. cbn [Qnum Qden]. destruct s; cbn [sg]; split; intros; try reflexivity; lia.
Qed.

Lemma aux_rounded : forall s m e l A B v, 0 <= m -> e <= fexp prec emax (Zdigits2 m + e) -> located A (Zpos B) m l ->
  0 <= A -> (v * inject_Z (Zpos B) == inject_Z (sg s A) * (2 # 1) ^ e)%Q -> rounded v (binary_round_aux prec emax s m e l).
Proof.
  intros s m e l A B v H L Loc HA V. destruct (round_aux_units s m e l A (Zpos B) H L Loc) as (n & k & G & Mk).
  pose proof (down_pos e) as DP. destruct (down e) as [|d|] eqn:HD; try lia.
  apply (grid_rounded s n k (A * up e) (B * d)%positive); auto.
  - apply Z.mul_nonneg_nonneg; [exact HA|apply Z.lt_le_incl, up_pos].
  - apply round_aux_valid; auto.
  - rewrite (scaled _ e d) in V by (symmetry; exact HD).
    apply Qmult_inj_r with (z := inject_Z (Zpos B)); [intros C; discriminate C|]. rewrite V.
    unfold Qeq, Qmult, inject_Z. cbn [Qnum Qden]. rewrite !Pos2Z.inj_mul. destruct s; cbn [sg]; ring.
Qed.

Lemma exact_located m : 0 <= m -> located m (Zpos 1) m loc_Exact.
Proof. intros H. unfold located. lia. Qed.

Lemma round_rounded : forall s p e v, (v == inject_Z (sg s (Zpos p)) * (2 # 1) ^ e)%Q -> rounded v (binary_round prec emax s p e).
Proof.
  intros s p e v V. unfold binary_round, shl_align. set (f := fexp prec emax (Zpos (digits2_pos p) + e)).
  destruct (f - e) as [|k|k] eqn:K;
    try (apply (aux_rounded s (Zpos p) e loc_Exact (Zpos p) 1%positive); [lia|cbn [Zdigits2]; fold f; lia|apply exact_located; lia|lia|rewrite V; ring]).
  apply (aux_rounded s (Zpos (shift_pos k p)) f loc_Exact (Zpos (shift_pos k p)) 1%positive); [lia| |apply exact_located; lia|lia|].
  - cbn [Zdigits2].
    assert (Zpos (digits2_pos (shift_pos k p)) = Zpos (digits2_pos p) + Zpos k) as ->.
    { apply digits_unique; [lia|]. rewrite iter_pos_xO. pose proof (digits_bounds p).
      replace (Zpos (digits2_pos p) + Zpos k - 1) with (Zpos (digits2_pos p) - 1 + Zpos k) by lia.
      rewrite !Z.pow_add_r by lia. assert (0 < 2 ^ Zpos k) by (apply Z.pow_pos_nonneg; lia). nia. }
    replace (Zpos (digits2_pos p) + Zpos k + f) with (Zpos (digits2_pos p) + e) by lia. fold f. lia.
  - rewrite V, iter_pos_xO. replace e with (Zpos k + f) by lia. rewrite Qpower_plus by exact two_pos. rewrite (pow_Q (Zpos k)) by lia.
    assert (E : (inject_Z (sg s (Zpos p * 2 ^ Zpos k)) == inject_Z (sg s (Zpos p)) * inject_Z (2 ^ Zpos k))%Q).
    { rewrite <- inject_Z_mult. destruct s; cbn [sg]; [rewrite Z.mul_opp_l|]; reflexivity. }
    rewrite E. ring.
Qed.
Lemma zero_rounded : forall s v, (v == 0)%Q -> rounded v (S754_zero s).
Proof.
  intros s v V. unfold rounded. rewrite V. split; [|split; [|split]].
  - intros _. split; [reflexivity|]. split; [exact Logic.I|]. intros y _. cbn [number].
    assert (E : (Qabs (0 - v) == 0)%Q) by (rewrite V; reflexivity). rewrite E. split; [apply Qabs_nonneg|].
    intros _. right. exact Logic.I.
  - intros L. exfalso. revert L. vm_compute. intros L. apply L. reflexivity.
  - intros L. discriminate L.
  - intros L. discriminate L.
Qed.
Lemma normalize_rounded : forall z e v, (v == inject_Z z * (2 # 1) ^ e)%Q -> rounded v (binary_normalize prec emax z e false).
Proof.
  intros [|p|p] e v V; cbn [binary_normalize].
  - apply zero_rounded. rewrite V. change (inject_Z 0) with 0%Q. ring.
  - apply round_rounded. exact V.
  - apply round_rounded. exact V.
Qed.

Lemma Qabs_0 : forall q, (Qabs q == 0)%Q -> (q == 0)%Q.
Proof. intros [a d] H. unfold Qeq, Qabs in *. cbn [Qnum Qden] in *. lia. Qed.
Lemma self_rounded : forall x v, finite x -> f_valid x = true -> (v == number x)%Q -> rounded v x.
Proof.
  intros x v F V E. assert (R : representable x).
  { destruct x as [s|s| |s m e]; try contradiction; [exact Logic.I|]. cbn [f_valid] in V. cbn [representable].
    change (2 ^ 24) with 16777216. destruct (canonical_cases _ _ V) as [[]|[]]; lia. }
  assert (N : (number x == inject_Z (uni x) * (2 # 1) ^ (-149))%Q).
  { rewrite (number_uni x R). change ((2 # 1) ^ (-149))%Q with (1 # P149)%Q. unfold Qeq, Qmult, inject_Z. cbn [Qnum Qden]. rewrite Pos.mul_1_l. lia. }
  assert (Small : (Qabs v < limit)%Q).
  { rewrite E, (number_uni x R). change (Qabs (uni x # P149))%Q with (Z.abs (uni x) # P149)%Q. unfold limit, Qlt. cbn [Qnum Qden inject_Z].
    rewrite P149_Z, Z.mul_1_r. destruct x as [s|s| |s m e]; try contradiction; [reflexivity|]. destruct R as [R1 R2]. cbn [uni].
    rewrite Z.abs_mul. replace (Z.abs (if s then Zneg m else Zpos m)) with (Zpos m) by (destruct s; reflexivity).
    assert (P : 0 < 2 ^ (e + 149) <= 2 ^ 253) by (split; [apply Z.pow_pos_nonneg; lia|apply Z.pow_le_mono_r; lia]).
    rewrite Z.abs_eq by lia. apply Z.le_lt_trans with ((2 ^ 24 - 1) * 2 ^ 253); [|reflexivity].
    apply Z.mul_le_mono_nonneg; lia. }
  unfold rounded. split; [|split; [|split]].
  - intros _. split; [exact V|]. split; [exact R|]. intros y _.
    assert (E0 : (Qabs (number x - v) == 0)%Q) by (rewrite E; setoid_replace (number x - number x)%Q with 0%Q by ring; reflexivity).
    rewrite E0. split; [apply Qabs_nonneg|]. intros T. left. rewrite <- E.
    assert (Z0 : (number y - v == 0)%Q).
    { apply Qabs_0. exact T. }
    setoid_replace (number y) with ((number y - v) + v)%Q by ring. rewrite Z0. ring.
  - intros L. exfalso. apply (Qlt_not_le _ _ Small L).
  - rewrite E. destruct x as [s|s| |s m e]; try contradiction; cbn [number negative]; [intros L; discriminate L|].
    rewrite (number_uni (S754_finite s m e) R : inject_Z _ * _ == _)%Q. unfold Qlt. cbn [Qnum Qden uni]. destruct s; [|reflexivity].
    assert (0 < 2 ^ (e + 149)) by (apply Z.pow_pos_nonneg; destruct R; lia). intros. nia.
  - rewrite E. destruct x as [s|s| |s m e]; try contradiction; cbn [number negative]; [intros L; discriminate L|].
    rewrite (number_uni (S754_finite s m e) R : inject_Z _ * _ == _)%Q. unfold Qlt. cbn [Qnum Qden uni]. destruct s; [reflexivity|].
    assert (0 < 2 ^ (e + 149)) by (apply Z.pow_pos_nonneg; destruct R; lia). intros. nia.
Qed.

(** ** The operations *)
Lemma aligned : forall s m e k, k <= e -> (number (S754_finite s m e) == inject_Z (cond_Zopp s (Zpos (fst (shl_align m e k)))) * (2 # 1) ^ k)%Q.
Proof.
  intros s m e k K. cbn [number].
  assert (A : Zpos (fst (shl_align m e k)) = Zpos m * 2 ^ (e - k)).
  { unfold shl_align. destruct (k - e) as [|p|p] eqn:Q; [| lia|]; cbn [fst].
    - replace (e - k) with 0 by lia. change (2 ^ 0) with 1. lia.
    - rewrite iter_pos_xO. replace (Zpos p) with (e - k) by lia. reflexivity. }
  rewrite A. replace e with ((e - k) + k) at 1 by lia. rewrite Qpower_plus by exact two_pos. rewrite (pow_Q (e - k)) by lia.
  rewrite Qmult_assoc, <- inject_Z_mult.
  replace ((if s then Zneg m else Zpos m) * 2 ^ (e - k)) with (cond_Zopp s (Zpos m * 2 ^ (e - k))) by (destruct s; cbn [cond_Zopp]; lia).
  reflexivity.
Qed.

Lemma add_rounded : forall x y, finite x -> finite y -> f_valid x = true -> f_valid y = true ->
  rounded (number x + number y) (SFadd prec emax x y).
Proof.
  intros [s|s| |s m e] [s'|s'| |s' m' e'] Fx Fy Vx Vy; try contradiction; unfold SFadd.
  - destruct (Bool.eqb s s'); apply zero_rounded; reflexivity.
  - apply self_rounded; auto. cbn [number]. ring.
  - apply self_rounded; auto. cbn [number]. ring.
  - apply normalize_rounded. rewrite (aligned s m e (Z.min e e')), (aligned s' m' e' (Z.min e e')) by lia.
    rewrite inject_Z_plus. ring.
Qed.
Lemma sub_rounded : forall x y, finite x -> finite y -> f_valid x = true -> f_valid y = true ->
  rounded (number x - number y) (SFsub prec emax x y).
Proof.
  intros [s|s| |s m e] [s'|s'| |s' m' e'] Fx Fy Vx Vy; try contradiction; unfold SFsub.
  - destruct (Bool.eqb s (negb s')); apply zero_rounded; reflexivity.
  - apply self_rounded; auto. cbn [number]. destruct s'; cbn [negb]; [change (Zneg m') with (- Zpos m')|change (Zneg m') with (- Zpos m')]; rewrite inject_Z_opp; ring.
  - apply self_rounded; auto. cbn [number]. ring.
  - apply normalize_rounded. rewrite (aligned s m e (Z.min e e')), (aligned s' m' e' (Z.min e e')) by lia.
    unfold Z.sub. rewrite inject_Z_plus, inject_Z_opp. ring.
Qed.
Lemma mul_rounded : forall x y, finite x -> finite y -> f_valid x = true -> f_valid y = true ->
  rounded (number x * number y) (SFmul prec emax x y).
Proof.
  intros [s|s| |s m e] [s'|s'| |s' n f] Fx Fy Vx Vy; try contradiction; unfold SFmul; try (apply zero_rounded; cbn [number]; ring).
  apply (aux_rounded _ _ _ _ (Zpos (m * n)) 1%positive); [lia| |apply exact_located; lia|lia|].
  - cbn [Zdigits2]. cbn [f_valid] in Vx, Vy.
    assert (D : forall p k, 2 ^ k <= Zpos p -> k + 1 <= Zpos (digits2_pos p)).
    { intros p k L. destruct (Z_lt_le_dec k 0); [pose proof (digits_bounds p); lia|].
      destruct (Z_le_gt_dec (k + 1) (Zpos (digits2_pos p))); auto.
      pose proof (digits_bounds p) as [_ U].
      assert (2 ^ Zpos (digits2_pos p) <= 2 ^ k) by (apply Z.pow_le_mono_r; lia). lia. }
    unfold fexp, emin, prec, emax.
    destruct (canonical_cases _ _ Vx) as [[M1 E1]|[M1 E1]], (canonical_cases _ _ Vy) as [[M2 E2]|[M2 E2]]; try lia;
      assert (23 + 1 <= Zpos (digits2_pos (m * n))) by (apply D; change (2 ^ 23) with 8388608; nia); lia.
  - cbn [number]. rewrite Qpower_plus by exact two_pos. change (inject_Z 1) with 1%Q.
    assert (E : (inject_Z (sg (xorb s s') (Zpos (m * n))) == inject_Z (if s then Zneg m else Zpos m) * inject_Z (if s' then Zneg n else Zpos n))%Q).
    { rewrite <- inject_Z_mult. destruct s, s'; reflexivity. }
    rewrite E. ring.
Qed.
Lemma new_location_located m n q r : m = Zpos n * q + r -> 0 <= r < Zpos n -> located m (Zpos n) q (new_location (Zpos n) r).
Proof.
  intros E R. unfold located. split; [lia|]. split; [lia|]. replace (m - q * Zpos n) with r by lia.
  unfold new_location. destruct (Z.even (Zpos n)) eqn:Ev; unfold new_location_even, new_location_odd; destruct (Zeq_bool r 0) eqn:Z0;
    try (apply Zeq_bool_eq in Z0; rewrite E, Z0; ring).
  - apply Zeq_bool_neq in Z0. split; [intros C; apply Z0; rewrite E in C; lia|reflexivity].
  - apply Zeq_bool_neq in Z0. split; [intros C; apply Z0; rewrite E in C; lia|].
    assert (Od : 2 * r <> Zpos n). { intros C. rewrite <- C in Ev. rewrite Z.even_mul in Ev. discriminate. }
    destruct (Z.compare_spec (2 * r + 1) (Zpos n)); [apply Z.compare_lt_iff|apply Z.compare_lt_iff|apply Z.compare_gt_iff]; lia.
Qed.
Lemma div_rounded : forall x y, finite x -> finite y -> f_valid x = true -> f_valid y = true -> ~ (number y == 0)%Q ->
  rounded (number x / number y) (SFdiv prec emax x y).
Proof.
  intros [s|s| |s m1 e1] [s'|s'| |s' m2 e2] Fx Fy Vx Vy Ny; try contradiction; unfold SFdiv;
    try (exfalso; apply Ny; reflexivity); try (apply zero_rounded; cbn [number]; unfold Qdiv; ring).
  unfold SFdiv_core_binary. cbn [Zdigits2].
  set (d1 := Zpos (digits2_pos m1)). set (d2 := Zpos (digits2_pos m2)).
  set (e' := Z.min (fexp prec emax (d1 + e1 - (d2 + e2))) (e1 - e2)).
  set (k := e1 - e2 - e'). assert (S0 : 0 <= k) by (unfold k, e'; lia).
  set (m' := match k with Z0 => Zpos m1 | Zpos _ => Z.shiftl (Zpos m1) k | Zneg _ => 0 end).
  assert (M : m' = Zpos m1 * 2 ^ k).
  { unfold m'. destruct k eqn:Q; [cbn; lia| |lia]. rewrite <- Q in *. rewrite Z.shiftl_mul_pow2 by lia. reflexivity. }
  clearbody m'. pose proof (Z.div_mod m' (Zpos m2) ltac:(lia)) as DM. unfold Z.div, Z.modulo in DM.
  pose proof (Z.mod_pos_bound m' (Zpos m2) ltac:(lia)) as B. unfold Z.modulo in B.
  destruct (Z.div_eucl m' (Zpos m2)) as [q r].
  pose proof (digits_bounds m1) as B1. pose proof (digits_bounds m2) as B2. fold d1 in B1. fold d2 in B2.
  assert (P : 0 < 2 ^ k) by (apply Z.pow_pos_nonneg; lia).
  assert (Q0 : 0 <= q) by nia.
  apply (aux_rounded _ _ _ _ m' m2); [exact Q0| |apply new_location_located; assumption|nia|].
  - assert (D : d1 + k - d2 <= Zdigits2 q).
    { destruct (Z.le_gt_cases (d1 + k - d2) (Zdigits2 q)) as [|G]; [assumption|exfalso].
      destruct (zdig_bounds q Q0) as (Z1 & Z2 & _).
      assert (2 ^ Zdigits2 q <= 2 ^ (d1 + k - d2 - 1)) by (apply Z.pow_le_mono_r; lia).
      assert (L1 : q + 1 <= 2 ^ (d1 + k - d2 - 1)) by lia.
      assert (L2 : 2 ^ (d1 - 1) * 2 ^ k <= m') by (rewrite M; nia).
      assert (L3 : m' < 2 ^ d2 * 2 ^ (d1 + k - d2 - 1)).
      { assert (0 < 2 ^ (d1 + k - d2 - 1)) by (apply Z.pow_pos_nonneg; lia). nia. }
      rewrite <- !Z.pow_add_r in L3 by (unfold d2 in *; lia). rewrite <- Z.pow_add_r in L2 by (unfold d1 in *; lia).
      replace (d2 + (d1 + k - d2 - 1)) with (d1 - 1 + k) in L3 by lia. lia. }
    assert (Mono : forall a b, a <= b -> fexp prec emax a <= fexp prec emax b) by (intros a b; unfold fexp; lia).
    assert (fexp prec emax (d1 + e1 - (d2 + e2)) <= fexp prec emax (Zdigits2 q + e')) by (apply Mono; unfold k in D; lia).
    unfold e' at 1. lia.
  - cbn [number]. assert (E : (inject_Z (sg (xorb s s') m') == inject_Z (if s then Zneg m1 else Zpos m1) * inject_Z (if s' then -1 else 1) * (2 # 1) ^ k)%Q).
    { rewrite pow_Q by exact S0. rewrite <- !inject_Z_mult. rewrite M.
      replace (sg (xorb s s') (Zpos m1 * 2 ^ k)) with ((if s then Zneg m1 else Zpos m1) * (if s' then -1 else 1) * 2 ^ k); [reflexivity|].
      destruct s, s'; cbn [sg xorb]; lia. }
    rewrite E. replace e1 with (k + e' + e2) by (unfold k; lia). rewrite !Qpower_plus by exact two_pos.
    assert (Np : forall j, ~ ((2 # 1) ^ j == 0)%Q) by (intros j; apply Qpower_not_0; exact two_pos).
    pose proof (Np e2) as Np2. assert (Nm : ~ (inject_Z (Zpos m2) == 0)%Q) by discriminate.
    assert (F : (inject_Z (if s' then Zneg m2 else Zpos m2) == inject_Z (if s' then -1 else 1) * inject_Z (Zpos m2))%Q).
    { rewrite <- inject_Z_mult. destruct s'; reflexivity. }
    rewrite F. destruct s'; [change (inject_Z (-1)) with (-1 # 1)%Q|change (inject_Z 1) with 1%Q]; field; auto.
Qed.

(** ** The specification names one float *)

(** Some float is on the grid of every rational number. *)
Lemma grid_exists : forall N D, 0 <= N -> exists n k, on_grid N (Zpos D) n k /\ made false n (k - 149)
  (binary_round_aux prec emax false (N / Zpos D) (-149) (new_location (Zpos D) (N mod Zpos D))).
Proof.
  intros N D H.
  destruct (round_aux_units false (N / Zpos D) (-149) (new_location (Zpos D) (N mod Zpos D)) N (Zpos D)) as (n & k & G & Mk).
  - apply Z.div_pos; lia.
  - unfold fexp, emin, prec, emax. lia.
  - apply new_location_located; [apply Z.div_mod; lia|apply Z.mod_pos_bound; lia].
  - exists n, k. change (up (-149)) with 1 in G. change (down (-149)) with 1 in G. rewrite !Z.mul_1_r in G. auto.
Qed.

Lemma even_units : forall r, f_valid r = true -> representable r -> last_bit_zero r ->
  exists m j, uni r = 2 * m * 2 ^ j /\ 0 <= j /\ Z.abs (2 * m) < 2 ^ 24.
Proof.
  intros [s|s| |s m e] V R L; try contradiction.
  - exists 0, 0. cbn [uni]. repeat split; lia.
  - cbn [last_bit_zero] in L. apply Z.even_spec in L. destruct L as [h E]. destruct R as [R1 R2].
    exists (if s then - h else h), (e + 149). cbn [uni]. split; [|split; [lia|destruct s; lia]].
    f_equal. destruct s; [change (Zneg m) with (- Zpos m)|]; lia.
Qed.

Lemma odd_step : forall t d w, 0 < w -> 2 * Z.abs t <= w -> d <> 0 -> Z.abs (t + d * w) = Z.abs t ->
  2 * Z.abs t = w /\ (d = 1 \/ d = -1).
Proof.
  intros t d w W T D E.
  assert (A : Z.abs (d * w) = Z.abs d * w) by (rewrite Z.abs_mul, (Z.abs_eq w) by lia; reflexivity).
  assert (Q : 1 * w <= Z.abs d * w) by (apply Z.mul_le_mono_nonneg_r; lia).
  assert (T' : 2 * Z.abs t = w) by lia. split; [exact T'|].
  assert (D1 : Z.abs d * w <= 1 * w) by lia. apply Z.mul_le_mono_pos_r in D1; [|exact W]. lia.
Qed.
Lemma grid_only : forall N D n k r s, 0 <= N -> on_grid N (Zpos D) n k -> f_valid r = true -> representable r ->
  Z.abs (N - sg s (uni r) * Zpos D) <= Z.abs (N - n * 2 ^ k * Zpos D) ->
  (Z.abs (N - sg s (uni r) * Zpos D) = Z.abs (N - n * 2 ^ k * Zpos D) -> sg s (uni r) = n * 2 ^ k \/ last_bit_zero r) ->
  sg s (uni r) = n * 2 ^ k.
Proof.
  intros N D n k r s HN G V R Le Tie.
  assert (Near : forall m j, Z.abs m < 2 ^ 24 -> 0 <= j -> Z.abs (N - n * 2 ^ k * Zpos D) <= Z.abs (N - m * 2 ^ j * Zpos D) /\
    (Z.abs (N - n * 2 ^ k * Zpos D) = Z.abs (N - m * 2 ^ j * Zpos D) -> m * 2 ^ j = n * 2 ^ k \/ Z.even n = true)) by (apply nearest_units; auto; lia).
  assert (Eq : Z.abs (N - sg s (uni r) * Zpos D) = Z.abs (N - n * 2 ^ k * Zpos D)).
  { destruct (uni_form r R) as (m & j & U & Mm & J). destruct (Near (sg s m) j) as [B _]; [destruct s; cbn [sg]; lia|exact J|].
    assert (X : sg s m * 2 ^ j = sg s (uni r)) by (rewrite U; destruct s; cbn [sg]; lia). rewrite X in B. lia. }
  destruct (Tie Eq) as [|L]; [assumption|].
  destruct (even_units r V R L) as (h & j & U & J & Hh).
  assert (X : sg s (uni r) = 2 * sg s h * 2 ^ j) by (rewrite U; destruct s; cbn [sg]; lia).
  destruct (Z.eq_dec (sg s (uni r)) (n * 2 ^ k)) as [|Ne]; [assumption|exfalso].
  destruct G as (K & Rn & U1 & U2 & G1 & G2).
  assert (P : 0 < 2 ^ k) by (apply Z.pow_pos_nonneg; lia).
  set (w := Zpos D * 2 ^ k) in *. assert (W : 0 < w) by (unfold w; nia).
  replace (n * 2 ^ k * Zpos D) with (n * w) in * by (unfold w; ring).
  destruct (Z_le_gt_dec k j) as [C|C].
  - (* on the grid: the neighbour of an even multiple is odd *)
    set (c := 2 * sg s h * 2 ^ (j - k)).
    assert (Y : sg s (uni r) = c * 2 ^ k).
    { rewrite X. unfold c. replace j with ((j - k) + k) at 1 by lia. rewrite Z.pow_add_r by lia. ring. }
    assert (Ec : Z.even c = true) by (unfold c; rewrite <- Z.mul_assoc, Z.even_mul; reflexivity).
    rewrite Y in Eq, Ne. replace (c * 2 ^ k * Zpos D) with (c * w) in Eq by (unfold w; ring).
    assert (Nc : c <> n) by (intros Q; apply Ne; rewrite Q; reflexivity).
    set (t := N - n * w) in *. assert (Z1 : N - c * w = t + (n - c) * w) by (unfold t; ring). rewrite Z1 in Eq. clearbody t.
    destruct (odd_step t (n - c) w W G1 ltac:(lia) Eq) as [T D2]. specialize (G2 T).
    destruct D2 as [D2|D2]; replace n with (c + (n - c)) in G2 by lia; rewrite D2, Z.even_add, Ec in G2; discriminate.
  - (* below the grid: strictly farther *)
    specialize (U2 ltac:(lia)).
    assert (Ab : Z.abs (2 * sg s h) < 2 ^ 24) by (destruct s; cbn [sg]; lia).
    assert (V1 : sg s (uni r) < 2 ^ 23 * 2 ^ k).
    { rewrite X. apply below_grid; [exact Ab|lia]. }
    assert (V2 : sg s (uni r) * Zpos D < 2 ^ 23 * w).
    { unfold w. replace (2 ^ 23 * (Zpos D * 2 ^ k)) with (2 ^ 23 * 2 ^ k * Zpos D) by ring. apply Z.mul_lt_mono_pos_r; [lia|exact V1]. }
    assert (Gr : on_grid N (Zpos D) n k) by (unfold on_grid; fold w; auto 10).
    destruct (grid_best N (Zpos D) n k Gr ltac:(lia) (2 ^ 23)) as [B _]. fold w in B.
    set (g := 2 ^ 23 * w) in *. set (u := sg s (uni r) * Zpos D) in *. clearbody g u. lia.
Qed.

Lemma uni_inj : forall x y, f_valid x = true -> f_valid y = true -> representable x -> representable y ->
  uni x = uni y -> negative x = negative y -> x = y.
Proof.
  assert (P : forall s m e, representable (S754_finite s m e) -> uni (S754_finite s m e) <> 0).
  { intros s m e [_ R] C. cbn [uni] in C. assert (0 < 2 ^ (e + 149)) by (apply Z.pow_pos_nonneg; lia). destruct s; nia. }
  intros [s|s| |s m e] [s'|s'| |s' n f] Vx Vy Rx Ry U Sg; try contradiction; cbn [negative] in Sg; subst.
  - reflexivity.
  - exfalso. symmetry in U. exact (P _ _ _ Ry U).
  - exfalso. exact (P _ _ _ Rx U).
  - cbn [f_valid] in Vx, Vy. cbn [uni] in U.
    assert (M : Zpos m * 2 ^ (e + 149) = Zpos n * 2 ^ (f + 149)) by (destruct s'; lia).
    apply Z.compare_eq_iff in M. rewrite (mag_compare _ _ _ _ Vx Vy) in M.
    destruct (Z.compare_spec e f) as [->|L|L]; try discriminate. apply Pos.compare_eq in M. now subst.
Qed.

Lemma rounded_units : forall v r, rounded v r -> (Qabs v < limit)%Q ->
  forall s N D n k, 0 <= N -> on_grid N (Zpos D) n k -> (v == sg s N # (P149 * D))%Q ->
  sg s (uni r) = n * 2 ^ k.
Proof.
  intros v r (Fin & _) L s N D n k HN G V. destruct (Fin L) as (Vr & Rr & Near).
  assert (Mk : exists q, made s n (k - 149) q /\ f_valid q = true).
  { destruct (round_aux_units s (N / Zpos D) (-149) (new_location (Zpos D) (N mod Zpos D)) N (Zpos D)) as (n' & k' & G' & Mk').
    - apply Z.div_pos; lia.
    - unfold fexp, emin, prec, emax. lia.
    - apply new_location_located; [apply Z.div_mod; lia|apply Z.mod_pos_bound; lia].
    - destruct (Z_lt_ge_dec 104 (k - 149)) as [X|X].
      + exists (S754_infinity s). split; [|reflexivity]. right. right. right. split; [auto|]. split; [|reflexivity].
        destruct G as (K & Rn & _ & Lo & G1 & _). specialize (Lo ltac:(lia)).
        destruct (Z.eq_dec n 0) as [->|]; [exfalso|lia]. rewrite Z.mul_0_l, Z.sub_0_r in G1.
        assert (0 < Zpos D * 2 ^ k) by (apply Z.mul_pos_pos; [lia|apply Z.pow_pos_nonneg; lia]). change (2 ^ 23) with 8388608 in Lo. lia.
      + destruct n as [|p|p]; [exists (S754_zero s); split; [left; auto|reflexivity]| |destruct G as (_ & Rn & _); lia].
        destruct (Z.eq_dec (Zpos p) (2 ^ 24)) as [E|E].
        * destruct (Z.eq_dec (k - 149) 104) as [E2|E2].
          { exists (S754_infinity s). split; [|reflexivity]. right. right. right. split; [auto|]. split; [lia|reflexivity]. }
          exists (S754_finite s 8388608 (k - 149 + 1)). split; [right; right; left; exists 8388608%positive; repeat split; auto; lia|].
          cbn [f_valid]. unfold bounded, canonical_mantissa. change (Zpos (digits2_pos 8388608)) with 24. unfold fexp, emin, prec, emax.
          assert (0 <= k) by apply G. rewrite (proj1 (Zeq_is_eq_bool _ _)) by lia. cbn [andb]. lia.
        * exists (S754_finite s p (k - 149)). destruct G as (K & Rn & _ & Lo & G1 & _). split; [right; left; exists p; repeat split; auto; lia|].
          cbn [f_valid]. unfold bounded, canonical_mantissa, fexp, emin, prec, emax.
          assert (Dg : Zpos (digits2_pos p) <= 24) by (apply (zdig_le (Zpos p) 24); lia).
          assert (Dk : 0 < k -> Zpos (digits2_pos p) = 24).
          { intros Kp. specialize (Lo Kp). apply digits_unique; [lia|]. split; [|lia].
            assert (W : 0 < Zpos D * 2 ^ k) by (apply Z.mul_pos_pos; [lia|apply Z.pow_pos_nonneg; lia]).
            set (w := Zpos D * 2 ^ k) in *. clearbody w. change (2 ^ (24 - 1)) with 8388608. change (2 ^ 23) with 8388608 in Lo.
            destruct (Z_le_gt_dec 8388608 (Zpos p)); [assumption|exfalso].
            assert (Zpos p * w <= 8388607 * w) by (apply Z.mul_le_mono_nonneg_r; lia). lia. }
          rewrite (proj1 (Zeq_is_eq_bool _ _)) by (destruct (Z.eq_dec k 0); [subst k|specialize (Dk ltac:(lia))]; lia).
          cbn [andb]. lia. }
  destruct Mk as (q & Mq & Vq).
  pose proof (grid_rounded s n k N D v q HN G Mq Vq V) as Rq.
  destruct Rq as (Finq & _). destruct (Finq L) as (_ & Repq & _).
  assert (C : ~ (104 < k - 149 \/ (k - 149 = 104 /\ n = 2 ^ 24))).
  { intros C. destruct Mq as [[-> ->]|[(p & -> & A & B & ->)|[(p & -> & A & B & ->)|(_ & _ & ->)]]]; [|lia|lia|contradiction Repq].
    destruct G as (K & Rn & _ & Lo & G1 & _). specialize (Lo ltac:(lia)). rewrite Z.mul_0_l, Z.sub_0_r in G1.
    assert (0 < Zpos D * 2 ^ k) by (apply Z.mul_pos_pos; [lia|apply Z.pow_pos_nonneg; lia]). change (2 ^ 23) with 8388608 in Lo. lia. }
  assert (K0 : 0 <= k /\ 0 <= n) by (destruct G as (K & Rn & _); lia).
  destruct (made_finite s n k q (proj1 K0) (proj2 K0) Mq C) as (Rq & Uq & _).
  destruct (Near q Rq) as [B1 B2].
  rewrite (distance r _ _ _ Rr V), (distance q _ _ _ Rq V) in B1. rewrite same_den_le in B1.
  rewrite (distance r _ _ _ Rr V), (distance q _ _ _ Rq V), same_den_eq in B2.
  assert (E1 : Z.abs (sg s N - uni q * Zpos D) = Z.abs (N - n * 2 ^ k * Zpos D)) by (rewrite Uq; destruct s; cbn [sg]; lia).
  assert (E2 : Z.abs (sg s N - uni r * Zpos D) = Z.abs (N - sg s (uni r) * Zpos D)) by (destruct s; cbn [sg]; lia).
  rewrite E1, E2 in *.
  apply (grid_only N D n k r s HN G Vr Rr B1). intros T. destruct (B2 (eq_sym T)) as [Q|Q]; [left|auto].
  rewrite (number_uni q Rq), (number_uni r Rr), same_den_eq in Q. rewrite <- Q, Uq. destruct s; cbn [sg]; lia.
Qed.

(** ** C121 *)

(** Adding, subtracting, multiplying and dividing finite floats gives the exact
    result of the operation on the numbers they stand for, rounded once. *)
Theorem C121_arithmetic : forall l r x y, operand l x -> operand r y -> some_float l r ->
  finite x -> finite y -> f_valid x = true -> f_valid y = true ->
  (exists z, pushes2 INS_ADD l r (SFlt z) /\ rounded (number x + number y) z) /\
  (exists z, pushes2 INS_SUB l r (SFlt z) /\ rounded (number x - number y) z) /\
  (exists z, pushes2 INS_MUL l r (SFlt z) /\ rounded (number x * number y) z) /\
  (~ (number y == 0)%Q -> exists z, pushes2 INS_DIV l r (SFlt z) /\ rounded (number x / number y) z).
Proof.
  intros l r x y Ol Or Sf Fx Fy Vx Vy. destruct (C85_arithmetic l r x y Ol Or Sf) as (A & S & M & D & _).
  split; [exists (SFadd 24 128 x y); split; [exact A|exact (add_rounded x y Fx Fy Vx Vy)]|].
  split; [exists (SFsub 24 128 x y); split; [exact S|exact (sub_rounded x y Fx Fy Vx Vy)]|].
  split; [exists (SFmul 24 128 x y); split; [exact M|exact (mul_rounded x y Fx Fy Vx Vy)]|].
  intros N. exists (SFdiv 24 128 x y). split; [exact D|exact (div_rounded x y Fx Fy Vx Vy N)].
Qed.
Print Assumptions C121_arithmetic.

(** An integer operand beside a float is rounded in the same way first. *)
Theorem C121_integer : forall z x, operand (PInt z) x -> rounded (inject_Z z) x.
Proof.
  intros z x O. inversion O; subst. apply normalize_rounded. rewrite Qmult_comm. change ((2 # 1) ^ 0)%Q with 1%Q. ring.
Qed.
Print Assumptions C121_integer.

(** There is only one float that a number other than zero can be rounded to. *)
Theorem C121_unique : forall v r r', ~ (v == 0)%Q -> rounded v r -> rounded v r' -> r = r'.
Proof.
  intros v r r' Nz R R'.
  assert (Sg : negative r = negative r').
  { destruct R as (_ & _ & P1 & P2), R' as (_ & _ & P1' & P2'). destruct (Q_dec v 0) as [[L|L]|L]; [| |contradiction].
    - rewrite P2, P2' by assumption. reflexivity.
    - rewrite P1, P1' by assumption. reflexivity. }
  destruct (Qlt_le_dec (Qabs v) limit) as [L|L].
  - set (s := Z.ltb (Qnum v) 0). set (N := Z.abs (Qnum v) * 2 ^ 149).
    assert (V : (v == sg s N # (P149 * Qden v))%Q).
    { unfold Qeq. cbn [Qnum Qden]. rewrite Pos2Z.inj_mul, P149_Z. unfold s, N, sg. destruct (Qnum v <? 0) eqn:Q; [rewrite Z.abs_neq by lia|rewrite Z.abs_eq by lia]; ring. }
    assert (HN : 0 <= N) by (apply Z.mul_nonneg_nonneg; [lia|discriminate]).
    destruct (grid_exists N (Qden v) HN) as (n & k & G & _).
    pose proof (rounded_units v r R L s N (Qden v) n k HN G V) as U.
    pose proof (rounded_units v r' R' L s N (Qden v) n k HN G V) as U'.
    destruct R as (F & _), R' as (F' & _). destruct (F L) as (V1 & R1 & _), (F' L) as (V1' & R1' & _).
    apply uni_inj; auto. destruct s; cbn [sg] in *; lia.
  - destruct R as (_ & R & _), R' as (_ & R' & _). destruct (R L) as [s ->], (R' L) as [s' ->]. cbn [negative] in Sg. now subst.
Qed.
Print Assumptions C121_unique.

(** If a float stands for the exact result, there is no rounding. *)
Theorem C121_exact : forall v r y, rounded v r -> representable y -> (number y == v)%Q -> representable r /\ (number r == v)%Q.
Proof.
  intros v r y (Fin & _) Ry E.
  assert (Small : (Qabs v < limit)%Q).
  { rewrite <- E, (number_uni y Ry). change (Qabs (uni y # P149))%Q with (Z.abs (uni y) # P149)%Q. unfold limit, Qlt. cbn [Qnum Qden inject_Z].
    rewrite P149_Z, Z.mul_1_r. destruct y as [s|s| |s m e]; try contradiction; [reflexivity|]. destruct Ry as [R1 R2]. cbn [uni].
    rewrite Z.abs_mul. replace (Z.abs (if s then Zneg m else Zpos m)) with (Zpos m) by (destruct s; reflexivity).
    assert (P : 0 < 2 ^ (e + 149) <= 2 ^ 253) by (split; [apply Z.pow_pos_nonneg; lia|apply Z.pow_le_mono_r; lia]).
    rewrite Z.abs_eq by lia. apply Z.le_lt_trans with ((2 ^ 24 - 1) * 2 ^ 253); [|reflexivity].
    apply Z.mul_le_mono_nonneg; lia. }
  destruct (Fin Small) as (_ & R & Near). split; [exact R|]. destruct (Near y Ry) as [B _].
  assert (Z0 : (Qabs (number y - v) == 0)%Q) by (rewrite E; setoid_replace (v - v)%Q with 0%Q by ring; reflexivity).
  rewrite Z0 in B. assert (A : (Qabs (number r - v) == 0)%Q) by (apply Qle_antisym; [exact B|apply Qabs_nonneg]).
  apply Qabs_0 in A. setoid_replace (number r) with ((number r - v) + v)%Q by ring. rewrite A. ring.
Qed.
Print Assumptions C121_exact.

(** A float divided by zero is not an error: it gives infinity, or NaN for zero. *)
Theorem C121_by_zero : forall l r x y, operand l x -> operand r y -> some_float l r -> finite x -> finite y ->
  (number y == 0)%Q -> f_valid y = true ->
  ((number x == 0)%Q -> f_valid x = true -> pushes2 INS_DIV l r (SFlt S754_nan)) /\
  (~ (number x == 0)%Q -> pushes2 INS_DIV l r (SFlt (S754_infinity (xorb (negative x) (negative y))))).
Proof.
  assert (Z0 : forall x, finite x -> f_valid x = true -> (number x == 0)%Q -> exists s, x = S754_zero s).
  { intros [s|s| |s m e] F V E; try contradiction; [eauto|exfalso].
    assert (R : representable (S754_finite s m e)).
    { cbn [f_valid] in V. cbn [representable]. change (2 ^ 24) with 16777216. destruct (canonical_cases _ _ V) as [[]|[]]; lia. }
    rewrite (number_uni _ R) in E. unfold Qeq in E. cbn [Qnum Qden uni] in E. destruct R as [_ R].
    assert (0 < 2 ^ (e + 149)) by (apply Z.pow_pos_nonneg; lia). destruct s; nia. }
  intros l r x y Ol Or Sf Fx Fy Ey Vy. destruct (C85_arithmetic l r x y Ol Or Sf) as (_ & _ & _ & D & _).
  destruct (Z0 y Fy Vy Ey) as [s' ->]. split.
  - intros Ex Vx. destruct (Z0 x Fx Vx Ex) as [s ->]. exact D.
  - intros Nx. destruct x as [s|s| |s m e]; try contradiction; exact D.
Qed.
Print Assumptions C121_by_zero.

(** One third, the tenth of one, a sum of which each part is rounded, and the
    integer 2^24 + 1, which is half way between two floats: it becomes 2^24. *)
Example C121_ex :
  finite (f_of_int 1) /\ f_valid (f_of_int 3) = true /\ ~ (number (f_of_int 3) == 0)%Q /\
  rounded (number (f_of_int 1) / number (f_of_int 3)) (S754_finite false 11184811 (-25)) /\
  rounded (1 # 10) (S754_finite false 13421773 (-27)) /\
  rounded (inject_Z 16777217) (S754_finite false 8388608 1) /\
  (number (S754_finite false 8388608 1) == inject_Z 16777216)%Q /\
  rounded limit (S754_infinity false) /\
  some_float (PInt 16777217) (PFlt f_zero).
Proof.
  split; [exact Logic.I|]. split; [reflexivity|]. split; [discriminate|].
  split; [change (S754_finite false 11184811 (-25)) with (SFdiv prec emax (f_of_int 1) (f_of_int 3)); apply div_rounded; [exact Logic.I|exact Logic.I|reflexivity|reflexivity|discriminate]|].
  split.
  { change (S754_finite false 13421773 (-27)) with (SFdiv prec emax (f_of_int 1) (f_of_int 10)).
    assert (E : (1 # 10 == number (f_of_int 1) / number (f_of_int 10))%Q) by reflexivity.
    assert (G : rounded (number (f_of_int 1) / number (f_of_int 10)) (SFdiv prec emax (f_of_int 1) (f_of_int 10))) by (apply div_rounded; [exact Logic.I|exact Logic.I|reflexivity|reflexivity|discriminate]).
    revert G. unfold rounded. generalize (SFdiv prec emax (f_of_int 1) (f_of_int 10)). intros r (G1 & G2 & G3 & G4).
    rewrite <- E in G1, G2, G3, G4. split; [|auto]. intros L. destruct (G1 L) as (V & R & Near). split; [exact V|]. split; [exact R|].
    intros y Ry. specialize (Near y Ry). rewrite <- E in Near. exact Near. }
  split; [apply (C121_integer 16777217); constructor|]. split; [reflexivity|]. split; [|right; eexists; reflexivity].
  change (S754_infinity false) with (f_of_int (2 ^ 128 - 2 ^ 103)). apply (C121_integer (2 ^ 128 - 2 ^ 103)). constructor.
Qed.
