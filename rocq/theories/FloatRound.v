(** Proof support: rounding of the standard library's float operations gives the
    nearest binary32 number. *)
From Coq Require Import ZArith List Bool Lia ZifyBool SpecFloat.
From Verif Require Import Base F32 F32Facts FloatBits FloatValid.
Open Scope Z_scope.

(** [m] is the integer part of [A / B] and [l] says where in between it lies. *)
Definition located (A B m : Z) (l : location) : Prop :=
  0 < B /\ m * B <= A < (m + 1) * B /\
  match l with
  | loc_Exact => A = m * B
  | loc_Inexact c => A <> m * B /\ (2 * (A - m * B) ?= B) = c
  end.

Lemma loc_of_record m l : loc_of_shr_record (shr_record_of_loc m l) = l.
Proof. destruct l as [|[| |]]; reflexivity. Qed.
Lemma m_of_record m l : shr_m (shr_record_of_loc m l) = m.
Proof. destruct l as [|[| |]]; reflexivity. Qed.

Lemma half_step (m p : Z) (b : bool) (x y : bool) A B : m = 2 * p + (if b then 1 else 0) ->
  located A B m (loc_of_shr_record (Build_shr_record m x y)) ->
  located A (2 * B) p (loc_of_shr_record (Build_shr_record p b (x || y))).
Proof.
  intros -> (HB & HA & L). set (t := A - (2 * p + (if b then 1 else 0)) * B) in *.
  assert (T : 0 <= t < B) by (unfold t; nia).
  assert (X : (x || y = false -> t = 0) /\ (x || y = true -> t <> 0)).
  { destruct x, y; cbn [orb loc_of_shr_record] in *; split; intros; try discriminate; destruct b; lia. }
  destruct X as [X1 X2]. assert (EA : A = p * (2 * B) + (if b then B else 0) + t) by (unfold t; destruct b; ring).
  clear L. clearbody t. unfold located. split; [lia|]. split; [destruct b; nia|].
  replace (A - p * (2 * B)) with ((if b then B else 0) + t) by lia.
  destruct b, (x || y) eqn:Q; cbn [loc_of_shr_record].
  - specialize (X2 eq_refl). split; [nia|]. apply Z.compare_gt_iff. lia.
  - specialize (X1 eq_refl). split; [nia|]. apply Z.compare_eq_iff. lia.
  - specialize (X2 eq_refl). split; [nia|]. apply Z.compare_lt_iff. lia.
  - specialize (X1 eq_refl). lia.
Qed.
Lemma shr_1_located r A B : 0 <= shr_m r -> located A B (shr_m r) (loc_of_shr_record r) ->
  located A (2 * B) (shr_m (shr_1 r)) (loc_of_shr_record (shr_1 r)).
Proof.
  destruct r as [m x y]. cbn [shr_m]. intros H L. destruct m as [|[p|p|]|p]; [| | | |lia]; cbn [shr_1 shr_m];
    eapply half_step; try exact L; lia.
Qed.
Lemma shr_located n : forall r A B, 0 <= shr_m r -> located A B (shr_m r) (loc_of_shr_record r) ->
  0 <= shr_m (Nat.iter n shr_1 r) /\
  located A (B * 2 ^ Z.of_nat n) (shr_m (Nat.iter n shr_1 r)) (loc_of_shr_record (Nat.iter n shr_1 r)).
Proof.
  induction n as [|n IH]; intros r A B H L.
  - cbn [Nat.iter nat_rect]. change (2 ^ Z.of_nat 0) with 1. rewrite Z.mul_1_r. auto.
  - change (Nat.iter (S n) shr_1 r) with (shr_1 (Nat.iter n shr_1 r)).
    destruct (IH r A B H L) as [I1 I2]. split.
    + rewrite shr_1_m by assumption. apply Z.div_pos; lia.
    + rewrite Nat2Z.inj_succ, Z.pow_succ_r by lia. replace (B * (2 * 2 ^ Z.of_nat n)) with (2 * (B * 2 ^ Z.of_nat n)) by lia.
      apply shr_1_located; assumption.
Qed.
Lemma shr_fexp_located m e l A B : 0 <= m -> e <= fexp prec emax (Zdigits2 m + e) -> located A B m l ->
  let f := fexp prec emax (Zdigits2 m + e) in
  exists r, shr_fexp prec emax m e l = (r, f) /\ 0 <= shr_m r /\ located A (B * 2 ^ (f - e)) (shr_m r) (loc_of_shr_record r).
Proof.
  intros H L K f. unfold shr_fexp. fold f. fold f in L.
  destruct (f - e) as [|p|p] eqn:Q; [| |lia]; cbn [shr].
  - exists (shr_record_of_loc m l). rewrite loc_of_record, m_of_record. change (2 ^ 0) with 1. rewrite Z.mul_1_r.
    split; [f_equal; lia|]. auto.
  - exists (SpecFloat.iter_pos shr_1 p (shr_record_of_loc m l)). split; [f_equal; lia|].
    rewrite iter_pos_nat. rewrite <- (positive_nat_Z p). apply shr_located; rewrite ?loc_of_record, ?m_of_record; auto.
Qed.

Lemma even_located A B m l : located A B m l ->
  let n := round_nearest_even m l in
  2 * Z.abs (A - n * B) <= B /\ (2 * Z.abs (A - n * B) = B -> Z.even n = true) /\ m <= n <= m + 1.
Proof.
  intros (HB & HA & L) n. set (t := A - m * B) in *. assert (T : 0 <= t < B) by (unfold t; nia).
  assert (N : n = m /\ A - n * B = t \/ n = m + 1 /\ A - n * B = t - B).
  { unfold n, t. destruct l as [|[| |]]; cbn [round_nearest_even]; try (left; split; [reflexivity|lia]); try (right; split; [reflexivity|lia]).
    destruct (Z.even m); [left|right]; (split; [reflexivity|lia]). }
  assert (X : match l with loc_Exact => t = 0 | loc_Inexact c => (2 * t ?= B) = c end) by (unfold t; destruct l; [lia|apply L]).
  clear L. unfold n in *. clear n. clearbody t. destruct l as [|c]; cbn [round_nearest_even] in *.
  - split; [lia|]. split; [intros; exfalso; lia|lia].
  - destruct c.
    + apply Z.compare_eq_iff in X. destruct (Z.even m) eqn:E.
      * split; [lia|]. split; [auto|lia].
      * split; [lia|]. split; [|lia]. intros _. rewrite Z.even_add, E. reflexivity.
    + change (2 * t < B) in X. split; [lia|]. split; [intros; exfalso; lia|lia].
    + change (2 * t > B) in X. split; [lia|]. split; [intros; exfalso; lia|lia].
Qed.

(** The number [n * 2^e] as a float of sign [s]. *)
Definition made (s : bool) (n e : Z) (r : f32) : Prop :=
  (n = 0 /\ r = S754_zero s) \/
  (exists p, n = Zpos p /\ n < 2 ^ 24 /\ e <= 104 /\ r = S754_finite s p e) \/
  (exists p, n = 2 ^ 24 /\ Zpos p = 2 ^ 23 /\ e < 104 /\ r = S754_finite s p (e + 1)) \/
  ((104 < e \/ (e = 104 /\ n = 2 ^ 24)) /\ 0 < n /\ r = S754_infinity s).

(** [n * 2^k] is the multiple of [2^k] nearest to [N / D]. *)
Definition on_grid (N D n k : Z) : Prop :=
  0 <= k /\ 0 <= n <= 2 ^ 24 /\ N < 2 ^ 24 * (D * 2 ^ k) /\ (0 < k -> 2 ^ 23 * (D * 2 ^ k) <= N) /\
  2 * Z.abs (N - n * (D * 2 ^ k)) <= D * 2 ^ k /\
  (2 * Z.abs (N - n * (D * 2 ^ k)) = D * 2 ^ k -> Z.even n = true).

Lemma round_aux_grid s m e l A B : 0 <= m -> e <= fexp prec emax (Zdigits2 m + e) -> located A B m l ->
  exists n e1, e <= e1 /\ -149 <= e1 /\ 0 <= n <= 2 ^ 24 /\
    A < 2 ^ 24 * (B * 2 ^ (e1 - e)) /\ (-149 < e1 -> 2 ^ 23 * (B * 2 ^ (e1 - e)) <= A) /\
    2 * Z.abs (A - n * (B * 2 ^ (e1 - e))) <= B * 2 ^ (e1 - e) /\
    (2 * Z.abs (A - n * (B * 2 ^ (e1 - e))) = B * 2 ^ (e1 - e) -> Z.even n = true) /\
    made s n e1 (binary_round_aux prec emax s m e l).
Proof.
  intros H L Loc. destruct (shr_fexp_eq m e l H L) as (r & Q & M1).
  destruct (shr_fexp_located m e l A B H L Loc) as (r' & Q' & R0 & Loc'). rewrite Q in Q'. injection Q' as <-.
  unfold binary_round_aux. rewrite Q.
  set (d := Zdigits2 m) in *. set (e1 := fexp prec emax (d + e)) in *. set (m1 := shr_m r) in *.
  destruct (even_located _ _ _ _ Loc') as (G1 & G2 & M2).
  set (m2 := round_nearest_even m1 (loc_of_shr_record r)) in *. clearbody m2.
  destruct (zdig_bounds m H) as (D0 & D1 & D2). fold d in D0, D1, D2.
  assert (E1 : e1 = Z.max (d + e - 24) (-149)) by reflexivity.
  destruct Loc as (HB & HA & _).
  assert (P0 : 0 < 2 ^ (e1 - e)) by (apply Z.pow_pos_nonneg; lia).
  set (B' := B * 2 ^ (e1 - e)) in *.
  assert (HB' : 0 < B') by (unfold B'; nia).
  assert (Up : m1 < 2 ^ 24).
  { rewrite M1. apply Z.div_lt_upper_bound; [lia|]. rewrite <- Z.pow_add_r by lia.
    assert (2 ^ d <= 2 ^ (e1 - e + 24)) by (apply Z.pow_le_mono_r; lia). lia. }
  assert (Low : -149 < e1 -> 2 ^ 23 <= m1).
  { intros K. rewrite M1. assert (0 < m) by (destruct (Z.eq_dec m 0) as [->|]; [unfold d in *; cbn in *; lia|lia]).
    destruct (D2 H0) as [D3 D4]. apply Z.div_le_lower_bound; [lia|]. rewrite <- Z.pow_add_r by lia.
    replace (e1 - e + 23) with (d - 1) by lia. exact D4. }
  destruct Loc' as (_ & HA' & _).
  change (2 ^ 24) with 16777216 in *. change (2 ^ 23) with 8388608 in *.
  exists m2, e1. fold B'.
  assert (Rest : made s m2 e1
    (let '(mrs'', e'') := shr_fexp prec emax m2 e1 loc_Exact in
      match shr_m mrs'' with
      | Z0 => S754_zero s
      | Zpos m => if Zle_bool e'' (emax - prec) then S754_finite s m e'' else S754_infinity s
      | _ => S754_nan
      end)).
  { unfold made. change (2 ^ 24) with 16777216 in *. change (2 ^ 23) with 8388608 in *.
    destruct (Z.eq_dec m2 16777216) as [K|K].
    - assert (Z2 : Zdigits2 m2 = 25) by (rewrite K; reflexivity).
      destruct (shr_fexp_eq m2 e1 loc_Exact) as (q & Q1 & Q2); [lia|rewrite Z2; change (fexp prec emax (25 + e1)) with (Z.max (25 + e1 - 24) (-149)); lia|].
      rewrite Z2 in Q1, Q2. change (fexp prec emax (25 + e1)) with (Z.max (25 + e1 - 24) (-149)) in Q1, Q2.
      replace (Z.max (25 + e1 - 24) (-149)) with (e1 + 1) in Q1, Q2 by lia.
      replace (e1 + 1 - e1) with 1 in Q2 by lia. rewrite K in Q2. change (16777216 / 2 ^ 1) with 8388608 in Q2.
      rewrite Q1, Q2. change (emax - prec) with 104. destruct (e1 + 1 <=? 104) eqn:F.
      + right. right. left. exists 8388608%positive. repeat split; lia.
      + right. right. right. split; [lia|]. split; [lia|reflexivity].
    - assert (Z2 : Z.max (Zdigits2 m2 + e1 - 24) (-149) = e1).
      { assert (Zdigits2 m2 <= 24) by (apply zdig_le; change (2 ^ 24) with 16777216; lia).
        destruct (Z.eq_dec e1 (-149)) as [->|N]; [lia|].
        assert (Zdigits2 m2 = 24) by (apply zdig_is; [lia|]; change (2 ^ (24 - 1)) with 8388608; change (2 ^ 24) with 16777216; lia). lia. }
      destruct (shr_fexp_eq m2 e1 loc_Exact) as (q & Q1 & Q2); [lia|change (fexp prec emax (Zdigits2 m2 + e1)) with (Z.max (Zdigits2 m2 + e1 - 24) (-149)); lia|].
      change (fexp prec emax (Zdigits2 m2 + e1)) with (Z.max (Zdigits2 m2 + e1 - 24) (-149)) in Q1, Q2. rewrite Z2 in Q1, Q2.
      rewrite Z.sub_diag in Q2. change (2 ^ 0) with 1 in Q2. rewrite Z.div_1_r in Q2.
      rewrite Q1, Q2. change (emax - prec) with 104. destruct m2 as [|p|p]; [auto| |lia].
      destruct (e1 <=? 104) eqn:F.
      + right. left. exists p. repeat split; lia.
      + right. right. right. split; [lia|]. split; [lia|reflexivity]. }
  clearbody B' m1. do 3 (split; [lia|]).
  split; [assert ((m1 + 1) * B' <= 16777216 * B') by (apply Z.mul_le_mono_nonneg_r; lia); lia|].
  split; [intros K; specialize (Low K); assert (8388608 * B' <= m1 * B') by (apply Z.mul_le_mono_nonneg_r; lia); lia|]. split; [exact G1|]. split; [exact G2|exact Rest].
Qed.

(** In units of [2^-149]. *)
Definition up (e : Z) : Z := 2 ^ Z.max (e + 149) 0.
Definition down (e : Z) : Z := 2 ^ Z.max (- e - 149) 0.
Lemma up_pos e : 0 < up e.
Proof. apply Z.pow_pos_nonneg; lia. Qed.
Lemma down_pos e : 0 < down e.
Proof. apply Z.pow_pos_nonneg; lia. Qed.
Lemma up_down e k : e <= k - 149 -> 0 <= k -> up e * 2 ^ (k - 149 - e) = down e * 2 ^ k.
Proof. intros H K. unfold up, down. rewrite <- !Z.pow_add_r by lia. f_equal. lia. Qed.

Lemma round_aux_units s m e l A B : 0 <= m -> e <= fexp prec emax (Zdigits2 m + e) -> located A B m l ->
  exists n k, on_grid (A * up e) (B * down e) n k /\ made s n (k - 149) (binary_round_aux prec emax s m e l).
Proof.
  intros H L Loc. destruct (round_aux_grid s m e l A B H L Loc) as (n & e1 & E1 & E2 & N & C1 & C2 & C3 & C4 & Mk).
  exists n, (e1 + 149). replace (e1 + 149 - 149) with e1 by lia. split; [|exact Mk].
  assert (X : B * down e * 2 ^ (e1 + 149) = (B * 2 ^ (e1 - e)) * up e).
  { pose proof (up_down e (e1 + 149)) as U. replace (e1 + 149 - 149 - e) with (e1 - e) in U by lia. rewrite <- Z.mul_assoc, <- U by lia. ring. }
  unfold on_grid. rewrite X. pose proof (up_pos e) as UP. set (W := B * 2 ^ (e1 - e)) in *.
  set (u := up e) in *. clearbody u W.
  assert (Y : A * u - n * (W * u) = (A - n * W) * u) by ring. rewrite Y, Z.abs_mul, (Z.abs_eq u) by lia.
  split; [lia|]. split; [exact N|]. split; [nia|]. split; [intros; rewrite Z.mul_assoc; apply Z.mul_le_mono_nonneg_r; [lia|]; apply C2; lia|].
  split; [rewrite Z.mul_assoc; apply Z.mul_le_mono_nonneg_r; [lia|exact C3]|].
  intros T. apply C4. rewrite Z.mul_assoc in T. apply Z.mul_cancel_r in T; [exact T|lia].
Qed.

(** No representable number is nearer than the one on the grid. *)
Lemma grid_best N D n k : on_grid N D n k -> 0 < D -> forall c,
  Z.abs (N - n * (D * 2 ^ k)) <= Z.abs (N - c * (D * 2 ^ k)) /\
  (Z.abs (N - n * (D * 2 ^ k)) = Z.abs (N - c * (D * 2 ^ k)) -> c = n \/ Z.even n = true).
Proof.
  intros (K & Rn & U & L & G1 & G2) HD c. assert (P : 0 < 2 ^ k) by (apply Z.pow_pos_nonneg; lia).
  set (w := D * 2 ^ k) in *. assert (W : 0 < w) by (unfold w; nia). clearbody w.
  set (t := N - n * w) in *. replace (N - c * w) with (t + (n - c) * w) by (unfold t; ring).
  destruct (Z.eq_dec c n) as [->|Ne]; [rewrite Z.sub_diag, Z.mul_0_l, Z.add_0_r; split; [lia|auto]|].
  clearbody t. assert (w <= Z.abs ((n - c) * w)) by (rewrite Z.abs_mul, (Z.abs_eq w) by lia; nia).
  split; [lia|]. intros E. right. apply G2. lia.
Qed.
Lemma below_grid m j k : Z.abs m < 2 ^ 24 -> 0 <= j < k -> m * 2 ^ j < 2 ^ 23 * 2 ^ k.
Proof.
  intros M J. assert (P : 0 < 2 ^ j) by (apply Z.pow_pos_nonneg; lia).
  replace k with (j + 1 + (k - j - 1)) by lia. rewrite !Z.pow_add_r by lia.
  assert (1 <= 2 ^ (k - j - 1)) by (pose proof (Z.pow_pos_nonneg 2 (k - j - 1)); lia).
  change (2 ^ 24) with (2 ^ 23 * 2) in M. change (2 ^ 1) with 2. set (a := 2 ^ 23) in *. set (b := 2 ^ j) in *.
  assert (m * b < a * 2 * b) by nia. assert (a * 2 * b <= a * (b * 2 * 2 ^ (k - j - 1))); [|lia].
  replace (a * (b * 2 * 2 ^ (k - j - 1))) with (a * 2 * b * 2 ^ (k - j - 1)) by ring.
  assert (0 < a) by reflexivity. nia.
Qed.
Lemma nearest_units N D n k : 0 <= N -> on_grid N D n k -> 0 < D -> forall m j, Z.abs m < 2 ^ 24 -> 0 <= j ->
  Z.abs (N - n * 2 ^ k * D) <= Z.abs (N - m * 2 ^ j * D) /\
  (Z.abs (N - n * 2 ^ k * D) = Z.abs (N - m * 2 ^ j * D) -> m * 2 ^ j = n * 2 ^ k \/ Z.even n = true).
Proof.
  intros HN G HD m j M J. pose proof (grid_best N D n k G HD) as Best.
  destruct G as (K & Rn & U & L & G1 & G2).
  replace (n * 2 ^ k * D) with (n * (D * 2 ^ k)) by ring.
  destruct (Z_le_gt_dec k j) as [C|C].
  - replace j with ((j - k) + k) by lia. rewrite Z.pow_add_r by lia. specialize (Best (m * 2 ^ (j - k))).
    replace (m * (2 ^ (j - k) * 2 ^ k) * D) with (m * 2 ^ (j - k) * (D * 2 ^ k)) by ring.
    destruct Best as [B1 B2]. split; [exact B1|]. intros E. destruct (B2 E) as [<-|]; [left; ring|auto].
  - specialize (Best (2 ^ 23)). destruct Best as [B1 _]. specialize (L ltac:(lia)).
    assert (P : 0 < 2 ^ j) by (apply Z.pow_pos_nonneg; lia).
    assert (V : m * 2 ^ j < 2 ^ 23 * 2 ^ k) by (apply below_grid; [exact M|lia]).
    assert (V2 : m * 2 ^ j * D < 2 ^ 23 * (D * 2 ^ k)) by nia.
    set (u := m * 2 ^ j * D) in *. set (g := 2 ^ 23 * (D * 2 ^ k)) in *. clearbody u g. split; lia.
Qed.

(** Which numbers are too large. *)
Lemma grid_overflow N D n k : on_grid N D n k -> 0 < D ->
  (104 < k - 149 \/ (k - 149 = 104 /\ n = 2 ^ 24)) -> (2 ^ 277 - 2 ^ 252) * D <= N.
Proof.
  intros (K & Rn & U & L & G1 & G2) HD [C|[C ->]]; specialize (L ltac:(lia)).
  - assert (2 ^ 254 <= 2 ^ k) by (apply Z.pow_le_mono_r; lia).
    assert (2 ^ 23 * (D * 2 ^ 254) <= 2 ^ 23 * (D * 2 ^ k)) by nia.
    replace (2 ^ 23 * (D * 2 ^ 254)) with (2 ^ 277 * D) in H0 by (replace (2 ^ 277) with (2 ^ 23 * 2 ^ 254) by reflexivity; ring).
    assert (0 < 2 ^ 252) by reflexivity. rewrite Z.mul_sub_distr_r. assert (0 < 2 ^ 252 * D) by (apply Z.mul_pos_pos; assumption). lia.
  - replace k with 253 in * by lia. replace (2 ^ 277) with (2 ^ 24 * 2 ^ 253) by reflexivity.
    replace (D * 2 ^ 253) with (2 * (D * 2 ^ 252)) in * by (replace (2 ^ 253) with (2 * 2 ^ 252) by reflexivity; ring).
    replace (2 ^ 253) with (2 * 2 ^ 252) by reflexivity. assert (0 < 2 ^ 252) by reflexivity. set (a := 2 ^ 252) in *. clearbody a.
    change (2 ^ 24) with 16777216 in *. assert (0 < D * a) by nia. set (b := D * a) in *.
    replace ((16777216 * (2 * a) - a) * D) with (33554431 * b) by (unfold b; ring). clearbody b. lia.
Qed.
Lemma grid_no_overflow N D n k : on_grid N D n k -> 0 < D ->
  ~ (104 < k - 149 \/ (k - 149 = 104 /\ n = 2 ^ 24)) -> N < (2 ^ 277 - 2 ^ 252) * D.
Proof.
  intros (K & Rn & U & L & G1 & G2) HD C.
  destruct (Z.eq_dec (k - 149) 104) as [E|E].
  - replace k with 253 in * by lia. replace (2 ^ 277) with (2 ^ 24 * 2 ^ 253) by reflexivity.
    replace (D * 2 ^ 253) with (2 * (D * 2 ^ 252)) in * by (replace (2 ^ 253) with (2 * 2 ^ 252) by reflexivity; ring).
    replace (2 ^ 253) with (2 * 2 ^ 252) by reflexivity. assert (0 < 2 ^ 252) by reflexivity. set (a := 2 ^ 252) in *. clearbody a.
    change (2 ^ 24) with 16777216 in *.
    assert (n <= 16777215) by (destruct (Z.eq_dec n 16777216); [exfalso; apply C; lia|lia]).
    assert (0 < D * a) by nia. set (b := D * a) in *.
    replace ((16777216 * (2 * a) - a) * D) with (33554431 * b) by (unfold b; ring). clearbody b.
    destruct (Z.eq_dec n 16777215) as [->|]; [|assert (n * (2 * b) <= 16777214 * (2 * b)) by (apply Z.mul_le_mono_nonneg_r; lia); lia].
    destruct (Z.eq_dec (2 * Z.abs (N - 16777215 * (2 * b))) (2 * b)) as [T|T]; [|lia].
    specialize (G2 T). discriminate.
  - assert (2 ^ k <= 2 ^ 252) by (apply Z.pow_le_mono_r; lia).
    assert (2 ^ 24 * (D * 2 ^ k) <= 2 ^ 24 * (D * 2 ^ 252)) by nia.
    replace (2 ^ 24 * (D * 2 ^ 252)) with (2 ^ 276 * D) in H0 by (replace (2 ^ 276) with (2 ^ 24 * 2 ^ 252) by reflexivity; ring).
    assert (2 ^ 276 <= 2 ^ 277 - 2 ^ 252) by discriminate. assert (2 ^ 276 * D <= (2 ^ 277 - 2 ^ 252) * D) by (apply Z.mul_le_mono_nonneg_r; lia). lia.
Qed.
