(** Facts about binary32: conversion of small integers is exact and keeps the
    order; comparison is total on everything but NaN. *)
From Coq Require Import ZArith List Bool Lia ZifyBool Floats.SpecFloat.
From Verif Require Import Base F32.
Open Scope Z_scope.

(** [f] denotes the integer [z]. *)
Definition denotes (f : f32) (z : Z) : Prop :=
  match f with
  | S754_zero _ => z = 0
  | S754_finite s m e =>
      let v := if s then Zneg m else Zpos m in
      if 0 <=? e then v * 2 ^ e = z else v = z * 2 ^ (- e)
  | _ => False
  end.

Definition is_nan (f : f32) : bool := match f with S754_nan => true | _ => false end.

(** ** Comparison *)
Lemma SFcompare_opp : forall x y, SFcompare y x = option_map CompOpp (SFcompare x y).
Proof.
  assert (G : forall m n, Pos.compare_cont Eq n m = CompOpp (Pos.compare_cont Eq m n)).
  { intros. apply Pos.compare_antisym. }
  intros x y. destruct x as [[]|[]| |[] m e], y as [[]|[]| |[] n f]; cbn; auto.
  - rewrite (Z.compare_antisym e f). destruct (e ?= f); cbn; auto. rewrite (G m n).
    destruct (Pos.compare_cont Eq m n); reflexivity.
  - rewrite (Z.compare_antisym e f). destruct (e ?= f); cbn; auto. now rewrite (G m n).
Qed.
Lemma SFcompare_nan : forall x y, SFcompare x y = None <-> is_nan x = true \/ is_nan y = true.
Proof.
  intros x y. destruct x as [[]|[]| |[] m e], y as [[]|[]| |[] n f]; cbn;
    try (destruct (e ?= f)); split; intros; auto; try discriminate; try (destruct H; discriminate).
Qed.
Lemma f_not_lt : forall x y, is_nan x = false -> is_nan y = false -> f_lt x y = false -> f_leb y x = true.
Proof.
  intros x y Nx Ny L. unfold f_lt, f_leb, SFltb, SFleb in *. rewrite (SFcompare_opp x y).
  destruct (SFcompare x y) as [[]|] eqn:E; cbn; auto; try discriminate.
  apply SFcompare_nan in E. destruct E; congruence.
Qed.
Lemma f_lt_leb : forall x y, f_lt x y = true -> f_leb x y = true.
Proof. intros x y. unfold f_lt, f_leb, SFltb, SFleb. destruct (SFcompare x y) as [[]|]; auto; discriminate. Qed.
Lemma f_leb_refl : forall x, is_nan x = false -> f_leb x x = true.
Proof.
  intros x N. destruct (f_lt x x) eqn:E; [now apply f_lt_leb|now apply f_not_lt].
Qed.

(** ** Small integers *)
Definition small (z : Z) : Prop := - 2 ^ 24 < z < 2 ^ 24.

Lemma digits_bounds : forall p, 2 ^ (Zpos (digits2_pos p) - 1) <= Zpos p < 2 ^ (Zpos (digits2_pos p)).
Proof.
  induction p; cbn [digits2_pos].
  - rewrite Pos2Z.inj_succ. replace (Z.succ (Zpos (digits2_pos p)) - 1) with (Zpos (digits2_pos p)) by lia.
    rewrite Z.pow_succ_r by lia.
    replace (2 ^ Zpos (digits2_pos p)) with (2 * 2 ^ (Zpos (digits2_pos p) - 1)) in *; [lia|].
    rewrite <- Z.pow_succ_r by lia. f_equal. lia.
  - rewrite Pos2Z.inj_succ. replace (Z.succ (Zpos (digits2_pos p)) - 1) with (Zpos (digits2_pos p)) by lia.
    rewrite Z.pow_succ_r by lia.
    replace (2 ^ Zpos (digits2_pos p)) with (2 * 2 ^ (Zpos (digits2_pos p) - 1)) in *; [lia|].
    rewrite <- Z.pow_succ_r by lia. f_equal. lia.
  - cbn. lia.
Qed.
Lemma digits_unique : forall p d, 0 < d -> 2 ^ (d - 1) <= Zpos p < 2 ^ d -> Zpos (digits2_pos p) = d.
Proof.
  intros p d Hd B. pose proof (digits_bounds p) as C.
  set (k := Zpos (digits2_pos p)) in *.
  destruct (Z.lt_trichotomy k d) as [L|[L|L]]; auto.
  - assert (2 ^ k <= 2 ^ (d - 1)) by (apply Z.pow_le_mono_r; lia). lia.
  - assert (2 ^ d <= 2 ^ (k - 1)) by (apply Z.pow_le_mono_r; lia). lia.
Qed.

Lemma iter_pos_xO : forall k p, Zpos (shift_pos k p) = Zpos p * 2 ^ Zpos k.
Proof.
  intros. rewrite shift_pos_correct, Zpower_pos_nat, Zpower_nat_Z. rewrite positive_nat_Z. lia.
Qed.

Definition norm_m (p : positive) : Z := Zpos p * 2 ^ (24 - Zpos (digits2_pos p)).
Definition norm_e (p : positive) : Z := Zpos (digits2_pos p) - 24.

Lemma binary_round_small : forall s p, Zpos p < 2 ^ 24 ->
  exists m, binary_round prec emax s p 0 = S754_finite s m (norm_e p) /\ Zpos m = norm_m p.
Proof.
  intros s p L. pose proof (digits_bounds p) as D. unfold norm_e, norm_m.
  set (d := Zpos (digits2_pos p)) in *.
  assert (Dd : 1 <= d <= 24).
  { split; [unfold d; lia|]. destruct (Z.le_gt_cases d 24); auto.
    assert (2 ^ 24 <= 2 ^ (d - 1)) by (apply Z.pow_le_mono_r; lia). lia. }
  unfold binary_round, fexp, emin, prec, emax.
  replace (Z.max (Zpos (digits2_pos p) + 0 - 24) (3 - 128 - 24)) with (d - 24) by (fold d; lia).
  assert (A : exists mz, shl_align p 0 (d - 24) = (mz, d - 24) /\ Zpos mz = Zpos p * 2 ^ (24 - d)).
  { unfold shl_align. destruct (d - 24 - 0) as [|q|q] eqn:Q; try lia.
    - exists p. replace d with 24 by lia. split; [reflexivity|]. cbn. lia.
    - exists (shift_pos q p). split; [reflexivity|]. rewrite iter_pos_xO.
      do 2 f_equal. lia. }
  destruct A as (mz & -> & Mz). exists mz. split; auto.
  assert (Dm : Zpos (digits2_pos mz) = 24).
  { apply digits_unique; [lia|]. rewrite Mz.
    replace (2 ^ (24 - 1)) with (2 ^ (d - 1) * 2 ^ (24 - d)) by (rewrite <- Z.pow_add_r by lia; f_equal; lia).
    replace (2 ^ 24) with (2 ^ d * 2 ^ (24 - d)) by (rewrite <- Z.pow_add_r by lia; f_equal; lia).
    assert (0 < 2 ^ (24 - d)) by (apply Z.pow_pos_nonneg; lia). nia. }
  assert (Sh : forall l, shr_fexp 24 128 (Zpos mz) (d - 24) l = (shr_record_of_loc (Zpos mz) l, d - 24)).
  { intros l. unfold shr_fexp, fexp, emin, Zdigits2. rewrite Dm.
    replace (Z.max (24 + (d - 24) - 24) (3 - 128 - 24)) with (d - 24) by lia.
    unfold shr. replace (d - 24 - (d - 24)) with 0 by lia. reflexivity. }
  unfold binary_round_aux. rewrite Sh. unfold shr_record_of_loc, loc_of_shr_record, shr_m.
  cbn [round_nearest_even]. rewrite Sh. unfold shr_record_of_loc, shr_m.
  replace (d - 24 <=? 128 - 24) with true by lia. reflexivity.
Qed.

Lemma f_of_int_shape : forall z, small z ->
  match z with
  | 0 => f_of_int z = S754_zero false
  | Zpos p => exists m, f_of_int z = S754_finite false m (norm_e p) /\ Zpos m = norm_m p
  | Zneg p => exists m, f_of_int z = S754_finite true m (norm_e p) /\ Zpos m = norm_m p
  end.
Proof.
  intros z [L1 L2]. destruct z as [|p|p]; [reflexivity| |]; unfold f_of_int, binary_normalize;
    apply binary_round_small; lia.
Qed.

Lemma f_of_int_denotes : forall z, small z -> denotes (f_of_int z) z.
Proof.
  intros z S. pose proof (f_of_int_shape z S) as Sh. pose proof (digits_bounds) as D.
  assert (G : forall p, Zpos p < 2 ^ 24 -> 1 <= Zpos (digits2_pos p) <= 24).
  { intros p L. specialize (D p). split; [lia|]. destruct (Z.le_gt_cases (Zpos (digits2_pos p)) 24); auto.
    assert (2 ^ 24 <= 2 ^ (Zpos (digits2_pos p) - 1)) by (apply Z.pow_le_mono_r; lia). lia. }
  destruct S as [L1 L2].
  destruct z as [|p|p]; [rewrite Sh; reflexivity| |];
    destruct Sh as (m & -> & M); unfold denotes, norm_e, norm_m in *;
    specialize (G p ltac:(lia)); destruct (0 <=? _) eqn:E.
  - replace (Zpos (digits2_pos p)) with 24 in * by lia. change (2 ^ (24 - 24)) with 1 in *. lia.
  - rewrite M. f_equal. f_equal. lia.
  - replace (Zpos (digits2_pos p)) with 24 in * by lia. change (2 ^ (24 - 24)) with 1 in *. lia.
  - change (Zneg m) with (- Zpos m). change (Zneg p) with (- Zpos p). rewrite M.
    rewrite Z.mul_opp_l. f_equal. f_equal. f_equal. lia.
Qed.

Lemma norm_order : forall p q, Zpos p < 2 ^ 24 -> Zpos q < 2 ^ 24 -> Zpos p < Zpos q ->
  norm_e p < norm_e q \/ (norm_e p = norm_e q /\ norm_m p < norm_m q).
Proof.
  intros p q Lp Lq L. unfold norm_e, norm_m. pose proof (digits_bounds p) as P. pose proof (digits_bounds q) as Q.
  set (a := Zpos (digits2_pos p)) in *. set (b := Zpos (digits2_pos q)) in *.
  destruct (Z.lt_trichotomy a b) as [X|[X|X]]; [left; lia| |].
  - right. split; [lia|]. rewrite X. assert (b <= 24).
    { destruct (Z.le_gt_cases b 24); auto.
      assert (2 ^ 24 <= 2 ^ (b - 1)) by (apply Z.pow_le_mono_r; lia). lia. }
    assert (0 < 2 ^ (24 - b)) by (apply Z.pow_pos_nonneg; lia). nia.
  - assert (2 ^ b <= 2 ^ (a - 1)) by (apply Z.pow_le_mono_r; lia). lia.
Qed.

Lemma f_of_int_compare : forall a b, small a -> small b ->
  SFcompare (f_of_int a) (f_of_int b) = Some (a ?= b).
Proof.
  assert (Pc : forall m n, Pos.compare_cont Eq m n = (Zpos m ?= Zpos n)) by reflexivity.
  assert (E : forall p q m n, Zpos p < 2 ^ 24 -> Zpos q < 2 ^ 24 -> Zpos m = norm_m p -> Zpos n = norm_m q ->
    SFcompare (S754_finite false m (norm_e p)) (S754_finite false n (norm_e q)) = Some (Zpos p ?= Zpos q)).
  { intros p q m n Lp Lq M N. cbn [SFcompare]. rewrite Pc, M, N.
    destruct (Z.compare_spec (Zpos p) (Zpos q)) as [X|X|X].
    - assert (p = q) by lia. subst q. rewrite !Z.compare_refl. reflexivity.
    - destruct (norm_order p q Lp Lq X) as [Y|[Y Z]].
      + destruct (Z.compare_spec (norm_e p) (norm_e q)); auto; lia.
      + rewrite Y, Z.compare_refl. destruct (Z.compare_spec (norm_m p) (norm_m q)); auto; lia.
    - destruct (norm_order q p Lq Lp X) as [Y|[Y Z]].
      + destruct (Z.compare_spec (norm_e p) (norm_e q)); auto; lia.
      + rewrite Y, Z.compare_refl. destruct (Z.compare_spec (norm_m p) (norm_m q)); auto; lia. }
  assert (N : forall p q m n, Zpos p < 2 ^ 24 -> Zpos q < 2 ^ 24 -> Zpos m = norm_m p -> Zpos n = norm_m q ->
    SFcompare (S754_finite true m (norm_e p)) (S754_finite true n (norm_e q)) = Some (Zpos q ?= Zpos p)).
  { intros p q m n Lp Lq M Nn. specialize (E _ _ _ _ Lq Lp Nn M). rewrite SFcompare_opp in E.
    cbn [SFcompare] in *. rewrite (Z.compare_antisym (norm_e q) (norm_e p)).
    rewrite (Z.compare_antisym (norm_e q)) in E.
    destruct (norm_e q ?= norm_e p); cbn in *; auto. }
  intros a b Sa Sb. pose proof (f_of_int_shape a Sa) as A. pose proof (f_of_int_shape b Sb) as B.
  destruct Sa, Sb. destruct a as [|p|p], b as [|q|q];
    repeat match goal with H : exists m, _ |- _ => destruct H as (? & ? & ?) end;
    repeat match goal with H : f_of_int _ = _ |- _ => rewrite H; clear H end; try reflexivity.
  - apply E; auto.
  - rewrite (N p q); auto; try lia. cbn. now rewrite (Pos.compare_antisym p q).
Qed.

(** ** Rounding to integers *)

(** A finite float is the fraction [f_num / f_den]. *)
Definition f_num (f : f32) : Z :=
  match f with
  | S754_finite s m e => (if s then Zneg m else Zpos m) * 2 ^ Z.max e 0
  | _ => 0
  end.
Definition f_den (f : f32) : Z :=
  match f with
  | S754_finite _ _ e => 2 ^ Z.max (- e) 0
  | _ => 1
  end.
Definition finite (f : f32) : Prop :=
  match f with S754_zero _ => True | S754_finite _ _ _ => True | _ => False end.

Lemma bounded_small : forall m e, bounded prec emax m e = true -> Zpos m < 2 ^ 24.
Proof.
  intros m e B. unfold bounded, canonical_mantissa, fexp, emin, prec, emax in B.
  apply andb_prop in B. destruct B as [B _]. apply Zeq_bool_eq in B.
  pose proof (digits_bounds m) as D.
  assert (Zpos (digits2_pos m) <= 24) by lia.
  assert (2 ^ Zpos (digits2_pos m) <= 2 ^ 24) by (apply Z.pow_le_mono_r; lia). lia.
Qed.

Lemma round_with_spec : forall k s m e, e < 0 -> Zpos m < 2 ^ 24 ->
  let d := 2 ^ (- e) in
  let q := Zpos m / d in
  let z := k s q (Zpos m mod d =? 0) (2 * (Zpos m mod d) ?= d) in
  q <= z <= q + 1 ->
  denotes (f_round_with k (S754_finite s m e)) (if s then - z else z).
Proof.
  intros k s m e E M d q z B. unfold f_round_with. replace (0 <=? e) with false by lia.
  change (denotes (if z =? 0 then S754_zero s else f_of_int (if s then - z else z)) (if s then - z else z)).
  assert (D : 2 <= d).
  { unfold d. change 2 with (2 ^ 1) at 1. apply Z.pow_le_mono_r; lia. }
  assert (Q : 0 <= q < 2 ^ 23).
  { unfold q. split; [apply Z.div_pos; lia|]. apply Z.div_lt_upper_bound; [lia|].
    change (2 ^ 24) with (2 * 2 ^ 23) in M. nia. }
  destruct (z =? 0) eqn:Z0.
  - cbn [denotes]. destruct s; lia.
  - apply f_of_int_denotes. unfold small. change (2 ^ 24) with (2 * 2 ^ 23) in *. destruct s; lia.
Qed.

Lemma floor_spec : forall x, finite x -> f_valid x = true ->
  exists z, denotes (f_floor x) z /\ z * f_den x <= f_num x < (z + 1) * f_den x.
Proof.
  intros x F V. destruct x as [s| | |s m e]; try contradiction.
  - exists 0. cbn. split; [reflexivity|lia].
  - pose proof (bounded_small _ _ V) as M. cbn [f_num f_den].
    destruct (Z.le_gt_cases 0 e) as [E|E].
    + exists ((if s then Zneg m else Zpos m) * 2 ^ e). unfold f_floor, f_round_with.
      assert (T : 0 <=? e = true) by lia. rewrite T. unfold denotes. rewrite T. rewrite (Z.max_l e 0), (Z.max_r (- e) 0) by lia. split; [reflexivity|].
      change (2 ^ 0) with 1. lia.
    + rewrite (Z.max_r e 0), (Z.max_l (- e) 0) by lia. change (2 ^ 0) with 1.
      assert (D : 0 < 2 ^ (- e)) by (apply Z.pow_pos_nonneg; lia).
      pose proof (Z.div_mod (Zpos m) (2 ^ (- e)) ltac:(lia)) as DM.
      pose proof (Z.mod_pos_bound (Zpos m) (2 ^ (- e)) D) as MB.
      pose proof (round_with_spec (fun s q ex _ => if s then (if ex then q else q + 1) else q) s m e E M) as R.
      cbv zeta in R. fold f_floor in R. eexists. split; [apply R|].
      * destruct s, (Zpos m mod 2 ^ (- e) =? 0); lia.
      * destruct s; [change (Zneg m) with (- Zpos m)|]; destruct (Zpos m mod 2 ^ (- e) =? 0) eqn:X; nia.
Qed.
Lemma ceil_spec : forall x, finite x -> f_valid x = true ->
  exists z, denotes (f_ceil x) z /\ (z - 1) * f_den x < f_num x <= z * f_den x.
Proof.
  intros x F V. destruct x as [s| | |s m e]; try contradiction.
  - exists 0. cbn. split; [reflexivity|lia].
  - pose proof (bounded_small _ _ V) as M. cbn [f_num f_den].
    destruct (Z.le_gt_cases 0 e) as [E|E].
    + exists ((if s then Zneg m else Zpos m) * 2 ^ e). unfold f_ceil, f_round_with.
      assert (T : 0 <=? e = true) by lia. rewrite T. unfold denotes. rewrite T. rewrite (Z.max_l e 0), (Z.max_r (- e) 0) by lia. split; [reflexivity|].
      change (2 ^ 0) with 1. lia.
    + rewrite (Z.max_r e 0), (Z.max_l (- e) 0) by lia. change (2 ^ 0) with 1.
      assert (D : 0 < 2 ^ (- e)) by (apply Z.pow_pos_nonneg; lia).
      pose proof (Z.div_mod (Zpos m) (2 ^ (- e)) ltac:(lia)) as DM.
      pose proof (Z.mod_pos_bound (Zpos m) (2 ^ (- e)) D) as MB.
      pose proof (round_with_spec (fun s q ex _ => if s then q else (if ex then q else q + 1)) s m e E M) as R.
      cbv zeta in R. fold f_ceil in R. eexists. split; [apply R|].
      * destruct s, (Zpos m mod 2 ^ (- e) =? 0); lia.
      * destruct s; [change (Zneg m) with (- Zpos m)|]; destruct (Zpos m mod 2 ^ (- e) =? 0) eqn:X; nia.
Qed.
Lemma round_spec : forall x, finite x -> f_valid x = true ->
  exists z, denotes (f_round x) z /\ 2 * Z.abs (f_num x - z * f_den x) <= f_den x /\
    (2 * Z.abs (f_num x - z * f_den x) = f_den x -> Z.abs (f_num x) < Z.abs (z * f_den x)).
Proof.
  intros x F V. destruct x as [s| | |s m e]; try contradiction.
  - exists 0. cbn. split; [reflexivity|lia].
  - pose proof (bounded_small _ _ V) as M. cbn [f_num f_den].
    destruct (Z.le_gt_cases 0 e) as [E|E].
    + exists ((if s then Zneg m else Zpos m) * 2 ^ e). unfold f_round, f_round_with.
      assert (T : 0 <=? e = true) by lia. rewrite T. unfold denotes. rewrite T. rewrite (Z.max_l e 0), (Z.max_r (- e) 0) by lia. split; [reflexivity|].
      change (2 ^ 0) with 1. lia.
    + rewrite (Z.max_r e 0), (Z.max_l (- e) 0) by lia. change (2 ^ 0) with 1.
      assert (D : 0 < 2 ^ (- e)) by (apply Z.pow_pos_nonneg; lia).
      pose proof (Z.div_mod (Zpos m) (2 ^ (- e)) ltac:(lia)) as DM.
      pose proof (Z.mod_pos_bound (Zpos m) (2 ^ (- e)) D) as MB.
      pose proof (round_with_spec (fun _ q _ c => match c with Lt => q | _ => q + 1 end) s m e E M) as R.
      cbv zeta in R. fold f_round in R. eexists. split; [apply R|].
      * destruct (2 * _ ?= _); lia.
      * destruct s; [change (Zneg m) with (- Zpos m)|];
          destruct (Z.compare_spec (2 * (Zpos m mod 2 ^ (- e))) (2 ^ (- e))) as [X|X|X]; nia.
Qed.
