(** Proofs that rounding gives canonical binary32 numbers. *)
From Coq Require Import ZArith List Bool Lia SpecFloat.
From Verif Require Import Base F32 F32Facts.
Open Scope Z_scope.

Lemma Zeq_bool_refl z : Zeq_bool z z = true.
Proof. now apply Zeq_is_eq_bool. Qed.

Lemma zdig_bounds m : 0 <= m -> 0 <= Zdigits2 m /\ m < 2 ^ Zdigits2 m /\ (0 < m -> 0 < Zdigits2 m /\ 2 ^ (Zdigits2 m - 1) <= m).
Proof.
  intros H. destruct m as [|p|p]; [cbn; lia| |lia]. cbn [Zdigits2]. pose proof (digits_bounds p). lia.
Qed.
Lemma zdig_le m d : 0 <= d -> 0 <= m < 2 ^ d -> Zdigits2 m <= d.
Proof.
  intros Hd B. destruct (zdig_bounds m) as (_ & _ & Z1); [lia|]. destruct (Z.eq_dec m 0) as [->|N]; [cbn; lia|].
  destruct (Z.le_gt_cases (Zdigits2 m) d); [assumption|]. assert (2 ^ d <= 2 ^ (Zdigits2 m - 1)) by (apply Z.pow_le_mono_r; lia). lia.
Qed.
Lemma zdig_is m d : 0 < d -> 2 ^ (d - 1) <= m < 2 ^ d -> Zdigits2 m = d.
Proof.
  intros Hd B. assert (0 < 2 ^ (d - 1)) by (apply Z.pow_pos_nonneg; lia). destruct m as [|p|p]; try lia. cbn [Zdigits2]. apply digits_unique; assumption.
Qed.

Lemma iter_pos_nat {A} (f : A -> A) p : forall x, SpecFloat.iter_pos f p x = Nat.iter (Pos.to_nat p) f x.
Proof.
  assert (Add : forall n m x, Nat.iter n f (Nat.iter m f x) = Nat.iter (n + m) f x).
  { induction n; intros m x; cbn; [reflexivity|]. f_equal. apply IHn. }
  induction p; intros x; cbn [SpecFloat.iter_pos].
  - rewrite !IHp, Add. change (f x) with (Nat.iter 1 f x). rewrite Add. f_equal. lia.
  - rewrite !IHp, Add. f_equal. lia.
  - reflexivity.
Qed.
Lemma shr_1_m r : 0 <= shr_m r -> shr_m (shr_1 r) = shr_m r / 2.
Proof.
  destruct r as [m x y]. cbn [shr_m]. intros H. destruct m as [|[p|p|]|]; cbn [shr_1 shr_m]; try lia; try reflexivity.
  - apply Z.div_unique with 1; lia.
  - apply Z.div_unique with 0; lia.
Qed.
Lemma shr_iter_m p r : 0 <= shr_m r -> shr_m (SpecFloat.iter_pos shr_1 p r) = shr_m r / 2 ^ Zpos p.
Proof.
  intros H. rewrite iter_pos_nat. rewrite <- (positive_nat_Z p). generalize (Pos.to_nat p) as n. clear p.
  assert (G : forall n, 0 <= shr_m (Nat.iter n shr_1 r) /\ shr_m (Nat.iter n shr_1 r) = shr_m r / 2 ^ Z.of_nat n).
  { induction n as [|n [IH1 IH2]]; [cbn; rewrite Z.div_1_r; auto|].
    change (Nat.iter (S n) shr_1 r) with (shr_1 (Nat.iter n shr_1 r)). rewrite shr_1_m by assumption.
    split; [apply Z.div_pos; lia|]. rewrite IH2, Z.div_div by lia. f_equal. rewrite Nat2Z.inj_succ, Z.pow_succ_r by lia. lia. }
  intros n. apply G.
Qed.
Lemma shr_fexp_eq m e l : 0 <= m -> e <= fexp prec emax (Zdigits2 m + e) ->
  exists r, shr_fexp prec emax m e l = (r, fexp prec emax (Zdigits2 m + e)) /\
            shr_m r = m / 2 ^ (fexp prec emax (Zdigits2 m + e) - e).
Proof.
  intros H L. unfold shr_fexp. set (f := fexp prec emax (Zdigits2 m + e)) in *.
  assert (M : shr_m (shr_record_of_loc m l) = m) by (destruct l as [|[| |]]; reflexivity).
  destruct (f - e) as [|p|p] eqn:K; [| |lia]; cbn [shr].
  - eexists. split; [f_equal; lia|]. rewrite M. cbn. now rewrite Z.div_1_r.
  - eexists. split; [f_equal; lia|]. rewrite shr_iter_m by lia. rewrite M. reflexivity.
Qed.

Lemma round_aux_valid s m e l : 0 <= m -> e <= fexp prec emax (Zdigits2 m + e) ->
  f_valid (binary_round_aux prec emax s m e l) = true.
Proof.
  intros H L. unfold binary_round_aux. destruct (shr_fexp_eq m e l H L) as (r & -> & M1).
  set (d := Zdigits2 m) in *. set (e1 := fexp prec emax (d + e)) in *. set (m1 := shr_m r) in *.
  assert (R : 0 <= m1) by (rewrite M1; apply Z.div_pos; [lia|apply Z.pow_pos_nonneg; lia]).
  set (m2 := round_nearest_even m1 (loc_of_shr_record r)).
  assert (M2 : m1 <= m2 <= m1 + 1).
  { unfold m2, round_nearest_even. destruct (loc_of_shr_record r) as [|[| |]]; try lia. destruct (Z.even m1); lia. }
  clearbody m2.
  destruct (zdig_bounds m H) as (D0 & D1 & D2). fold d in D0, D1, D2.
  assert (E1 : e1 = Z.max (d + e - 24) (-149)) by reflexivity.
  assert (Final : exists m3 e3, (exists q, shr_fexp prec emax m2 e1 loc_Exact = (q, e3) /\ shr_m q = m3) /\
    0 <= m3 /\ (0 < m3 -> fexp prec emax (Zdigits2 m3 + e3) = e3)).
  { assert (Stay : forall d2, Zdigits2 m2 = d2 -> Z.max (d2 + e1 - 24) (-149) = e1 ->
      exists m3 e3, (exists q, shr_fexp prec emax m2 e1 loc_Exact = (q, e3) /\ shr_m q = m3) /\
      0 <= m3 /\ (0 < m3 -> fexp prec emax (Zdigits2 m3 + e3) = e3)).
    { intros d2 Q F. destruct (shr_fexp_eq m2 e1 loc_Exact) as (q & Q1 & Q2); [lia|rewrite Q; change (fexp prec emax (d2 + e1)) with (Z.max (d2 + e1 - 24) (-149)); lia|].
      rewrite Q in Q1, Q2. change (fexp prec emax (d2 + e1)) with (Z.max (d2 + e1 - 24) (-149)) in Q1, Q2. rewrite F in Q1, Q2.
      exists m2, e1. split; [exists q; split; [exact Q1|]; rewrite Q2, Z.sub_diag; cbn; apply Z.div_1_r|].
      split; [lia|]. intros _. rewrite Q. exact F. }
    destruct (Z.le_gt_cases (-149) (d + e - 24)) as [A|A].
    - assert (K : e1 - e = d - 24) by lia. assert (0 < m) by (destruct (Z.eq_dec m 0) as [->|]; [unfold d in *; cbn in *; lia|lia]).
      destruct (D2 H0) as [D3 D4]. assert (24 <= d) by lia.
      assert (P : 0 < 2 ^ (d - 24)) by (apply Z.pow_pos_nonneg; lia).
      assert (B1 : 2 ^ 23 <= m1 < 2 ^ 24).
      { rewrite M1, K. split.
        - apply Z.div_le_lower_bound; [lia|]. rewrite <- Z.pow_add_r by lia. replace (d - 24 + 23) with (d - 1) by lia. exact D4.
        - apply Z.div_lt_upper_bound; [lia|]. rewrite <- Z.pow_add_r by lia. replace (d - 24 + 24) with d by lia. exact D1. }
      destruct (Z.eq_dec m2 (2 ^ 24)) as [Q|Q].
      + assert (Z2 : Zdigits2 m2 = 25) by (rewrite Q; reflexivity).
        destruct (shr_fexp_eq m2 e1 loc_Exact) as (q & Q1 & Q2); [lia|rewrite Z2; change (fexp prec emax (25 + e1)) with (Z.max (25 + e1 - 24) (-149)); lia|].
        rewrite Z2 in Q1, Q2. change (fexp prec emax (25 + e1)) with (Z.max (25 + e1 - 24) (-149)) in Q1, Q2.
        replace (Z.max (25 + e1 - 24) (-149)) with (e1 + 1) in Q1, Q2 by lia.
        exists (2 ^ 23), (e1 + 1). split; [exists q; split; [exact Q1|]; rewrite Q2, Q; replace (e1 + 1 - e1) with 1 by lia; reflexivity|].
        split; [lia|]. intros _. change (Zdigits2 (2 ^ 23)) with 24. change (fexp prec emax (24 + (e1 + 1))) with (Z.max (24 + (e1 + 1) - 24) (-149)). lia.
      + apply (Stay 24); [apply zdig_is; lia|lia].
    - assert (e1 = -149) by lia.
      assert (B1 : m1 < 2 ^ 23).
      { rewrite M1. apply Z.div_lt_upper_bound; [apply Z.pow_pos_nonneg; lia|]. rewrite <- Z.pow_add_r by lia.
        assert (2 ^ d <= 2 ^ (e1 - e + 23)) by (apply Z.pow_le_mono_r; lia). lia. }
      apply (Stay (Zdigits2 m2)); [reflexivity|].
      assert (Zdigits2 m2 <= 24) by (apply zdig_le; lia). lia. }
  destruct Final as (m3 & e3 & (q & Q1 & Q2) & F1 & F2). rewrite Q1, Q2. destruct m3 as [|p|p]; [reflexivity| |lia].
  specialize (F2 ltac:(lia)). cbn [Zdigits2] in F2. destruct (e3 <=? emax - prec) eqn:LE; [|reflexivity].
  cbn [f_valid]. unfold bounded, canonical_mantissa. rewrite F2, LE. rewrite Zeq_bool_refl. reflexivity.
Qed.

(** ** The operations *)
Lemma round_valid s p e : f_valid (binary_round prec emax s p e) = true.
Proof.
  unfold binary_round, shl_align. set (f := fexp prec emax (Zpos (digits2_pos p) + e)).
  destruct (f - e) as [|k|k] eqn:K; try (apply round_aux_valid; [lia|]; cbn [Zdigits2]; fold f; lia).
  apply round_aux_valid; [lia|]. cbn [Zdigits2].
  assert (Zpos (digits2_pos (shift_pos k p)) = Zpos (digits2_pos p) + Zpos k) as ->.
  { apply digits_unique; [lia|]. rewrite iter_pos_xO. pose proof (digits_bounds p).
    replace (Zpos (digits2_pos p) + Zpos k - 1) with (Zpos (digits2_pos p) - 1 + Zpos k) by lia.
    rewrite !Z.pow_add_r by lia. assert (0 < 2 ^ Zpos k) by (apply Z.pow_pos_nonneg; lia). nia. }
  replace (Zpos (digits2_pos p) + Zpos k + f) with (Zpos (digits2_pos p) + e) by lia. fold f. lia.
Qed.
Lemma normalize_valid m e s : f_valid (binary_normalize prec emax m e s) = true.
Proof. destruct m; cbn [binary_normalize]; [reflexivity|apply round_valid|apply round_valid]. Qed.
Lemma f_of_int_valid z : f_valid (f_of_int z) = true.
Proof. apply normalize_valid. Qed.
Lemma f_div_valid x y : f_valid (f_div x y) = true.
Proof.
  unfold f_div. destruct x as [| | |sx m1 e1], y as [| | |sy m2 e2]; try reflexivity.
  cbn [SFdiv]. unfold SFdiv_core_binary. cbn [Zdigits2].
  set (d1 := Zpos (digits2_pos m1)). set (d2 := Zpos (digits2_pos m2)).
  set (e' := Z.min (fexp prec emax (d1 + e1 - (d2 + e2))) (e1 - e2)).
  set (s := e1 - e2 - e'). assert (S0 : 0 <= s) by (unfold s, e'; lia).
  set (m' := match s with Z0 => Zpos m1 | Zpos _ => Z.shiftl (Zpos m1) s | Zneg _ => 0 end).
  assert (M : m' = Zpos m1 * 2 ^ s).
  { unfold m'. destruct s eqn:Q; [cbn; lia| |lia]. rewrite <- Q in *. rewrite Z.shiftl_mul_pow2 by lia. reflexivity. }
  clearbody m'. pose proof (Z.div_mod m' (Zpos m2) ltac:(lia)) as DM. unfold Z.div, Z.modulo in DM.
  pose proof (Z.mod_pos_bound m' (Zpos m2) ltac:(lia)) as B. unfold Z.modulo in B.
  destruct (Z.div_eucl m' (Zpos m2)) as [q r].
  pose proof (digits_bounds m1) as B1. pose proof (digits_bounds m2) as B2. fold d1 in B1. fold d2 in B2.
  assert (P : 0 < 2 ^ s) by (apply Z.pow_pos_nonneg; lia).
  assert (Q0 : 0 <= q) by nia.
  apply round_aux_valid; [exact Q0|].
  assert (D : d1 + s - d2 <= Zdigits2 q).
  { destruct (Z.le_gt_cases (d1 + s - d2) (Zdigits2 q)) as [|G]; [assumption|exfalso].
    destruct (zdig_bounds q Q0) as (Z1 & Z2 & _).
    assert (2 ^ Zdigits2 q <= 2 ^ (d1 + s - d2 - 1)) by (apply Z.pow_le_mono_r; lia).
    assert (L1 : q + 1 <= 2 ^ (d1 + s - d2 - 1)) by lia.
    assert (L2 : 2 ^ (d1 - 1) * 2 ^ s <= m') by (rewrite M; nia).
    assert (L3 : m' < 2 ^ d2 * 2 ^ (d1 + s - d2 - 1)).
    { assert (0 < 2 ^ (d1 + s - d2 - 1)) by (apply Z.pow_pos_nonneg; lia). nia. }
    rewrite <- !Z.pow_add_r in L3 by (unfold d2 in *; lia). rewrite <- Z.pow_add_r in L2 by (unfold d1 in *; lia).
    replace (d2 + (d1 + s - d2 - 1)) with (d1 - 1 + s) in L3 by lia. lia. }
  assert (Mono : forall a b, a <= b -> fexp prec emax a <= fexp prec emax b) by (intros a b; unfold fexp; lia).
  assert (fexp prec emax (d1 + e1 - (d2 + e2)) <= fexp prec emax (Zdigits2 q + e')) by (apply Mono; unfold s in D; lia).
  unfold e' at 1. lia.
Qed.
