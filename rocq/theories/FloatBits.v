(** Proof support: the bit pattern of a float determines it. *)
From Coq Require Import ZArith Bool Lia ZifyBool Floats.SpecFloat.
From Verif Require Import Base BaseFacts F32 F32Facts.
Open Scope Z_scope.

Lemma canonical_cases m e : bounded prec emax m e = true ->
  (Zpos m < 8388608 /\ e = -149) \/ (8388608 <= Zpos m < 16777216 /\ -149 <= e <= 104).
Proof.
  intros B. pose proof (bounded_small m e B) as S. unfold bounded, canonical_mantissa, fexp, emin, prec, emax in B.
  apply andb_prop in B. destruct B as [B L]. apply Zeq_bool_eq in B. apply Zle_bool_imp_le in L.
  pose proof (digits_bounds m) as D. change (2 ^ 24) with 16777216 in S.
  destruct (Z_lt_le_dec (Zpos m) 8388608) as [K|K].
  - left. split; [exact K|]. assert (Zpos (digits2_pos m) <= 23); [|lia].
    destruct (Z_le_gt_dec (Zpos (digits2_pos m)) 23); [assumption|].
    assert (2 ^ 23 <= 2 ^ (Zpos (digits2_pos m) - 1)) by (apply Z.pow_le_mono_r; lia).
    change (2 ^ 23) with 8388608 in *. lia.
  - right. split; [lia|]. assert (24 <= Zpos (digits2_pos m)); [|lia].
    destruct (Z_le_gt_dec 24 (Zpos (digits2_pos m))); [assumption|].
    assert (2 ^ Zpos (digits2_pos m) <= 2 ^ 23) by (apply Z.pow_le_mono_r; lia).
    change (2 ^ 23) with 8388608 in *. lia.
Qed.

Lemma bits_parts (s : bool) ex m : 0 <= ex < 256 -> 0 <= m < 8388608 ->
  let b := (if s then 2147483648 else 0) + ex * 8388608 + m in
  0 <= b < 4294967296 /\ (2147483648 <=? b) = s /\ (b / 8388608) mod 256 = ex /\ b mod 8388608 = m.
Proof.
  intros E M b. unfold b. split; [destruct s; lia|]. split; [destruct s; lia|].
  assert (Q : ((if s then 2147483648 else 0) + ex * 8388608 + m) / 8388608 = (if s then 256 else 0) + ex).
  { symmetry. apply Z.div_unique with (r := m); [lia|]. destruct s; lia. }
  assert (R : ((if s then 2147483648 else 0) + ex * 8388608 + m) mod 8388608 = m).
  { symmetry. apply Z.mod_unique with (q := (if s then 256 else 0) + ex); [lia|]. destruct s; lia. }
  rewrite Q. split; [|exact R]. symmetry. apply Z.mod_unique with (q := if s then 1 else 0); [lia|]. destruct s; lia.
Qed.

Lemma bits_back (f : f32) : f_valid f = true ->
  0 <= f_to_bits f < 4294967296 /\ f_of_bits (f_to_bits f) = f.
Proof.
  destruct f as [s|s| |s m e]; intros V.
  - destruct s; split; try reflexivity; cbn; lia.
  - destruct s; split; try reflexivity; cbn; lia.
  - split; [cbn; lia|reflexivity].
  - cbn [f_valid] in V. cbn [f_to_bits]. destruct (canonical_cases _ _ V) as [[M ->]|[M E]].
    + replace (Zpos m <? 8388608) with true by lia.
      destruct (bits_parts s 0 (Zpos m)) as (R & B1 & B2 & B3); [lia|lia|].
      rewrite Z.mul_0_l, Z.add_0_r in *. split; [exact R|].
      unfold f_of_bits. rewrite B1, B2, B3. reflexivity.
    + replace (Zpos m <? 8388608) with false by lia.
      destruct (bits_parts s (e + 150) (Zpos m - 8388608)) as (R & B1 & B2 & B3); [lia|lia|].
      split; [exact R|]. unfold f_of_bits. rewrite B1, B2, B3.
      replace (e + 150 =? 0) with false by lia. replace (e + 150 =? 255) with false by lia.
      replace (Zpos m - 8388608 + 8388608) with (Zpos m) by lia. f_equal. lia.
Qed.

Lemma operand_back f : f_valid f = true -> f_of_bits (to_u32 (to_i32 (f_to_bits f))) = f.
Proof.
  intros V. destruct (bits_back f V) as [R B]. rewrite <- B at 2. f_equal.
  unfold to_u32, to_i32. rewrite (Z.mod_small (f_to_bits f)) by lia.
  destruct (f_to_bits f <? 2147483648) eqn:C; [apply Z.mod_small; lia|].
  symmetry. apply Z.mod_unique with (q := -1); [lia|]. lia.
Qed.
