(** IEEE-754 binary32, the C++ [float], on top of Coq's [SpecFloat]. *)
From Coq Require Import ZArith List Bool String Floats.SpecFloat.
From Verif Require Import Base.
Import ListNotations.
Open Scope Z_scope.

Definition f32 := spec_float.
Definition prec : Z := 24.
Definition emax : Z := 128.

(** The C++ operators on [float]; rounding to nearest even.  A NaN has no sign
    or payload here. *)
Definition f_add (a b : f32) : f32 := SFadd prec emax a b.
Definition f_sub (a b : f32) : f32 := SFsub prec emax a b.
Definition f_mul (a b : f32) : f32 := SFmul prec emax a b.
Definition f_div (a b : f32) : f32 := SFdiv prec emax a b.
Definition f_neg (a : f32) : f32 := SFopp a.
Definition f_sqrt (a : f32) : f32 := SFsqrt prec emax a.
Definition f_lt (a b : f32) : bool := SFltb a b.
Definition f_leb (a b : f32) : bool := SFleb a b.
Definition f_eqb (a b : f32) : bool := SFeqb a b.
Definition f_zero : f32 := S754_zero false.

(** [float(int32_t)] *)
Definition f_of_int (z : Z) : f32 := binary_normalize prec emax z 0 false.

(** [f != 0.f] *)
Definition f_nonzero (f : f32) : bool := negb (f_eqb f f_zero).

(** Magnitude of a finite float truncated to an integer. *)
Definition trunc_mag (m : positive) (e : Z) : Z :=
  if 0 <=? e then Zpos m * 2 ^ e else Zpos m / 2 ^ (- e).

(** [int32_t(float)]: truncation toward zero, undefined out of range. *)
Definition f_to_int (f : f32) : res Z :=
  match f with
  | S754_zero _ => Ok 0
  | S754_finite s m e =>
      let t := trunc_mag m e in
      let z := if s then - t else t in
      if in_i32 z then Ok z else Stuck SCast
  | _ => Stuck SCast
  end.

(** Floats whose value is an integer are left alone; others (which are below
    2^23 in magnitude) are rounded by [k] applied to the integer part and the
    fractional part. *)
Definition f_round_with (k : bool -> Z -> bool -> comparison -> Z) (f : f32) : f32 :=
  match f with
  | S754_finite s m e =>
      if 0 <=? e then f
      else let q := Zpos m / 2 ^ (- e) in
           let r := Zpos m mod 2 ^ (- e) in
           let z := k s q (r =? 0) (Z.compare (2 * r) (2 ^ (- e))) in
           if z =? 0 then S754_zero s
           else f_of_int (if s then - z else z)
  | _ => f
  end.

(** [floorf], [ceilf], [roundf] of libm (exact functions). *)
Definition f_floor : f32 -> f32 :=
  f_round_with (fun s q ex _ => if s then (if ex then q else q + 1) else q).
Definition f_ceil : f32 -> f32 :=
  f_round_with (fun s q ex _ => if s then q else (if ex then q else q + 1)).
Definition f_round : f32 -> f32 :=
  f_round_with (fun _ q _ c => match c with Lt => q | _ => q + 1 end).

(** Bit pattern of a float (as stored by INS_NEW_FLT) and back. *)
Definition f_of_bits (b : Z) : f32 :=
  let s := 2147483648 <=? b in
  let ex := (b / 8388608) mod 256 in
  let m := b mod 8388608 in
  if ex =? 0 then
    match m with Zpos p => S754_finite s p (-149) | _ => S754_zero s end
  else if ex =? 255 then (if m =? 0 then S754_infinity s else S754_nan)
  else match m + 8388608 with Zpos p => S754_finite s p (ex - 150) | _ => S754_nan end.

Definition f_to_bits (f : f32) : Z :=
  let sg (s : bool) := if s then 2147483648 else 0 in
  match f with
  | S754_zero s => sg s
  | S754_infinity s => sg s + 255 * 8388608
  | S754_nan => 2143289344 (* 0x7fc00000 *)
  | S754_finite s m e =>
      if Zpos m <? 8388608 then sg s + Zpos m
      else sg s + (e + 150) * 8388608 + (Zpos m - 8388608)
  end.

(** A float in canonical binary32 form. *)
Definition f_valid (f : f32) : bool :=
  match f with
  | S754_finite _ m e => bounded prec emax m e
  | _ => true
  end.

(** printf "%f": exact decimal expansion rounded half to even at 6 places. *)
Definition round_half_even (num den : Z) : Z :=
  let q := num / den in let r := num mod den in
  match Z.compare (2 * r) den with
  | Lt => q | Gt => q + 1 | Eq => if Z.even q then q else q + 1
  end.

Definition pad6 (n : Z) : bytes :=
  let d := dec_nonneg n in repeat 48 (6 - List.length d) ++ d.

Definition f_text (f : f32) : bytes :=
  match f with
  | S754_nan => bs "nan"
  | S754_infinity s => (if s then bs "-" else []) ++ bs "inf"
  | S754_zero s => (if s then bs "-" else []) ++ bs "0.000000"
  | S754_finite s m e =>
      let n := if 0 <=? e then Zpos m * 2 ^ e * 1000000
               else round_half_even (Zpos m * 1000000) (2 ^ (- e)) in
      (if s then bs "-" else []) ++ dec_nonneg (n / 1000000) ++ [46] ++ pad6 (n mod 1000000)
  end.
