(** Model of the conversion of doubles to exact points: double.h and
    HomoPoint3::FromDoubles, FromDoublesExact (src/walnut/homo_point3.cpp).  BigInt
    arithmetic as in GeoModel.v. *)
From Coq Require Import ZArith Bool.
From Verif Require Import BigUIntModel WordModel GeoModel.
Open Scope Z_scope.

(** A finite double: [d_man * 2 ^ d_exp], with an integer of at most 53 bits and an
    exponent between -1074 and 971 (see [finite_double]).  The sign of zero and
    infinities and NaN, for which the results are unspecified, are left out. *)
Record double := Dbl { d_man : Z; d_exp : Z }.
(** DBL_MANT_DIG. *)
Definition mant_dig : Z := 53.
(** std::frexp followed by std::scalbn(..., DBL_MANT_DIG), double.h 22-23: a fraction
    with absolute value in [1/2, 1) times 2 ^ 53, and the exponent. *)
Definition frexp53 (d : double) : Z * Z :=
  if d_man d =? 0 then (0, 0)
  else let n := Z.log2 (Z.abs (d_man d)) + 1 in (d_man d * 2 ^ (mant_dig - n), d_exp d + n).
(** Decompose, double.h 20-33; the mantissa and exp.  [>>=] of a negative number is
    an arithmetic shift. *)
Definition decompose (d : double) : res (Z * Z) :=
  let '(result, exp) := frexp53 d in
  if result =? 0 then Ok (result, exp)
  else
    let exp := exp - mant_dig in
    match wtrailing_zeros_portable (wrap result) with
    | None => UB
    | Some trailing_zeros => Ok (Z.shiftr result trailing_zeros, exp + trailing_zeros)
    end.
(** SafeShiftLeft, homo_point3.cpp 12-19. *)
Definition safe_shift_left (value shift : Z) : Z :=
  if 0 <=? shift then Z.shiftl value shift
  else if bits_per_word <=? - shift then 0
  else
    let rounding_adjust := Z.land (Z.shiftr value (- shift - 1)) 1 in
    Z.shiftr value (- shift) + rounding_adjust.
(** BigInt << size_t; a negative shift would be converted to a huge one. *)
Definition shift_left (value shift : Z) : res Z := if shift <? 0 then UB else Ok (Z.shiftl value shift).
(** HomoPoint3::FromDoubles, homo_point3.cpp 23-37. *)
Definition from_doubles (min_exponent : Z) (x y z : double) : res hpoint3 :=
  dx <- decompose x ;; dy <- decompose y ;; dz <- decompose z ;;
  let denom_exp := Z.min 0 (Z.max min_exponent (Z.min (snd dx) (Z.min (snd dy) (snd dz)))) in
  w <- shift_left 1 (- denom_exp) ;;
  Ok (HP (V3 (safe_shift_left (fst dx) (snd dx - denom_exp)) (safe_shift_left (fst dy) (snd dy - denom_exp)) (safe_shift_left (fst dz) (snd dz - denom_exp))) w).
(** HomoPoint3::FromDoublesExact, homo_point3.cpp 39-50. *)
Definition from_doubles_exact (x y z : double) : res hpoint3 :=
  dx <- decompose x ;; dy <- decompose y ;; dz <- decompose z ;;
  let denom_exp := Z.min 0 (Z.min (snd dx) (Z.min (snd dy) (snd dz))) in
  a <- shift_left (fst dx) (snd dx - denom_exp) ;; b <- shift_left (fst dy) (snd dy - denom_exp) ;; c <- shift_left (fst dz) (snd dz - denom_exp) ;;
  w <- shift_left 1 (- denom_exp) ;;
  Ok (HP (V3 a b c) w).
