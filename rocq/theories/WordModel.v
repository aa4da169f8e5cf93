(** Executable model of [BigUIntWord] (include/walnut/big_uint_word.h).

    A word is a [Z] in [[0, 2^64)].  Every operation that wraps writes the
    wrap-around explicitly.  [carry] flags are [bool]. *)
From Coq Require Import ZArith List Bool.
Import ListNotations.
Open Scope Z_scope.

(** bits_per_word = 64: big_uint_word.h 60-61. *)
Definition bits_per_word : Z := 64.
(** 2^64, the modulus of [uint64_t i_] (big_uint_word.h 575). *)
Definition W : Z := 18446744073709551616.
(** 2^63, the sign boundary of [BigIntWord = int64_t] (big_uint_word.h 15). *)
Definition HW : Z := 9223372036854775808.
(** 2^32, the modulus of [BigUIntHalfWord = uint32_t] (big_uint_word.h 13). *)
Definition HALF : Z := 4294967296.

(** Conversion of an arbitrary integer to [uint64_t]: constructors
    big_uint_word.h 65-79. *)
Definition wrap (x : Z) : Z := x mod W.
(** Conversion to [uint32_t]: low_uint32, big_uint_word.h 107-109. *)
Definition low32 (x : Z) : Z := x mod HALF.
(** hi_uint32 / high_half_word: big_uint_word.h 121-123, 580-582. *)
Definition high32 (x : Z) : Z := x / HALF.

(** [explicit operator BigIntWord()]: big_uint_word.h 99-101 (two's complement
    reinterpretation, as every supported compiler does). *)
Definition sgn (w : Z) : Z := if w <? HW then w else w - W.

(** Truth value of a carry as an addend. *)
Definition b2z (b : bool) : Z := if b then 1 else 0.

(** operator~ : big_uint_word.h 421-423. *)
Definition wnot (w : Z) : Z := W - 1 - w.

(** __builtin_add_overflow on uint64_t. *)
Definition add_overflow (a b : Z) : Z * bool := (wrap (a + b), W <=? a + b).
(** __builtin_sub_overflow on uint64_t. *)
Definition sub_overflow (a b : Z) : Z * bool := (wrap (a - b), a - b <? 0).

(** Add(other): big_uint_word.h 192-194. *)
Definition wadd (a b : Z) : Z := wrap (a + b).
(** Subtract(other): big_uint_word.h 244-246. *)
Definition wsub (a b : Z) : Z := wrap (a - b).

(** Add(other, carry_in, carry_out), builtin version: big_uint_word.h 203-210. *)
Definition wadd_c (a b : Z) (c : bool) : Z * bool :=
  let '(r1, c1) := add_overflow a b in
  let '(r2, c2) := add_overflow r1 (b2z c) in
  (r2, c1 || c2).
(** Add(carry_in, carry_out), builtin version: big_uint_word.h 212-216. *)
Definition wadd_carry (a : Z) (c : bool) : Z * bool := add_overflow a (b2z c).
(** Subtract(other, carry_in, carry_out), builtin: big_uint_word.h 249-256. *)
Definition wsub_c (a b : Z) (c : bool) : Z * bool :=
  let '(r1, c1) := sub_overflow a b in
  let '(r2, c2) := sub_overflow r1 (b2z c) in
  (r2, c1 || c2).
(** Subtract(carry_in, carry_out), builtin: big_uint_word.h 265-269. *)
Definition wsub_carry (a : Z) (c : bool) : Z * bool := sub_overflow a (b2z c).

(** Portable Add(other, carry_out): big_uint_word.h 220-224. *)
Definition wadd_portable2 (a b : Z) : Z * bool :=
  let r := wrap (a + b) in (r, r <? a).
(** Portable Add(other, carry_in, carry_out): big_uint_word.h 226-233. *)
Definition wadd_c_portable (a b : Z) (c : bool) : Z * bool :=
  let r1 := wrap (a + b) in
  let r2 := wrap (r1 + b2z c) in
  (r2, (r1 <? a) || (r2 <? r1)).
(** Portable Add(carry_in, carry_out): big_uint_word.h 235-239. *)
Definition wadd_carry_portable (a : Z) (c : bool) : Z * bool :=
  let r := wrap (a + b2z c) in (r, r <? a).
(** Portable Subtract(other, carry_in, carry_out): big_uint_word.h 273-280. *)
Definition wsub_c_portable (a b : Z) (c : bool) : Z * bool :=
  let r1 := wrap (a - b) in
  let co := (a <? r1) || (r1 <? b2z c) in
  (wrap (r1 - b2z c), co).
(** Portable Subtract(other, carry_out): big_uint_word.h 282-287. *)
Definition wsub_portable2 (a b : Z) : Z * bool :=
  let r := wrap (a - b) in (r, a <? r).
(** Portable Subtract(carry_in, carry_out): big_uint_word.h 289-293. *)
Definition wsub_carry_portable (a : Z) (c : bool) : Z * bool :=
  let r := wrap (a - b2z c) in (r, a <? r).

(** [unsigned __int128] has modulus 2^128. *)
Definition W2 : Z := W * W.

(** Multiply, 128 bit version: big_uint_word.h 305-311.  Returns (low, high). *)
Definition wmul (a b : Z) : Z * Z :=
  let full := (a * b) mod W2 in (wrap full, wrap (full / W)).
(** MultiplySigned, 128 bit version: big_uint_word.h 313-319.  The product of
    two int64_t always fits __int128, [full >> 64] is an arithmetic shift. *)
Definition wmul_signed (a b : Z) : Z * Z :=
  let full := sgn a * sgn b in (wrap full, wrap (full / W)).
(** MultiplyAdd, 128 bit version: big_uint_word.h 321-328. *)
Definition wmul_add (a b add : Z) (c : bool) : Z * Z :=
  let full := (a * b + add + b2z c) mod W2 in (wrap full, wrap (full / W)).
(** ShiftRight, 128 bit version: big_uint_word.h 330-335. *)
Definition wshift_right (lo hi : Z) (shift : Z) : Z :=
  let full := Z.lor ((hi * W) mod W2) lo in wrap (Z.shiftr full shift).

(** BigUIntWord(uint32_t lo, uint32_t hi): big_uint_word.h 577-578. *)
Definition from_halves (lo hi : Z) : Z := Z.lor (wrap (hi * HALF)) lo.

(** SignExtension: big_uint_word.h 550-552 (arithmetic shift by 63, converted
    back to unsigned). *)
Definition wsign_ext (w : Z) : Z := wrap (Z.shiftr (sgn w) 63).

(** Portable Multiply: big_uint_word.h 339-355. *)
Definition wmul_portable (a b : Z) : Z * Z :=
  let low := wrap (low32 a * low32 b) in
  let '(middle, carry) :=
    wadd_portable2 (wrap (high32 a * low32 b + high32 low)) (wrap (low32 a * high32 b)) in
  let high := wrap (wrap (wrap (high32 a * high32 b) + high32 middle) + wrap (b2z carry * HALF)) in
  (from_halves (low32 low) (low32 middle), high).
(** Portable MultiplySigned: big_uint_word.h 357-375. *)
Definition wmul_signed_portable (a b : Z) : Z * Z :=
  let low := wrap (low32 a * low32 b) in
  let '(middle, carry) :=
    wadd_portable2 (wrap (high32 a * low32 b + high32 low)) (wrap (low32 a * high32 b)) in
  let high := wrap (wrap (wrap (wrap (wrap (high32 a * high32 b) + high32 middle)
                          + wrap (b2z carry * HALF))
                    - Z.land (wsign_ext b) a)
                    - Z.land (wsign_ext a) b) in
  (from_halves (low32 low) (low32 middle), high).
(** Portable MultiplyAdd: big_uint_word.h 377-397. *)
Definition wmul_add_portable (a b add : Z) (c : bool) : Z * Z :=
  let '(low, low_carry) := wadd_c_portable (wrap (low32 a * low32 b)) add c in
  let '(middle, mid_carry) :=
    wadd_portable2 (wrap (high32 a * low32 b + high32 low)) (wrap (low32 a * high32 b)) in
  let high := wrap (wrap (wrap (wrap (high32 a * high32 b) + high32 middle)
                          + wrap (b2z mid_carry * HALF)) + b2z low_carry) in
  (from_halves (low32 low) (low32 middle), high).

(** operator<<: big_uint_word.h 414-416; undefined for shift >= 64, the model
    is only used below that. *)
Definition wshl (w s : Z) : Z := wrap (Z.shiftl w s).
(** operator>>: big_uint_word.h 419-421. *)
Definition wshr (w s : Z) : Z := Z.shiftr w s.
(** Portable ShiftRight: big_uint_word.h 400-409. *)
Definition wshift_right_portable (lo hi shift : Z) : Z :=
  if negb (shift =? 0) then Z.lor (wshl hi (bits_per_word - shift)) (wshr lo shift)
  else lo.

(** GetHighestSetBitUnaccelerated: big_uint_word.h 430-453, one entry of the
    [test]/[low_bit_index] tables per list element. *)
Definition hsb_table : list (Z * Z) :=
  [ (18446744069414584320, 32);  (* 0xFFFFFFFF00000000 *)
    (4294901760, 16);            (* 0xFFFF0000 *)
    (65280, 8);                  (* 0xFF00 *)
    (240, 4);                    (* 0xF0 *)
    (12, 2);                     (* 0xC *)
    (2, 1) ].                    (* 0x2 *)
Fixpoint hsb_loop (t : list (Z * Z)) (v result : Z) : Z :=
  match t with
  | [] => result + v
  | (test, idx) :: t' =>
      if negb (Z.land v test =? 0)
      then hsb_loop t' (wshr v idx) (Z.lor result idx)
      else hsb_loop t' v result
  end.
Definition whighest_set_bit_portable (w : Z) : Z := hsb_loop hsb_table w 0.
(** GetHighestSetBit, builtin version: big_uint_word.h 458-463.
    [64 - __builtin_clzl(i)] is the 1-based index of the top set bit. *)
Definition whighest_set_bit (w : Z) : Z := if w =? 0 then 0 else Z.log2 w + 1.

(** GetTrailingZerosUnaccelerated: big_uint_word.h 482-490.  The while loop
    runs on fuel; [None] is out of fuel (a shift by >= 64, undefined). *)
Fixpoint tz_loop (fuel : nat) (w tz : Z) : option Z :=
  match fuel with
  | O => None
  | S f => if Z.land w (wshl 1 tz) =? 0 then tz_loop f w (tz + 1) else Some tz
  end.
Definition wtrailing_zeros_portable (w : Z) : option Z :=
  if w =? 0 then Some 0 else tz_loop 64 w 0.

(** SignedAbs: big_uint_word.h 554-560.  llabs(INT64_MIN) is undefined. *)
Definition wsigned_abs (w : Z) : option Z :=
  if w =? HW then None else Some (wrap (Z.abs (sgn w))).
