(** Executable model of [BigInt] (include/walnut/big_int.h,
    src/walnut/big_int.cpp) on top of [WordModel].

    [BigIntWords] (big_int_words.h) is a little-endian [list Z]: index 0 is
    [first_], the rest [extra_]; its length is [size()].  Storage management
    (capacity, malloc) is not visible here; the operations whose behaviour
    depends on it are modelled separately in [BigIntMemModel].
    [None] is undefined behaviour. *)
From Coq Require Import ZArith List Bool.
From Verif Require Import WordModel.
Import ListNotations.
Open Scope Z_scope.

Definition bigint := list Z.

(** used_words(): big_int.h 66-68. *)
Definition used (a : bigint) : Z := Z.of_nat (length a).
(** extra_size(): big_int_words.h 79-81. *)
Definition extra_size (a : bigint) : Z := Z.of_nat (length a) - 1.
(** words_.first(): big_int_words.h 83-85.  [size() >= 1] always holds. *)
Definition first (a : bigint) : Z := hd 0 a.
(** words_[used_words() - 1]. *)
Definition top (a : bigint) : Z := last a 0.

(** BigInt(BigIntHalfWord) / BigInt(BigIntWord): big_int.h 39-45. *)
Definition of_int (v : Z) : bigint := [wrap v].

(** SignExtension() : big_int.h 803-805 as an unsigned word. *)
Definition sign_ext (a : bigint) : Z := wsign_ext (top a).
(** SignExtension() : big_int.h 803-805 as the signed value 0 or -1. *)
Definition sign_ext_s (a : bigint) : Z := sgn (wsign_ext (top a)).

(** CanTrim: big_int.h 832-838. *)
Definition can_trim (low high : Z) : bool :=
  if 1 <? wadd high 1 then false
  else if sgn (Z.lxor high low) <? 0 then false else true.

(** Trim: big_int.h 844-859.  The loop walks down from the top word, so the
    model runs on the reversed list. *)
Fixpoint trim_rev (r : list Z) : list Z :=
  match r with
  | hi :: ((lo :: _) as r') => if can_trim lo hi then trim_rev r' else r
  | _ => r
  end.
Definition trim (a : bigint) : bigint := rev (trim_rev (rev a)).

(** CanTrimLastHalf: big_int.h 840-842; [static_cast<int32_t>] keeps the low
    32 bits in two's complement. *)
Definition sgn32 (x : Z) : Z := let l := x mod HALF in if l <? 2147483648 then l else l - HALF.
Definition can_trim_last_half (w : Z) : bool := sgn32 (sgn w) =? sgn w.
(** IsHalfWord: big_int.h 114-116. *)
Definition is_half_word (a : bigint) : bool :=
  (used a =? 1) && can_trim_last_half (first a).
(** AllHalfWords(a, b): big_int.h 84-95. *)
Definition low_sign_bit : Z := 2147483648.
Definition all_half_words2 (a b : bigint) : bool :=
  let r := Z.lor (wadd (first a) low_sign_bit) (wadd (first b) low_sign_bit) in
  Z.lor (high32 r) (Z.lor (extra_size a) (extra_size b)) =? 0.
(** AllHalfWords(a, b, c): big_int.h 100-112. *)
Definition all_half_words3 (a b c : bigint) : bool :=
  let r := Z.lor (Z.lor (wadd (first a) low_sign_bit) (wadd (first b) low_sign_bit))
                 (wadd (first c) low_sign_bit) in
  Z.lor (high32 r) (Z.lor (Z.lor (extra_size a) (extra_size b)) (extra_size c)) =? 0.

(** The common loop shape of Add and Subtract: big_int.h 240-253, 415-428.
    [f] is the word operation with carry; [ea]/[eb] are the sign extensions. *)
Fixpoint rest_loop (f : Z -> Z -> bool -> Z * bool) (b : list Z) (ea eb : Z)
         (c : bool) : list Z :=
  match b with
  | [] => [fst (f ea eb c)]
  | y :: b' => let '(r, c') := f ea y c in r :: rest_loop f b' ea eb c'
  end.
Fixpoint word_loop (f : Z -> Z -> bool -> Z * bool) (a b : list Z) (ea eb : Z)
         (c : bool) : list Z :=
  match a with
  | [] => rest_loop f b ea eb c
  | x :: a' =>
      match b with
      | [] => let '(r, c') := f x eb c in r :: word_loop f a' [] ea eb c'
      | y :: b' => let '(r, c') := f x y c in r :: word_loop f a' b' ea eb c'
      end
  end.

(** BigInt::Add: big_int.h 232-257. *)
Definition add (a b : bigint) : bigint :=
  if all_half_words2 a b then of_int (sgn (wadd (first a) (first b)))
  else trim (word_loop wadd_c a b (sign_ext a) (sign_ext b) false).

(** BigInt::Subtract: big_int.h 407-432. *)
Definition sub (a b : bigint) : bigint :=
  if all_half_words2 a b then of_int (sgn (wsub (first a) (first b)))
  else trim (word_loop wsub_c a b (sign_ext a) (sign_ext b) false).

(** int64_t multiplication: undefined on overflow. *)
Definition smul (x y : Z) : option Z :=
  let p := x * y in if (- HW <=? p) && (p <? HW) then Some p else None.

(** One row of the schoolbook product: big_int.cpp 94-100 (row 0, [add] = 0 and
    nothing accumulated yet). *)
Fixpoint mul_row0 (w : Z) (xs : list Z) (add : Z) : list Z :=
  match xs with
  | [] => [add]
  | x :: xs' => let '(lo, hi) := wmul_add w x add false in lo :: mul_row0 w xs' hi
  end.
(** Rows j >= 1: big_int.cpp 101-110.  [acc] are the result words from index j
    on; [None] would be the read of a word that was never written. *)
Fixpoint mul_row (w : Z) (xs acc : list Z) (add : Z) (c : bool) : option (list Z) :=
  match xs with
  | [] => Some [fst (wadd_carry add c)]
  | x :: xs' =>
      match acc with
      | [] => None
      | r :: acc' =>
          let '(s, c') := wadd_c add r c in
          let '(lo, hi) := wmul_add w x s false in
          match mul_row w xs' acc' hi c' with
          | Some l => Some (lo :: l)
          | None => None
          end
      end
  end.
Fixpoint mul_rows (ws xs acc : list Z) : option (list Z) :=
  match ws with
  | [] => Some acc
  | w :: ws' =>
      match acc with
      | [] => None
      | r :: acc' =>
          (* words below index j are final: keep [r], continue with the rest *)
          match mul_row w xs acc' 0 false with
          | Some acc'' =>
              match mul_rows ws' xs acc'' with
              | Some l => Some (r :: l)
              | None => None
              end
          | None => None
          end
      end
  end.

(** SubtractLeftShiftedMasked: big_int.h 867-877.  [None] is the failed
    assertion / out-of-bounds index j. *)
Fixpoint sub_masked (ws other : list Z) (mask : Z) (c : bool) : option (list Z) :=
  match other with
  | [] => Some ws
  | o :: other' =>
      match ws with
      | [] => None
      | w :: ws' =>
          let '(r, c') := wsub_c w (Z.land o mask) c in
          match sub_masked ws' other' mask c' with
          | Some l => Some (r :: l)
          | None => None
          end
      end
  end.
Definition sub_shifted_masked (ws other : list Z) (shift : nat) (mask : Z)
  : option (list Z) :=
  if Nat.leb shift (length ws) then
    match sub_masked (skipn shift ws) other mask false with
    | Some l => Some (firstn shift ws ++ l)
    | None => None
    end
  else None.

(** MultiplySlow after the operands are ordered: big_int.cpp 92-119. *)
Definition multiply_slow_ordered (a b : bigint) : option bigint :=
  match b with
  | [] => None
  | w0 :: ws =>
      match mul_rows ws a (mul_row0 w0 a 0) with
      | None => None
      | Some r =>
          match sub_shifted_masked r a (length b) (sign_ext b) with
          | None => None
          | Some r1 =>
              match sub_shifted_masked r1 b (length a) (sign_ext a) with
              | None => None
              | Some r2 => Some (trim r2)
              end
          end
      end
  end.
(** MultiplySlow: big_int.cpp 88-91 swaps so that [this] is the longer one. *)
Definition multiply_slow (a b : bigint) : option bigint :=
  if used a <? used b then multiply_slow_ordered b a
  else multiply_slow_ordered a b.

(** BigInt::Multiply: big_int.h 442-456. *)
Definition mul (a b : bigint) : option bigint :=
  if all_half_words2 a b then
    match smul (sgn (first a)) (sgn (first b)) with
    | Some p => Some (of_int p)
    | None => None
    end
  else if (used a =? 1) && (used b =? 1) then
    let '(lo, hi) := wmul_signed (first a) (first b) in
    Some (trim [lo; hi])
  else multiply_slow a b.

(** Negate: big_int.h 702-723 (and operator-, 725-729). *)
Fixpoint negate_loop (ws : list Z) (c : bool) : list Z * bool :=
  match ws with
  | [] => ([], c)
  | w :: ws' =>
      let '(r, c') := wadd_carry (wnot w) c in
      let '(rs, cf) := negate_loop ws' c' in (r :: rs, cf)
  end.
Definition neg (a : bigint) : bigint :=
  let old_last := top a in
  let '(r, carry) := negate_loop a true in
  let sign_changed := wshr (Z.lxor old_last (last r 0)) (bits_per_word - 1) in
  let r' := if Z.lor (low32 sign_changed) (b2z carry) =? 0 then r ++ [0] else r in
  trim r'.

(** operator+=(const BigInt&) and operator-=(const BigInt&) when [other] is a
    different object: big_int.h 267-293, 333-365.  The in-place loops write
    word i after reading it, so they compute the same list as Add/Subtract.
    (Aliasing is modelled in [BigIntMemModel].) *)
Definition add_assign (a b : bigint) : bigint :=
  if all_half_words2 a b then [wadd (first a) (first b)]
  else trim (word_loop wadd_c a b (sign_ext a) (sign_ext b) false).
Definition sub_assign (a b : bigint) : bigint :=
  if all_half_words2 a b then [wsub (first a) (first b)]
  else trim (word_loop wsub_c a b (sign_ext a) (sign_ext b) false).

(** AddMultiply: big_int.h 458-466. *)
Definition add_multiply (t a b : bigint) : option bigint :=
  if all_half_words3 t a b then
    match smul (sgn (first a)) (sgn (first b)) with
    | Some p => Some [wadd (first t) (wrap p)]
    | None => None
    end
  else match mul a b with Some p => Some (add_assign t p) | None => None end.
(** SubtractMultiply: big_int.h 468-476. *)
Definition sub_multiply (t a b : bigint) : option bigint :=
  if all_half_words3 t a b then
    match smul (sgn (first a)) (sgn (first b)) with
    | Some p => Some [wsub (first t) (wrap p)]
    | None => None
    end
  else match mul a b with Some p => Some (sub_assign t p) | None => None end.
(** Determinant: big_int.h 811-814. *)
Definition determinant (r1c1 r1c2 r2c1 r2c2 : bigint) : option bigint :=
  match mul r1c1 r2c2 with
  | Some p => sub_multiply p r2c1 r1c2
  | None => None
  end.

(** operator<<(size_t): big_int.h 144-185. *)
Fixpoint shl_loop (ws : list Z) (prev ls rs : Z) : list Z :=
  match ws with
  | [] => [wrap (Z.shiftr (sgn prev) rs)]
  | w :: ws' => Z.lor (wshl w ls) (wshr prev rs) :: shl_loop ws' w ls rs
  end.
Definition shl (a : bigint) (shift : Z) : bigint :=
  let slow :=
    let out := Z.to_nat (shift / bits_per_word) in
    let ls := shift mod bits_per_word in
    if 0 <? ls then
      trim (repeat 0 out ++ shl_loop a 0 ls (bits_per_word - ls))
    else trim (repeat 0 out ++ a) in
  if (extra_size a =? 0) && (shift <? bits_per_word) then
    let shifted := sgn (wshl (first a) shift) in
    if Z.shiftr shifted shift =? sgn (first a) then of_int shifted else slow
  else slow.

(** Compare: big_int.h 190-230. *)
Fixpoint cmp_down (a b : list Z) : Z :=
  match a, b with
  | x :: a', y :: b' =>
      if y <? x then 1 else if x <? y then -1 else cmp_down a' b'
  | _, _ => 0
  end.
Definition compare (a b : bigint) : Z :=
  if used a <? used b then Z.lor (Z.lnot (sgn (wsign_ext (top b)))) 1
  else if used b <? used a then Z.lor (sgn (wsign_ext (top a))) 1
  else if negb (top a =? top b) then (if sgn (top b) <? sgn (top a) then 1 else -1)
  else cmp_down (tl (rev a)) (tl (rev b)).

(** The four relational operators share one shape: big_int.h 500-516 (<),
    549-565 (<=), 575-591 (>), 601-617 (>=).  [lt x y]: strict word order in the
    operator's direction; [fin]: the final comparison of words_[0]. *)
Fixpoint rel_down (lt fin : Z -> Z -> bool) (a b : list Z) : bool :=
  match a, b with
  | [x], [y] => fin x y
  | x :: a', y :: b' =>
      if lt x y then true else if lt y x then false else rel_down lt fin a' b'
  | _, _ => false
  end.
(** Word lists below the top word, or the top word itself if it is words_[0]
    (the loop body is skipped and words_[0] is compared again). *)
Definition below_top (a : bigint) : list Z :=
  match rev a with
  | [x] => [x]
  | _ :: r => r
  | [] => []
  end.
Definition rel_op (neg_top : bool) (lt fin : Z -> Z -> bool) (a b : bigint) : bool :=
  (* neg_top = false: operators < and <=; true: operators > and >= *)
  if used a <? used b then
    (if neg_top then sgn (top b) <? 0 else 0 <=? sgn (top b))
  else if used b <? used a then
    (if neg_top then 0 <=? sgn (top a) else sgn (top a) <? 0)
  else if negb (top a =? top b) then
    (if neg_top then sgn (top b) <? sgn (top a) else sgn (top a) <? sgn (top b))
  else rel_down lt fin (below_top a) (below_top b).
Definition lt (a b : bigint) := rel_op false Z.ltb Z.ltb a b.
Definition le (a b : bigint) := rel_op false Z.ltb Z.leb a b.
Definition gt (a b : bigint) := rel_op true (fun x y => y <? x) (fun x y => y <? x) a b.
Definition ge (a b : bigint) := rel_op true (fun x y => y <? x) (fun x y => y <=? x) a b.
(** Overloads taking int: big_int.h 518-524, 567-573, 593-599, 619-625, 627-630. *)
Definition lt_int (a : bigint) (o : Z) : bool :=
  if 1 <? used a then sgn (top a) <? 0 else sgn (first a) <? o.
Definition le_int (a : bigint) (o : Z) : bool :=
  if 1 <? used a then sgn (top a) <? 0 else sgn (first a) <=? o.
Definition gt_int (a : bigint) (o : Z) : bool :=
  if 1 <? used a then 0 <=? sgn (top a) else o <? sgn (first a).
Definition ge_int (a : bigint) (o : Z) : bool :=
  if 1 <? used a then 0 <=? sgn (top a) else o <=? sgn (first a).
Definition eq_int (a : bigint) (o : Z) : bool :=
  (used a =? 1) && (first a =? wrap o).

(** operator==: big_int.h 632-639; != (641-648) is its mirror image. *)
Fixpoint words_eq (a b : list Z) : bool :=
  match a, b with
  | [], [] => true
  | x :: a', y :: b' => (x =? y) && words_eq a' b'
  | _, _ => false
  end.
Definition eq (a b : bigint) : bool :=
  if negb (used a =? used b) then false else words_eq (rev a) (rev b).
Fixpoint words_ne (a b : list Z) : bool :=
  match a, b with
  | [], [] => false
  | x :: a', y :: b' => negb (x =? y) || words_ne a' b'
  | _, _ => true
  end.
Definition ne (a b : bigint) : bool :=
  if negb (used a =? used b) then true else words_ne (rev a) (rev b).

(** LessThan(flip, other): big_int.h 526-547. *)
Fixpoint flip_down (uf : Z) (a b : list Z) : bool :=
  match a, b with
  | [x], [y] => Z.lxor x uf <? Z.lxor y uf
  | x :: a', y :: b' =>
      if negb (x =? y) then Z.lxor x uf <? Z.lxor y uf else flip_down uf a' b'
  | _, _ => false
  end.
Definition less_than (flip : bool) (a b : bigint) : bool :=
  let sf := 0 - b2z flip in
  if used a <? used b then 0 <=? Z.lxor (sgn (top b)) sf
  else if used b <? used a then Z.lxor (sgn (top a)) sf <? 0
  else if negb (top a =? top b) then Z.lxor (sgn (top a)) sf <? Z.lxor (sgn (top b)) sf
  else flip_down (wrap sf) (below_top a) (below_top b).

(** GetSign: big_int.h 767-770. *)
Definition get_sign (a : bigint) : Z := Z.lor (sgn (top a)) (extra_size a).
(** IsZero: big_int.h 772-774. *)
Definition is_zero (a : bigint) : bool := get_sign a =? 0.
(** IsNegative: big_int.h 776-778. *)
Definition is_negative (a : bigint) : bool := sign_ext_s a <? 0.
(** GetAbsMult(): big_int.h 782-785. *)
Definition get_abs_mult (a : bigint) : Z := Z.lor (sgn (wsign_ext (top a))) 1.
(** GetAbsMult(other): big_int.h 789-791. *)
Definition get_abs_mult2 (a b : bigint) : Z :=
  Z.lor (Z.lxor (sign_ext_s a) (sign_ext_s b)) 1.
(** HasSameSign / HasDifferentSign: big_int.h 793-799. *)
Definition has_same_sign (a b : bigint) : bool := 0 <=? Z.lxor (get_sign a) (get_sign b).
Definition has_different_sign (a b : bigint) : bool := Z.lxor (get_sign a) (get_sign b) <? 0.

(** GetHash: big_int.h 823-829. *)
Definition get_hash (a : bigint) : Z := wrap (fold_left Z.lxor a 0 + used a).

(** abs(): big_int.h 731-740. *)
Definition abs (a : bigint) : option bigint :=
  if used a =? 1 then
    match wsigned_abs (first a) with Some v => Some (of_int (sgn v)) | None => None end
  else if 0 <=? sgn (top a) then Some a else Some (neg a).
(** GetAbs: big_int.h 742-749. *)
Definition get_abs (a : bigint) : bigint * bool :=
  let s := get_sign a <? 0 in (if s then neg a else a, s).

(** max_value / min_value: big_int.cpp 9-41.  The bit loops are folds over the
    bit indices. *)
Fixpoint set_bits (n : nat) : Z :=
  match n with O => 0 | S k => Z.lor (set_bits k) (wshl 1 (Z.of_nat k)) end.
Fixpoint clear_bits (n : nat) : Z :=
  match n with O => W - 1 | S k => Z.land (clear_bits k) (wnot (wshl 1 (Z.of_nat k))) end.
Definition max_value (n : Z) : bigint :=
  let size := (n + bits_per_word) / bits_per_word in
  let last_bits := n - (size - 1) * bits_per_word in
  trim (repeat (W - 1) (Z.to_nat (size - 1)) ++ [set_bits (Z.to_nat last_bits)]).
Definition min_value (n : Z) : bigint :=
  let size := (n + bits_per_word) / bits_per_word in
  let last_bits := n - (size - 1) * bits_per_word in
  trim (repeat 0 (Z.to_nat (size - 1)) ++ [clear_bits (Z.to_nat last_bits)]).
