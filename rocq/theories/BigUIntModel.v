(** Executable model of [BigUInt] (include/walnut/big_uint.h), of division,
    remainder, GCD and printing of [BigInt], and of the word storage they rely
    on (include/walnut/big_int_words.h). *)
From Coq Require Import ZArith List Bool.
From Verif Require Import WordModel BigIntModel.
Import ListNotations.
Open Scope Z_scope.

(** Outcome of a computation.  [AssertFail]: a debug assertion fires (only when
    [dbg] is true).  [UB]: undefined behaviour.  [NoFuel]: the model ran out of
    loop fuel (excluded by the theorems). *)
Inductive res (A : Type) := Ok (a : A) | AssertFail | UB | NoFuel.
Arguments Ok {A}. Arguments AssertFail {A}. Arguments UB {A}. Arguments NoFuel {A}.
Definition rbind {A B} (r : res A) (f : A -> res B) : res B :=
  match r with Ok a => f a | AssertFail => AssertFail | UB => UB | NoFuel => NoFuel end.
Notation "x <- r ;; e" := (rbind r (fun x => e)) (at level 60, r at next level, right associativity).
Definition check (dbg cond : bool) : res unit :=
  if dbg && negb cond then AssertFail else Ok tt.

(** ** Storage: big_int_words.h.
    [cells] are [first_] followed by the [capacity] words of [extra_]; [None] is
    memory that malloc returned and nobody wrote.  [mused] is [size()]. *)
Record mem := Mem { cells : list (option Z); mused : nat }.

(** resize(used_words): big_int_words.h 133-146. *)
Definition resize (m : mem) (n : nat) : mem :=
  if Nat.ltb (length (cells m)) n
  then Mem (firstn (mused m) (cells m) ++ repeat None (n - mused m)) n
  else Mem (cells m) n.
(** Writing [init] into the cells [from, to): the loop of resize(used, init). *)
Fixpoint fill (cs : list (option Z)) (skip n : nat) (v : Z) : list (option Z) :=
  match cs with
  | [] => []
  | c :: cs' =>
      match skip with
      | S s => c :: fill cs' s n v
      | O => match n with O => cs | S n' => Some v :: fill cs' O n' v end
      end
  end.
(** resize(used_words, init): big_int_words.h 150-166.  It never shrinks. *)
Definition resize_init (m : mem) (n : nat) (v : Z) : mem :=
  let cs := if Nat.ltb (length (cells m)) n
            then firstn (mused m) (cells m) ++ repeat None (n - mused m) else cells m in
  Mem (fill cs (mused m) (n - mused m) v) (Nat.max (mused m) n).

(** operator[]: big_int_words.h 91-107.  In a debug build the index must be
    below size(); in a release build only below the capacity. *)
Definition rd (dbg : bool) (m : mem) (i : nat) : res Z :=
  _ <- check dbg (Nat.ltb i (mused m)) ;;
  match nth_error (cells m) i with Some (Some w) => Ok w | _ => UB end.

(** Trim(): big_uint.h 230-244 (CanTrim 222-224: the high word is zero).  Only
    [size()] changes, the trimmed cells keep their zero. *)
Fixpoint trim_used (cs : list (option Z)) (n : nat) : res nat :=
  match n with
  | S ((S _) as n') =>
      match nth_error cs n' with
      | Some (Some w) => if w =? 0 then trim_used cs n' else Ok n
      | _ => UB
      end
  | _ => Ok n
  end.
Definition mtrim (m : mem) : res mem :=
  n <- trim_used (cells m) (mused m) ;; Ok (Mem (cells m) n).

(** The words [0, size()), as read by a copy. *)
Fixpoint somes (cs : list (option Z)) : res (list Z) :=
  match cs with
  | [] => Ok []
  | Some w :: cs' => l <- somes cs' ;; Ok (w :: l)
  | None :: _ => UB
  end.
Definition words (m : mem) : res (list Z) := somes (firstn (mused m) (cells m)).

(** ** Operations on whole numbers (all words initialised) *)
(** Trim() on a word list: big_uint.h 230-244. *)
Fixpoint utrim_rev (r : list Z) : list Z :=
  match r with
  | hi :: ((_ :: _) as r') => if hi =? 0 then utrim_rev r' else r
  | _ => r
  end.
Definition utrim (a : list Z) : list Z := rev (utrim_rev (rev a)).

(** IsHalfWord: big_uint.h 60-62, 226-228. *)
Definition uis_half (a : list Z) : bool := (used a =? 1) && (first a <=? 4294967295).

(** operator<<: big_uint.h 64-97.  The words below shift/64 other than word 0
    are never written.  [out] words precede; word 0 is 0 from the constructor. *)
Fixpoint ushl_loop (ws : list Z) (prev ls rs : Z) : list Z :=
  match ws with
  | [] => [wshr prev rs]
  | w :: ws' => Z.lor (wshl w ls) (wshr prev rs) :: ushl_loop ws' w ls rs
  end.
Definition ushl_mem (a : list Z) (shift : Z) : res mem :=
  if uis_half a && (shift <=? 32)
  then Ok (Mem [Some (wrap (Z.shiftl (first a) shift))] 1)
  else
    let out := Z.to_nat (shift / bits_per_word) in
    let ls := shift mod bits_per_word in
    let body := if 0 <? ls then ushl_loop a 0 ls (bits_per_word - ls) else a in
    let low := match out with O => [] | S k => Some 0 :: repeat None k end in
    let cs := low ++ map Some body in
    mtrim (Mem cs (length cs)).

(** Subtract: big_uint.h 99-124. *)
Fixpoint usub_loop (a b : list Z) (c : bool) : list Z * bool :=
  match a with
  | [] =>
      (fix rest (b : list Z) (c : bool) : list Z * bool :=
         match b with
         | [] => ([], c)
         | y :: b' => let '(r, c') := wsub_c 0 y c in let '(l, cf) := rest b' c' in (r :: l, cf)
         end) b c
  | x :: a' =>
      match b with
      | [] => let '(r, c') := wsub_carry x c in let '(l, cf) := usub_loop a' [] c' in (r :: l, cf)
      | y :: b' => let '(r, c') := wsub_c x y c in let '(l, cf) := usub_loop a' b' c' in (r :: l, cf)
      end
  end.
Definition usub (dbg : bool) (a b : list Z) : res (list Z) :=
  if uis_half a && uis_half b && (low32 (first b) <=? low32 (first a))
  then Ok [wsub (first a) (first b)]
  else
    let '(l, c) := usub_loop a b false in
    _ <- check dbg (negb c) ;;
    _ <- check dbg (Nat.eqb (length a) (Nat.max (length a) (length b))) ;;
    Ok (utrim l).

(** Multiply(BigUIntWord): big_uint.h 126-145 (MultiplyAsHalfWord:
    big_uint_word.h, product of the low halves). *)
Definition umul (a : list Z) (w : Z) : list Z :=
  if uis_half a && (w <=? 4294967295)
  then [low32 (first a) * low32 w]
  else utrim (mul_row0 w a 0).

(** operator>=: big_uint.h 156-165. *)
Definition uge (a b : list Z) : bool :=
  if used b <? used a then true
  else if used a <? used b then false
  else rel_down (fun x y => y <? x) (fun x y => y <=? x) (rev a) (rev b).

(** AddLeftShifted: big_uint.h 168-194.  The carry loop grows the number with
    resize(n), which leaves a fresh word unwritten. *)
Definition set_cell (m : mem) (i : nat) (w : Z) : mem :=
  Mem (firstn i (cells m) ++ Some w :: skipn (S i) (cells m)) (mused m).
Fixpoint carry_loop (fuel : nat) (dbg : bool) (m : mem) (pos : nat) (c : bool) : res (mem * nat) :=
  if c then
    match fuel with
    | O => NoFuel
    | S f =>
        let m1 := resize m (Nat.max (mused m) (pos + 1)) in
        w <- rd dbg m1 pos ;;
        let '(r, c') := wadd_carry w true in
        carry_loop f dbg (set_cell m1 pos r) (S pos) c'
    end
  else Ok (m, pos).
Definition add_left_shifted (dbg : bool) (m : mem) (add shift : Z) : res mem :=
  let pos := Z.to_nat (shift / bits_per_word) in
  let sm := shift mod bits_per_word in
  let old_used := mused m in
  let m1 := resize_init m (Nat.max (mused m) (pos + 1 + (if sm =? 0 then 0 else 1))) 0 in
  w <- rd dbg m1 pos ;;
  let '(r, c) := add_overflow w (wshl add sm) in
  let m2 := set_cell m1 pos r in
  mc <- (if sm =? 0 then Ok (m2, S pos, c)
         else
           w <- rd dbg m2 (S pos) ;;
           let '(r, c') := wadd_c w (wshr add (bits_per_word - sm)) c in
           Ok (set_cell m2 (S pos) r, S (S pos), c')) ;;
  let '(m3, pos3, c3) := mc in
  mp <- carry_loop (S (length (cells m3))) dbg m3 pos3 c3 ;;
  let '(m4, pos4) := mp in
  _ <- check dbg (Nat.eqb (mused m4) (Nat.max old_used pos4)) ;;
  mtrim m4.

(** SubtractLeftShifted: big_uint.h 197-231.  The loops walk the cells from
    index shift/64 on; [u] counts the cells still below size().  The borrow loop
    (225-227) and the last partial word (216-221) follow. *)
Fixpoint borrow_loop (dbg : bool) (u : nat) (cs : list (option Z)) (c : bool) : res (list (option Z)) :=
  match u with
  | O => _ <- check dbg (negb c) ;; Ok cs
  | S u' =>
      if c then
        match cs with
        | Some w :: cs' =>
            let '(r, c') := wsub_carry w true in
            l <- borrow_loop dbg u' cs' c' ;; Ok (Some r :: l)
        | _ => UB
        end
      else Ok cs
  end.
Fixpoint sub_loop (dbg : bool) (u : nat) (cs : list (option Z)) (other : list Z) (prev ls : Z) (c : bool)
  {struct other} : res (list (option Z)) :=
  match other with
  | [] =>
      if 0 <? ls then
        let p := wshr prev (bits_per_word - ls) in
        match u with
        | S u' =>
            match cs with
            | Some w :: cs' =>
                let '(r, c') := wsub_c w p c in
                l <- borrow_loop dbg u' cs' c' ;; Ok (Some r :: l)
            | _ => UB
            end
        | O => _ <- check dbg (p =? 0) ;; borrow_loop dbg O cs c
        end
      else borrow_loop dbg u cs c
  | o :: other' =>
      _ <- check dbg (Nat.ltb 0 u) ;;
      match cs with
      | Some w :: cs' =>
          let s := if 0 <? ls then Z.lor (wshl o ls) (wshr prev (bits_per_word - ls)) else o in
          let '(r, c') := wsub_c w s c in
          l <- sub_loop dbg (pred u) cs' other' o ls c' ;; Ok (Some r :: l)
      | _ => UB
      end
  end.
Definition subtract_left_shifted (dbg : bool) (m : mem) (other : list Z) (shift : Z) : res mem :=
  let out := Z.to_nat (shift / bits_per_word) in
  let ls := shift mod bits_per_word in
  if Nat.ltb (length (cells m)) out then UB else
  l <- sub_loop dbg (mused m - out) (skipn out (cells m)) other 0 ls false ;;
  mtrim (Mem (firstn out (cells m) ++ l) (mused m)).

(** ShiftRightWord: big_uint.h 233-240. *)
Definition shift_right_word (m : mem) : res mem :=
  match firstn (mused m) (cells m) with
  | [] => UB
  | _ :: l => mtrim (Mem (l ++ Some 0 :: skipn (mused m) (cells m)) (mused m))
  end.

(** GetAtBitOffset: big_uint.h 265-273. *)
Definition get_at (dbg : bool) (m : mem) (shift : Z) : res Z :=
  let i := Z.to_nat (shift / bits_per_word) in
  let off := shift mod bits_per_word in
  next <- (if Nat.ltb (i + 1) (mused m) then rd dbg m (i + 1) else Ok 0) ;;
  w <- rd dbg m i ;;
  Ok (wshift_right w next off).

(** DivideRemainderSlow, scaling of the divisor: big_uint.h 303-333.  Returns
    (other_shifted, other_shift_right). *)
Definition scale_divisor (b : list Z) : Z * Z :=
  let idx := Z.of_nat (length b) - 1 in
  let h := top b in
  let hb := whighest_set_bit h in
  let ws := hb - bits_per_word / 2 in
  let os0 := if hb <? 32
             then let s := wshl h (- ws) in
                  if 0 <? idx then Z.lor s (wshr (nth (length b - 2) b 0) (bits_per_word + ws)) else s
             else wshr h ws in
  let osr0 := idx * bits_per_word + ws in
  if low32 os0 =? 4294967295 then (2147483648, osr0 + 1) else (wadd os0 1, osr0).

(** First loop: big_uint.h 341-358.  State: this_shift_right_bits, quotient,
    remainder (scaled by 2^64). *)
Fixpoint div_loop1 (fuel : nat) (dbg : bool) (b : list Z) (os osr ts : Z) (q r : mem) : res (Z * mem * mem) :=
  if osr <=? ts then
    match fuel with
    | O => NoFuel
    | S f =>
        a <- get_at dbg r (ts + bits_per_word) ;;
        let sl := ts - osr in
        let d := a / os in
        q' <- add_left_shifted dbg q d sl ;;
        r' <- subtract_left_shifted dbg r (umul b d) (sl + bits_per_word) ;;
        _ <- (if dbg then
                if (ts + bits_per_word) / bits_per_word =? Z.of_nat (mused r') then Ok tt
                else w <- get_at dbg r' (ts + bits_per_word) ;; check dbg (w <=? 17179869184)
              else Ok tt) ;;
        div_loop1 f dbg b os osr (ts - 30) q' r'
    end
  else Ok (ts, q, r).
(** Second loop: big_uint.h 359-369. *)
Fixpoint div_loop2 (fuel : nat) (dbg : bool) (b : list Z) (os osr ts : Z) (q r : mem) : res (mem * mem) :=
  if osr <=? ts + 32 then
    match fuel with
    | O => NoFuel
    | S f =>
        a <- get_at dbg r (ts + bits_per_word) ;;
        let sr := osr - ts in
        let d := wshr (a / os) sr in
        q' <- add_left_shifted dbg q d 0 ;;
        r' <- subtract_left_shifted dbg r (umul b d) bits_per_word ;;
        div_loop2 f dbg b os osr (ts - 30) q' r'
    end
  else Ok (q, r).
(** DivideRemainderSlow: big_uint.h 279-379. *)
Definition udiv_slow (dbg : bool) (a b : list Z) : res (list Z * list Z) :=
  let '(os, osr) := scale_divisor b in
  r0 <- ushl_mem a bits_per_word ;;
  let ts := (Z.of_nat (length a) - 1) * bits_per_word in
  s1 <- div_loop1 (S (3 * length a + 2)) dbg b os osr ts (Mem [Some 0] 1) r0 ;;
  let '(ts1, q1, r1) := s1 in
  s2 <- div_loop2 4 dbg b os osr ts1 q1 r1 ;;
  let '(q2, r2) := s2 in
  w0 <- rd dbg r2 0 ;;
  _ <- check dbg (low32 w0 =? 0) ;;
  r3 <- shift_right_word r2 ;;
  rw <- words r3 ;;
  if uge rw b then
    rw' <- usub dbg rw b ;;
    q3 <- add_left_shifted dbg q2 1 0 ;;
    qw <- words q3 ;;
    Ok (qw, rw')
  else
    qw <- words q2 ;;
    Ok (qw, rw).
(** DivideRemainder: big_uint.h 148-154. *)
Definition udiv (dbg : bool) (a b : list Z) : res (list Z * list Z) :=
  if (used a =? 1) && (used b =? 1) then
    if first b =? 0 then UB else Ok ([first a / first b], [first a mod first b])
  else udiv_slow dbg a b.

(** ** Division of BigInt *)
(** GetUIntAbs: big_int.h 751-762 (BigUInt(words, used) trims: big_uint.h 42-45). *)
Definition get_uint_abs (a : bigint) : list Z * bool :=
  let s := sgn (top a) <? 0 in (utrim (if s then neg a else a), s).
(** BigInt(const BigUInt&): big_int.h 52-58; operator=(const BigUInt&): 129-137. *)
Definition of_uint (a : list Z) : bigint :=
  trim (if sgn (top a) <? 0 then a ++ [0] else a).
(** DivideRemainderSlow: big_int.cpp 141-160. *)
Definition div_slow (dbg : bool) (a b : bigint) : res (bigint * bigint) :=
  let '(ua, sa) := get_uint_abs a in
  let '(ub, sb) := get_uint_abs b in
  qr <- udiv dbg ua ub ;;
  let '(q, r) := qr in
  let r' := of_uint r in
  let q' := of_uint q in
  Ok (if xorb sa sb then neg q' else q', if sa then neg r' else r').
(** int64 division: undefined for a zero divisor and for INT64_MIN / -1. *)
Definition sdiv (x y : Z) : res (Z * Z) :=
  if y =? 0 then UB
  else if (x =? - HW) && (y =? -1) then UB
  else Ok (Z.quot x y, Z.rem x y).
(** DivideRemainder: big_int.h 681-688; operator/ (655-661) and operator%
    (691-699) return its first and second component. *)
Definition div_rem (dbg : bool) (a b : bigint) : res (bigint * bigint) :=
  if (used a =? 1) && (used b =? 1) then
    qr <- sdiv (sgn (first a)) (sgn (first b)) ;;
    Ok (of_int (fst qr), of_int (snd qr))
  else div_slow dbg a b.
(** DivideRemainder when [remainder_out] is the divisor object itself: the
    remainder is stored before the one-word quotient is computed. *)
Definition div_rem_into_divisor (dbg : bool) (a b : bigint) : res (bigint * bigint) :=
  if (used a =? 1) && (used b =? 1) then
    qr <- sdiv (sgn (first a)) (sgn (first b)) ;;
    let b' := of_int (snd qr) in
    qr2 <- sdiv (sgn (first a)) (sgn (first b')) ;;
    Ok (of_int (fst qr2), b')
  else div_slow dbg a b.

(** GetGreatestCommonDivisor: big_int.h 816-821.  The recursion runs on fuel. *)
Fixpoint gcd (fuel : nat) (dbg : bool) (a b : bigint) : res bigint :=
  if is_zero b then Ok a
  else match fuel with
       | O => NoFuel
       | S f => qr <- div_rem dbg a b ;; gcd f dbg b (snd qr)
       end.

(** operator<<(std::ostream&): big_int.cpp 121-139.  [n] is the number of free
    buffer positions left of the cursor; writing with none left is UB.  The
    result is the text left to right; digits are ASCII codes. *)
Fixpoint digits_loop (dbg : bool) (a : bigint) (n : nat) (acc : list Z) : res (list Z * bigint * nat) :=
  qr <- div_rem dbg a (of_int 10) ;;
  let '(q, d) := qr in
  match n, wsigned_abs (first d) with
  | S n', Some v =>
      let acc' := (low32 v + 48) :: acc in
      if negb (eq_int q 0) then digits_loop dbg q n' acc' else Ok (acc', d, n')
  | _, _ => UB
  end.
Definition print (dbg : bool) (a : bigint) : res (list Z) :=
  let size := (length a * 8 * 3 + 2)%nat in
  s <- digits_loop dbg a (size - 1) [] ;;
  let '(txt, d, n) := s in
  if get_sign d <? 0 then
    match n with O => UB | S _ => Ok (45 :: txt) end
  else Ok txt.
