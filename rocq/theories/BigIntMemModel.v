(** In-place operators of [BigInt] on their actual word storage
    (include/walnut/big_int.h 267-405, big_int_words.h).  Storage, [res], [rd]
    and [resize] are those of [BigUIntModel]. *)
From Coq Require Import ZArith List Bool.
From Verif Require Import WordModel BigIntModel BigUIntModel.
Import ListNotations.
Open Scope Z_scope.

(** words_[i] = w: big_int_words.h 100-107.  In a release build writing past
    size() but within the capacity goes through; past the capacity is UB. *)
Definition wr (dbg : bool) (m : mem) (i : nat) (w : Z) : res mem :=
  _ <- check dbg (Nat.ltb i (mused m)) ;;
  if Nat.ltb i (length (cells m)) then Ok (set_cell m i w) else UB.

(** The right-hand operand of an in-place operator: another object, or the
    very object being updated. *)
Inductive operand := Other (ws : list Z) | Self.
(** other.words_[i]. *)
Definition rd_op (dbg : bool) (m : mem) (o : operand) (i : nat) : res Z :=
  match o with
  | Other ws => match nth_error ws i with Some w => Ok w | None => if dbg then AssertFail else UB end
  | Self => rd dbg m i
  end.
(** other.used_words(). *)
Definition used_op (m : mem) (o : operand) : nat :=
  match o with Other ws => length ws | Self => mused m end.
(** SignExtension() of the operand: big_int.h 803-805. *)
Definition op_top (dbg : bool) (m : mem) (o : operand) : res Z := rd_op dbg m o (used_op m o - 1).

(** Trim(): big_int.h 844-859 on storage; trimming only changes size(). *)
Fixpoint strim_used (cs : list (option Z)) (n : nat) : res nat :=
  match n with
  | S ((S n'') as n') =>
      match nth_error cs n', nth_error cs n'' with
      | Some (Some hi), Some (Some lo) => if can_trim lo hi then strim_used cs n' else Ok n
      | _, _ => UB
      end
  | _ => Ok n
  end.
Definition strim (m : mem) : res mem :=
  n <- strim_used (cells m) (mused m) ;; Ok (Mem (cells m) n).

(** The three loops of operator+= / operator-=: big_int.h 278-286 / 348-356. *)
Fixpoint ip_common (f : Z -> Z -> bool -> Z * bool) (dbg : bool) (n i : nat) (m : mem) (o : operand) (c : bool)
  : res (nat * mem * bool) :=
  match n with
  | O => Ok (i, m, c)
  | S n' =>
      x <- rd dbg m i ;; y <- rd_op dbg m o i ;;
      m' <- wr dbg m i (fst (f x y c)) ;;
      ip_common f dbg n' (S i) m' o (snd (f x y c))
  end.
Fixpoint ip_mine (f : Z -> Z -> bool -> Z * bool) (dbg : bool) (n i : nat) (m : mem) (eb : Z) (c : bool)
  : res (nat * mem * bool) :=
  match n with
  | O => Ok (i, m, c)
  | S n' =>
      x <- rd dbg m i ;;
      m' <- wr dbg m i (fst (f x eb c)) ;;
      ip_mine f dbg n' (S i) m' eb (snd (f x eb c))
  end.
Fixpoint ip_other (f : Z -> Z -> bool -> Z * bool) (dbg : bool) (n i : nat) (m : mem) (o : operand) (ea : Z) (c : bool)
  : res (nat * mem * bool) :=
  match n with
  | O => Ok (i, m, c)
  | S n' =>
      y <- rd_op dbg m o i ;;
      m' <- wr dbg m i (fst (f ea y c)) ;;
      ip_other f dbg n' (S i) m' o ea (snd (f ea y c))
  end.
(** operator+=(const BigInt&): big_int.h 272-293; operator-=(const BigInt&):
    342-363.  [f] is the word addition or subtraction with carry. *)
Definition ip_slow (f : Z -> Z -> bool -> Z * bool) (dbg : bool) (m : mem) (o : operand) : res mem :=
  let common := Nat.min (mused m) (used_op m o) in
  ta <- rd dbg m (mused m - 1) ;;
  tb <- op_top dbg m o ;;
  let ea := wsign_ext ta in
  let eb := wsign_ext tb in
  let old := mused m in
  let m0 := resize m (Nat.max old (used_op m o) + 1) in
  s1 <- ip_common f dbg common 0 m0 o false ;;
  let '(i1, m1, c1) := s1 in
  s2 <- ip_mine f dbg (old - i1) i1 m1 eb c1 ;;
  let '(i2, m2, c2) := s2 in
  s3 <- ip_other f dbg (used_op m2 o - i2) i2 m2 o ea c2 ;;
  let '(i3, m3, c3) := s3 in
  m4 <- wr dbg m3 i3 (fst (f ea eb c3)) ;;
  _ <- check dbg (Nat.eqb (mused m4) (S i3)) ;;
  strim m4.
(** AllHalfWords(this, other): big_int.h 84-95. *)
Definition op_half (dbg : bool) (m : mem) (o : operand) : res bool :=
  x <- rd dbg m 0 ;; y <- rd_op dbg m o 0 ;;
  Ok (Z.lor (high32 (Z.lor (wadd x low_sign_bit) (wadd y low_sign_bit)))
            (Z.lor (Z.of_nat (mused m) - 1) (Z.of_nat (used_op m o) - 1)) =? 0).
(** The half-word path: big_int.h 268-271, 334-341 ([resize(1)] on a one-word
    number changes nothing). *)
Definition plus_assign (dbg : bool) (m : mem) (o : operand) : res mem :=
  h <- op_half dbg m o ;;
  if (h : bool) then x <- rd dbg m 0 ;; y <- rd_op dbg m o 0 ;; wr dbg m 0 (wadd x y)
  else ip_slow wadd_c dbg m o.
Definition minus_assign (dbg : bool) (m : mem) (o : operand) : res mem :=
  h <- op_half dbg m o ;;
  if (h : bool) then x <- rd dbg m 0 ;; y <- rd_op dbg m o 0 ;; wr dbg m 0 (wsub x y)
  else ip_slow wsub_c dbg m o.

(** IsHalfWord(): big_int.h 114-116. *)
Definition mis_half (dbg : bool) (m : mem) : res bool :=
  if Nat.eqb (mused m) 1 then x <- rd dbg m 0 ;; Ok (can_trim_last_half x) else Ok false.
(** operator+=(BigIntHalfWord): big_int.h 295-306; operator-=(BigIntHalfWord):
    365-376.  [v] is the int. *)
Definition plus_assign_int (dbg : bool) (m : mem) (v : Z) : res mem :=
  h <- mis_half dbg m ;;
  if (h : bool) then x <- rd dbg m 0 ;; wr dbg m 0 (wadd x (wrap v)) else plus_assign dbg m (Other (of_int v)).
Definition minus_assign_int (dbg : bool) (m : mem) (v : Z) : res mem :=
  h <- mis_half dbg m ;;
  if (h : bool) then x <- rd dbg m 0 ;; wr dbg m 0 (wsub x (wrap v)) else minus_assign dbg m (Other (of_int v)).

(** operator++: big_int.h 308-331.  The loop over the lower words returns from
    the operator ([inl]) at the first word that does not wrap around. *)
Fixpoint incr_low (dbg : bool) (n i : nat) (m : mem) : res (mem + mem) :=
  match n with
  | O => Ok (inr m)
  | S n' =>
      x <- rd dbg m i ;;
      m' <- wr dbg m i (wadd x 1) ;;
      if negb (wadd x 1 =? 0) then Ok (inl m') else incr_low dbg n' (S i) m'
  end.
Definition incr (dbg : bool) (m : mem) : res mem :=
  h <- mis_half dbg m ;;
  if (h : bool) then x <- rd dbg m 0 ;; wr dbg m 0 (wadd x 1)
  else
    s <- incr_low dbg (mused m - 1) 0 m ;;
    match s with
    | inl m' => Ok m'
    | inr m1 =>
        let i := (mused m - 1)%nat in
        x <- rd dbg m1 i ;;
        m2 <- wr dbg m1 i (wadd x 1) ;;
        if wadd x 1 =? HW then wr dbg m2 (S i) 0   (* no resize before this write *)
        else strim m2
    end.
(** operator--: big_int.h 379-403.  [++words_[i] = -1] also reads the fresh
    word before overwriting it; that read of an indeterminate value is not
    modelled. *)
Fixpoint decr_low (dbg : bool) (n i : nat) (m : mem) : res (mem + mem) :=
  match n with
  | O => Ok (inr m)
  | S n' =>
      x <- rd dbg m i ;;
      m' <- wr dbg m i (wsub x 1) ;;
      if negb (sgn (wsub x 1) =? -1) then Ok (inl m') else decr_low dbg n' (S i) m'
  end.
Definition decr (dbg : bool) (m : mem) : res mem :=
  h <- mis_half dbg m ;;
  if (h : bool) then x <- rd dbg m 0 ;; wr dbg m 0 (wsub x 1)
  else
    s <- decr_low dbg (mused m - 1) 0 m ;;
    match s with
    | inl m' => Ok m'
    | inr m1 =>
        let i := (mused m - 1)%nat in
        x <- rd dbg m1 i ;;
        m2 <- wr dbg m1 i (wsub x 1) ;;
        if sgn (wsub x 1) =? HW - 1 then wr dbg (resize m2 (S (mused m2))) (S i) (wrap (-1))
        else strim m2
    end.
