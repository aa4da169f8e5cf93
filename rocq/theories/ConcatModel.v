(** Executable model of ConcatRange and its iterators
    (include/walnut/concat_range.h).

    An input iterator is either value-initialised or a position in one of the
    underlying containers; [size c] is the length of container [c].
    Dereferencing, incrementing or decrementing outside a container, and
    reading outside ranges_, is undefined behaviour.  Copies of pointers into
    ranges_ made before a modification of the same object are not modelled. *)
From Coq Require Import List Bool Arith.
From Verif Require Import BigUIntModel.
Import ListNotations.

Inductive iter := Null | At (container index : nat).
Definition iter_eqb (a b : iter) : bool :=
  match a, b with
  | Null, Null => true
  | At c i, At c' i' => (c =? c') && (i =? i')
  | _, _ => false
  end.
(** The element positions between two input iterators. *)
Definition range : Type := iter * iter.
(** ranges_, concat_range.h 138. *)
Definition concat_range : Type := list range.
(** ConcatRange::ConcatRange, 33. *)
Definition cr_new : concat_range := [(Null, Null)].
(** Append(InputIterator, InputIterator), 35-43: back() is overwritten and a
    terminator added. *)
Definition cr_append (r : concat_range) (s e : iter) : concat_range :=
  if iter_eqb s e then r else removelast r ++ [(s, e)] ++ [(Null, Null)].
(** Prepend(InputIterator, InputIterator), 62-66. *)
Definition cr_prepend (r : concat_range) (s e : iter) : concat_range :=
  if iter_eqb s e then r else (s, e) :: r.
(** Clear, 80-84. *)
Definition cr_clear (r : concat_range) : concat_range := [(Null, Null)].

(** ConcatRangeIteratorHelper, 291-293: range_pos_ as an index, and pos_. *)
Record cit := CIt { ci_range : nat; ci_pos : iter }.
(** range_begin and range_end, 276-282. *)
Definition range_at (r : concat_range) (k : nat) : res range :=
  match nth_error r k with Some p => Ok p | None => UB end.
(** begin and end, 86-108. *)
Definition cr_begin (r : concat_range) : res cit := p <- range_at r 0 ;; Ok (CIt 0 (fst p)).
Definition cr_end (r : concat_range) : res cit := p <- range_at r (length r - 1) ;; Ok (CIt (length r - 1) (fst p)).
(** AdvanceRange, 285-289. *)
Definition advance_range (r : concat_range) (a : cit) : res cit :=
  p <- range_at r (S (ci_range a)) ;; Ok (CIt (S (ci_range a)) (fst p)).
(** operator++ and operator-- of the input iterator. *)
Definition in_inc (size : nat -> nat) (a : iter) : res iter :=
  match a with Null => UB | At c i => if i <? size c then Ok (At c (S i)) else UB end.
Definition in_dec (a : iter) : res iter :=
  match a with At c (S i) => Ok (At c i) | _ => UB end.
(** operator++, 203-209. *)
Definition ci_inc (size : nat -> nat) (r : concat_range) (a : cit) : res cit :=
  p <- in_inc size (ci_pos a) ;;
  q <- range_at r (ci_range a) ;;
  if iter_eqb p (snd q) then advance_range r (CIt (ci_range a) p) else Ok (CIt (ci_range a) p).
(** operator--, 252-259. *)
Definition ci_dec (r : concat_range) (a : cit) : res cit :=
  q <- range_at r (ci_range a) ;;
  b <- (if iter_eqb (ci_pos a) (fst q) then
          match ci_range a with
          | O => UB
          | S k => q' <- range_at r k ;; Ok (CIt k (snd q'))
          end
        else Ok a) ;;
  p <- in_dec (ci_pos b) ;;
  Ok (CIt (ci_range b) p).
(** operator==, 233-238. *)
Definition ci_eqb (a b : cit) : bool := (ci_range a =? ci_range b) && iter_eqb (ci_pos a) (ci_pos b).
(** operator*, 198-200. *)
Definition ci_deref {A} (mem : nat -> list A) (a : cit) : res A :=
  match ci_pos a with
  | Null => UB
  | At c i => match nth_error (mem c) i with Some x => Ok x | None => UB end
  end.
(** Distance between two input iterators of one container. *)
Definition in_diff (e s : iter) : res nat :=
  match e, s with
  | Null, Null => Ok O
  | At c j, At c' i => if (c =? c') && (i <=? j) then Ok (j - i) else UB
  | _, _ => UB
  end.
(** operator+(size_t), 222-231; every iteration moves to another range, so
    length r iterations suffice. *)
Fixpoint ci_plus_loop (fuel : nat) (r : concat_range) (a : cit) (index : nat) : res cit :=
  match fuel with
  | O => NoFuel
  | S f =>
    q <- range_at r (ci_range a) ;;
    range_size <- in_diff (snd q) (ci_pos a) ;;
    if index <? range_size then Ok a
    else b <- advance_range r a ;; ci_plus_loop f r b (index - range_size)
  end.
Definition ci_plus (r : concat_range) (a : cit) (index : nat) : res cit := ci_plus_loop (S (length r)) r a index.

(** The loop of Append(const_iterator, const_iterator), 49-56; the iterators
    belong to another ConcatRange [o].  Returns the ranges to add. *)
Fixpoint append_loop (fuel : nat) (o : concat_range) (start stop : cit) : res (list range) :=
  match fuel with
  | O => NoFuel
  | S f =>
    if ci_range start =? ci_range stop then
      Ok (if iter_eqb (ci_pos start) (ci_pos stop) then [] else [(ci_pos start, ci_pos stop)])
    else
      q <- range_at o (ci_range start) ;;
      b <- advance_range o start ;;
      t <- append_loop f o b stop ;;
      Ok ((ci_pos start, snd q) :: t)
  end.
(** Append(const_iterator, const_iterator), 45-60. *)
Definition cr_append_from (r o : concat_range) (start stop : cit) : res concat_range :=
  t <- append_loop (S (length o)) o start stop ;; Ok (removelast r ++ t ++ [(Null, Null)]).
(** std::rotate(first, n_first, last). *)
Definition rotate {A} (k : nat) (l : list A) : list A := skipn k l ++ firstn k l.
(** Prepend(const_iterator, const_iterator), 68-78. *)
Definition cr_prepend_from (r o : concat_range) (start stop : cit) : res concat_range :=
  r' <- cr_append_from r o start stop ;;
  let n_first := length r' - length r in
  Ok (rotate n_first (removelast r') ++ [last r' (Null, Null)]).

(** Walking with operator++ from one iterator to another; [None] if more than
    [fuel] increments are needed. *)
Fixpoint walk (fuel : nat) (size : nat -> nat) (r : concat_range) (a stop : cit) : res (list cit) :=
  if ci_eqb a stop then Ok []
  else match fuel with
       | O => NoFuel
       | S f => b <- ci_inc size r a ;; t <- walk f size r b stop ;; Ok (a :: t)
       end.
(** Walking backwards: the iterators visited by --a until [stop]. *)
Fixpoint walk_back (fuel : nat) (r : concat_range) (a stop : cit) : res (list cit) :=
  if ci_eqb a stop then Ok []
  else match fuel with
       | O => NoFuel
       | S f => b <- ci_dec r a ;; t <- walk_back f r b stop ;; Ok (b :: t)
       end.
(** n times operator++. *)
Fixpoint ci_inc_n (n : nat) (size : nat -> nat) (r : concat_range) (a : cit) : res cit :=
  match n with O => Ok a | S n => b <- ci_inc size r a ;; ci_inc_n n size r b end.

(** A program using one or more ConcatRange objects. *)
Inductive history :=
| HNew
| HAppend (h : history) (c i j : nat)
| HPrepend (h : history) (c i j : nat)
| HClear (h : history)
| HAppendFrom (h o : history) (n m : nat)
| HPrependFrom (h o : history) (n m : nat).
Fixpoint run (size : nat -> nat) (h : history) : res concat_range :=
  match h with
  | HNew => Ok cr_new
  | HAppend h c i j => r <- run size h ;; Ok (cr_append r (At c i) (At c j))
  | HPrepend h c i j => r <- run size h ;; Ok (cr_prepend r (At c i) (At c j))
  | HClear h => r <- run size h ;; Ok (cr_clear r)
  | HAppendFrom h o n m =>
      r <- run size h ;; o' <- run size o ;; b <- cr_begin o' ;;
      s <- ci_inc_n n size o' b ;; e <- ci_inc_n m size o' b ;; cr_append_from r o' s e
  | HPrependFrom h o n m =>
      r <- run size h ;; o' <- run size o ;; b <- cr_begin o' ;;
      s <- ci_inc_n n size o' b ;; e <- ci_inc_n m size o' b ;; cr_prepend_from r o' s e
  end.
