(** Independent specification of what a word list denotes. *)
From Coq Require Import ZArith List.
From Verif Require Import WordModel.
Import ListNotations.
Open Scope Z_scope.

(** A 64 bit unsigned word. *)
Definition is_word (w : Z) : Prop := 0 <= w < 2 ^ 64.

(** Two's complement reading of a little-endian word list: all words but the
    last are unsigned digits in base 2^64, the last one is signed. *)
Fixpoint value (a : list Z) : Z :=
  match a with
  | [] => 0
  | [w] => if w <? 2 ^ 63 then w else w - 2 ^ 64
  | w :: a' => w + 2 ^ 64 * value a'
  end.

(** Unsigned reading. *)
Fixpoint uvalue (a : list Z) : Z :=
  match a with [] => 0 | w :: a' => w + 2 ^ 64 * uvalue a' end.

(** A well-formed number: at least one word, every word in range. *)
Definition wf (a : list Z) : Prop := a <> [] /\ Forall is_word a.

(** Canonical: no well-formed list denoting the same integer is shorter. *)
Definition canonical (a : list Z) : Prop :=
  wf a /\ forall b, wf b -> value b = value a -> (length a <= length b)%nat.
