(** What it means for a number's storage to hold a word list. *)
From Coq Require Import ZArith List.
From Verif Require Import BigUIntModel.
Import ListNotations.

(** [m] has [size()] words and they are [a]; whatever lies beyond size() within
    the allocated capacity is arbitrary. *)
Definition stored (m : mem) (a : list Z) : Prop :=
  mused m = length a /\ exists spare, cells m = map Some a ++ spare.
(** No allocated capacity beyond size(). *)
Definition no_spare (m : mem) : Prop := length (cells m) = mused m.
