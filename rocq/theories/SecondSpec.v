(** What the lists of polygons and the index map of ApplyPrimary say about the
    coordinates in another dimension. *)
From Coq Require Import List ZArith QArith Arith.
From Verif Require Import BigUIntModel GeoModel GeoSpec EvtModel EvtSpec PrimModel.
Import ListNotations.
Open Scope Q_scope.

(** Intervals [a, b] and [a', b'] that are the extents of two parts of a polygon
    with extent [l, h]: the smallest interval around both is [l, h], and they are
    longer than a point unless [l, h] is a point. *)
Definition parts (l h a b a' b' : Q) : Prop :=
  l <= a /\ l <= a' /\ (a == l \/ a' == l) /\ b <= h /\ b' <= h /\ (b == h \/ b' == h) /\ a <= b /\ a' <= b' /\ (l < h -> a < b /\ a' < b').
(** [pmap] says for each polygon of [ps] which of the polygons of [negs] and [poss]
    it has become: those with the same number below [extra] are two parts of one
    polygon, the others have not changed their extent.  [Gone] is a polygon in the
    split plane. *)
Record carried (d : nat) (ps negs poss : list epoly) (extra : nat) (pmap : list ref) : Prop := Carried {
  ca_length : length pmap = length ps;
  ca_extra : (extra <= length negs)%nat /\ (extra <= length poss)%nat;
  ca_split : forall q c, nth_error pmap q = Some (Idx c) -> (c < extra)%nat -> parts (lo d ps q) (hi d ps q) (lo d negs c) (hi d negs c) (lo d poss c) (hi d poss c);
  ca_neg : forall q c, nth_error pmap q = Some (Idx c) -> (extra <= c < length negs)%nat -> lo d negs c == lo d ps q /\ hi d negs c == hi d ps q;
  ca_pos : forall q c, nth_error pmap q = Some (Idx c) -> (length negs <= c)%nat ->
    (extra <= c - length negs < length poss)%nat /\ lo d poss (c - length negs) == lo d ps q /\ hi d poss (c - length negs) == hi d ps q;
  ca_onto : forall c, (c < length negs \/ length negs + extra <= c < length negs + length poss)%nat -> exists q, nth_error pmap q = Some (Idx c);
  ca_once : forall q q' c, nth_error pmap q = Some (Idx c) -> nth_error pmap q' = Some (Idx c) -> q = q' }.
