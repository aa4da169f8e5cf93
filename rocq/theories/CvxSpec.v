(** Convex cycles of points of the rational plane. *)
From Coq Require Import List ZArith QArith.
From Verif Require Import BigUIntModel GeoModel GeoSpec.
Import ListNotations.
Open Scope Q_scope.
(** The points of l, in their cyclic order, are the vertices of a convex
    polygon: any three of them, taken in order, turn in the direction given by
    the sign of s or not at all; neighbours are distinct; and they do not all lie
    on one line.  (Vertices in the middle of a straight side are allowed.) *)
Definition in_convex_position (s : Q) (l : list qpoint2) : Prop :=
  forall i j k a b c, (i < j)%nat -> (j < k)%nat -> nth_error l i = Some a -> nth_error l j = Some b -> nth_error l k = Some c -> 0 <= s * turn a b c.
Definition neighbours_distinct (l : list qpoint2) : Prop :=
  forall i a b, nth_error l i = Some a -> nth_error l (S i mod length l) = Some b -> ~ qp2_eq a b.
Definition not_in_line (l : list qpoint2) : Prop := exists a b c, In a l /\ In b l /\ In c l /\ ~ turn a b c == 0.
Definition convex_cycle (s : Q) (l : list qpoint2) : Prop := in_convex_position s l /\ neighbours_distinct l /\ not_in_line l.
(** The points of the polygon: those on the inner side of every side. *)
Definition in_polygon (s : Q) (l : list qpoint2) (q : qpoint2) : Prop :=
  forall i a b, nth_error l i = Some a -> nth_error l (S i mod length l) = Some b -> 0 <= s * turn a b q.
