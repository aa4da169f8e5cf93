(** Decompositions of polygons bounded by two chains into convex polygons. *)
From Coq Require Import List ZArith QArith.
From Verif Require Import BigUIntModel GeoModel GeoSpec CvxSpec TriModel TriSpec.
Import ListNotations.
Open Scope Q_scope.
(** No two of the points are the same. *)
Definition all_distinct (l : list qpoint2) : Prop := forall i j a b, i <> j -> nth_error l i = Some a -> nth_error l j = Some b -> ~ qp2_eq a b.
(** Where a chain runs along a vertical line it does not turn back. *)
Definition straight_runs (l : list qpoint2) : Prop := forall i j k a b c, (i < j)%nat -> (j < k)%nat ->
  nth_error l i = Some a -> nth_error l j = Some b -> nth_error l k = Some c -> qx2 a == qx2 b -> qx2 b == qx2 c -> 0 < (qy2 b - qy2 a) * (qy2 c - qy2 b).
(** No vertex of the bottom chain is straight above one of the top chain. *)
Definition upright_chains (top bottom : list qpoint2) : Prop := forall a b, In a bottom -> In b top -> qx2 a == qx2 b -> qy2 a <= qy2 b.
(** A chain without vertical edges. *)
Definition strictly_rightwards (l : list qpoint2) : Prop := forall a b, In (a, b) (path_edges l) -> qx2 a < qx2 b.
(** An emitted polygon: -1 for a counter-clockwise convex polygon, 1 for a
    clockwise one, 0 for points on one line. *)
Definition flat (l : list qpoint2) : Prop := forall a b c, In a l -> In b l -> In c l -> turn a b c == 0.
Definition oriented (o : Z) (l : list qpoint2) : Prop :=
  (o = (-1)%Z /\ convex_cycle 1 l) \/ (o = 1%Z /\ convex_cycle (-1) l) \/ (o = 0%Z /\ flat l).
(** The results of Get2DTwistDir fit in a 64 bit word, and none is its minimum. *)
Definition twists_fit {P} (k : kind P) (drop : nat) (l : list P) : Prop :=
  forall a b c, In a l -> In b l -> In c l -> (- 2 ^ 63 < k_twist k drop c a b < 2 ^ 63)%Z.
(** Points of the homogeneous coordinates, in lowest terms. *)
Definition hp_reduced (p : hpoint3) : Q * Q * Q := (Qred (qx (hp_point p)), Qred (qy (hp_point p)), Qred (qz (hp_point p))).
