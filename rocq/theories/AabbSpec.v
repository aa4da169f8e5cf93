(** Specification of boxes: the set of rational points between two corners. *)
From Coq Require Import ZArith QArith List.
From Verif Require Import BigUIntModel GeoModel GeoSpec AabbModel.
Import ListNotations.
Open Scope Q_scope.

(** Lower and upper bound of coordinate i. *)
Definition box_lo (b : aabb) (i : nat) : Q := inject_Z (comp (bmin b) i) / inject_Z (bden b).
Definition box_hi (b : aabb) (i : nat) : Q := inject_Z (comp (bmax b) i) / inject_Z (bden b).
(** The documented invariant: the denominator is positive. *)
Definition box_wf (b : aabb) : Prop := (0 < bden b)%Z.
Definition in_box (b : aabb) (q : qpoint) : Prop :=
  forall i, (i < 3)%nat -> box_lo b i <= qcomp q i /\ qcomp q i <= box_hi b i.
Definition on_border (b : aabb) (q : qpoint) : Prop :=
  in_box b q /\ exists i, (i < 3)%nat /\ (qcomp q i == box_lo b i \/ qcomp q i == box_hi b i).

(** The point (x/w, y/w, z/w), for w <> 0. *)
Definition value (p : hpoint3) : qpoint :=
  QP (inject_Z (vx (hv p)) / inject_Z (hw p)) (inject_Z (vy (hv p)) / inject_Z (hw p)) (inject_Z (vz (hv p)) / inject_Z (hw p)).
(** Every vertex is a finite point. *)
Definition finite (vs : list hpoint3) : Prop := Forall (fun v => hw v <> 0%Z) vs.
(** n/den is the largest (smallest) fraction with denominator den that is not
    above (below) q. *)
Definition floor_frac (q : Q) (den n : Z) : Prop :=
  inject_Z n / inject_Z den <= q /\ forall m, inject_Z m / inject_Z den <= q -> (m <= n)%Z.
Definition ceil_frac (q : Q) (den n : Z) : Prop :=
  q <= inject_Z n / inject_Z den /\ forall m, q <= inject_Z m / inject_Z den -> (n <= m)%Z.

(** A face of the box: four finite corners, counter-clockwise seen from
    outside, spanning exactly the part of the box on the face's plane, which
    has the whole box on its non-positive side. *)
Definition is_face (b : aabb) (h : hspace3) (v0 v1 v2 v3 : hpoint3) : Prop :=
  finite [v0; v1; v2; v3] /\
  (forall v, In v [v0; v1; v2; v3] -> in_box b (value v) /\ (side h (value v) == 0)%Q) /\
  (forall q, in_box b q -> (side h q <= 0)%Q) /\
  qp_eq (qsub (value v2) (value v1)) (qsub (value v3) (value v0)) /\
  (exists k, (0 < k)%Q /\ qp_eq (qcross (qsub (value v1) (value v0)) (qsub (value v3) (value v0))) (qscale k (qpt (hn h)))) /\
  (forall q, in_box b q -> (side h q == 0)%Q -> exists s t, (0 <= s <= 1)%Q /\ (0 <= t <= 1)%Q /\
     qp_eq q (qadd (value v0) (qadd (qscale s (qsub (value v1) (value v0))) (qscale t (qsub (value v3) (value v0)))))).

(** The bounds are in order (strictly, in dimension i). *)
Definition strict_order (b : aabb) (i : nat) : Prop := (comp (bmin b) i < comp (bmax b) i)%Z.
Definition weak_order (b : aabb) : Prop := forall i, (i < 3)%nat -> (comp (bmin b) i <= comp (bmax b) i)%Z.
(** The squared length of the box's diagonal. *)
Definition squared_diagonal (b : aabb) : Q :=
  let d i := (box_hi b i - box_lo b i)%Q in (d 0%nat * d 0%nat + d 1%nat * d 1%nat + d 2%nat * d 2%nat)%Q.

(** What a tracker promises about its vertices: its indices are those of
    vertices with the smallest and largest coordinates, and its box is the
    tightest one around the vertices among the boxes with its denominator. *)
Definition tracks_comp (t : tracker) (vs : list hpoint3) (i : nat) : Prop := exists lo hi,
  nth_error vs (iget (tmin t) i) = Some lo /\ nth_error vs (iget (tmax t) i) = Some hi /\
  (forall v, In v vs -> qcomp (value lo) i <= qcomp (value v) i /\ qcomp (value v) i <= qcomp (value hi) i) /\
  floor_frac (qcomp (value lo) i) (bden (tbox t)) (comp (bmin (tbox t)) i) /\
  ceil_frac (qcomp (value hi) i) (bden (tbox t)) (comp (bmax (tbox t)) i).
Definition tracks (t : tracker) (vs : list hpoint3) : Prop :=
  box_wf (tbox t) /\ forall i, (i < 3)%nat -> tracks_comp t vs i.

(** No vertex triggers one of the undefined int64 operations: weight INT64_MIN,
    or weight -1 with a coordinate whose product with a denominator is
    INT64_MIN. *)
Definition safe_vertex (vs : list hpoint3) (v : hpoint3) : Prop :=
  hw v <> (- 2 ^ 63)%Z /\
  forall u i, In u vs -> hw v = (-1)%Z -> (comp (hv v) i * Z.abs (hw u) <> - 2 ^ 63)%Z.

(** ** Splitting a cycle of vertices *)
Definition on_segment (a b q : qpoint) : Prop := exists t, 0 <= t <= 1 /\ qp_eq q (qadd a (qscale t (qsub b a))).
(** The cycle [vs], read from index [start] on, is: the vertices N strictly on
    the negative side, the shared vertex s2 if it is one of the cycle's
    vertices, the vertices P strictly on the positive side, and s1 if it is one
    of the cycle's vertices.  A shared point that is not a vertex lies on the
    edge where the cycle crosses. *)
Definition optional (o : list hpoint3) (s : hpoint3) : Prop := o = [] \/ o = [s].
Record split_cycle (vs N P : list hpoint3) (s1 s2 : hpoint3) (start : nat) (o1 o2 : list hpoint3) : Prop := {
  sc_start : (start < length vs)%nat;
  sc_cycle : skipn start vs ++ firstn start vs = N ++ o2 ++ P ++ o1;
  sc_neg : N <> []; sc_pos : P <> [];
  sc_o1 : optional o1 s1; sc_o2 : optional o2 s2;
  sc_s1 : exists a b, In a vs /\ In b vs /\ on_segment (value a) (value b) (value s1);
  sc_s2 : exists a b, In a vs /\ In b vs /\ on_segment (value a) (value b) (value s2);
  (** convexity: the segment from a negative to a positive vertex passes
      between s1 and s2 *)
  sc_cross : forall a b, In a N -> In b P -> exists x,
    on_segment (value a) (value b) x /\ on_segment (value s1) (value s2) x }.
