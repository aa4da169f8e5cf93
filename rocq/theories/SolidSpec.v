(** Extreme points of a set, and volume and centroid of a solid. *)
From Coq Require Import List ZArith QArith Permutation.
From Verif Require Import BigUIntModel GeoModel GeoSpec AreaSpec.
Import ListNotations.
Open Scope Q_scope.
(** The triangles that join the first vertex of a polygon to the sides that do not
    contain it. *)
Definition triangles (l : list qpoint) : list (qpoint * qpoint * qpoint) :=
  match l with [] => [] | a :: r => map (fun s => (a, fst s, snd s)) (combine r (tl r)) end.
(** Signed volume and centroid of the tetrahedron (o, a, b, c); the volume is
    positive if o is on the negative side of the triangle. *)
Definition tet_volume (o a b c : qpoint) : Q := qdot (qsub a o) (qcross (qsub b o) (qsub c o)) / 6.
Definition tet_center (o a b c : qpoint) : qpoint := qscale (1 # 4) (qadd (qadd o a) (qadd b c)).
(** The tetrahedra between o and the polygons: total volume, and the sum of the
    volumes times the centroids. *)
Definition solid_volume (o : qpoint) (ps : list (list qpoint)) : Q := qsum (map (fun t => let '(a, b, c) := t in tet_volume o a b c) (flat_map triangles ps)).
Definition solid_moment (f : qpoint -> Q) (o : qpoint) (ps : list (list qpoint)) : Q :=
  qsum (map (fun t => let '(a, b, c) := t in tet_volume o a b c * f (tet_center o a b c)) (flat_map triangles ps)).
(** v and q are the volume and the centroid of the solid with these polygons as
    its border, measured from whatever o. *)
Definition solid_centroid (ps : list (list qpoint)) (v : Q) (q : qpoint) : Prop :=
  forall o, v == solid_volume o ps /\ v * qx q == solid_moment qx o ps /\ v * qy q == solid_moment qy o ps /\ v * qz q == solid_moment qz o ps.
(** The polygons are a closed surface: their sides can be paired such that the
    sides of a pair run in opposite directions. *)
Definition opposite (s t : qpoint * qpoint) : Prop := qp_eq (fst s) (snd t) /\ qp_eq (snd s) (fst t).
Definition closed_surface (ps : list (list qpoint)) : Prop :=
  let ss := flat_map sides ps in exists ts, Permutation ss ts /\ Forall2 opposite ss ts.
(** The formula documented for GetCentroid: 48 times the volume times a coordinate
    of the centroid is the sum over the triangles of that coordinate of the
    normal times the squares of the sums of the ends' coordinates. *)
Definition tri_normal (a b c : qpoint) : qpoint := qcross (qsub b a) (qsub c a).
Definition square_sum (a b c : Q) : Q := (a + b) * (a + b) + (b + c) * (b + c) + (c + a) * (c + a).
Definition normal_sum (f : qpoint -> Q) (ps : list (list qpoint)) : Q :=
  qsum (map (fun t => let '(a, b, c) := t in f (tri_normal a b c) * square_sum (f a) (f b) (f c)) (flat_map triangles ps)).
Definition origin : qpoint := QP 0 0 0.
