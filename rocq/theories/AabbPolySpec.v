(** What is said about a polygon with a bounding box. *)
From Coq Require Import ZArith QArith List.
From Verif Require Import GeoModel GeoSpec AabbModel AabbSpec PolyModel AabbPolyModel.

(** The vertices are finite points, the extreme indices are those of extreme
    vertices, and the box is the smallest one around them with its denominator. *)
Definition box_right {A} (a : apoly A) : Prop := finite (ap_vertices a) /\ tracks (ap_box a) (ap_vertices a).
(** Every coordinate of a vertex is a multiple of 1/denominator of the box. *)
Definition box_exact {A} (a : apoly A) : Prop :=
  forall v i, In v (ap_vertices a) -> (i < 3)%nat -> exists m, qcomp (value v) i == inject_Z m / inject_Z (bden (tbox (ap_box a))).
