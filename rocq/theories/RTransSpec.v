(** The shear (x, y, z) -> (x, y, z + e y + e^2 x) and its effect on planes. *)
From Coq Require Import ZArith QArith List.
From Verif Require Import GeoModel GeoSpec.
Import ListNotations.
Open Scope Q_scope.

Definition shear (e : Q) (p : qpoint) : qpoint := QP (qx p) (qy p) (qz p + e * qy p + e * e * qx p).
(** The normal of the sheared plane, as rational coordinates.  That this is the
    normal is theorem C21_sheared_plane. *)
Definition sheared_normal (e : Q) (n : qpoint) : qpoint := QP (qx n - e * e * qz n) (qy n - e * qz n) (qz n).
(** How far the second vector is counter-clockwise from the first one, looking
    down the z axis: positive for less than half a turn. *)
Definition xy_turn (u v : qpoint) : Q := qx u * qy v - qy u * qx v.
Definition revlex_lt (p q : qpoint) : Prop :=
  qz p < qz q \/ (qz p == qz q /\ (qy p < qy q \/ (qy p == qy q /\ qx p < qx q))).
