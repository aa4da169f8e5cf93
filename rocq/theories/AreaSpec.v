(** Signed area and centroid of a polygon given by its vertices. *)
From Coq Require Import List ZArith QArith.
From Verif Require Import BigUIntModel GeoModel GeoSpec.
Import ListNotations.
Open Scope Q_scope.
(** The sides: every vertex with the next one, the last one with the first. *)
Definition sides {B} (l : list B) : list (B * B) := match l with [] => [] | a :: r => combine l (r ++ [a]) end.
Definition qsum (l : list Q) : Q := fold_right Qplus 0 l.
(** The signed area of the triangle (o, a, b), positive when counter-clockwise,
    and its centroid. *)
Definition tri_area (o a b : qpoint2) : Q := turn o a b / 2.
Definition tri_center (o a b : qpoint2) : qpoint2 := QP2 ((qx2 o + qx2 a + qx2 b) / 3) ((qy2 o + qy2 a + qy2 b) / 3).
(** The signed area of the polygon: its sides are joined to any point o, and the
    areas of the triangles added up. *)
Definition fan_area (o : qpoint2) (l : list qpoint2) : Q := qsum (map (fun s => tri_area o (fst s) (snd s)) (sides l)).
(** The sum of the centroids of these triangles, weighted by area. *)
Definition fan_moment (o : qpoint2) (l : list qpoint2) : qpoint2 :=
  QP2 (qsum (map (fun s => tri_area o (fst s) (snd s) * qx2 (tri_center o (fst s) (snd s))) (sides l)))
      (qsum (map (fun s => tri_area o (fst s) (snd s) * qy2 (tri_center o (fst s) (snd s))) (sides l))).
(** c is the centroid: the area times c is that sum, whatever o is. *)
Definition is_centroid (l : list qpoint2) (c : qpoint2) : Prop :=
  forall o, fan_area o l * qx2 c == qx2 (fan_moment o l) /\ fan_area o l * qy2 c == qy2 (fan_moment o l).
