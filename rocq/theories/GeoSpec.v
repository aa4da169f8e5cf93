(** Independent specification of rational geometry.

    A homogeneous point (x, y, z, w) with w <> 0 denotes the rational point
    (x/w, y/w, z/w).  Properties of points, planes and lines are stated about
    these rational points ([QArith]), never about the integers that encode
    them. *)
From Coq Require Import ZArith QArith List.
From Verif Require Import BigUIntModel GeoModel.
Import ListNotations.
Open Scope Q_scope.

(** Sign of a rational: -1, 0 or 1. *)
Definition qsign (q : Q) : Z := Z.sgn (Qnum q).

(** ** Points of the rational plane and space *)
Record qpoint2 := QP2 { qx2 : Q; qy2 : Q }.
Record qpoint := QP { qx : Q; qy : Q; qz : Q }.
Definition qp_eq (a b : qpoint) : Prop := qx a == qx b /\ qy a == qy b /\ qz a == qz b.
Definition qp2_eq (a b : qpoint2) : Prop := qx2 a == qx2 b /\ qy2 a == qy2 b.
Definition qcomp (a : qpoint) (i : nat) : Q := match i with O => qx a | S O => qy a | _ => qz a end.

(** (x, y, z, w) denotes q: w is not 0 and x = q.x * w, and so on. *)
Definition denotes (p : hpoint3) (q : qpoint) : Prop :=
  hw p <> 0%Z /\ inject_Z (vx (hv p)) == qx q * inject_Z (hw p) /\
  inject_Z (vy (hv p)) == qy q * inject_Z (hw p) /\ inject_Z (vz (hv p)) == qz q * inject_Z (hw p).
Definition denotes2 (p : hpoint2) (q : qpoint2) : Prop :=
  hw2 p <> 0%Z /\ inject_Z (x2 (hv2 p)) == qx2 q * inject_Z (hw2 p) /\
  inject_Z (y2 (hv2 p)) == qy2 q * inject_Z (hw2 p).
(** An integer point. *)
Definition qpt (p : vec3) : qpoint := QP (inject_Z (vx p)) (inject_Z (vy p)) (inject_Z (vz p)).
Definition qpt2 (p : vec2) : qpoint2 := QP2 (inject_Z (x2 p)) (inject_Z (y2 p)).

(** Vector operations on rationals. *)
Definition qsub (a b : qpoint) : qpoint := QP (qx a - qx b) (qy a - qy b) (qz a - qz b).
Definition qadd (a b : qpoint) : qpoint := QP (qx a + qx b) (qy a + qy b) (qz a + qz b).
Definition qscale (t : Q) (a : qpoint) : qpoint := QP (t * qx a) (t * qy a) (t * qz a).
Definition qdot (a b : qpoint) : Q := qx a * qx b + qy a * qy b + qz a * qz b.
Definition qcross (a b : qpoint) : qpoint :=
  QP (qy a * qz b - qz a * qy b) (qz a * qx b - qx a * qz b) (qx a * qy b - qy a * qx b).
Definition qcross2 (a b : qpoint2) : Q := qx2 a * qy2 b - qy2 a * qx2 b.
Definition qsub2 (a b : qpoint2) : qpoint2 := QP2 (qx2 a - qx2 b) (qy2 a - qy2 b).

(** Lexicographic order of rational points, x first; and z first. *)
Definition qlex_lt (a b : qpoint) : Prop :=
  qx a < qx b \/ (qx a == qx b /\ (qy a < qy b \/ (qy a == qy b /\ qz a < qz b))).
Definition qtop_lt (a b : qpoint) : Prop :=
  qz a < qz b \/ (qz a == qz b /\ (qy a < qy b \/ (qy a == qy b /\ qx a < qx b))).
Definition qlex2_lt (a b : qpoint2) : Prop := qx2 a < qx2 b \/ (qx2 a == qx2 b /\ qy2 a < qy2 b).

(** Projection that removes one axis; removing y yields (z, x). *)
Definition qdrop (d : nat) (a : qpoint) : qpoint2 :=
  match d with O => QP2 (qy a) (qz a) | S O => QP2 (qz a) (qx a) | _ => QP2 (qx a) (qy a) end.
(** Twice the signed area of (c, p1, p3): > 0 when p3 is counter-clockwise from
    p1 around c. *)
Definition turn (c p1 p3 : qpoint2) : Q := qcross2 (qsub2 p1 c) (qsub2 p3 c).

(** The plane through a, b, c, oriented so that a, b, c is counter-clockwise
    when seen from the positive side: signed volume of (a, b, c, v). *)
Definition side_of_triangle (a b c v : qpoint) : Q := qdot (qcross (qsub b a) (qsub c a)) (qsub v a).
(** Three points lie on one line. *)
Definition collinear (a b c : qpoint) : Prop := exists o dir s t u,
  qp_eq a (qadd o (qscale s dir)) /\ qp_eq b (qadd o (qscale t dir)) /\ qp_eq c (qadd o (qscale u dir)).
(** The half-space n.v > d: value at a point. *)
Definition side (h : hspace3) (v : qpoint) : Q := qdot (qpt (hn h)) v - inject_Z (hd h).
Definition side2 (h : hspace2) (v : qpoint2) : Q :=
  inject_Z (x2 (hn2 h)) * qx2 v + inject_Z (y2 (hn2 h)) * qy2 v - inject_Z (hd2 h).
(** v lies on the line through a and b. *)
Definition on_line (a b v : qpoint) : Prop := exists t, qp_eq v (qadd a (qscale t (qsub b a))).

(** The points of the line with direction d and moment m: those v with
    v x d = m. *)
Definition line_points (l : pline) (v : qpoint) : Prop := qp_eq (qcross v (qpt (ld l))) (qpt (lm l)).
(** d and m are the direction and moment of some line. *)
Definition line_wf (l : pline) : Prop := pl_valid l = true /\ v3_dot (ld l) (lm l) = 0%Z.

(** ** Directions *)
Open Scope Z_scope.
(** One integer vector is a non-negative multiple of the other; for two
    non-zero vectors: same direction (see [same_direction_nonzero]). *)
Definition same_direction (us vs : list Z) : Prop := exists a b, 0 <= a /\ 0 <= b /\ 0 < a + b /\
  List.map (Z.mul a) us = List.map (Z.mul b) vs.
(** One is a multiple of the other, of either sign. *)
Definition parallel (us vs : list Z) : Prop := exists a b, (a <> 0 \/ b <> 0) /\
  List.map (Z.mul a) us = List.map (Z.mul b) vs.

(** ** Angles
    For a vector in the upper half plane (y > 0, or y = 0 and x > 0) the angle
    from the x-axis is 0 when y = 0 and otherwise strictly decreasing in the
    cotangent x/y. *)
Definition upper (v : vec2) : Prop := 0 < y2 v \/ (y2 v = 0 /\ 0 < x2 v).
Definition cot (v : vec2) : Q := (inject_Z (x2 v) / inject_Z (y2 v))%Q.
Definition upper_angle_lt (u v : vec2) : Prop :=
  (y2 u = 0 /\ 0 < y2 v) \/ (0 < y2 u /\ 0 < y2 v /\ (cot v < cot u)%Q).
(** A vector or its opposite is in the upper half plane. *)
Definition opposite (v : vec2) : vec2 := V2 (- x2 v) (- y2 v).
Definition normalized (v n : vec2) : Prop := upper n /\ (n = v \/ n = opposite v).
(** Order of full-turn angles in [0, 1): the upper half first. *)
Definition rotation_lt (u v : vec2) : Prop :=
  (upper u /\ upper (opposite v)) \/
  (upper u /\ upper v /\ upper_angle_lt u v) \/
  (upper (opposite u) /\ upper (opposite v) /\ upper_angle_lt (opposite u) (opposite v)).

(** ** Orders
    What the standard library asks of a comparison used in sort, map or set:
    irreflexive, transitive, and "neither is less" is an equivalence. *)
Definition strict_weak_order {A : Type} (P : A -> Prop) (lt : A -> A -> Prop) : Prop :=
  (forall a, P a -> ~ lt a a) /\
  (forall a b c, P a -> P b -> P c -> lt a b -> lt b c -> lt a c) /\
  (forall a b c, P a -> P b -> P c -> ~ lt a b -> ~ lt b a -> ~ lt b c -> ~ lt c b -> ~ lt a c /\ ~ lt c a).

(** ** Reduced forms *)
Definition divides_all (d : Z) (l : list Z) : Prop := Forall (fun c => (d | c)) l.
Definition coprime (l : list Z) : Prop := forall d, divides_all d l -> (d | 1).
(** u is a positive multiple of the coprime tuple v. *)
Definition reduced_form (u v : list Z) : Prop := coprime v /\ exists f, 0 < f /\ u = List.map (Z.mul f) v.
(** What C08 establishes about GetGreatestCommonDivisor: a result is the gcd up
    to sign, and there is one unless both operands are negative. *)
Definition gcd_ok (gcd : Z -> Z -> res Z) : Prop :=
  (forall a b g, gcd a b = Ok g -> Z.abs g = Z.gcd a b) /\
  (forall a b, 0 <= a \/ 0 <= b -> exists g, gcd a b = Ok g).

(** ** Tuples *)
(** Coordinates as lists. *)
Definition l3 (v : vec3) : list Z := [vx v; vy v; vz v].
Definition l4 (h : hspace3) : list Z := [vx (hn h); vy (hn h); vz (hn h); hd h].
Definition l2d (h : hspace2) : list Z := [x2 (hn2 h); y2 (hn2 h); hd2 h].
Definition l6 (l : pline) : list Z := [vx (ld l); vy (ld l); vz (ld l); vx (lm l); vy (lm l); vz (lm l)].
Definition lp (p : hpoint3) : list Z := [hw p; vx (hv p); vy (hv p); vz (hv p)].
(** Not the zero vector. *)
Definition nonzero2 (v : vec2) : Prop := x2 v <> 0 \/ y2 v <> 0.
(** No component is INT64_MIN. *)
Definition no_min (l : list Z) : Prop := Forall (fun z => z <> - 2 ^ 63) l.
(** Sum of the normal's components, and the planes for which HalfSpace3Compare
    can tell planes apart. *)
Definition nsum (h : hspace3) : Z := vx (hn h) + vy (hn h) + vz (hn h).
Definition map_domain (h : hspace3) : Prop := nsum h <> 0 /\ nsum h <> - 2 ^ 63.
