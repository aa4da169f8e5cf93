(** Extrusions as closed surfaces. *)
From Coq Require Import List ZArith QArith Bool.
From Verif Require Import BigUIntModel GeoModel GeoSpec AabbSpec AreaSpec PlanarSpec PolyModel PolySpec.
Import ListNotations.
Open Scope Q_scope.

(** ** Surfaces without holes *)
(** Three points on one line. *)
Definition in_line_q (p q r : qpoint) : Prop := qp_eq (qcross (qsub q p) (qsub r p)) (QP 0 0 0).
(** A number for every directed edge that changes its sign with the direction and
    adds up along a line. *)
Record line_weight (f : qpoint -> qpoint -> Z) : Prop := LineWeight {
  lw_points : forall p p' q q', qp_eq p p' -> qp_eq q q' -> f p q = f p' q';
  lw_anti : antisymmetric f;
  lw_line : forall p q r, in_line_q p q r -> f p r = (f p q + f q r)%Z }.
(** The edges of the polygons cancel. *)
Definition cancels (qss : list (list qpoint)) : Prop := forall f, line_weight f -> sum_z (map (cycle_sum f) qss) = 0%Z.
(** Whether the point at t of the line from a to b (in steps of the square of its
    length) is covered by the edge e: e lies in the line, runs in its direction,
    starts at t or before it and ends after it. *)
Definition on_line_b (a b q : qpoint) : bool :=
  let c := qcross (qsub q a) (qsub b a) in Qeq_bool (qx c) 0 && Qeq_bool (qy c) 0 && Qeq_bool (qz c) 0.
Definition covers_b (a b : qpoint) (t : Q) (e : qpoint * qpoint) : bool :=
  on_line_b a b (fst e) && on_line_b a b (snd e) && Qle_bool (qdot (qsub b a) (fst e)) t && negb (Qle_bool (qdot (qsub b a) (snd e)) t).
Definition swap (e : qpoint * qpoint) : qpoint * qpoint := (snd e, fst e).
(** Every point of every line is covered as often in one direction as in the other
    one: there is no gap, also where edges are only parts of each other. *)
Definition watertight (qss : list (list qpoint)) : Prop :=
  forall a b t, length (filter (covers_b a b t) (flat_map sides qss)) = length (filter (fun e => covers_b a b t (swap e)) (flat_map sides qss)).

(** ** The faces of an extrusion *)
(** The bottom, a side for each edge of it, the moved bottom the other way round. *)
Definition face_side {V} (offset : V -> V) (e : V * V) : list V := [snd e; fst e; offset (fst e); offset (snd e)].
Definition faces {V} (offset : V -> V) (cap : list V) : list (list V) := cap :: map (face_side offset) (sides cap) ++ [map offset (rev cap)].
(** What is expected of ConvexPolygonFactory for the vertices v, which stand for the
    points vs: convex polygons with the same boundary (C61). *)
Definition cut_right {V A} (build : list V -> res (list (poly A))) (point : V -> qpoint) (v : list V) : Prop :=
  forall ps, build v = Ok ps -> exists qss, Forall2 poly_ok ps qss /\ forall f, line_weight f -> sum_z (map (cycle_sum f) qss) = cycle_sum f (map point v).
