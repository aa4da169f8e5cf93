(** Polygons in space and the convex polygons they are cut into. *)
From Coq Require Import List ZArith QArith.
From Verif Require Import BigUIntModel GeoModel GeoSpec PlanarSpec PolyModel PolySpec.
Import ListNotations.
Open Scope Z_scope.
(** No two vertices have the same x coordinate, no two the same y coordinate. *)
Definition distinct_xy (v : list vec3) : Prop := NoDup (map vx v) /\ NoDup (map vy v).
Definition small_coords (v : list vec3) : Prop := forall p, In p v -> Forall (fun c => - 2 ^ 30 < c < 2 ^ 30) [vx p; vy p; vz p].
(** A component of twice the vector area of a polygon in space. *)
Definition vector_area (i : nat) (l : list vec3) : Z := cycle_sum (fun p q => comp (v3_cross p q) i) l.
(** A number for every directed edge that changes sign with the direction and adds
    up along a line, for instance the cross product with one component. *)
Definition edge_weight (f : vec3 -> vec3 -> Z) : Prop := antisymmetric f /\ forall p q r, in_line p q r -> f p r = f p q + f q r.
(** The polygon [p] is the convex polygon with the vertices [l], all of them
    vertices of [v]. *)
Definition convex_part {A} (v : list vec3) (p : poly A) (l : list vec3) : Prop := poly_ok p (map qpt l) /\ incl l v.
(** The convex polygons [ps] have vertices of [v], and their boundaries add up to
    the boundary of [v]: edges between two of them cancel. *)
Definition convex_parts {A} (v : list vec3) (ps : list (poly A)) : Prop :=
  exists ls, Forall2 (convex_part v) ps ls /\ forall f, edge_weight f -> sum_z (map (cycle_sum f) ls) = cycle_sum f v.
(** ** Polygons that do not cross themselves *)
Definition polygon_edge (v : list vec3) (i : nat) (a b : vec3) : Prop := nth_error v i = Some a /\ nth_error (v ++ firstn 1 v) (S i) = Some b.
(** The point of the segment from [a] to [b] at [t]. *)
Definition between_q (a b : vec3) (t : Q) : qpoint :=
  (QP (inject_Z (vx a) + t * inject_Z (vx b - vx a)) (inject_Z (vy a) + t * inject_Z (vy b - vy a)) (inject_Z (vz a) + t * inject_Z (vz b - vz a)))%Q.
(** Two edges only meet where both of them end. *)
Definition simple_polygon (v : list vec3) : Prop := forall i j a b c d s t, polygon_edge v i a b -> polygon_edge v j c d -> i <> j -> (0 <= s <= 1)%Q -> (0 <= t <= 1)%Q ->
  qp_eq (between_q a b s) (between_q c d t) -> (s == 0 \/ s == 1)%Q /\ (t == 0 \/ t == 1)%Q.
