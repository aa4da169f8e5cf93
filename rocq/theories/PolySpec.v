(** Convex polygons in space, independently of how they are stored. *)
From Coq Require Import List ZArith QArith.
From Verif Require Import BigUIntModel GeoModel GeoSpec CvxSpec PolyModel.
Import ListNotations.
Open Scope Q_scope.
(** p stores the convex polygon with the vertices qs, in counter-clockwise order
    seen from the positive side of its plane: every vertex lies on the plane; the
    line of every edge goes through its vertex in the direction of the next one;
    and without the drop dimension, which the plane is not parallel to, the
    vertices are a convex cycle. *)
Record poly_ok {A} (p : poly A) (qs : list qpoint) : Prop := PolyOk {
  po_vertices : Forall2 (fun e q => denotes (pv e) q) (pedges p) qs;
  po_drop : (pdrop p < 3)%nat /\ pnormal_drop p <> 0%Z;
  po_plane : Forall (fun q => side (pplane p) q == 0) qs;
  po_lines : forall i e a b, nth_error (pedges p) i = Some e -> nth_error qs i = Some a -> nth_error qs (S i mod length qs) = Some b ->
    line_points (pl e) a /\ exists k, 0 < k /\ qp_eq (qpt (ld (pl e))) (qscale k (qsub b a));
  po_convex : convex_cycle (inject_Z (pnormal_drop p)) (map (qdrop (pdrop p)) qs) }.
(** A point of the polygon with the vertices qs in the plane h, without axis d. *)
Definition polygon_point (h : hspace3) (d : nat) (qs : list qpoint) (q : qpoint) : Prop :=
  side h q == 0 /\ in_polygon (inject_Z (comp (hn h) d)) (map (qdrop d) qs) (qdrop d q).
(** Scalar product with a vector. *)
Definition along (v : vec3) (q : qpoint) : Q := qdot (qpt v) q.
Definition along2 (v : vec2) (q : qpoint2) : Q := inject_Z (x2 v) * qx2 q + inject_Z (y2 v) * qy2 q.
(** i is the first, in cyclic order, of the vertices with the largest f. *)
Definition first_largest (f : qpoint -> Q) (qs : list qpoint) (i : nat) : Prop :=
  exists q, nth_error qs i = Some q /\ (forall q', In q' qs -> f q' <= f q) /\
    forall q0, nth_error qs ((i + length qs - 1) mod length qs) = Some q0 -> f q0 < f q.
(** The indices i with a <= j < b and i = j modulo n, for some j. *)
Definition in_cyclic_range (n : nat) (r : nat * nat) (i : nat) : Prop := exists j, (fst r <= j)%nat /\ (j < snd r)%nat /\ (j mod n = i)%nat.
(** ** Splitting *)
(** Element i of a cycle. *)
Definition cyc {B} (x : B) (l : list B) (i : nat) : B := nth (i mod length l) l x.
Definition o2 : qpoint2 := QP2 0 0.
Definition o3 : qpoint := QP 0 0 0.
(** r is a pair of a sorted index and one at most n further; the vertices with a
    negative G are exactly those of the first range, those with a positive G
    exactly those of the second one. *)
Definition range_ok (n : nat) (r : nat * nat) : Prop := (fst r <= snd r)%nat /\ (snd r <= fst r + n)%nat.
Record ranges_exact (n : nat) (G : nat -> Q) (r : split_ranges) : Prop := RE {
  re_neg : range_ok n (neg_range r); re_pos : range_ok n (pos_range r);
  re_neg_in : forall i, (i < n)%nat -> G i < 0 <-> in_cyclic_range n (neg_range r) i;
  re_pos_in : forall i, (i < n)%nat -> 0 < G i <-> in_cyclic_range n (pos_range r) i }.
(** The point a fraction t of the way from a to b. *)
Definition between (a b : qpoint) (t : Q) : qpoint := qadd a (qscale t (qsub b a)).
(** What the split information says about the place where a range that ends
    before index b meets the range that starts at c.  Either vertex b is on the
    plane h and c follows it, or there is no vertex in between and the point given
    is where the edge from b - 1 to b crosses h. *)
Definition shared (h : hspace3) (qs : list qpoint) (b c : nat) (o : option hpoint3) : Prop :=
  match o with
  | None => side h (cyc o3 qs b) == 0 /\ (S b mod length qs = c mod length qs)%nat
  | Some pt => (b mod length qs = c mod length qs)%nat /\
      exists t, 0 < t /\ t < 1 /\ denotes pt (between (cyc o3 qs (b - 1)) (cyc o3 qs b) t) /\ side h (between (cyc o3 qs (b - 1)) (cyc o3 qs b) t) == 0
  end.
(** Complete and correct split information. *)
Record info_ok {A} (p : poly A) (qs : list qpoint) (h : hspace3) (i : split_info) : Prop := InfoOk {
  io_ranges : ranges_exact (length qs) (fun j => side h (cyc o3 qs j)) (si_ranges i);
  io_line : si_line i = pl_of_planes (pplane p) h;
  io_one : emit_neg (si_ranges i) && emit_pos (si_ranges i) = false -> si_point1 i = None /\ si_point2 i = None;
  io_both : emit_neg (si_ranges i) = true -> emit_pos (si_ranges i) = true -> pl_valid (si_line i) = true /\
    shared h qs (snd (neg_range (si_ranges i))) (fst (pos_range (si_ranges i))) (si_point2 i) /\
    shared h qs (snd (pos_range (si_ranges i))) (fst (neg_range (si_ranges i))) (si_point1 i) }.
(** neg and pos are the two parts of p on the two sides of h: convex polygons in
    the plane of p whose points are the points of p on the closed negative and
    positive side; their vertices are those of p strictly on that side and the two
    points X and Y that the parts share, both on h. *)
Record split_ok {A} (p : poly A) (qs : list qpoint) (h : hspace3) (neg pos : poly A) (qn qp : list qpoint) : Prop := SplitOk {
  so_neg : poly_ok neg qn; so_pos : poly_ok pos qp;
  so_plane : pplane neg = pplane p /\ pplane pos = pplane p; so_drop : pdrop neg = pdrop p /\ pdrop pos = pdrop p;
  so_neg_points : forall q, polygon_point (pplane p) (pdrop p) qn q <-> polygon_point (pplane p) (pdrop p) qs q /\ side h q <= 0;
  so_pos_points : forall q, polygon_point (pplane p) (pdrop p) qp q <-> polygon_point (pplane p) (pdrop p) qs q /\ 0 <= side h q;
  so_vertices : exists X Y ns ps, qn = ns ++ [X; Y] /\ qp = X :: ps ++ [Y] /\ side h X == 0 /\ side h Y == 0 /\
    (forall q, In q ns <-> In q qs /\ side h q < 0) /\ (forall q, In q ps <-> In q qs /\ 0 < side h q) }.
(** ** What can be seen at one vertex *)
(** Weaker than [poly_ok]: the vertices are on the plane, the line of an edge goes
    through its vertex and, if the next vertex is another point, in its direction;
    and no vertex that differs from its neighbours is reflex. *)
Record poly_local {A} (p : poly A) (qs : list qpoint) : Prop := PolyLocal {
  pc_vertices : Forall2 (fun e q => denotes (pv e) q) (pedges p) qs;
  pc_drop : pnormal_drop p <> 0%Z;
  pc_plane : Forall (fun q => side (pplane p) q == 0) qs;
  pc_lines : forall i e a b, nth_error (pedges p) i = Some e -> nth_error qs i = Some a -> nth_error qs (S i mod length qs) = Some b ->
    pl_valid (pl e) = true /\ line_points (pl e) a /\ (~ qp_eq a b -> exists k, 0 < k /\ qp_eq (qpt (ld (pl e))) (qscale k (qsub b a)));
  pc_turns : forall i a b c, (i < length qs)%nat -> nth_error qs i = Some a -> nth_error qs (S i mod length qs) = Some b -> nth_error qs (S (S i) mod length qs) = Some c ->
    ~ qp_eq a b -> ~ qp_eq b c -> 0 <= inject_Z (pnormal_drop p) * turn (qdrop (pdrop p) a) (qdrop (pdrop p) b) (qdrop (pdrop p) c) }.
