(** Specification of binary space partitions: cells, polygons cut into pieces, and
    what the tree says about where a polygon lies. *)
From Coq Require Import List ZArith QArith Permutation.
From Verif Require Import BigUIntModel GeoModel GeoSpec AabbSpec CvxSpec PolyModel PolySpec RTransModel FilterModel BspModel.
Import ListNotations.
Open Scope Q_scope.

(** ** Cells *)
(** A node is reached by a path: for every node passed, its plane and the side
    taken.  Its cell is the set of points on those sides. *)
Definition path := list split_side.
Definition on_side (s : split_side) (q : qpoint) : Prop := if ss_pos s then 0 <= side (ss_split s) q else side (ss_split s) q <= 0.
Definition in_cell (w : path) (q : qpoint) : Prop := Forall (fun s => on_side s q) w.
Definition on_split (s : split_side) (q : qpoint) : Prop := side (ss_split s) q == 0.
(** Two half-spaces with the same border plane. *)
Definition same_plane (a b : hspace3) : Prop := forall q, side a q == 0 <-> side b q == 0.
(** The documented precondition of Split: a plane, different from those of all
    ancestors. *)
Definition fresh_plane (w : path) (h : hspace3) : Prop := hs_valid h = true /\ forall s, In s w -> ~ same_plane (ss_split s) h.

(** The nodes of a tree, with their paths. *)
Inductive at_node : bnode -> path -> bnode -> Prop :=
| at_root t : t <> BNil -> at_node t [] t
| at_neg s cs bs infos n p w x : at_node n w x -> at_node (BNode s cs bs infos n p) (SS s false :: w) x
| at_pos s cs bs infos n p w x : at_node p w x -> at_node (BNode s cs bs infos n p) (SS s true :: w) x.
Definition n_split (t : bnode) : hspace3 := match t with BNil => no_plane | BNode s _ _ _ _ _ => s end.
Definition n_contents (t : bnode) : list bpoly := match t with BNil => [] | BNode _ cs _ _ _ _ => cs end.
Definition n_border (t : bnode) : list bpoly := match t with BNil => [] | BNode _ _ bs _ _ _ => bs end.
Definition n_infos (t : bnode) : list cinfo := match t with BNil => [] | BNode _ _ _ infos _ _ => infos end.
Definition n_neg (t : bnode) : bnode := match t with BNil => BNil | BNode _ _ _ _ n _ => n end.
Definition n_pos (t : bnode) : bnode := match t with BNil => BNil | BNode _ _ _ _ _ p => p end.
Definition leaf (t : bnode) : Prop := hs_valid (n_split t) = false.
(** All polygons stored in a tree. *)
Fixpoint all_polys (t : bnode) : list bpoly :=
  match t with BNil => [] | BNode _ cs bs _ n p => cs ++ bs ++ all_polys n ++ all_polys p end.

(** ** Polygons as sets of points *)
Definition poly_point {A} (p : poly A) (q : qpoint) : Prop := exists qs, poly_ok p qs /\ polygon_point (pplane p) (pdrop p) qs q.
Definition bp_point (b : bpoly) : qpoint -> Prop := poly_point (bp_poly b).
(** A point inside the set S of points of the plane h: from it, S goes on some way
    away from every point of the plane. *)
Definition inner (h : hspace3) (S : qpoint -> Prop) (q : qpoint) : Prop :=
  S q /\ forall x, side h x == 0 -> exists t, 0 < t /\ S (between q x (- t)).
(** Edge number i of p goes from a to b and carries the data d. *)
Definition has_edge {A} (p : poly A) (i : nat) (a b : qpoint) (d : A) : Prop :=
  exists qs e, poly_ok p qs /\ nth_error (pedges p) i = Some e /\ pd e = d /\ nth_error qs i = Some a /\ nth_error qs (S i mod length qs) = Some b.
(** l are the pieces of b: polygons with its id, in its plane, whose union is b
    and whose insides do not meet.  An edge of a piece is a part of an edge of b
    and inherits the plane that created it, or it has been created by a cut. *)
Record pieces (b : bpoly) (l : list bpoly) : Prop := Pieces {
  pi_same : Forall (fun x => bp_id x = bp_id b /\ pplane (bp_poly x) = pplane (bp_poly b) /\ pdrop (bp_poly x) = pdrop (bp_poly b)) l;
  pi_union : forall q, bp_point b q <-> exists x, In x l /\ bp_point x q;
  pi_disjoint : ForallOrdPairs (fun x y => forall q, ~ (inner (pplane (bp_poly b)) (bp_point x) q /\ inner (pplane (bp_poly b)) (bp_point y) q)) l;
  pi_edges : forall x i u v d, In x l -> has_edge (bp_poly x) i u v d -> created_by d <> None \/
    exists j u' v' d', has_edge (bp_poly b) j u' v' d' /\ created_by d' = None /\ on_segment u' v' u /\ on_segment u' v' v }.
(** The polygons l, each one cut into pieces, are the polygons l' in some order. *)
Definition cut_up (l l' : list bpoly) : Prop := exists ls, Forall2 pieces l ls /\ Permutation l' (concat ls).

(** ** What the tree says about a polygon *)
(** The first and the last element of the path with the property P, if any. *)
Definition first_in (P : split_side -> Prop) (w : path) (o : option split_side) : Prop :=
  match o with None => Forall (fun s => ~ P s) w | Some s => exists l r, w = l ++ s :: r /\ P s /\ Forall (fun s => ~ P s) l end.
Definition last_in (P : split_side -> Prop) (w : path) (o : option split_side) : Prop :=
  match o with None => Forall (fun s => ~ P s) w | Some s => exists l r, w = l ++ s :: r /\ P s /\ Forall (fun s => ~ P s) r end.
(** The data of an edge from u to v. *)
Record edge_exact (w : path) (u v : qpoint) (d : bdata) : Prop := EdgeExact {
  ee_first : first_in (fun s => on_split s u /\ on_split s v) w (first_co d);
  ee_last : last_in (fun s => on_split s u /\ on_split s v) w (edge_co d);
  ee_vertex : last_in (fun s => on_split s u) w (vertex_co d);
  ee_created : forall s, created_by d = Some s -> In s w /\ on_split s u /\ on_split s v }.
(** The polygon lies in the plane of s. *)
Definition lies_on (s : split_side) (b : bpoly) : Prop := forall q, bp_point b q -> on_split s q.
(** The normal of the polygon points out of the side taken. *)
Definition faces_out (s : split_side) (p : hspace3) : Prop :=
  exists k, 0 < k /\ qp_eq (qpt (hn p)) (qscale (if ss_pos s then - k else k) (qpt (hn (ss_split s)))).
(** A polygon stored at the end of the path w: it is a convex polygon inside the
    cell, all that it says about the planes of the path is right, and so is its
    bounding box if it has one. *)
Record stored (w : path) (b : bpoly) : Prop := Stored {
  st_ok : exists qs, poly_ok (bp_poly b) qs;
  st_cell : forall q, bp_point b q -> in_cell w q;
  st_on : first_in (fun s => lies_on s b) w (bp_on b) /\ last_in (fun s => lies_on s b) w (bp_on b);
  st_faces : forall s, bp_on b = Some s -> faces_out s (pplane (bp_poly b));
  st_edges : forall i u v d, has_edge (bp_poly b) i u v d -> edge_exact w u v d;
  st_box : forall t, bp_box b = Some t -> tracks t (map pv (pedges (bp_poly b))) }.
(** In the contents of a node: not on a plane of the path; in its border: on one. *)
Definition in_contents (w : path) (b : bpoly) : Prop := stored w b /\ bp_on b = None.
Definition in_border (w : path) (b : bpoly) : Prop := stored w b /\ bp_on b <> None.

(** Number of polygons of an id. *)
Definition count_id (id : nat) (l : list bpoly) : nat := length (List.filter (fun b => Nat.eqb (bp_id b) id) l).
(** A leaf counts its polygons; a counter of any node is not 0 exactly if some
    polygon at or below the node is in the inside of its cell, or on its border. *)
Record counted (w : path) (x : bnode) : Prop := Counted {
  ct_leaf : leaf x -> forall id, interior (info_for (n_infos x) id) = count_id id (n_contents x) /\ border (info_for (n_infos x) id) = count_id id (n_border x);
  ct_interior : forall id, interior (info_for (n_infos x) id) <> 0%nat <-> exists b, In b (all_polys x) /\ bp_id b = id /\ forall s, In s w -> ~ lies_on s b;
  ct_border : forall id, border (info_for (n_infos x) id) <> 0%nat <-> exists b, In b (all_polys x) /\ bp_id b = id /\ exists s, In s w /\ lies_on s b }.
(** One node of a tree that has been built properly. *)
Record node_ok (w : path) (x : bnode) : Prop := NodeOk {
  no_contents : Forall (in_contents w) (n_contents x);
  no_border : Forall (in_border w) (n_border x);
  no_counted : counted w x;
  no_split : leaf x /\ n_neg x = BNil /\ n_pos x = BNil \/
    fresh_plane w (n_split x) /\ n_contents x = [] /\ n_border x = [] /\ n_neg x <> BNil /\ n_pos x <> BNil }.
Definition tree_ok (t : bnode) : Prop := t <> BNil /\ forall w x, at_node t w x -> node_ok w x.
(** Every node has room for the id. *)
Definition knows (t : bnode) (id : nat) : Prop := forall w x, at_node t w x -> (id < length (n_infos x))%nat.
(** The polygon classes without boxes. *)
Definition unboxed (t : bnode) : Prop := Forall (fun b => bp_box b = None) (all_polys t).
