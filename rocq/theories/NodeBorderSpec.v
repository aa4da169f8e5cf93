(** Specification of the border of a node. *)
From Coq Require Import List ZArith QArith.
From Verif Require Import BigUIntModel GeoModel GeoSpec AabbModel AabbSpec PolyModel PolySpec RTransModel FilterModel BspModel BspSpec BspHistSpec TravSpec PropAabbPlane.
Import ListNotations.
Open Scope Q_scope.

(** A box that is flat along no axis. *)
Definition thick (b : aabb) : Prop := (0 < bden b)%Z /\ forall i, (i < 3)%nat -> box_lo b i < box_hi b i.
(** The plane of s, with the side that was not taken as its positive side. *)
Definition outward (s : split_side) : hspace3 := if ss_pos s then hs_neg (ss_split s) else ss_split s.
(** The plane of s meets the box in more than a part of a line. *)
Definition crosses (b : aabb) (s : split_side) : Prop := ~ at_most_line (outward s) b.
(** q is on the plane of the path w that comes after l and before r, and strictly on
    the side taken of all the others. *)
Definition facet_point (l : path) (s : split_side) (r : path) (q : qpoint) : Prop := on_split s q /\ strictly l q /\ strictly r q.
(** The polygons ys are the border of the cell of w inside the box b. *)
Record border_of (b : aabb) (w : path) (ys : list bpoly) : Prop := BorderOf {
  (** They are pieces of the polygons in which the planes of the path meet the box. *)
  bo_pieces : exists ps rest, Forall2 (fun s p => cross_section (outward s) b p) w ps /\ cut_up (map (fresh_poly 0) ps) (ys ++ rest);
  (** Their points are in the cell and in the box and on a plane of the path, with
      the normal pointing out of the cell. *)
  bo_sound : forall y q, In y ys -> bp_point y q -> in_cell w q /\ in_box b q /\ exists s, In s w /\ on_split s q /\ pplane (bp_poly y) = outward s;
  (** Every facet of the cell is there as far as it is in the box, with its edges. *)
  bo_complete : forall l s r q0 q, w = l ++ s :: r -> facet_point l s r q0 -> in_box b q0 -> on_split s q -> in_cell w q -> in_box b q ->
    exists y, In y ys /\ bp_point y q /\ pplane (bp_poly y) = outward s }.
