(** The edges of a plane, and their partition into lines. *)
From Coq Require Import List ZArith QArith Sorted Permutation.
From Verif Require Import BigUIntModel GeoModel GeoSpec TriSpec ConnModel ConnSpec ConnPlaneModel.
Import ListNotations.
Open Scope Q_scope.

(** An edge between two points of the plane: both are on its line, whose direction
    is the one from the first to the second, and the normal of its polygon is
    perpendicular to the line.  No normal has a component -2^63 or 2^63. *)
Definition edge_ok (plane : hspace3) (e : ledge) : Prop :=
  (forall p, p = e_from e \/ p = e_to e -> hw p <> 0%Z /\ line_points (e_line e) (hp_point p) /\ side plane (hp_point p) == 0) /\
  (exists c, 0 < c /\ qp_eq (qpt (ld (e_line e))) (qscale c (qsub (hp_point (e_to e)) (hp_point (e_from e))))) /\
  pl_valid (e_line e) = true /\
  e_normal e <> V3 0 0 0 /\ v3_dot (e_normal e) (ld (e_line e)) = 0%Z /\
  Forall (fun z => Z.abs z <> 2 ^ 63)%Z (l3 (e_normal e)).
Definition plane_input (plane : hspace3) (drop : nat) (l : list (option ledge)) : Prop :=
  (drop < 3)%nat /\ comp (hn plane) drop <> 0%Z /\ forall e, In (Some e) l -> edge_ok plane e.
(** The edges that are there. *)
Definition present (l : list (option ledge)) : list ledge := flat_map (fun o => match o with Some e => [e] | None => [] end) l.
Definition same_line (a b : ledge) : Prop := forall v, line_points (e_line a) v <-> line_points (e_line b) v.

(** What std::sort guarantees: a rearrangement in which no element is less than an
    earlier one. *)
Definition sorts (dbg : bool) (drop : nat) (sort : list (option ledge) -> list (option ledge)) (l : list (option ledge)) : Prop :=
  Permutation (sort l) l /\ StronglySorted (fun a b => edge_lt dbg drop b a <> Ok true) (sort l).
(** The edges on one line and those that are not. *)
Definition line_of (l on off : list ledge) : Prop := Permutation l (on ++ off) /\ on <> [] /\
  (forall a b, In a on -> In b on -> same_line a b) /\ (forall a b, In a on -> In b off -> ~ same_line a b).
(** The edges on each line belong to a closed surface. *)
Definition closed_plane (l : list ledge) : Prop := forall on off s, line_of l on off -> (forall e, In e on -> comp (ld (e_line e)) s <> 0%Z) -> (s < 3)%nat -> closed_line s (map e_half on).

(** All edges of a line are cut into pieces that are connected with each other. *)
Definition line_done (r : line_result) : Prop :=
  c_errors (r_state r) = [] /\
  (forall i, (i < length (c_pieces (r_state r)))%nat -> exists j, connected (r_dim r) (map e_half (r_edges r)) (c_pieces (r_state r)) i j) /\
  (forall k e, nth_error (r_edges r) k = Some e -> subdivided (r_dim r) (c_pieces (r_state r)) k (e_half e)).
