(** Two polygons with a common edge. *)
From Coq Require Import List ZArith QArith.
From Verif Require Import BigUIntModel GeoModel GeoSpec CvxSpec PolyModel PolySpec.
Import ListNotations.
Open Scope Q_scope.
(** Edge k of p, from vertex k to the next vertex, is edge m of o in the other
    direction, and its ends differ in the coordinate nz. *)
Record common_edge {A} (p : poly A) (qs : list qpoint) (k : nat) (o : poly A) (os : list qpoint) (m nz : nat) : Prop := CommonEdge {
  ce_mine : poly_ok p qs; ce_other : poly_ok o os; ce_k : (k < pcount p)%nat; ce_m : (m < pcount o)%nat; ce_nz : (nz < 3)%nat;
  ce_start : qp_eq (cyc o3 os (S m)) (cyc o3 qs k); ce_end : qp_eq (cyc o3 os m) (cyc o3 qs (S k));
  ce_differ : ~ qcomp (cyc o3 qs k) nz == qcomp (cyc o3 qs (S k)) nz }.
(** The points of both polygons. *)
Definition in_either {A} (p : poly A) (qs : list qpoint) (o : poly A) (os : list qpoint) (x : qpoint) : Prop :=
  polygon_point (pplane p) (pdrop p) qs x \/ polygon_point (pplane o) (pdrop o) os x.
(** The middle of two points of the set S is outside of it. *)
Definition not_convex (S : qpoint -> Prop) : Prop := exists x y, S x /\ S y /\ ~ S (between x y (1 # 2)).
(** Vertex i of the polygon lies on the line through its neighbours. *)
Definition straight_at (qs : list qpoint) (i : nat) : Prop := on_line (cyc o3 qs (i + length qs - 1)) (cyc o3 qs i) (cyc o3 qs (S i)).
(** The new point m is put after vertex k. *)
Definition insert_after {B} (k : nat) (m : B) (l : list B) : list B := firstn (S k) l ++ m :: skipn (S k) l.
