(** Triangulations of polygons bounded by two chains. *)
From Coq Require Import List ZArith QArith.
From Verif Require Import BigUIntModel GeoModel GeoSpec TriModel.
Import ListNotations.
Open Scope Q_scope.
(** The edges of a path and of a closed path. *)
Definition path_edges {A} (l : list A) : list (A * A) := combine l (tl l).
Definition cycle_edges {A} (l : list A) : list (A * A) := match l with [] => [] | a :: _ => path_edges (l ++ [a]) end.
(** The polygon with the given chains: along the bottom chain from the minimum
    to the maximum, back along the top chain.  The minimum is the first element
    of the top chain only, the maximum the last one of the bottom chain only. *)
Definition polygon_of {A} (top bottom : list A) : list A := bottom ++ rev top.
Definition corners {A} (t : triangle A) : list A := [t1 t; t2 t; t3 t].
(** Sum of f over edges. *)
Definition edge_sum {A} (f : A -> A -> Q) (es : list (A * A)) : Q := fold_right (fun e s => f (fst e) (snd e) + s) 0 es.
(** Two collections of closed paths have the same boundary: every function of
    directed edges that changes sign with the direction has the same sum.  (So
    for every a and b the number of edges from a to b minus the number of edges
    from b to a is the same.) *)
Definition same_boundary {A} (ps qs : list (list A)) : Prop := forall f : A -> A -> Q, (forall a b, f b a == - f a b) ->
  edge_sum f (flat_map cycle_edges ps) == edge_sum f (flat_map cycle_edges qs).
(** Twice the signed area of a polygon. *)
Definition double_area (l : list qpoint2) : Q := edge_sum qcross2 (cycle_edges l).
(** ** Chains that do not cross
    Points are seen with the monotone axis pointing to the right. *)
Definition rightwards (l : list qpoint2) : Prop := forall a b, In (a, b) (path_edges l) -> qx2 a <= qx2 b.
(** Every vertex of one chain is on the right side of the edges of the other
    chain below or above it. *)
Record chains_ok (top bottom : list qpoint2) : Prop := ChainsOk {
  co_top : rightwards top; co_bottom : rightwards bottom;
  co_above : forall a b c, In (a, b) (path_edges bottom) -> In c top -> qx2 a <= qx2 c -> qx2 c <= qx2 b -> 0 <= turn a b c;
  co_below : forall a b c, In (a, b) (path_edges top) -> In c bottom -> qx2 a <= qx2 c -> qx2 c <= qx2 b -> turn a b c <= 0 }.
(** ** Position of a point *)
Definition above (l : list qpoint2) (q : qpoint2) : Prop :=
  exists a b, In (a, b) (path_edges l) /\ qx2 a <= qx2 q /\ qx2 q < qx2 b /\ 0 < turn a b q.
Definition on_side (a b q : qpoint2) : Prop :=
  turn a b q == 0 /\ (qx2 q - qx2 a) * (qx2 q - qx2 b) <= 0 /\ (qy2 q - qy2 a) * (qy2 q - qy2 b) <= 0.
Definition on_border (t : triangle qpoint2) (q : qpoint2) : Prop := on_side (t1 t) (t2 t) q \/ on_side (t2 t) (t3 t) q \/ on_side (t3 t) (t1 t) q.
Definition inside_triangle (t : triangle qpoint2) (q : qpoint2) : Prop := 0 < turn (t1 t) (t2 t) q /\ 0 < turn (t2 t) (t3 t) q /\ 0 < turn (t3 t) (t1 t) q.
(** Exactly one element of a list satisfies a predicate. *)
Definition exactly_one {A} (P : A -> Prop) (l : list A) : Prop := exists l1 x l2, l = l1 ++ x :: l2 /\ P x /\ forall y, In y (l1 ++ l2) -> ~ P y.
Definition map_triangle {A B} (f : A -> B) (t : triangle A) : triangle B := Tri (t_top t) (f (t1 t)) (f (t2 t)) (f (t3 t)).
(** ** Seen without the drop axis, the monotone axis to the right
    The orientation is that of [qdrop drop]. *)
Definition seen (drop mono : nat) (q : qpoint) : qpoint2 :=
  if Nat.eqb mono ((drop + 1) mod 3) then qdrop drop q else QP2 (qy2 (qdrop drop q)) (- qx2 (qdrop drop q)).
(** The point denoted by homogeneous coordinates. *)
Definition hp_point (p : hpoint3) : qpoint :=
  QP (inject_Z (vx (hv p)) / inject_Z (hw p)) (inject_Z (vy (hv p)) / inject_Z (hw p)) (inject_Z (vz (hv p)) / inject_Z (hw p)).
