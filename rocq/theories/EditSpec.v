(** When two convex polygons are the same, and the cycle run other_way. *)
From Coq Require Import List ZArith QArith.
From Verif Require Import BigUIntModel GeoModel GeoSpec CvxSpec PolyModel PolySpec.
Import ListNotations.
Open Scope Q_scope.
(** The edges have equal data, in the sense of the comparison [eq]. *)
Definition equal_data {A} (eq : A -> A -> bool) (p : poly A) (i : nat) (o : poly A) (j : nat) : Prop :=
  exists a b, nth_error (pedges p) i = Some a /\ nth_error (pedges o) j = Some b /\ eq (pd a) (pd b) = true.
(** Same plane, facing the same way, and the same cycle of vertices, which starts
    k places later in os; edges other than the first of p have equal data. *)
Definition same_polygon {A} (eq : A -> A -> bool) (p : poly A) (qs : list qpoint) (o : poly A) (os : list qpoint) : Prop :=
  same_direction (l4 (pplane p)) (l4 (pplane o)) /\ length qs = length os /\
  exists k, (forall i, qp_eq (cyc o3 qs i) (cyc o3 os (k + i))) /\ forall i, (0 < i)%nat -> (i < length qs)%nat -> equal_data eq p i o ((k + i) mod length qs).
(** The cycle that starts at the same vertex and runs the other way. *)
Definition other_way (qs : list qpoint) : list qpoint := match qs with [] => [] | q :: l => q :: rev l end.
(** q is a lexicographically smallest point of l: no other one comes before it. *)
Definition smallest (q : qpoint) (l : list qpoint) : Prop := In q l /\ forall x, In x l -> ~ qlex_lt x q.
