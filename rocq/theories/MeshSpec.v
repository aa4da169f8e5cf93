(** Specification vocabulary for repaired meshes. *)
From Coq Require Import List ZArith QArith.
From Verif Require Import BigUIntModel GeoModel GeoSpec NudgeModel NudgeSpec.
Import ListNotations.
Open Scope Q_scope.
(** Square of the distance. *)
Definition dist2 (a b : qpoint) : Q := qdot (qsub a b) (qsub a b).
Definition on_all (l : list hspace3) (q : qpoint) : Prop := Forall (fun h => side h q == 0) l.
(** r is a point of P with the least distance from q. *)
Definition nearest (P : qpoint -> Prop) (q r : qpoint) : Prop := P r /\ forall s, P s -> dist2 q r <= dist2 q s.
(** Up to three planes whose normals are linearly independent. *)
Definition independent (l : list hspace3) : Prop :=
  match List.map hn l with
  | [] => True
  | [a] => a <> V3 0 0 0
  | [a; b] => v3_cross a b <> V3 0 0 0
  | [a; b; c] => v3_dot (v3_cross a b) c <> 0%Z
  | _ => False
  end.
(** Two representations of one point. *)
Definition same_point (p r : hpoint3) : Prop := exists q, denotes p q /\ denotes r q.
(** A facet that lies on a plane with coefficients below 2^31. *)
Definition small_facet (f : list hpoint3) : Prop :=
  exists h, hs_valid h = true /\ Forall (fun c => (Z.abs c < 2 ^ 31)%Z) (l4 h) /\ Forall (incident h) f.
(** The vertices denote points. *)
Definition finite_points (f : list hpoint3) : Prop := Forall (fun p => hw p <> 0%Z) f.
(** The gcd function always comes back. *)
Definition gcd_returns (gcd : Z -> Z -> res Z) : Prop := forall a b, gcd a b <> NoFuel.
