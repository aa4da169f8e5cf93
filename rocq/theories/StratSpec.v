(** When the event points of a SplitStrategy fit the leaf that it is for. *)
From Coq Require Import List Arith ZArith.
From Verif Require Import GeoModel FilterModel PolyModel BspModel BspSpec EvtModel EvtSpec KdModel KdSpec StratModel.
Import ListNotations.

(** The plane of the polygon is not perpendicular to an axis. *)
Definition tilted (b : bpoly) : Prop := forall d, (d < 3)%nat -> exists k, (k < 3)%nat /\ k <> d /\ comp (hn (pplane (bp_poly b))) k <> 0%Z.
(** The estimates of costs do not overflow; wide: there are 128 bit numbers. *)
Definition few (wide : bool) (cs : list bpoly) : Prop := (Z.of_nat (length cs) < 2 ^ 57)%Z /\ (wide = true \/ (Z.of_nat (length cs) < 2 ^ 31)%Z).
(** A strategy that will only use BSPNode::Split(), or one for tilted polygons with
    boxes, whose event points have not been made yet or are right. *)
Definition strategy_ok (wide : bool) (st : strategy) (x : bnode) : Prop :=
  match st_bound st with
  | None => True
  | Some bound => (length (n_contents x) <= bound)%nat \/
      boxed (n_contents x) /\ Forall tilted (n_contents x) /\ few wide (n_contents x) /\
      (st_events st 0%nat = [] \/ forall d, (d < 3)%nat -> events_ok d (map (bp_view d) (n_contents x)) (st_events st d))
  end.
