(** Intervals and their end points in order. *)
From Coq Require Import List ZArith QArith Arith.
From Verif Require Import BigUIntModel GeoModel GeoSpec EstSpec EvtModel.
Import ListNotations.
Open Scope Q_scope.
(** The coordinate of a homogeneous point. *)
Definition coord (d : nat) (v : hpoint3) : Q := inject_Z (comp (hv v) d) / inject_Z (hw v).
(** The interval of polygon i. *)
Definition lo (d : nat) (ps : list epoly) (i : nat) : Q := match nth_error ps i with Some p => coord d (e_min p) | None => 0 end.
Definition hi (d : nat) (ps : list epoly) (i : nat) : Q := match nth_error ps i with Some p => coord d (e_max p) | None => 0 end.
Definition poly_fit (d : nat) (p : epoly) : Prop := hw (e_min p) <> 0%Z /\ hw (e_max p) <> 0%Z /\ coord d (e_min p) <= coord d (e_max p).
(** Entry s of the array is the start event and entry e the end event of
    polygon i. *)
Definition spans (evs : list event) (s e i : nat) : Prop :=
  (exists a, nth_error evs s = Some a /\ ev_start a = true /\ ev_index a = e) /\
  (exists b, nth_error evs e = Some b /\ ev_start b = false /\ ev_index b = i).
(** Entry k of the array is an event at x. *)
Definition event_at (d : nat) (ps : list epoly) (evs : list event) (k : nat) (x : Q) : Prop :=
  exists s e i, spans evs s e i /\ (k = s /\ x == lo d ps i \/ k = e /\ x == hi d ps i).
(** Entry k is the start event of a polygon that is not flat. *)
Definition wide_start (d : nat) (ps : list epoly) (evs : list event) (k : nat) : Prop :=
  exists e i, spans evs k e i /\ lo d ps i < hi d ps i.
(** The array holds one start and one later end event for each polygon and nothing
    else, sorted by location; at one location the start events of polygons that are
    not flat come last, and the two events of a flat polygon are neighbours;
    new_location marks the first event of each location. *)
Record events_ok (d : nat) (ps : list epoly) (evs : list event) : Prop := EventsOk {
  eo_length : length evs = (2 * length ps)%nat;
  eo_polygon : forall i, (i < length ps)%nat -> exists s e, (s < e)%nat /\ spans evs s e i /\ forall s' e', spans evs s' e' i -> s' = s /\ e' = e;
  eo_event : forall k, (k < length evs)%nat -> exists s e i, (i < length ps)%nat /\ spans evs s e i /\ (k = s \/ k = e);
  eo_sorted : forall j k x y, (j < k)%nat -> event_at d ps evs j x -> event_at d ps evs k y -> x <= y;
  eo_ties : forall j k x y, (j < k)%nat -> event_at d ps evs j x -> event_at d ps evs k y -> x == y -> wide_start d ps evs j -> wide_start d ps evs k;
  eo_flat : forall s e i, spans evs s e i -> lo d ps i == hi d ps i -> e = S s;
  eo_new : forall k a, nth_error evs k = Some a ->
    (ev_new a = true <-> k = 0%nat \/ exists j x y, k = S j /\ event_at d ps evs j x /\ event_at d ps evs k y /\ x < y) }.

(** ** The best place to split *)
(** c of the numbers below n satisfy P. *)
Definition counts (n : nat) (P : nat -> Prop) (c : Z) : Prop :=
  exists l, NoDup l /\ (forall i, In i l <-> (i < n)%nat /\ P i) /\ c = Z.of_nat (length l).
(** Polygon i does not belong to the excluded mesh. *)
Definition included (excl : option nat) (ps : list epoly) (i : nat) : Prop :=
  exists p, nth_error ps i = Some p /\ match excl with None => True | Some x => e_id p <> x end.
(** The start event of polygon i is one of the events 0 .. k, or its end event is
    not. *)
Definition begun (evs : list event) (k i : nat) : Prop := exists s e, spans evs s e i /\ (s <= k)%nat.
Definition pending (evs : list event) (k i : nat) : Prop := exists s e, spans evs s e i /\ (k < e)%nat.
(** Event k is an end event and the next one, if any, a start event. *)
Definition candidate (evs : list event) (k : nat) : Prop :=
  (exists a, nth_error evs k = Some a /\ ev_start a = false) /\
  (S k = length evs \/ exists b, nth_error evs (S k) = Some b /\ ev_start b = true).
(** Splitting after event k: a polygons on the negative side cost ca and b on the
    positive side cost cb.  The cost of m polygons, l of them included, is m log2
    (l + 1), interpolated. *)
Definition split_cost_at (excl : option nat) (ps : list epoly) (evs : list event) (k : nat) (a ca b cb : Z) : Prop :=
  exists la lb, counts (length ps) (begun evs k) a /\ counts (length ps) (fun i => begun evs k i /\ included excl ps i) la /\
    counts (length ps) (pending evs k) b /\ counts (length ps) (fun i => pending evs k i /\ included excl ps i) lb /\
    ca = interpolation a (la + 1) /\ cb = interpolation b (lb + 1).
