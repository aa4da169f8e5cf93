(** What it means that the edges lying on one line are correctly connected.
    Independent of the algorithm: intervals on a line and angles around it. *)
From Coq Require Import List ZArith QArith Sorted.
From Verif Require Import BigUIntModel GeoModel GeoSpec TriSpec ConnModel.
Import ListNotations.
Open Scope Q_scope.

(** The coordinate of a point in the dimension that is used along the line. *)
Definition along (s : nat) (p : hpoint3) : Q := qcomp (hp_point p) s.
Definition same_point (a b : hpoint3) : Prop := qp_eq (hp_point a) (hp_point b).
(** A coordinate strictly between two points. *)
Definition strictly_inside (s : nat) (a b : hpoint3) (t : Q) : Prop := (along s a < t /\ t < along s b) \/ (along s b < t /\ t < along s a).
Definition forward (s : nat) (h : half) : Prop := along s (h_from h) < along s (h_to h).
Definition covers (s : nat) (h : half) (t : Q) : Prop := strictly_inside s (h_from h) (h_to h) t.
Definition low (s : nat) (h : half) : Q := if Qlt_le_dec (along s (h_from h)) (along s (h_to h)) then along s (h_from h) else along s (h_to h).

(** ** The input
    Half-edges on one line that is not perpendicular to dimension [s], whose
    direction vectors point from the first to the second end point. *)
Definition on_one_line (s : nat) (hs : list half) : Prop := exists o d, ~ qcomp d s == 0 /\
  forall h p, In h hs -> p = h_from h \/ p = h_to h -> hw p <> 0%Z /\ exists t, qp_eq (hp_point p) (qadd o (qscale t d)).
Definition directed (s : nat) (h : half) : Prop :=
  (forward s h /\ (0 < comp (h_dir h) s)%Z) \/ (along s (h_to h) < along s (h_from h) /\ (comp (h_dir h) s < 0)%Z).
(** The polygon normal seen along the line; for a backward edge the opposite one.
    A polygon lies to the right of this vector, whichever way the edge goes. *)
Definition seen_normal (s : nat) (h : half) : vec2 := V2 (comp (h_normal h) ((s + 1) mod 3)) (comp (h_normal h) ((s + 2) mod 3)).
Definition facing (s : nat) (h : half) (v : vec2) : Prop :=
  (forward s h /\ v = seen_normal s h) \/ (~ forward s h /\ v = opposite (seen_normal s h)).
Definition normals_ok (s : nat) (h : half) : Prop := forall v, facing s h v -> nonzero2 v /\ no_min [x2 v; y2 v].
Definition line_input (s : nat) (hs : list half) : Prop :=
  on_one_line s hs /\ Forall (directed s) hs /\ Forall (normals_ok s) hs /\ StronglySorted (fun a b => low s a <= low s b) hs.

(** ** Who should be connected with whom
    Order around the line: by angle, and for the same angle forward edges first. *)
Definition before (s : nat) (a b : half) : Prop := exists u v, facing s a u /\ facing s b v /\
  (rotation_lt u v \/ (same_direction [x2 u; y2 u] [x2 v; y2 v] /\ forward s a /\ ~ forward s b)).
(** [h] is met before [n] when turning clockwise from [p]. *)
Definition met_before (s : nat) (p h n : half) : Prop :=
  (before s n h /\ before s h p) \/ (before s h p /\ before s p n) \/ (before s p n /\ before s n h).
(** At the coordinate [t] the backward edge [j] is the first one met when turning
    clockwise from the forward edge [i]: the solid is between the two. *)
Definition nearest (s : nat) (hs : list half) (t : Q) (i j : nat) : Prop := exists p n,
  nth_error hs i = Some p /\ nth_error hs j = Some n /\ forward s p /\ ~ forward s n /\ covers s p t /\ covers s n t /\
  forall k h, nth_error hs k = Some h -> covers s h t -> k <> i -> k <> j -> ~ met_before s p h n.
Definition facing_pair (s : nat) (hs : list half) (t : Q) (i j : nat) : Prop := nearest s hs t i j \/ nearest s hs t j i.
(** No half-edge ends at the coordinate. *)
Definition generic (s : nat) (hs : list half) (t : Q) : Prop := forall h, In h hs -> ~ t == along s (h_from h) /\ ~ t == along s (h_to h).
(** The input is the part of a closed surface on this line: wherever there are
    edges, no two are equal in the order and each one has its counterpart. *)
Definition closed_line (s : nat) (hs : list half) : Prop := forall t, generic s hs t -> forall i a, nth_error hs i = Some a -> covers s a t ->
  (forall j b, nth_error hs j = Some b -> covers s b t -> j <> i -> before s a b \/ before s b a) /\ exists j, facing_pair s hs t i j.

(** ** The result *)
(** Two pieces refer to each other, run between the same two points in opposite
    directions, and everywhere in between their half-edges are counterparts. *)
Definition connected (s : nat) (hs : list half) (ps : list piece) (i j : nat) : Prop := exists q r,
  nth_error ps i = Some q /\ nth_error ps j = Some r /\ p_partner q = Some j /\ p_partner r = Some i /\
  same_point (p_from q) (p_to r) /\ same_point (p_to q) (p_from r) /\
  forall t, generic s hs t -> strictly_inside s (p_from q) (p_to q) t -> facing_pair s hs t (p_edge q) (p_edge r).
(** Following pieces from a point to another one, never backwards with respect to
    [h] and never staying at a point. *)
Fixpoint walk (s : nat) (ps : list piece) (h : half) (a : hpoint3) (l : list nat) (b : hpoint3) : Prop :=
  match l with
  | [] => a = b
  | i :: r => exists q, nth_error ps i = Some q /\ p_from q = a /\
      (forward s h -> along s a < along s (p_to q)) /\ (~ forward s h -> along s (p_to q) < along s a) /\ walk s ps h (p_to q) r b
  end.
(** The pieces of a half-edge lead from its first to its second end point. *)
Definition subdivided (s : nat) (ps : list piece) (e : nat) (h : half) : Prop := exists l, NoDup l /\
  (forall i, In i l <-> exists q, nth_error ps i = Some q /\ p_edge q = e) /\ walk s ps h (h_from h) l (h_to h).
