(** Specification of how ConnectingVisitor groups the edges of the polygons that it
    is shown. *)
From Coq Require Import List Bool Arith ZArith QArith Permutation.
From Verif Require Import BigUIntModel GeoModel GeoSpec AabbSpec CvxSpec PolyModel PolySpec RTransModel FilterModel BspModel BspSpec.
Import ListNotations.
Open Scope Q_scope.

(** All edges of the polygons bs, which are numbered from n on: pairs of the number of
    the polygon and of the edge. *)
Fixpoint edges_from (n : nat) (bs : list bpoly) : list (nat * nat) :=
  match bs with [] => [] | b :: bs => map (pair n) (seq 0 (length (pedges (bp_poly b)))) ++ edges_from (S n) bs end.
(** Edge x of the polygons bs goes from u to v and carries the data d. *)
Definition edge_of (bs : list bpoly) (x : nat * nat) (u v : qpoint) (d : bdata) : Prop := exists b, nth_error bs (fst x) = Some b /\ has_edge (bp_poly b) (snd x) u v d.
(** The edges have more than one point in common. *)
Definition overlap (bs : list bpoly) (x y : nat * nat) : Prop := exists u v d u' v' d' q r, edge_of bs x u v d /\ edge_of bs y u' v' d' /\ ~ qp_eq q r /\
  on_segment u v q /\ on_segment u v r /\ on_segment u' v' q /\ on_segment u' v' r.
(** A pointer to a plane of the path w is kept, and any other one is reset. *)
Definition still (w : path) (o o' : option split_side) : Prop := match o with None => o' = None | Some s => In s w /\ o' = o \/ ~ In s w /\ o' = None end.
(** The polygon x is b with such pointers; edge_created_by is not changed. *)
Record tidied (w : path) (b x : bpoly) : Prop := Tidied {
  td_same : pplane (bp_poly x) = pplane (bp_poly b) /\ pdrop (bp_poly x) = pdrop (bp_poly b) /\ bp_box x = bp_box b /\ bp_id x = bp_id b /\ bp_on x = bp_on b;
  td_edges : Forall2 (fun e e' => pv e' = pv e /\ pl e' = pl e /\ created_by (pd e') = created_by (pd e) /\ first_co (pd e') = first_co (pd e) /\
    (exists s, first_co (pd e) = Some s /\ In s w) /\ still w (vertex_co (pd e)) (vertex_co (pd e')) /\ still w (edge_co (pd e)) (edge_co (pd e'))) (pedges (bp_poly b)) (pedges (bp_poly x)) }.
(** The depth of the plane of the path w that created an edge; 0 for an edge that no
    plane created. *)
Definition born (w : path) (c : nat) (d : bdata) : Prop := match created_by d with None => c = 0%nat | Some s => exists l r, w = l ++ s :: r /\ c = S (length l) end.
