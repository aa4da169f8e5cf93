(** Specification of what a visitor is told about the polygons on one plane. *)
From Coq Require Import List Bool Arith ZArith QArith.
From Verif Require Import BigUIntModel GeoModel GeoSpec CvxSpec PolyModel PolySpec RTransModel FilterModel FilterSpec BspModel BspSpec PartModel.
Import ListNotations.
Open Scope Q_scope.

(** ** Peeling a stack of coinciding polygons *)
(** How the winding number of its id changes when a polygon is crossed: +1 if the
    component d of its normal has the sign asked for. *)
Definition crossing_step (d : nat) (pos : bool) (b : bpoly) : Z := if Bool.eqb (0 <? comp (hn (pplane (bp_poly b))) d)%Z pos then 1%Z else (-1)%Z.
Definition crossed (d : nat) (pos : bool) (w : winding) (b : bpoly) : winding := fun id => if Nat.eqb id (bp_id b) then (w id + crossing_step d pos b)%Z else w id.
(** Of the polygons l, crossed one after the other from a place with winding numbers
    w, r are those at which one enters or leaves the filter's solid. *)
Inductive flips (f : filter) (d : nat) (pos : bool) : winding -> list bpoly -> list bpoly -> Prop :=
| fl_nil w : flips f d pos w [] []
| fl_flip w b l r : ~ (inside f w <-> inside f (crossed d pos w b)) -> flips f d pos (crossed d pos w b) l r -> flips f d pos w (b :: l) (b :: r)
| fl_stay w b l r : (inside f w <-> inside f (crossed d pos w b)) -> flips f d pos (crossed d pos w b) l r -> flips f d pos w (b :: l) r.
(** The winding numbers after crossing all polygons of l. *)
Definition after (d : nat) (pos : bool) (w : winding) (l : list bpoly) : winding := fold_left (crossed d pos) l w.
(** The filters with which larger winding numbers never make a point leave. *)
Fixpoint monotone (f : filter) : Prop :=
  match f with FOdd _ | FXor _ _ => False | FInter f g | FUnion f g | FSub f g => monotone f /\ monotone g | _ => True end.
(** Of the polygons l, r are those that contain q. *)
Inductive at_point (q : qpoint) : list bpoly -> list bpoly -> Prop :=
| ap_nil : at_point q [] []
| ap_in b l r : bp_point b q -> at_point q l r -> at_point q (b :: l) (b :: r)
| ap_out b l r : ~ bp_point b q -> at_point q l r -> at_point q (b :: l) r.
(** x is a part of b. *)
Record part_of (x b : bpoly) : Prop := PartOf {
  pa_id : bp_id x = bp_id b;
  pa_plane : pplane (bp_poly x) = pplane (bp_poly b) /\ pdrop (bp_poly x) = pdrop (bp_poly b);
  pa_on : bp_on x = bp_on b;
  pa_points : forall q, bp_point x q -> bp_point b q }.
(** q is on the line of no edge. *)
Definition off_lines (q : qpoint) (l : list bpoly) : Prop := forall b i u v e, In b l -> has_edge (bp_poly b) i u v e -> ~ on_line u v q.

(** ** What the visitor is told *)
Fixpoint accepted (evs : list event) : list bpoly := match evs with [] => [] | EAccept b :: evs => b :: accepted evs | _ :: evs => accepted evs end.
(** The visitor is led through a binary space partition of the cell at the end of
    the path w: every plane is announced, and withdrawn after both of its sides, and
    the polygons of a leaf are exact with respect to the planes that are announced
    at that time. *)
Inductive tour : path -> list event -> Prop :=
| to_skip w : tour w []
| to_leaf w l : Forall (stored w) l -> tour w (ELeaf :: map EAccept l)
| to_split w h n p : fresh_plane w h -> tour (w ++ [SS h false]) n -> tour (w ++ [SS h true]) p -> tour w (EEnter h :: n ++ p ++ [ELeave h]).
