(** What it means to divide polygons with their event points at a plane. *)
From Coq Require Import List ZArith QArith Arith.
From Verif Require Import BigUIntModel GeoModel GeoSpec EvtModel EvtSpec PrimModel.
Import ListNotations.
Open Scope Q_scope.

(** The list of the numbers below n that satisfy C, each once. *)
Definition lists (n : nat) (C : nat -> Prop) (l : list nat) : Prop := NoDup l /\ forall q, In q l <-> (q < n)%nat /\ C q.
(** A polygon that crosses the plane can be split: one part reaches from its lowest
    coordinate to x and one from x to its highest coordinate. *)
Definition splits {P} (O : pops P) (d : nat) (x : Q) (r : P) : Prop :=
  exists a b, o_split O r = Ok (a, b) /\ poly_fit d (o_view O a) /\ poly_fit d (o_view O b) /\
    coord d (e_min (o_view O a)) == coord d (e_min (o_view O r)) /\ coord d (e_max (o_view O a)) == x /\
    coord d (e_min (o_view O b)) == x /\ coord d (e_max (o_view O b)) == coord d (e_max (o_view O r)).
(** A polygon that ends at the plane can be marked, and looks the same then. *)
Definition markable {P} (O : pops P) (b : bool) (r : P) : Prop := exists a, o_touch O b r = Ok a /\ o_view O a = o_view O r.
(** Polygon q becomes a in the list of the child. *)
Definition negative_part {P} (O : pops P) (ps : list P) (q : nat) (a : P) : Prop := exists r b, nth_error ps q = Some r /\ o_split O r = Ok (a, b).
Definition positive_part {P} (O : pops P) (ps : list P) (q : nat) (b : P) : Prop := exists r a, nth_error ps q = Some r /\ o_split O r = Ok (a, b).
(** A polygon that stays whole is marked if it touches the plane. *)
Definition kept {P} (O : pops P) (ps : list P) (side : bool) (touches : nat -> Prop) (q : nat) (a : P) : Prop :=
  exists r, nth_error ps q = Some r /\ (touches q -> o_touch O side r = Ok a) /\ (~ touches q -> a = r).
Definition in_plane {P} (O : pops P) (ps : list P) (side : bool) (q : nat) (a : P) : Prop := exists r, nth_error ps q = Some r /\ o_border O side r = Ok a.
Definition faces_down {P} (O : pops P) (ps : list P) (q : nat) : Prop := exists r, nth_error ps q = Some r /\ o_down O r = true.

(** The result of dividing the polygons [ps] at x: the crossing ones B, the other
    ones on the negative side N, on the positive side Q, and in the plane D and U. *)
Record divided {P} (O : pops P) (d : nat) (x : Q) (ps : list P) (B N R D U : list nat) (negs poss : list P) (nev pev : list event) (s : pstate P) : Prop := Divided {
  dv_crossing : lists (length ps) (fun q => lo d (map (o_view O) ps) q < x /\ x < hi d (map (o_view O) ps) q) B;
  dv_negative : lists (length ps) (fun q => lo d (map (o_view O) ps) q < x /\ hi d (map (o_view O) ps) q <= x) N;
  dv_positive : lists (length ps) (fun q => x <= lo d (map (o_view O) ps) q /\ x < hi d (map (o_view O) ps) q) R;
  dv_down : lists (length ps) (fun q => lo d (map (o_view O) ps) q == x /\ hi d (map (o_view O) ps) q == x /\ faces_down O ps q) D;
  dv_up : lists (length ps) (fun q => lo d (map (o_view O) ps) q == x /\ hi d (map (o_view O) ps) q == x /\ ~ faces_down O ps q) U;
  dv_negs : s_negs s = map Some negs;
  dv_poss : s_poss s = map Some poss;
  (* the polygons of the children *)
  dv_negs_B : Forall2 (negative_part O ps) B (firstn (length B) negs);
  dv_negs_N : Forall2 (kept O ps false (fun q => hi d (map (o_view O) ps) q == x)) N (skipn (length B) negs);
  dv_poss_B : Forall2 (positive_part O ps) B (firstn (length B) poss);
  dv_poss_R : Forall2 (kept O ps true (fun q => lo d (map (o_view O) ps) q == x)) R (skipn (length B) poss);
  dv_nb : Forall2 (in_plane O ps false) U (s_nb s);
  dv_pb : Forall2 (in_plane O ps true) D (s_pb s);
  (* where each polygon went *)
  dv_length : length (s_map s) = length ps;
  dv_map_B : forall c q, nth_error B c = Some q -> nth_error (s_map s) q = Some (Some (Idx c));
  dv_map_N : forall c q, nth_error N c = Some q -> nth_error (s_map s) q = Some (Some (Idx (length B + c)));
  dv_map_R : forall c q, nth_error R c = Some q -> nth_error (s_map s) q = Some (Some (Idx (length negs + length B + c)));
  dv_map_DU : forall q, In q D \/ In q U -> nth_error (s_map s) q = Some (Some Gone);
  (* their event points *)
  dv_nev : s_neg s = map (fun e => Some (lift e)) nev;
  dv_pev : firstn (length poss * 2) (s_ev s) = map lift pev;
  dv_negs_fit : Forall (poly_fit d) (map (o_view O) negs);
  dv_poss_fit : Forall (poly_fit d) (map (o_view O) poss);
  dv_negs_ok : events_ok d (map (o_view O) negs) nev;
  dv_poss_ok : events_ok d (map (o_view O) poss) pev }.
