(** Meshes without empty polygons. *)
From Coq Require Import List ZArith.
From Verif Require Import BigUIntModel GeoModel GeoSpec PolyModel PolySpec LinkModel LinkSpec.
Import ListNotations.

(** What is stored with an edge, without the polygon that it belongs to. *)
Definition edge_face (e : pedge cdata) : hpoint3 * pline * nat * option nat := (pv e, pl e, c_id (pd e), c_partner (pd e)).
(** A polygon without the back pointers: plane, drop dimension, edges. *)
Definition poly_face (p : poly cdata) : hspace3 * nat * list (hpoint3 * pline * nat * option nat) := (pplane p, pdrop p, map edge_face (pedges p)).
Definition has_edges (p : poly cdata) : bool := match pedges p with [] => false | _ => true end.
Definition no_empty (st : mesh) : Prop := Forall (fun p => pedges p <> []) st.
(** The polygons are empty or convex, no edge occurs twice and every edge refers to
    its polygon; nothing about partners. *)
Record polys_ok (st : mesh) : Prop := PolysOk {
  ps_convex : forall i p, nth_error st i = Some p -> pedges p = [] \/ poly_ok p (pts p);
  ps_once : (forall i p, nth_error st i = Some p -> NoDup (ids p)) /\
    forall i j p q x, i <> j -> nth_error st i = Some p -> nth_error st j = Some q -> In x (ids p) -> ~ In x (ids q);
  ps_back : forall i h, half_in st i h -> f_poly h = i }.
(** The partner of h, if it has one, is an edge that runs between the same points in
    the opposite direction. *)
Definition partner_fits (st : mesh) (h : hedge) : Prop := forall d, f_partner h = Some d -> exists j g, half_in st j g /\ f_id g = d /\
  qp_eq (f_from h) (f_to g) /\ qp_eq (f_to h) (f_from g).
