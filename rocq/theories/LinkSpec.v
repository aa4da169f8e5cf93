(** Meshes of convex polygons with links between opposite half-edges. *)
From Coq Require Import List ZArith QArith.
From Verif Require Import BigUIntModel GeoModel GeoSpec PolyModel PolySpec TriSpec LinkModel.
Import ListNotations.

(** A half-edge of the mesh: the number of the edge, the polygon it refers to, its
    partner, its end points and its direction. *)
Record hedge := HE { f_id : nat; f_poly : nat; f_partner : option nat; f_from : qpoint; f_to : qpoint; f_dir : vec3 }.
(** The half-edge [k] of a polygon leads from its vertex to the next one. *)
Definition half_at (p : poly cdata) (k : nat) (h : hedge) : Prop := exists e e',
  nth_error (pedges p) k = Some e /\ nth_error (pedges p) (S k mod length (pedges p)) = Some e' /\
  h = HE (c_id (pd e)) (c_poly (pd e)) (c_partner (pd e)) (hp_point (pv e)) (hp_point (pv e')) (ld (pl e)).
Definition half_in (st : mesh) (i : nat) (h : hedge) : Prop := exists p k, nth_error st i = Some p /\ half_at p k h.
(** The vertices of a polygon. *)
Definition pts (p : poly cdata) : list qpoint := map (fun e => hp_point (pv e)) (pedges p).
Definition ids (p : poly cdata) : list nat := map (fun e => c_id (pd e)) (pedges p).

(** A consistent mesh: every polygon is empty or a convex polygon; no edge occurs
    twice; every edge refers to its polygon; partners refer to each other and run
    between the same points in opposite directions. *)
Record mesh_ok (st : mesh) : Prop := MeshOk {
  mo_convex : forall i p, nth_error st i = Some p -> pedges p = [] \/ poly_ok p (pts p);
  mo_once : (forall i p, nth_error st i = Some p -> NoDup (ids p)) /\
    forall i j p q x, i <> j -> nth_error st i = Some p -> nth_error st j = Some q -> In x (ids p) -> ~ In x (ids q);
  mo_back : forall i h, half_in st i h -> f_poly h = i;
  mo_partner : forall i h d, half_in st i h -> f_partner h = Some d -> exists j g, half_in st j g /\ f_id g = d /\ f_partner g = Some (f_id h) /\
    qp_eq (f_from h) (f_to g) /\ qp_eq (f_to h) (f_from g) }.
(** Where two half-edges follow each other straight on, both have partners or
    none of them has. *)
Definition even (st : mesh) : Prop := forall i j h g, half_in st i h -> half_in st j g -> qp_eq (f_to h) (f_from g) ->
  same_direction (l3 (f_dir h)) (l3 (f_dir g)) -> (f_partner h = None <-> f_partner g = None).
Definition closed_mesh (st : mesh) : Prop := forall i h, half_in st i h -> f_partner h <> None.
(** No component is -2^63. *)
Definition mesh_no_min (st : mesh) : Prop :=
  (forall i p, nth_error st i = Some p -> no_min (l3 (hn (pplane p)))) /\ forall i h, half_in st i h -> no_min (l3 (f_dir h)).
(** The points of polygon [i]. *)
Definition shows (st : mesh) (i : nat) (q : qpoint) : Prop := exists p, nth_error st i = Some p /\ pedges p <> [] /\ polygon_point (pplane p) (pdrop p) (pts p) q.
(** The normal of polygon [i] if it is not empty. *)
Definition faces (st : mesh) (i : nat) (n : vec3) : Prop := exists p, nth_error st i = Some p /\ pedges p <> [] /\ hn (pplane p) = n.
(** The points of the polygons that face the direction [v]. *)
Definition surface (st : mesh) (v : vec3) (q : qpoint) : Prop := exists i n, faces st i n /\ same_direction (l3 n) (l3 v) /\ shows st i q.
(** No edge is new, has another direction or has lost its partner. *)
Definition kept (st st' : mesh) : Prop := forall i h', half_in st' i h' -> exists j h, half_in st j h /\ f_id h = f_id h' /\ f_dir h = f_dir h' /\ (f_partner h = None <-> f_partner h' = None).
(** [n] steps around the start of an edge. *)
Fixpoint walk (st : mesh) (n : nat) (id : nat) : res (option nat) :=
  match n with
  | O => Ok (Some id)
  | S n => r <- next_around st id ;; match r with Some y => walk st n y | None => Ok None end
  end.
