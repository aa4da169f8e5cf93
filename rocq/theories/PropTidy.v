(** C72: FilterEmptyPolygons and the assertions on the state of ConnectingVisitor. *)
From Coq Require Import List Bool Arith ZArith QArith Lia.
From Verif Require Import BigUIntModel GeoModel GeoSpec PolyModel PolySpec LinkModel LinkSpec LinkGoodProofs LinkTopProofs TidyModel TidySpec TidyProofs.
From Verif Require PropLink.
Import ListNotations.

(** FilterEmptyPolygons leaves the polygons that have edges, in the same order, with
    the same planes, edges and partners.  The mesh is consistent again, which
    includes that every edge refers to the new place of its polygon. *)
Theorem C72_filter : forall st, mesh_ok st -> mesh_ok (filter_empty st) /\ no_empty (filter_empty st) /\
  map poly_face (filter_empty st) = map poly_face (filter has_edges st) /\ (closed_mesh st -> closed_mesh (filter_empty st)) /\ (even st -> even (filter_empty st)) /\
  forall v q, surface (filter_empty st) v q <-> surface st v q.
Proof.
  intros st M. split; [exact (filter_mesh st M)|]. split; [exact (filter_none st M)|]. split; [apply find_faces|]. split; [exact (filter_closed st M)|]. split; [exact (filter_even st M)|]. exact (filter_surface st M).
Qed.
Print Assumptions C72_filter.

(** IsValidState is true in a consistent mesh, for all edges that are looked at. *)
Theorem C72_valid : forall st l, mesh_ok st -> valid_state st l = Ok true.
Proof. exact valid_state_ok. Qed.
Print Assumptions C72_valid.
(** If it is true, every edge looked at fits its partner.  It does not show that the
    partner refers back. *)
Theorem C72_detects : forall st l i h, polys_ok st -> valid_state st l = Ok true -> half_in st i h -> In (f_id h) l -> partner_fits st h.
Proof. intros st l i h M V H I. exact (valid_edge_fits st i h M H (valid_state_each st l V _ I)). Qed.
Print Assumptions C72_detects.

(** LeaveInteriorNode, from the connected edges on: no assertion fails, and the mesh
    is as in C64_merge_all. *)
Theorem C72_leave : forall dbg drop st l rest, mesh_ok st -> even st -> mesh_no_min st ->
  (forall i h, half_in st i h -> In (f_id h) l -> comp (f_dir h) ((drop + 1) mod 3) <> 0%Z \/ comp (f_dir h) ((drop + 2) mod 3) <> 0%Z) ->
  exists st', leave_checked dbg drop st l rest = Ok st' /\ merge_all dbg drop st l = Ok st' /\ mesh_ok st' /\ even st' /\ mesh_no_min st' /\ kept st st' /\
    forall v q, v <> V3 0 0 0 -> (surface st' v q <-> surface st v q).
Proof.
  intros dbg drop st l rest M Ev Nm D. destruct (PropLink.C64_merge_all dbg drop st l M Ev Nm D) as (st' & R & M' & Ev' & Nm' & K & _ & S1). exists st'. split; [|repeat (split; [assumption|]); exact S1].
  unfold leave_checked. rewrite (assert_valid_ok dbg st _ M). cbn [rbind]. rewrite (merge_checked_same dbg drop (l ++ rest) l st (conj M (conj Ev Nm)) D), R. cbn [rbind]. rewrite (assert_valid_ok dbg st' rest M'). reflexivity.
Qed.
Print Assumptions C72_leave.

(** ** Cases *)
(** The cuboid of C64, whose top is two squares: they are merged and the empty one
    is removed. *)
Example C72_case : mesh_ok PropLink.cuboid /\ even PropLink.cuboid /\ mesh_no_min PropLink.cuboid /\
  exists st', leave_checked true 2 PropLink.cuboid [0; 1; 2; 3; 4; 5; 6; 7]%nat [8; 9; 10]%nat = Ok st' /\ map (fun p => length (pedges p)) st' = [4; 0; 4; 4; 4; 4; 4]%nat /\
    map (fun p => map (fun e => c_poly (pd e)) (pedges p)) (filter_empty st') = map (fun i => [i; i; i; i]) [0; 1; 2; 3; 4; 5]%nat.
Proof.
  destruct PropLink.cuboid_ok as (A & B & C). split; [exact A|]. split; [exact (PropLink.closed_even _ B)|]. split; [exact C|]. eexists. split; [vm_compute; reflexivity|]. split; vm_compute; reflexivity.
Qed.
(** An edge with a partner somewhere else is found. *)
Example C72_found : exists st, polys_ok st /\ valid_state st [0%nat] = Ok false.
Proof.
  exists (LinkProofs.redata (LinkProofs.on_id 0 (set_partner (Some 9%nat))) PropLink.cuboid). destruct PropLink.cuboid_ok as (A & _ & _). split; [|vm_compute; reflexivity]. split.
  - intros i p P. exact (redata_convex _ _ (fun i p => mo_convex _ A i p) i p P).
  - apply LinkProofs.redata_once; [intros d; unfold LinkProofs.on_id; destruct (c_id d =? 0)%nat; reflexivity|exact (mo_once _ A)].
  - intros i h H. apply LinkProofs.half_in_redata in H as (h0 & H & ->). unfold LinkProofs.hmap, LinkProofs.on_id. cbn [c_id LinkProofs.hdata]. rewrite <- (mo_back _ A i h0 H). destruct (f_id h0 =? 0)%nat; reflexivity.
Qed.
