(** Property C57: the part of a plane inside a box. *)
From Coq Require Import ZArith QArith List Bool Lia Lqa Arith.
From Verif Require Import BigUIntModel GeoModel GeoSpec CvxSpec AabbModel AabbSpec PolyModel PolySpec PolyBridgeProofs BspModel AabbPlaneModel AabbPlaneProofs.
Import ListNotations.
Open Scope Q_scope.
(** The part of the plane h in the box b is contained in one line of h: every
    point of it is also on the plane g, which is another plane. *)
Definition at_most_line (h : hspace3) (b : aabb) : Prop :=
  exists g q0, hs_valid g = true /\ side h q0 == 0 /\ ~ side g q0 == 0 /\ forall q, side h q == 0 -> in_box b q -> side g q == 0.
(** The points of the polygon p, a convex polygon in the plane h seen from its
    positive side, are the points of h in the box b. *)
Definition cross_section (h : hspace3) (b : aabb) (p : poly unit) : Prop :=
  exists qs, poly_ok p qs /\ pplane p = h /\ forall q, polygon_point h (pdrop p) qs q <-> side h q == 0 /\ in_box b q.
(** d is the first axis the plane h is not parallel to; b is not flat along the
    other two.  (Along axis d it may be.) *)
Theorem C57_intersect : forall dbg b h d, (0 < bden b)%Z -> (d < 3)%nat -> comp (hn h) d <> 0%Z -> (forall j, (j < d)%nat -> comp (hn h) j = 0%Z) ->
  (forall i, (i < 3)%nat -> i <> d -> box_lo b i < box_hi b i) -> box_lo b d <= box_hi b d ->
  exists r, bx_intersect_plane dbg b h = Ok r /\ match r with Some p => cross_section h b p | None => at_most_line h b end.
Proof.
  intros dbg b h d Dn L N F W W3. pose proof (inj_pos _ Dn) as D.
  assert (Wi : forall i, (i < 3)%nat -> i <> d -> wide b i).
  { intros i I Ne. specialize (W i I Ne). unfold box_lo, box_hi, Qdiv in W. apply Qmult_lt_r in W; [unfold wide; rewrite Zlt_Qlt; exact W|apply Qinv_lt_0_compat, D]. }
  assert (W3z : (comp (bmin b) d <= comp (bmax b) d)%Z) by (unfold box_lo, box_hi, Qdiv in W3; apply Qmult_le_r in W3; [rewrite Zle_Qle; exact W3|apply Qinv_lt_0_compat, D]).
  assert (Fd : first_nonzero (hn h) = Some d).
  { unfold first_nonzero. pose proof (F 0%nat) as F0. pose proof (F 1%nat) as F1. destruct d as [|[|[|d]]]; [| | |lia]; cbn [comp] in *; rewrite ?F0, ?F1 by lia; cbn [Z.eqb negb]; rewrite (proj2 (Z.eqb_neq _ _) N); reflexivity. }
  destruct (intersect_plane_ok dbg b h d Dn Fd L N) as (r & E & R); [apply Wi; [apply Nat.mod_upper_bound; lia|destruct d as [|[|[|d]]]; cbn; lia]|apply Wi; [apply Nat.mod_upper_bound; lia|destruct d as [|[|[|d]]]; cbn; lia]|exact W3z|].
  exists r. split; [exact E|]. destruct r as [p|]; [|exact R]. destruct R as (qs & A & B & C & G). exists qs. rewrite C. auto.
Qed.
Print Assumptions C57_intersect.
(** A box that is flat along no axis, and any plane. *)
Theorem C57_thick_box : forall dbg b h, (0 < bden b)%Z -> hs_valid h = true -> (forall i, (i < 3)%nat -> box_lo b i < box_hi b i) ->
  exists r, bx_intersect_plane dbg b h = Ok r /\ match r with Some p => cross_section h b p | None => at_most_line h b end.
Proof.
  intros dbg b h Dn V W.
  assert (X : exists d, (d < 3)%nat /\ comp (hn h) d <> 0%Z /\ forall j, (j < d)%nat -> comp (hn h) j = 0%Z).
  { unfold hs_valid, v3_is_zero in V. destruct (Z.eq_dec (comp (hn h) 0) 0) as [E0|N0]; [destruct (Z.eq_dec (comp (hn h) 1) 0) as [E1|N1]; [destruct (Z.eq_dec (comp (hn h) 2) 0) as [E2|N2]|]|].
    - cbn [comp] in *. rewrite E0, E1, E2 in V. discriminate V.
    - exists 2%nat. repeat split; [lia|exact N2|]. intros j J. destruct j as [|[|j]]; [exact E0|exact E1|lia].
    - exists 1%nat. repeat split; [lia|exact N1|]. intros j J. destruct j as [|j]; [exact E0|lia].
    - exists 0%nat. repeat split; [lia|exact N0|]. intros j J. lia. }
  destruct X as (d & L & N & F). apply (C57_intersect dbg b h d Dn L N F); [intros i I _; apply W; exact I|apply Qlt_le_weak, W; exact L].
Qed.
Print Assumptions C57_thick_box.
(** A polygon and "at most a line" exclude each other, so which one is returned
    is determined by the plane and the box. *)
Theorem C57_exclusive : forall h b p, cross_section h b p -> at_most_line h b -> False.
Proof.
  intros h b p (qs & H & E & P) (g & q0 & _ & Q1 & Q2 & Z). apply Q2. rewrite <- E in *. apply (polygon_not_in_line p qs g H); [|exact Q1]. intros q Q. apply P in Q as [A B]. apply Z; assumption.
Qed.
Print Assumptions C57_exclusive.
(** An invalid plane gives the empty polygon. *)
Theorem C57_invalid : forall dbg b h, hs_valid h = false -> bx_intersect_plane dbg b h = Ok None.
Proof.
  intros dbg b h V. unfold hs_valid, v3_is_zero in V. apply negb_false_iff in V. apply andb_true_iff in V as [V Vz]. apply andb_true_iff in V as [Vx Vy].
  unfold bx_intersect_plane, first_nonzero. rewrite Vx, Vy, Vz. reflexivity.
Qed.
Print Assumptions C57_invalid.
(** The cube from (0, 0, 0) to (2, 2, 2), given with denominator 2, and the plane
    x + y + z = 3: a hexagon.  The plane x + y + z = 0 touches a corner. *)
Definition cube_box : aabb := Box (V3 0 0 0) (V3 4 4 4) 2.
Example cube_case : (0 < bden cube_box)%Z /\ (forall i, (i < 3)%nat -> box_lo cube_box i < box_hi cube_box i) /\
  (exists p, bx_intersect_plane true cube_box (HS (V3 1 1 1) 3) = Ok (Some p) /\ pcount p = 6%nat) /\
  bx_intersect_plane true cube_box (HS (V3 1 1 1) 0) = Ok None /\
  (exists p, bx_intersect_plane true cube_box (HS (V3 0 (-3) 0) 0) = Ok (Some p) /\ pcount p = 4%nat) /\
  bx_intersect_plane true cube_box (HS (V3 0 1 1) 9) = Ok None.
Proof.
  split; [reflexivity|]. split; [intros i I; destruct i as [|[|[|i]]]; [reflexivity|reflexivity|reflexivity|lia]|].
  split; [eexists; split; vm_compute; reflexivity|]. split; [vm_compute; reflexivity|]. split; [eexists; split; vm_compute; reflexivity|vm_compute; reflexivity].
Qed.
(** A box that is flat along another axis than the first one the plane is not
    parallel to.  The box of a square in the plane x = 0 meets the plane z = 1 in a
    segment, and still a polygon with four edges comes back: its vertices are two
    points, each twice, so it is not a convex polygon. *)
Definition flat_box : aabb := Box (V3 0 0 0) (V3 0 2 2) 1.
Definition z1_plane : hspace3 := HS (V3 0 0 1) 1.
Theorem C57_flat_box_refuted : exists p, bx_intersect_plane true flat_box z1_plane = Ok (Some p) /\ at_most_line z1_plane flat_box /\
  pcount p = 4%nat /\ (forall qs, ~ poly_ok p qs) /\
  exists a b, qp_eq a (QP 0 2 1) /\ qp_eq b (QP 0 0 1) /\ Forall2 (fun e q => denotes (pv e) q) (pedges p) [a; b; b; a].
Proof.
  assert (At : at_most_line z1_plane flat_box).
  { exists (HS (V3 1 0 0) 0), (QP 1 0 1). split; [reflexivity|]. split; [reflexivity|]. split; [intros X; discriminate X|].
    intros q _ B. specialize (B 0%nat ltac:(lia)). unfold box_lo, box_hi in B. cbn in B. unfold side, qdot, qpt. cbn [hn hd vx vy vz qx qy qz]. change (inject_Z 0) with 0. change (inject_Z 1) with 1. unfold Qdiv in B. change (inject_Z 0) with 0 in B. change (inject_Z 1) with 1 in B. destruct B. lra. }
  eexists. split; [vm_compute; reflexivity|]. split; [exact At|]. split; [reflexivity|].
  split.
  - intros qs H. destruct (po_convex _ _ H) as (_ & Nd & _). pose proof (po_vertices _ _ H) as Vs. cbn [pedges] in Vs.
    inversion Vs as [|e0 q0 l0 m0 D0 F0]; subst. inversion F0 as [|e1 q1 l1 m1 D1 F1]; subst. inversion F1 as [|e2 q2 l2 m2 D2 F2]; subst. inversion F2 as [|e3 q3 l3 m3 D3 F3]; subst. inversion F3; subst.
    apply (Nd 1%nat (qdrop 2 q1) (qdrop 2 q2) eq_refl eq_refl). unfold denotes in D1, D2. cbn [pv hv hw vx vy vz] in D1, D2. destruct D1 as (_ & X1 & Y1 & _). destruct D2 as (_ & X2 & Y2 & _).
    split; cbn [qdrop qx2 qy2]; repeat match goal with H : context[inject_Z ?z] |- _ => let v := eval cbv in (inject_Z z) in change (inject_Z z) with v in H end; lra.
  - exists (QP 0 2 1), (QP 0 0 1). split; [repeat split; reflexivity|]. split; [repeat split; reflexivity|]. repeat (apply Forall2_cons; [split; [discriminate|repeat split; reflexivity]|]). constructor.
Qed.
Print Assumptions C57_flat_box_refuted.
