(** Proofs about AABB::IntersectPlane. *)
From Coq Require Import ZArith QArith List Bool Lia Lqa Arith.
From Verif Require Import BigUIntModel GeoModel GeoSpec CvxSpec CvxProofs AabbModel AabbSpec PolyModel PolySpec PolyBridgeProofs PolyCapProofs PolyInfoProofs PolyChildProofs PolyTopProofs FilterModel BspModel AabbPlaneModel.
From Verif Require PropPoly BspGeoProofs.
Import ListNotations.
Open Scope Q_scope.
(** The point with coordinate w on axis d and u, v on the two that follow. *)
Definition mk (d : nat) (w u v : Q) : qpoint := match d with O => QP w u v | S O => QP v w u | _ => QP u v w end.
Definition height (h : hspace3) (d : nat) (u v : Q) : Q :=
  (inject_Z (hd h) - inject_Z (comp (hn h) ((d + 1) mod 3)) * u - inject_Z (comp (hn h) ((d + 2) mod 3)) * v) / inject_Z (comp (hn h) d).
Definition corner (h : hspace3) (d : nat) (uv : Q * Q) : qpoint := mk d (height h d (fst uv) (snd uv)) (fst uv) (snd uv).
Definition rect (pos : bool) (l1 h1 l2 h2 : Q) (i : nat) : Q * Q :=
  match i with 0%nat => (l1, if pos then h2 else l2) | 1%nat => (l1, if pos then l2 else h2) | 2%nat => (h1, if pos then l2 else h2) | _ => (h1, if pos then h2 else l2) end.
Lemma zabs_mult_pos v : (0 < v)%Z -> zabs_mult v = 1%Z.
Proof. intros V. unfold zabs_mult, zsign_ext. destruct v; [lia|reflexivity|lia]. Qed.
Lemma zabs_mult_neg v : (v < 0)%Z -> zabs_mult v = (-1)%Z.
Proof. intros V. unfold zabs_mult, zsign_ext. destruct v; [lia|lia|reflexivity]. Qed.
Lemma inj_pos z : (0 < z)%Z -> 0 < inject_Z z.
Proof. intros Z. change 0 with (inject_Z 0). rewrite <- Zlt_Qlt. exact Z. Qed.
Lemma inj_neg z : (z < 0)%Z -> inject_Z z < 0.
Proof. intros Z. change 0 with (inject_Z 0). rewrite <- Zlt_Qlt. exact Z. Qed.
Lemma inj_neq z : z <> 0%Z -> ~ inject_Z z == 0.
Proof. intros Z E. apply Z. apply inject_Z_injective. exact E. Qed.
Definition rx (b : aabb) (h : hspace3) (d : nat) (i : nat) : qpoint :=
  corner h d (rect (0 <? comp (hn h) d)%Z (box_lo b ((d + 1) mod 3)) (box_hi b ((d + 1) mod 3)) (box_lo b ((d + 2) mod 3)) (box_hi b ((d + 2) mod 3)) i).
Ltac push := repeat (rewrite ?inject_Z_plus, ?inject_Z_mult, ?inject_Z_opp in *).
Lemma corner_side h d uv : (d < 3)%nat -> comp (hn h) d <> 0%Z -> side h (corner h d uv) == 0.
Proof.
  intros L N. apply inj_neq in N. destruct h as [[a b c] D], uv as [u v]. unfold side, corner, height, qdot, qpt.
  destruct d as [|[|[|d]]]; [| | |lia]; cbn [hn hd comp vx vy vz mk qx qy qz fst snd Nat.modulo Nat.divmod Nat.add Nat.sub] in *; field; exact N.
Qed.
Ltac walls := repeat match goal with |- context[Z.modulo (Z.add 4 ?k) 4] => let r := eval vm_compute in ((4 + k) mod 4)%Z in change ((4 + k) mod 4)%Z with r end; cbv match.
Ltac qs := unfold Z.sub; repeat (rewrite ?inject_Z_plus, ?inject_Z_mult, ?inject_Z_opp); change (inject_Z 0) with 0.
Ltac fin := repeat split; qs; field; repeat split; lra.
Ltac fin_k k := exists k; split; [apply Qlt_shift_div_l; [lra|rewrite Qmult_0_l; apply Qmult_lt_0_compat; [apply Qmult_lt_0_compat|]; lra]|fin].
Lemma edge_ok b h d i : (0 < bden b)%Z -> (d < 3)%nat -> comp (hn h) d <> 0%Z -> (i < 4)%nat ->
  (comp (bmin b) ((d + 1) mod 3) < comp (bmax b) ((d + 1) mod 3))%Z -> (comp (bmin b) ((d + 2) mod 3) < comp (bmax b) ((d + 2) mod 3))%Z ->
  let e := slice_edge b h d (zabs_mult (comp (hn h) d)) (Z.of_nat i) in
  denotes (pv e) (rx b h d i) /\ edge_on (pl e) (rx b h d i) (rx b h d (S i mod 4)).
Proof.
  intros Dn L N I W1 W2. destruct h as [[a0 a1 a2] D], b as [[l0 l1 l2] [m0 m1 m2] e]. unfold rx.
  pose proof (inj_pos _ Dn) as Dq. cbn [bden] in Dq.
  assert (Hs : (0 < comp (hn (HS (V3 a0 a1 a2) D)) d \/ comp (hn (HS (V3 a0 a1 a2) D)) d < 0)%Z) by lia.
  destruct Hs as [Hs|Hs];
  [rewrite (zabs_mult_pos _ Hs), (proj2 (Z.ltb_lt _ _) Hs); pose proof (inj_pos _ Hs) as Hq
  |rewrite (zabs_mult_neg _ Hs), (proj2 (Z.ltb_ge _ _) (Z.lt_le_incl _ _ Hs)); pose proof (inj_neg _ Hs) as Hq];
  destruct d as [|[|[|d]]]; [| | |lia| | | |lia]; cbn [hn comp vx vy vz Nat.modulo Nat.divmod Nat.add Nat.sub bmin bmax fst snd] in *;
  rewrite Zlt_Qlt in W1, W2.
  all: destruct i as [|[|[|[|i]]]]; [| | | |lia].
  all: unfold slice_edge; cbn [pv pl Z.of_nat]; unfold side_wall; walls.
  all: unfold denotes, edge_on, line_points, qp_eq, qcross, qscale, qsub, qpt, wall_min, wall_max, axis, v3_neg, pl_of_planes, pl_intersect, zdet, v3_dot, v3_add, v3_scale, v3_cross, set_comp, corner, height, mk, rect, box_lo, box_hi;
    cbn [hn hd ld lm hw hv comp vx vy vz Nat.modulo Nat.divmod Nat.add Nat.sub bmin bmax bden fst snd qx qy qz] in *.
  all: assert (He : e <> 0%Z) by lia.
  all: split; [split; [intros E; nia|fin]|split; [fin|]].
  all: match type of Hq with 0 < ?a => first [fin_k (a * inject_Z e * inject_Z e / (inject_Z m1 - inject_Z l1)) | fin_k (a * inject_Z e * inject_Z e / (inject_Z m2 - inject_Z l2)) | fin_k (a * inject_Z e * inject_Z e / (inject_Z m0 - inject_Z l0))]
    | ?a < 0 => first [fin_k (- a * inject_Z e * inject_Z e / (inject_Z m1 - inject_Z l1)) | fin_k (- a * inject_Z e * inject_Z e / (inject_Z m2 - inject_Z l2)) | fin_k (- a * inject_Z e * inject_Z e / (inject_Z m0 - inject_Z l0))] end.
Qed.
Definition rect2 (pos : bool) l1 h1 l2 h2 i : qpoint2 := QP2 (fst (rect pos l1 h1 l2 h2 i)) (snd (rect pos l1 h1 l2 h2 i)).
Lemma rect_convex (pos : bool) s l1 h1 l2 h2 : l1 < h1 -> l2 < h2 -> (if pos then 0 < s else s < 0) -> convex_cycle s (map (rect2 pos l1 h1 l2 h2) (seq 0 4)).
Proof.
  intros W1 W2 Sg. assert (P : 0 < (h1 - l1) * (h2 - l2)) by (apply Qmult_lt_0_compat; lra).
  assert (P' : 0 < (if pos then s else - s) * ((h1 - l1) * (h2 - l2))) by (apply Qmult_lt_0_compat; [destruct pos; lra|exact P]). clear Sg. split; [|split].
  - intros i j k a b c Hij Hjk Ea Eb Ec.
    assert (K : (k < 4)%nat) by (change 4%nat with (length (map (rect2 pos l1 h1 l2 h2) (seq 0 4))); apply nth_error_Some; rewrite Ec; discriminate).
    destruct k as [|[|[|[|k]]]]; try lia; destruct j as [|[|[|j]]]; try lia; destruct i as [|[|i]]; try lia.
    all: injection Ea as <-; injection Eb as <-; injection Ec as <-; unfold turn, qcross2, qsub2, rect2, rect; cbn [qx2 qy2 fst snd]; destruct pos; ring_simplify in P'; ring_simplify; lra.
  - intros i a b Ea Eb. destruct i as [|[|[|[|i]]]]; [| | | |destruct i; discriminate Ea]; injection Ea as <-; injection Eb as <-; intros [X Y]; unfold rect2, rect in X, Y; cbn [qx2 qy2 fst snd] in X, Y; destruct pos; lra.
  - exists (rect2 pos l1 h1 l2 h2 0), (rect2 pos l1 h1 l2 h2 1), (rect2 pos l1 h1 l2 h2 2). cbn [map seq In]. repeat split; auto. unfold turn, qcross2, qsub2, rect2, rect. cbn [qx2 qy2 fst snd]. intros E. destruct pos; ring_simplify in E; ring_simplify in P; lra.
Qed.
Lemma pos_part s x : 0 < s -> 0 <= s * x <-> 0 <= x.
Proof. intros S0. split; intros X; [|apply Qmult_le_0_compat; lra]. destruct (Qlt_le_dec x 0) as [N|N]; [|exact N]. assert (0 < s * (- x)) by (apply Qmult_lt_0_compat; lra). lra. Qed.
Lemma rect_points (pos : bool) s l1 h1 l2 h2 q : l1 < h1 -> l2 < h2 -> (if pos then 0 < s else s < 0) ->
  in_polygon s (map (rect2 pos l1 h1 l2 h2) (seq 0 4)) q <-> (l1 <= qx2 q /\ qx2 q <= h1) /\ (l2 <= qy2 q /\ qy2 q <= h2).
Proof.
  intros W1 W2 Sg.
  assert (T : forall i, (i < 4)%nat -> 0 <= s * turn (rect2 pos l1 h1 l2 h2 i) (rect2 pos l1 h1 l2 h2 (S i mod 4)) q <->
    match i with 0%nat => l1 <= qx2 q | 1%nat => if pos then l2 <= qy2 q else qy2 q <= h2 | 2%nat => qx2 q <= h1 | _ => if pos then qy2 q <= h2 else l2 <= qy2 q end).
  { intros i L. destruct i as [|[|[|[|i]]]]; [| | | |lia]; cbn [Nat.modulo Nat.divmod Nat.sub fst snd]; unfold turn, qcross2, qsub2, rect2, rect; cbn [qx2 qy2 fst snd]; destruct pos.
    all: match goal with |- _ <-> ?a <= ?b => (set (E := b - a)) end.
    all: match goal with |- 0 <= ?X <-> _ => let t k := (let Q := fresh in assert (Q : X == k * E) by (unfold E; ring); rewrite Q; clear Q) in first [t (s * (h2 - l2)) | t (s * (h1 - l1)) | t (- s * (h2 - l2)) | t (- s * (h1 - l1))] end.
    all: rewrite pos_part by (apply Qmult_lt_0_compat; lra); unfold E; lra. }
  split.
  - intros H. assert (G : forall i, (i < 4)%nat -> 0 <= s * turn (rect2 pos l1 h1 l2 h2 i) (rect2 pos l1 h1 l2 h2 (S i mod 4)) q).
    { intros i L. apply (H i); destruct i as [|[|[|[|i]]]]; try lia; reflexivity. }
    pose proof (proj1 (T 0%nat ltac:(lia)) (G 0%nat ltac:(lia))) as A0. pose proof (proj1 (T 1%nat ltac:(lia)) (G 1%nat ltac:(lia))) as A1. pose proof (proj1 (T 2%nat ltac:(lia)) (G 2%nat ltac:(lia))) as A2. pose proof (proj1 (T 3%nat ltac:(lia)) (G 3%nat ltac:(lia))) as A3.
    cbv beta iota in A0, A1, A2, A3. destruct pos; auto.
  - intros ((A & B) & (C & D)) i a b Ea Eb. destruct i as [|[|[|[|i]]]]; [| | | |destruct i; discriminate Ea]; injection Ea as <-; injection Eb as <-.
    + apply (T 0%nat); [lia|exact A].
    + apply (T 1%nat); [lia|destruct pos; assumption].
    + apply (T 2%nat); [lia|exact B].
    + apply (T 3%nat); [lia|destruct pos; assumption].
Qed.
(** ** The slice of the prism *)
Definition wide (b : aabb) (i : nat) : Prop := (comp (bmin b) i < comp (bmax b) i)%Z.
Lemma wide_q b i : (0 < bden b)%Z -> wide b i -> box_lo b i < box_hi b i.
Proof. intros D W. unfold box_lo, box_hi, Qdiv. apply Qmult_lt_compat_r; [apply Qinv_lt_0_compat, inj_pos, D|]. rewrite <- Zlt_Qlt. exact W. Qed.
Lemma qdrop_corner h d uv : (d < 3)%nat -> qdrop d (corner h d uv) = QP2 (fst uv) (snd uv).
Proof. intros L. destruct d as [|[|[|d]]]; [| | |lia]; reflexivity. Qed.
Lemma qdrop_comp d q : (d < 3)%nat -> qx2 (qdrop d q) = qcomp q ((d + 1) mod 3) /\ qy2 (qdrop d q) = qcomp q ((d + 2) mod 3).
Proof. intros L. destruct d as [|[|[|d]]]; [| | |lia]; split; reflexivity. Qed.
Section Slice.
Context (b : aabb) (h : hspace3) (d : nat).
Context (Dn : (0 < bden b)%Z) (L : (d < 3)%nat) (N : comp (hn h) d <> 0%Z) (W1 : wide b ((d + 1) mod 3)) (W2 : wide b ((d + 2) mod 3)).
Let qs := map (rx b h d) (seq 0 4).
Let p := slice b h d (zabs_mult (comp (hn h) d)).
Lemma slice_flat : map (qdrop d) qs = map (rect2 (0 <? comp (hn h) d)%Z (box_lo b ((d + 1) mod 3)) (box_hi b ((d + 1) mod 3)) (box_lo b ((d + 2) mod 3)) (box_hi b ((d + 2) mod 3))) (seq 0 4).
Proof. unfold qs. rewrite map_map. apply map_ext. intros i. unfold rx. apply qdrop_corner. exact L. Qed.
Lemma slice_sign : if (0 <? comp (hn h) d)%Z then 0 < inject_Z (comp (hn h) d) else inject_Z (comp (hn h) d) < 0.
Proof. destruct (0 <? comp (hn h) d)%Z eqn:E; [apply inj_pos, Z.ltb_lt, E|apply inj_neg; apply Z.ltb_ge in E; lia]. Qed.
Lemma slice_ok : poly_ok p qs.
Proof.
  unfold p, qs, slice. apply poly_ok_intro; [reflexivity|lia|exact L|exact N| | |].
  - intros i _. unfold rx. apply corner_side; assumption.
  - intros i I. exists (slice_edge b h d (zabs_mult (comp (hn h) d)) (Z.of_nat i)). split; [destruct i as [|[|[|[|i]]]]; [reflexivity|reflexivity|reflexivity|reflexivity|lia]|]. apply edge_ok; assumption.
  - fold qs. rewrite slice_flat. apply rect_convex; [apply wide_q; assumption|apply wide_q; assumption|exact slice_sign].
Qed.
Lemma slice_points q : polygon_point h d qs q <-> side h q == 0 /\
  (box_lo b ((d + 1) mod 3) <= qcomp q ((d + 1) mod 3) /\ qcomp q ((d + 1) mod 3) <= box_hi b ((d + 1) mod 3)) /\
  (box_lo b ((d + 2) mod 3) <= qcomp q ((d + 2) mod 3) /\ qcomp q ((d + 2) mod 3) <= box_hi b ((d + 2) mod 3)).
Proof.
  unfold polygon_point. rewrite slice_flat. destruct (qdrop_comp d q L) as [E1 E2].
  rewrite (rect_points _ _ _ _ _ _ (qdrop d q) (wide_q _ _ Dn W1) (wide_q _ _ Dn W2) slice_sign), E1, E2. tauto.
Qed.
Lemma in_box_split q : in_box b q <-> (box_lo b d <= qcomp q d /\ qcomp q d <= box_hi b d) /\
  (box_lo b ((d + 1) mod 3) <= qcomp q ((d + 1) mod 3) /\ qcomp q ((d + 1) mod 3) <= box_hi b ((d + 1) mod 3)) /\
  (box_lo b ((d + 2) mod 3) <= qcomp q ((d + 2) mod 3) /\ qcomp q ((d + 2) mod 3) <= box_hi b ((d + 2) mod 3)).
Proof.
  unfold in_box. split.
  - intros H. split; [apply H; exact L|]. split; apply H; apply Nat.mod_upper_bound; lia.
  - intros (A & B & C) i I. destruct d as [|[|[|d']]]; [| | |clear - L; lia]; cbn [Nat.modulo Nat.divmod Nat.add Nat.sub snd] in *; destruct i as [|[|[|i]]]; try assumption; clear - I; lia.
Qed.
Lemma axis_side i c q : (i < 3)%nat -> side (HS (axis b i) c) q == inject_Z (bden b) * (qcomp q i - inject_Z c / inject_Z (bden b)).
Proof.
  intros I. pose proof (inj_pos _ Dn) as D. unfold side, axis, set_comp, qdot, qpt. destruct i as [|[|[|i]]]; [| | |clear - I; lia]; cbn [hn hd vx vy vz qx qy qz qcomp]; change (inject_Z 0) with 0; field; lra.
Qed.
Lemma top_side q : (side (wall_max b d) q <= 0 <-> qcomp q d <= box_hi b d) /\ (0 <= side (wall_max b d) q <-> box_hi b d <= qcomp q d).
Proof.
  unfold wall_max. rewrite axis_side by exact L. fold (box_hi b d). pose proof (inj_pos _ Dn) as D. split; [|rewrite pos_part by exact D; lra].
  assert (E : - (inject_Z (bden b) * (qcomp q d - box_hi b d)) == inject_Z (bden b) * (box_hi b d - qcomp q d)) by ring. pose proof (pos_part _ (box_hi b d - qcomp q d) D) as X. rewrite <- E in X. split; intros Y; [assert (0 <= box_hi b d - qcomp q d) by (apply X; lra); lra|assert (0 <= - (inject_Z (bden b) * (qcomp q d - box_hi b d))) by (apply X; lra); lra].
Qed.
Lemma bottom_side q : (side (wall_bottom b d) q <= 0 <-> qcomp q d <= box_lo b d) /\ (0 <= side (wall_bottom b d) q <-> box_lo b d <= qcomp q d).
Proof.
  unfold wall_bottom. rewrite axis_side by exact L. fold (box_lo b d). pose proof (inj_pos _ Dn) as D. split; [|rewrite pos_part by exact D; lra].
  assert (E : - (inject_Z (bden b) * (qcomp q d - box_lo b d)) == inject_Z (bden b) * (box_lo b d - qcomp q d)) by ring. pose proof (pos_part _ (box_lo b d - qcomp q d) D) as X. rewrite <- E in X. split; intros Y; [assert (0 <= box_lo b d - qcomp q d) by (apply X; lra); lra|assert (0 <= - (inject_Z (bden b) * (qcomp q d - box_lo b d))) by (apply X; lra); lra].
Qed.
End Slice.
(** ** The whole function *)
Lemma neg_vertex {A} (p : poly A) qs g i : poly_ok p qs -> info_ok p qs g i -> emit_neg (si_ranges i) = true -> exists q, side (pplane p) q == 0 /\ side g q < 0.
Proof.
  intros H I E. pose proof (io_ranges _ _ _ _ I) as R. apply (emit_neg_lt _ _ _ R) in E. pose proof (ok_length p qs H) as Ln. pose proof (ok_n p qs H) as N.
  set (k := fst (neg_range (si_ranges i))) in *. exists (cyc o3 qs (k mod length qs)). split; [apply (ok_on_plane p qs H)|].
  apply (re_neg_in _ _ _ R (k mod length qs)%nat); [apply Nat.mod_upper_bound; lia|]. exists k. repeat split; lia.
Qed.
Lemma pos_vertex {A} (p : poly A) qs g i : poly_ok p qs -> info_ok p qs g i -> emit_pos (si_ranges i) = true -> exists q, side (pplane p) q == 0 /\ 0 < side g q.
Proof.
  intros H I E. pose proof (io_ranges _ _ _ _ I) as R. apply (emit_pos_lt _ _ _ R) in E. pose proof (ok_length p qs H) as Ln. pose proof (ok_n p qs H) as N.
  set (k := fst (pos_range (si_ranges i))) in *. exists (cyc o3 qs (k mod length qs)). split; [apply (ok_on_plane p qs H)|].
  apply (re_pos_in _ _ _ R (k mod length qs)%nat); [apply Nat.mod_upper_bound; lia|]. exists k. repeat split; lia.
Qed.
(** The polygon, or that the part of the plane in the box is in a line. *)
Lemma intersect_plane_ok dbg b h d : (0 < bden b)%Z -> first_nonzero (hn h) = Some d -> (d < 3)%nat -> comp (hn h) d <> 0%Z ->
  wide b ((d + 1) mod 3) -> wide b ((d + 2) mod 3) -> (comp (bmin b) d <= comp (bmax b) d)%Z ->
  exists r, bx_intersect_plane dbg b h = Ok r /\
    match r with
    | Some p => exists qs, poly_ok p qs /\ pplane p = h /\ pdrop p = d /\ forall q, polygon_point h d qs q <-> side h q == 0 /\ in_box b q
    | None => exists g q0, hs_valid g = true /\ side h q0 == 0 /\ ~ side g q0 == 0 /\ forall q, side h q == 0 -> in_box b q -> side g q == 0
    end.
Proof.
  intros Dn F L N W1 W2 W3. unfold bx_intersect_plane. rewrite F. cbv beta iota zeta.
  assert (W3q : box_lo b d <= box_hi b d).
  { unfold box_lo, box_hi, Qdiv. apply Qmult_le_compat_r; [rewrite <- Zle_Qle; exact W3|]. apply Qlt_le_weak, Qinv_lt_0_compat, inj_pos, Dn. }
  assert (Va : forall c, hs_valid (HS (axis b d) c) = true).
  { intros c. unfold hs_valid, axis, v3_is_zero, set_comp. destruct d as [|[|[|d]]]; [| | |lia]; cbn [hn vx vy vz]; rewrite (proj2 (Z.eqb_neq (bden b) 0)) by lia; reflexivity. }
  set (p := slice b h d (zabs_mult (comp (hn h) d))). set (qs := map (rx b h d) (seq 0 4)).
  pose proof (slice_ok b h d Dn L N W1 W2 : poly_ok p qs) as Pk. pose proof (slice_points b h d Dn L N W1 W2 : forall q, polygon_point h d qs q <-> _) as Pp.
  assert (Ph : pplane p = h) by reflexivity. assert (Pd : pdrop p = d) by reflexivity.
  assert (Bx : forall q, side h q == 0 /\ in_box b q <-> polygon_point h d qs q /\ side (wall_max b d) q <= 0 /\ 0 <= side (wall_bottom b d) q).
  { intros q. rewrite (in_box_split b h d L N W1 W2 q), Pp, (proj1 (top_side b d Dn L q)), (proj2 (bottom_side b d Dn L q)). tauto. }
  assert (Tb : forall q, side (wall_max b d) q == 0 -> 0 <= side (wall_bottom b d) q).
  { intros q Z. apply (proj2 (bottom_side b d Dn L q)). assert (box_hi b d <= qcomp q d); [|lra]. apply (proj2 (top_side b d Dn L q)). lra. }
  assert (Bt : forall q, side (wall_bottom b d) q == 0 -> side (wall_max b d) q <= 0).
  { intros q Z. apply (proj1 (top_side b d Dn L q)). assert (qcomp q d <= box_lo b d); [|lra]. apply (proj1 (bottom_side b d Dn L q)). lra. }
  clearbody p qs. clear Pp.
  destruct (get_split_info_ok p qs Pk (wall_max b d) dbg) as (i & Ei & Ii). rewrite Ei. cbn [rbind].
  pose proof (PropPoly.C32_no_negative _ p qs (wall_max b d) i Pk Ii) as Nn. pose proof (PropPoly.C32_no_positive _ p qs (wall_max b d) i Pk Ii) as Np. rewrite Ph, Pd in Nn, Np.
  destruct (emit_neg (si_ranges i)) eqn:En; cbn [negb].
  2: { pose proof (proj1 Nn eq_refl) as Al. unfold on_plane_info. rewrite En. cbn [negb andb]. destruct (emit_pos (si_ranges i)) eqn:Ep; cbn [negb]; eexists; (split; [reflexivity|]); cbv beta iota.
       - destruct (pos_vertex p qs _ i Pk Ii Ep) as (q0 & Q1 & Q2). rewrite Ph in Q1. exists (wall_max b d), q0. repeat split; [apply Va|exact Q1|lra|]. intros q Hq Bq. destruct (proj1 (Bx q) (conj Hq Bq)) as (X & Y & _). specialize (Al q X). lra.
       - exists qs. split; [exact Pk|]. split; [exact Ph|]. split; [exact Pd|]. intros q. rewrite Bx. split; [|tauto]. intros X. pose proof (Al q X). pose proof (proj1 Np eq_refl q X). split; [exact X|]. split; [assumption|]. apply Tb. lra. }
  assert (Mid : exists p' qs', (if emit_pos (si_ranges i) then c <- split_children dbg edge_info_root p i ;; Ok (fst c) else Ok p) = Ok p' /\ poly_ok p' qs' /\ pplane p' = h /\ pdrop p' = d /\
    forall q, polygon_point h d qs' q <-> polygon_point h d qs q /\ side (wall_max b d) q <= 0).
  { destruct (emit_pos (si_ranges i)) eqn:Ep.
    - destruct (split_children_ok dbg edge_info_root p qs Pk (wall_max b d) i Ii En Ep) as (neg & pos & Ec & qn & qp & So). rewrite Ec. cbn [rbind fst]. exists neg, qn. split; [reflexivity|]. pose proof (so_neg_points _ _ _ _ _ _ _ So) as Sp. rewrite Ph, Pd in Sp. destruct (so_plane _ _ _ _ _ _ _ So) as [Y1 _]. destruct (so_drop _ _ _ _ _ _ _ So) as [Y2 _]. split; [exact (so_neg _ _ _ _ _ _ _ So)|]. split; [congruence|]. split; [congruence|]. exact Sp.
    - exists p, qs. split; [reflexivity|]. split; [exact Pk|]. split; [exact Ph|]. split; [exact Pd|]. intros q. pose proof (proj1 Np eq_refl q). tauto. }
  destruct Mid as (p' & qs' & -> & Pk' & Ph' & Pd' & Pq). cbn [rbind].
  assert (Bx' : forall q, side h q == 0 /\ in_box b q <-> polygon_point h d qs' q /\ 0 <= side (wall_bottom b d) q) by (intros q; rewrite Bx, Pq; tauto).
  clear Nn Np En Ei Ii i Pk Ph Pd Bx Pq p qs.
  destruct (get_split_info_ok p' qs' Pk' (wall_bottom b d) dbg) as (i & Ei & Ii). rewrite Ei. cbn [rbind].
  pose proof (PropPoly.C32_no_negative _ p' qs' (wall_bottom b d) i Pk' Ii) as Nn. pose proof (PropPoly.C32_no_positive _ p' qs' (wall_bottom b d) i Pk' Ii) as Np. rewrite Ph', Pd' in Nn, Np.
  destruct (emit_pos (si_ranges i)) eqn:Ep; cbn [negb].
  - destruct (emit_neg (si_ranges i)) eqn:En.
    + destruct (split_children_ok dbg edge_info_root p' qs' Pk' (wall_bottom b d) i Ii En Ep) as (neg & pos & Ec & qn & qp & So). rewrite Ec. cbn [rbind snd]. eexists. split; [reflexivity|]. cbv beta iota. exists qp.
      pose proof (so_pos_points _ _ _ _ _ _ _ So) as Sp. rewrite Ph', Pd' in Sp. destruct (so_plane _ _ _ _ _ _ _ So) as [_ Y1]. destruct (so_drop _ _ _ _ _ _ _ So) as [_ Y2]. split; [exact (so_pos _ _ _ _ _ _ _ So)|]. split; [congruence|]. split; [congruence|]. intros q. rewrite Bx', Sp. tauto.
    + eexists. split; [reflexivity|]. cbv beta iota. exists qs'. split; [exact Pk'|]. split; [exact Ph'|]. split; [exact Pd'|]. intros q. rewrite Bx'. pose proof (proj1 Nn eq_refl q). tauto.
  - pose proof (proj1 Np eq_refl) as Al. unfold on_plane_info. rewrite Ep. cbn [negb]. rewrite andb_true_r. destruct (emit_neg (si_ranges i)) eqn:En; cbn [negb]; eexists; (split; [reflexivity|]); cbv beta iota.
    + destruct (neg_vertex p' qs' _ i Pk' Ii En) as (q0 & Q1 & Q2). rewrite Ph' in Q1. exists (wall_bottom b d), q0. split; [apply Va|]. split; [exact Q1|]. split; [lra|]. intros q Hq Bq. destruct (proj1 (Bx' q) (conj Hq Bq)) as (X & Y). specialize (Al q X). lra.
    + exists qs'. split; [exact Pk'|]. split; [exact Ph'|]. split; [exact Pd'|]. intros q. rewrite Bx'. pose proof (proj1 Nn eq_refl q). tauto.
Qed.
(** ** Polygons are not contained in a line *)
Lemma three_points f a b c q : ev f q * turn a b c == ev f a * turn q b c + ev f b * turn a q c + ev f c * turn a b q.
Proof. unfold ev, turn, qcross2, qsub2. cbn [qx2 qy2]. ring. Qed.
Lemma polygon_not_in_line {A} (p : poly A) qs g : poly_ok p qs -> (forall q, polygon_point (pplane p) (pdrop p) qs q -> side g q == 0) -> forall q, side (pplane p) q == 0 -> side g q == 0.
Proof.
  intros H Z q Q. destruct (po_drop p qs H) as [Dl Dn]. pose proof (po_plane p qs H) as Pl. rewrite Forall_forall in Pl.
  destruct (po_convex p qs H) as (_ & _ & (a & b & c & Ia & Ib & Ic & T)).
  assert (V : forall x, In x (map (qdrop (pdrop p)) qs) -> ev (flat_side (pplane p) g (pdrop p)) x == 0).
  { intros x I. apply in_map_iff in I as (y & <- & I). rewrite (flat_side_ok (pplane p) g (pdrop p) y Dl Dn (Pl _ I)). apply Z. apply BspGeoProofs.vertex_point; assumption. }
  pose proof (three_points (flat_side (pplane p) g (pdrop p)) a b c (qdrop (pdrop p) q)) as E. rewrite (V a Ia), (V b Ib), (V c Ic) in E.
  rewrite (flat_side_ok (pplane p) g (pdrop p) q Dl Dn Q) in E. destruct (Qeq_dec (side g q) 0) as [Y|Y]; [exact Y|exfalso]. assert (X : side g q * turn a b c == 0) by (rewrite E; ring). apply Qmult_integral in X as [X|X]; contradiction.
Qed.
