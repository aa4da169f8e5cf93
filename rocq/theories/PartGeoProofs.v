(** Geometry of the polygons on one plane: lines of edges, parts of polygons. *)
From Coq Require Import List Bool Arith ZArith QArith Qminmax Lqa Lia ZifyBool Morphisms Setoid.
From Verif Require Import BigUIntModel GeoModel GeoSpec GeoProofs GeoPluckerProofs AabbSpec CvxSpec CvxProofs CvxCapProofs CvxMergeProofs PolyModel PolySpec PolyBridgeProofs PolyInfoProofs PolyCapProofs PolyChildProofs PolyTopProofs MergeProofs RTransModel FilterModel BspModel BspSpec BspGeoProofs BspMarkProofs BspPolyProofs PartModel.
Import ListNotations.
Open Scope Q_scope.
Lemma extrude_side g d q : (d < 3)%nat -> side (hs_extrude g d) q == side2 g (qdrop d q).
Proof. intros L. unfold side, side2, hs_extrude, qdot, qpt. destruct d as [|[|[|d]]]; [| | |lia]; cbn [Nat.add Nat.modulo Nat.divmod Nat.sub fst snd set_comp hn hd vx vy vz qx qy qz qdrop qx2 qy2]; change (inject_Z 0) with 0; ring. Qed.
Section Poly.
Context {A : Type} (p : poly A) (qs : list qpoint) (H : poly_ok p qs).
Notation q_ := (cyc o3 qs).
Notation f_ x := (qdrop (pdrop p) x).
Notation s := (inject_Z (pnormal_drop p)).
Lemma on_pp i : side (pplane p) (q_ i) == 0.
Proof using H. apply (ok_on_plane p qs H). Qed.
Lemma s_nonzero : ~ s == 0.
Proof using H. change 0 with (inject_Z 0). rewrite inject_Z_injective. apply (po_drop p qs H). Qed.
Lemma point_at q : polygon_point (pplane p) (pdrop p) qs q <-> side (pplane p) q == 0 /\ forall i, 0 <= s * turn (f_ (q_ i)) (f_ (q_ (S i))) (f_ q).
Proof using H.
  pose proof (ok_n p qs H) as N. pose proof (ok_length p qs H) as Ln. unfold polygon_point. split; intros [E I]; (split; [exact E|]).
  - intros i. apply (I (i mod length qs)%nat).
    + rewrite nth_error_map, (cyc_nth_error_mod o3) by lia. reflexivity.
    + rewrite map_length, mod_succ by lia. rewrite nth_error_map, (cyc_nth_error_mod o3) by lia. reflexivity.
  - intros i a b Ea Eb. rewrite map_length in Eb. assert (L : (i < length qs)%nat) by (rewrite <- (map_length (qdrop (pdrop p)) qs); apply nth_error_Some; congruence).
    rewrite nth_error_map, (cyc_nth_error o3) in Ea by exact L. rewrite nth_error_map, (cyc_nth_error_mod o3) in Eb by lia. cbn in Ea, Eb. injection Ea as <-. injection Eb as <-. apply I.
Qed.
Lemma edge_distinct i : ~ qp2_eq (f_ (q_ i)) (f_ (q_ (S i))).
Proof using H.
  pose proof (ok_n p qs H) as N. pose proof (ok_length p qs H) as Ln. destruct (po_convex p qs H) as (_ & D & _). apply (D (i mod length qs)%nat).
  - rewrite nth_error_map, (cyc_nth_error_mod o3) by lia. reflexivity.
  - rewrite map_length, mod_succ by lia. rewrite nth_error_map, (cyc_nth_error_mod o3) by lia. reflexivity.
Qed.
Lemma inside_edge i j : 0 <= s * turn (f_ (q_ i)) (f_ (q_ (S i))) (f_ (q_ j)).
Proof using H.
  pose proof (edge_side _ _ _ (ok_cvx p qs H) i j) as E. unfold flat_at in E. exact E.
Qed.
Lemma strictly_inside i : exists j, 0 < s * turn (f_ (q_ i)) (f_ (q_ (S i))) (f_ (q_ j)).
Proof using H.
  destruct (off_line _ _ _ (ok_cvx p qs H) _ _ (edge_distinct i)) as (j & T). exists j. pose proof (inside_edge i j) as E. unfold flat_at in T. pose proof s_nonzero as Z. apply Qle_lteq in E as [E|E]; [exact E|]. exfalso. apply T. apply (Qmult_integral_l s); [exact Z|symmetry; exact E].
Qed.
(** A plane that contains two points of the plane of p, on that plane. *)
Lemma plane_turn g u v : side (pplane p) u == 0 -> side (pplane p) v == 0 -> ~ qp2_eq (f_ u) (f_ v) -> side g u == 0 -> side g v == 0 ->
  exists k, forall q, side (pplane p) q == 0 -> side g q == k * turn (f_ u) (f_ v) (f_ q).
Proof using H.
  intros Pu Pv Ne Gu Gv. destruct (po_drop p qs H) as [Dl Dn]. pose proof (fun x (Px : side (pplane p) x == 0) => flat_side_ok (pplane p) g (pdrop p) x Dl Dn Px) as F.
  destruct (flat_multiple (flat_side (pplane p) g (pdrop p)) _ _ Ne) as (k & K); [rewrite !F by assumption; rewrite Gu, Gv; reflexivity|].
  exists k. intros q Q. specialize (K (f_ q)). rewrite !F in K by assumption. rewrite Gu in K. lra.
Qed.
Lemma plane_turn_nonzero g u v k : hs_valid g = true -> ~ same_plane g (pplane p) -> (forall q, side (pplane p) q == 0 -> side g q == k * turn (f_ u) (f_ v) (f_ q)) -> ~ k == 0.
Proof using H.
  intros V Ns K Z. apply Ns. apply (plane_of_vertices p qs H g V). intros q I. pose proof (po_plane p qs H) as Pl. rewrite Forall_forall in Pl. rewrite (K q (Pl q I)), Z. ring.
Qed.
(** Points on the line of two points. *)
Lemma turn_on_line u v q : side (pplane p) u == 0 -> side (pplane p) v == 0 -> side (pplane p) q == 0 -> ~ qp2_eq (f_ u) (f_ v) -> turn (f_ u) (f_ v) (f_ q) == 0 -> on_line u v q.
Proof using H.
  intros Pu Pv Pq Ne T. destruct (po_drop p qs H) as [Dl Dn]. set (a := qx2 (f_ v) - qx2 (f_ u)). set (b := qy2 (f_ v) - qy2 (f_ u)). set (c := qx2 (f_ q) - qx2 (f_ u)). set (e := qy2 (f_ q) - qy2 (f_ u)).
  assert (N : 0 < a * a + b * b). { apply q_sq_pos. intros [A0 B0]. apply Ne. unfold a, b in *. split; lra. }
  assert (T' : a * e - b * c == 0) by (unfold turn, qcross2, qsub2 in T; cbn [qx2 qy2] in T; unfold a, b, c, e; lra).
  set (t := (a * c + b * e) / (a * a + b * b)). assert (Et : t * (a * a + b * b) == a * c + b * e) by (unfold t; field; lra).
  assert (Ec : c == t * a). { apply (Qmult_inj_l _ _ (a * a + b * b)); [lra|]. transitivity (a * (a * c + b * e)); [|rewrite <- Et; ring]. transitivity (a * a * c + b * (b * c)); [ring|]. assert (X : b * c == a * e) by lra. rewrite X. ring. }
  assert (Ee : e == t * b). { apply (Qmult_inj_l _ _ (a * a + b * b)); [lra|]. transitivity (b * (a * c + b * e)); [|rewrite <- Et; ring]. transitivity (a * (a * e) + b * b * e); [ring|]. assert (X : a * e == b * c) by lra. rewrite X. ring. }
  exists t. assert (Ns : ~ inject_Z (comp (hn (pplane p)) (pdrop p)) == 0) by exact s_nonzero. unfold a, b, c, e in *. clear a b c e N T' Et T Ne. clearbody t. unfold side, qdot, qpt in Pu, Pv, Pq. cbn [qx qy qz] in Pu, Pv, Pq. unfold qadd, qscale, qsub.
  destruct (pdrop p) as [|[|[|d]]]; [| | |lia]; cbn [qdrop qx2 qy2 comp] in *; repeat split; cbn [qx qy qz]; try lra.
  - apply (Qmult_inj_l _ _ (inject_Z (vx (hn (pplane p))))); [exact Ns|]. transitivity (inject_Z (hd (pplane p)) - inject_Z (vy (hn (pplane p))) * qy q - inject_Z (vz (hn (pplane p))) * qz q); [lra|]. assert (E1 : qy q == qy u + t * (qy v - qy u)) by lra. assert (E2 : qz q == qz u + t * (qz v - qz u)) by lra. rewrite E1, E2.
    transitivity ((1 - t) * (inject_Z (vx (hn (pplane p))) * qx u) + t * (inject_Z (vx (hn (pplane p))) * qx v)); [|ring]. assert (E3 : inject_Z (vx (hn (pplane p))) * qx u == inject_Z (hd (pplane p)) - inject_Z (vy (hn (pplane p))) * qy u - inject_Z (vz (hn (pplane p))) * qz u) by lra. assert (E4 : inject_Z (vx (hn (pplane p))) * qx v == inject_Z (hd (pplane p)) - inject_Z (vy (hn (pplane p))) * qy v - inject_Z (vz (hn (pplane p))) * qz v) by lra. rewrite E3, E4. ring.
  - apply (Qmult_inj_l _ _ (inject_Z (vy (hn (pplane p))))); [exact Ns|]. transitivity (inject_Z (hd (pplane p)) - inject_Z (vx (hn (pplane p))) * qx q - inject_Z (vz (hn (pplane p))) * qz q); [lra|]. assert (E1 : qx q == qx u + t * (qx v - qx u)) by lra. assert (E2 : qz q == qz u + t * (qz v - qz u)) by lra. rewrite E1, E2.
    transitivity ((1 - t) * (inject_Z (vy (hn (pplane p))) * qy u) + t * (inject_Z (vy (hn (pplane p))) * qy v)); [|ring]. assert (E3 : inject_Z (vy (hn (pplane p))) * qy u == inject_Z (hd (pplane p)) - inject_Z (vx (hn (pplane p))) * qx u - inject_Z (vz (hn (pplane p))) * qz u) by lra. assert (E4 : inject_Z (vy (hn (pplane p))) * qy v == inject_Z (hd (pplane p)) - inject_Z (vx (hn (pplane p))) * qx v - inject_Z (vz (hn (pplane p))) * qz v) by lra. rewrite E3, E4. ring.
  - apply (Qmult_inj_l _ _ (inject_Z (vz (hn (pplane p))))); [exact Ns|]. transitivity (inject_Z (hd (pplane p)) - inject_Z (vx (hn (pplane p))) * qx q - inject_Z (vy (hn (pplane p))) * qy q); [lra|]. assert (E1 : qx q == qx u + t * (qx v - qx u)) by lra. assert (E2 : qy q == qy u + t * (qy v - qy u)) by lra. rewrite E1, E2.
    transitivity ((1 - t) * (inject_Z (vz (hn (pplane p))) * qz u) + t * (inject_Z (vz (hn (pplane p))) * qz v)); [|ring]. assert (E3 : inject_Z (vz (hn (pplane p))) * qz u == inject_Z (hd (pplane p)) - inject_Z (vx (hn (pplane p))) * qx u - inject_Z (vy (hn (pplane p))) * qy u) by lra. assert (E4 : inject_Z (vz (hn (pplane p))) * qz v == inject_Z (hd (pplane p)) - inject_Z (vx (hn (pplane p))) * qx v - inject_Z (vy (hn (pplane p))) * qy v) by lra. rewrite E3, E4. ring.
Qed.
End Poly.
Lemma side_on_line g u v q : on_line u v q -> side g u == 0 -> side g v == 0 -> side g q == 0.
Proof. intros (t & E) U V. rewrite (PolyInfoProofs.side_eq g _ _ E). change (qadd u (qscale t (qsub v u))) with (between u v t). rewrite PolyInfoProofs.side_between, U, V. ring. Qed.
(** The plane through an edge. *)
Section Edge.
Context (p : poly bdata) (qs : list qpoint) (H : poly_ok p qs) (i d : nat) (e : pedge bdata) (Ee : nth_error (pedges p) i = Some e) (Ld : (d < 3)%nat) (Nd : comp (hn (pplane p)) d <> 0%Z).
Notation u := (cyc o3 qs i).
Notation v := (cyc o3 qs (S i)).
Lemma edge_line_ok : line_points (pl e) u /\ exists k, 0 < k /\ qp_eq (qpt (ld (pl e))) (qscale k (qsub v u)).
Proof using H Ee Ld Nd.
  pose proof (ok_n p qs H) as N. pose proof (ok_length p qs H) as Ln. assert (L : (i < length qs)%nat) by (rewrite Ln; apply nth_error_Some; congruence).
  apply (po_lines p qs H i e u v Ee); [apply cyc_nth_error; exact L|apply cyc_nth_error_mod; lia].
Qed.
Lemma edge_plane_side q : exists k, 0 < k /\ side (edge_plane e d) q == k * turn (qdrop d u) (qdrop d v) (qdrop d q).
Proof using H Ee Ld Nd.
  destruct edge_line_ok as (O & k & K & (D1 & D2 & D3)). exists k. split; [exact K|]. unfold edge_plane. rewrite extrude_side by exact Ld. rewrite (pl_project2d_side _ d u _ Ld O).
  unfold turn, qcross2, qsub2, qpt, qscale, qsub in *. destruct d as [|[|[|d0]]]; [| | |lia]; cbn [qx qy qz qdrop qx2 qy2] in *; repeat (rewrite D1 || rewrite D2 || rewrite D3); ring.
Qed.
Lemma edge_plane_u : side (edge_plane e d) u == 0.
Proof using H Ee Ld Nd. destruct (edge_plane_side u) as (k & _ & E). rewrite E. unfold turn, qcross2, qsub2. cbn. ring. Qed.
Lemma edge_plane_v : side (edge_plane e d) v == 0.
Proof using H Ee Ld Nd. destruct (edge_plane_side v) as (k & _ & E). rewrite E. unfold turn, qcross2, qsub2. cbn. ring. Qed.
Lemma edge_plane_other : ~ same_plane (edge_plane e d) (pplane p).
Proof using H Ee Ld Nd.
  intros Sp. set (x := qadd u (QP (if (d =? 0)%nat then 1 else 0) (if (d =? 1)%nat then 1 else 0) (if (d =? 2)%nat then 1 else 0))).
  assert (X : side (edge_plane e d) x == 0). { destruct (edge_plane_side x) as (k & _ & E). rewrite E. unfold x, turn, qcross2, qsub2, qadd. destruct d as [|[|[|d0]]]; [| | |lia]; cbn [Nat.eqb qx qy qz qdrop qx2 qy2]; ring. }
  pose proof (proj1 (Sp x) X) as X'. clear X Sp. pose proof (ok_on_plane p qs H i) as U. apply Nd. apply inject_Z_injective. change (inject_Z 0) with 0. unfold x, side, qdot, qpt, qadd in *. destruct d as [|[|[|d0]]]; [| | |lia]; cbn [Nat.eqb qx qy qz comp] in *; lra.
Qed.
Lemma edge_plane_valid : hs_valid (edge_plane e d) = true.
Proof using H Ee Ld Nd.
  destruct (hs_valid (edge_plane e d)) eqn:V; [reflexivity|exfalso]. unfold hs_valid in V. apply negb_false_iff in V. unfold v3_is_zero in V. 
  assert (Z : comp (hn (edge_plane e d)) ((d + 1) mod 3) = 0%Z /\ comp (hn (edge_plane e d)) ((d + 2) mod 3) = 0%Z).
  { destruct (edge_plane e d) as [[a b c] k]. cbn [hn vx vy vz comp] in *. apply andb_prop in V as [V V3]. apply andb_prop in V as [V1 V2]. apply Z.eqb_eq in V1, V2, V3. destruct d as [|[|[|d0]]]; [| | |lia]; cbn; tauto. }
  destruct edge_line_ok as (_ & k & K & (D1 & D2 & D3)). pose proof (edge_distinct p qs H i) as Ne. pose proof (on_pp p qs H i) as U. pose proof (on_pp p qs H (S i)) as V'.
  assert (Z' : x2 (v2_perp (drop_dim (ld (pl e)) d)) = 0%Z /\ y2 (v2_perp (drop_dim (ld (pl e)) d)) = 0%Z).
  { unfold edge_plane, hs_extrude, pl_project2d in Z. cbn [hn hn2] in Z. destruct (v2_perp (drop_dim (ld (pl e)) d)) as [a b]. cbn [x2 y2] in *. destruct d as [|[|[|d0]]]; [| | |lia]; cbn in Z |- *; tauto. }
  assert (Nq : ~ inject_Z (comp (hn (pplane p)) d) == 0) by (change 0 with (inject_Z 0); rewrite inject_Z_injective; exact Nd).
  assert (E : qp_eq u v).
  { unfold v2_perp, drop_dim in Z'. unfold side, qdot, qpt, qscale, qsub in *. cbn [qx qy qz x2 y2] in *.
    destruct d as [|[|[|d0]]]; [| | |lia]; cbn [comp Nat.add Nat.modulo Nat.divmod Nat.sub fst snd] in *; destruct Z' as [Z1 Z2].
    - assert (Y1 : inject_Z (vy (ld (pl e))) == 0) by (change 0 with (inject_Z 0); rewrite inject_Z_injective; lia). assert (Y2 : inject_Z (vz (ld (pl e))) == 0) by (change 0 with (inject_Z 0); rewrite inject_Z_injective; lia). rewrite Y1 in D2. rewrite Y2 in D3.
      assert (E2 : qy u == qy v) by nra. assert (E3 : qz u == qz v) by nra. repeat split; [|exact E2|exact E3]. rewrite E2, E3 in U. apply (Qmult_inj_l _ _ _ Nq). lra.
    - assert (Y1 : inject_Z (vx (ld (pl e))) == 0) by (change 0 with (inject_Z 0); rewrite inject_Z_injective; lia). assert (Y2 : inject_Z (vz (ld (pl e))) == 0) by (change 0 with (inject_Z 0); rewrite inject_Z_injective; lia). rewrite Y1 in D1. rewrite Y2 in D3.
      assert (E2 : qx u == qx v) by nra. assert (E3 : qz u == qz v) by nra. repeat split; [exact E2| |exact E3]. rewrite E2, E3 in U. apply (Qmult_inj_l _ _ _ Nq). lra.
    - assert (Y1 : inject_Z (vx (ld (pl e))) == 0) by (change 0 with (inject_Z 0); rewrite inject_Z_injective; lia). assert (Y2 : inject_Z (vy (ld (pl e))) == 0) by (change 0 with (inject_Z 0); rewrite inject_Z_injective; lia). rewrite Y1 in D1. rewrite Y2 in D2.
      assert (E2 : qx u == qx v) by nra. assert (E3 : qy u == qy v) by nra. repeat split; [exact E2|exact E3|]. rewrite E2, E3 in U. apply (Qmult_inj_l _ _ _ Nq). lra. }
  apply Ne. destruct E as (E1 & E2 & E3). destruct (pdrop p) as [|[|k']]; split; assumption.
Qed.
Lemma edge_plane_line q : side (pplane p) q == 0 -> side (edge_plane e d) q == 0 -> on_line u v q.
Proof using H Ee Ld Nd.
  intros Pq Gq. destruct (plane_turn p qs H (edge_plane e d) u v (on_pp p qs H i) (on_pp p qs H (S i)) (edge_distinct p qs H i) edge_plane_u edge_plane_v) as (k & K).
  pose proof (plane_turn_nonzero p qs H _ _ _ k edge_plane_valid edge_plane_other K) as Nk. apply (turn_on_line p qs H); [apply (on_pp p qs H)|apply (on_pp p qs H)|exact Pq|apply (edge_distinct p qs H)|].
  apply (Qmult_integral_l k); [exact Nk|]. rewrite <- (K q Pq). exact Gq.
Qed.
End Edge.
(** ** The edges of a part of a polygon *)
Lemma small_step n (f g : nat -> Q) : (forall i, (i < n)%nat -> 0 < f i) -> exists t, 0 < t /\ forall i e, (i < n)%nat -> 0 <= e -> e <= t -> 0 < f i - e * g i.
Proof.
  induction n as [|n IH]; intros P; [exists 1; split; [lra|intros; lia]|]. destruct (IH (fun i L => P i (Nat.lt_lt_succ_r _ _ L))) as (t & T & G). specialize (P n (Nat.lt_succ_diag_r n)).
  destruct (Qlt_le_dec 0 (g n)) as [Gn|Gn].
  - exists (Qmin t (f n / (2 * g n))). assert (Fg : 0 < f n / (2 * g n)) by (apply Qlt_shift_div_l; lra). split; [apply Q.min_glb_lt; assumption|]. intros i e Li E0 E1. pose proof (Q.le_min_l t (f n / (2 * g n))) as M1. pose proof (Q.le_min_r t (f n / (2 * g n))) as M2.
    destruct (Nat.eq_dec i n) as [->|]; [|apply G; [lia|exact E0|lra]]. assert (X : f n / (2 * g n) * (2 * g n) == f n) by (field; lra). nra.
  - exists t. split; [exact T|]. intros i e Li E0 E1. destruct (Nat.eq_dec i n) as [->|]; [nra|apply G; [lia|exact E0|exact E1]].
Qed.
Lemma zero_or_pos n (f : nat -> Q) : (forall i, (i < n)%nat -> 0 <= f i) -> (exists i, (i < n)%nat /\ f i == 0) \/ forall i, (i < n)%nat -> 0 < f i.
Proof.
  induction n as [|n IH]; intros P; [right; intros; lia|]. destruct (IH (fun i L => P i (Nat.lt_lt_succ_r _ _ L))) as [(i & L & E)|G]; [left; exists i; split; [lia|exact E]|].
  specialize (P n (Nat.lt_succ_diag_r n)). apply Qle_lteq in P as [P|P]; [right; intros i L; destruct (Nat.eq_dec i n) as [->|]; [exact P|apply G; lia]|left; exists n; split; [lia|symmetry; exact P]].
Qed.
Lemma turn_between a b d x y t : turn a b (qdrop d (between x y t)) == (1 - t) * turn a b (qdrop d x) + t * turn a b (qdrop d y).
Proof. unfold turn, qcross2, qsub2, between, qadd, qscale, qsub. destruct d as [|[|d]]; cbn [qdrop qx qy qz qx2 qy2]; ring. Qed.
Section Part.
Context {A B : Type} (p : poly A) (qs : list qpoint) (H : poly_ok p qs) (p' : poly B) (qs' : list qpoint) (H' : poly_ok p' qs').
Context (Ep : pplane p' = pplane p) (Ed : pdrop p' = pdrop p).
Context (c : split_side) (In1 : forall q, poly_point p' q -> poly_point p q) (In2 : forall q, poly_point p q -> on_side c q -> ~ on_split c q -> poly_point p' q).
Definition height (q : qpoint) : Q := if ss_pos c then side (ss_split c) q else - side (ss_split c) q.
Lemma height_side q : on_side c q <-> 0 <= height q.
Proof. unfold on_side, height. destruct (ss_pos c); lra. Qed.
Lemma height_zero q : on_split c q <-> height q == 0.
Proof. unfold on_split, height. destruct (ss_pos c); lra. Qed.
Lemma height_between x y t : height (between x y t) == (1 - t) * height x + t * height y.
Proof. unfold height. destruct (ss_pos c); rewrite PolyInfoProofs.side_between; ring. Qed.
Notation s := (inject_Z (pnormal_drop p)).
Notation q_ := (cyc o3 qs).
Notation r_ := (cyc o3 qs').
Notation f_ x := (qdrop (pdrop p) x).
Lemma part_edge i : on_side c (r_ i) -> on_side c (r_ (S i)) -> (on_split c (r_ i) -> on_split c (r_ (S i)) -> False) -> exists j, (j < length qs)%nat /\ on_line (q_ j) (q_ (S j)) (r_ i) /\ on_line (q_ j) (q_ (S j)) (r_ (S i)).
Proof using H H' Ep Ed In1 In2.
  intros S1 S2 No. apply height_side in S1, S2. rewrite !height_zero in No. pose proof (ok_n _ _ H) as N. pose proof (ok_length _ _ H) as Ln. pose proof (ok_n _ _ H') as N'. pose proof (ok_length _ _ H') as Ln'.
  assert (Vp : forall k, poly_point p' (r_ k)) by (intros k; apply (point_iff _ qs' _ H'); apply vertex_point; [exact H'|apply cyc_In; lia]).
  assert (Es : inject_Z (pnormal_drop p') = s) by (unfold pnormal_drop; rewrite Ep, Ed; reflexivity).
  pose proof (In1 _ (Vp i)) as P1. pose proof (In1 _ (Vp (S i))) as P2. apply (point_iff _ qs _ H), (point_at p qs H) in P1 as [Q1 T1]. apply (point_iff _ qs _ H), (point_at p qs H) in P2 as [Q2 T2].
  set (m := between (r_ i) (r_ (S i)) (1 # 2)).
  assert (Tm : forall j, s * turn (f_ (q_ j)) (f_ (q_ (S j))) (f_ m) == (1 # 2) * (s * turn (f_ (q_ j)) (f_ (q_ (S j))) (f_ (r_ i))) + (1 # 2) * (s * turn (f_ (q_ j)) (f_ (q_ (S j))) (f_ (r_ (S i))))) by (intros j; unfold m; rewrite turn_between; ring).
  assert (Hm : 0 < height m). { unfold m. rewrite height_between. destruct (Qlt_le_dec 0 (height (r_ i))) as [L|L]; [lra|]. destruct (Qlt_le_dec 0 (height (r_ (S i)))) as [L'|L']; [lra|]. exfalso. apply No; lra. }
  destruct (zero_or_pos (length qs) (fun j => s * turn (f_ (q_ j)) (f_ (q_ (S j))) (f_ m))) as [(j & Lj & Z)|Pos].
  - intros j _. specialize (T1 j). specialize (T2 j). rewrite Tm. lra.
  - exists j. split; [exact Lj|]. rewrite Tm in Z. specialize (T1 j). specialize (T2 j). pose proof (s_nonzero p qs H) as Ns.
    split; (apply (turn_on_line p qs H); [apply (on_pp p qs H)|apply (on_pp p qs H)|assumption|apply (edge_distinct p qs H)|apply (Qmult_integral_l s); [exact Ns|lra]]).
  - exfalso. destruct (strictly_inside p' qs' H' i) as (k & Tk). rewrite Es, Ed in Tk. pose proof (In1 _ (Vp k)) as P3. apply (point_iff _ qs _ H), (point_at p qs H) in P3 as [Q3 T3].
    destruct (small_step (length qs) (fun j => s * turn (f_ (q_ j)) (f_ (q_ (S j))) (f_ m)) (fun j => s * turn (f_ (q_ j)) (f_ (q_ (S j))) (f_ (r_ k)) - s * turn (f_ (q_ j)) (f_ (q_ (S j))) (f_ m)) Pos) as (t1 & L1 & G1).
    destruct (small_step 1 (fun _ => height m) (fun _ => height (r_ k) - height m) (fun _ _ => Hm)) as (t2 & L2 & G2).
    set (e := Qmin t1 t2). assert (Pe : 0 < e) by (apply Q.min_glb_lt; assumption). assert (E1 : e <= t1) by apply Q.le_min_l. assert (E2 : e <= t2) by apply Q.le_min_r.
    set (x := between m (r_ k) (- e)). assert (Px : poly_point p' x).
    { apply In2.
      - apply (point_iff _ qs _ H). apply (point_at p qs H). split.
        + unfold x, m. rewrite !PolyInfoProofs.side_between, Q1, Q2, Q3. ring.
        + intros j. assert (Lj : (j mod length qs < length qs)%nat) by (apply Nat.mod_upper_bound; lia). specialize (G1 _ e Lj (Qlt_le_weak _ _ Pe) E1). cbn beta in G1. unfold x. rewrite turn_between.
          rewrite <- (cyc_mod o3 qs j), <- (cyc_mod o3 qs (S j)) by lia. rewrite <- (mod_succ (length qs) j) by lia. rewrite (cyc_mod o3 qs (S (j mod length qs))) by lia. lra.
      - apply height_side. unfold x. rewrite height_between. specialize (G2 0%nat e ltac:(lia) (Qlt_le_weak _ _ Pe) E2). cbn beta in G2. lra.
      - rewrite height_zero. unfold x. rewrite height_between. specialize (G2 0%nat e ltac:(lia) (Qlt_le_weak _ _ Pe) E2). cbn beta in G2. lra. }
    apply (point_iff _ qs' _ H'), (point_at p' qs' H') in Px as [_ Tx]. specialize (Tx i). rewrite Es, Ed in Tx. unfold x, m in Tx. rewrite !turn_between in Tx.
    assert (Z1 : turn (f_ (r_ i)) (f_ (r_ (S i))) (f_ (r_ i)) == 0) by (unfold turn, qcross2, qsub2; cbn; ring). assert (Z2 : turn (f_ (r_ i)) (f_ (r_ (S i))) (f_ (r_ (S i))) == 0) by (unfold turn, qcross2, qsub2; cbn; ring). rewrite Z1, Z2 in Tx. clear - Tx Tk Pe. nra.
Qed.
End Part.
(** ** Polygons without free edges fill the cell *)
Lemma fills {A} (p : poly A) qs w s0 : poly_ok p qs -> path_ok w -> In s0 w -> same_plane (ss_split s0) (pplane p) -> (forall q s, In q qs -> In s w -> on_side s q) ->
  (forall i, exists s, In s w /\ s <> s0 /\ on_split s (cyc o3 qs i) /\ on_split s (cyc o3 qs (S i))) -> forall q, side (pplane p) q == 0 -> in_cell w q -> poly_point p q.
Proof.
  intros H P I0 Sp Cell Ed q Q C. apply (point_iff _ qs _ H), (point_at p qs H). split; [exact Q|]. intros i. destruct (Ed i) as (s & Is & Ns & U & V).
  assert (Ot : ~ same_plane (ss_split s) (pplane p)). { intros E. apply Ns. apply (path_distinct w s s0 P Is I0). intros x. rewrite (E x), (Sp x). reflexivity. }
  destruct (plane_turn p qs H (ss_split s) _ _ (on_pp p qs H i) (on_pp p qs H (S i)) (edge_distinct p qs H i) U V) as (k & K).
  pose proof (plane_turn_nonzero p qs H _ _ _ k (path_valid w s P Is) Ot K) as Nk. destruct (strictly_inside p qs H i) as (j & Tj).
  pose proof (ok_n _ _ H) as N. pose proof (ok_length _ _ H) as Ln. pose proof (Cell (cyc o3 qs j) s ltac:(apply cyc_In; lia) Is) as Cj. unfold in_cell in C. rewrite Forall_forall in C. specialize (C s Is). unfold on_side in *. pose proof (K q Q) as Kq. pose proof (K _ (on_pp p qs H j)) as Kj. set (sq := side (ss_split s) q) in *. set (sj := side (ss_split s) (cyc o3 qs j)) in *. clearbody sq sj.
  set (a := turn (qdrop (pdrop p) (cyc o3 qs i)) (qdrop (pdrop p) (cyc o3 qs (S i))) (qdrop (pdrop p) q)) in *. set (b := turn _ _ (qdrop (pdrop p) (cyc o3 qs j))) in *. set (n := inject_Z (pnormal_drop p)) in *. clearbody a b n. clear - Nk Tj C Cj Kq Kj.
  assert (Kk : 0 < k * k) by (destruct (Qlt_le_dec 0 k) as [Z|Z]; [nra|assert (k < 0) by (apply Qle_lteq in Z as [L|L]; [exact L|exfalso; apply Nk; exact L]); nra]).
  assert (M : 0 <= (k * a) * (k * b)) by (destruct (ss_pos s); rewrite Kq in C; rewrite Kj in Cj; [apply Qmult_le_0_compat; assumption|setoid_replace ((k * a) * (k * b)) with ((- (k * a)) * (- (k * b))) by ring; apply Qmult_le_0_compat; lra]).
  assert (S : 0 <= a * b). { destruct (Qlt_le_dec (a * b) 0) as [L|L]; [exfalso|exact L]. assert ((k * k) * (a * b) < 0) by nra. lra. }
  destruct (Qlt_le_dec 0 n) as [L|L]; nra.
Qed.
