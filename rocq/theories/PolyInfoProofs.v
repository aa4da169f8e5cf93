(** GetSplitInfo: the ranges, the new line and the new points. *)
From Coq Require Import List ZArith QArith Lqa Lia Arith ZifyBool.
From Verif Require Import BigUIntModel GeoModel GeoSpec GeoProofs GeoPlaneProofs GeoPluckerProofs CvxSpec CvxProofs CvxSeqProofs PolyModel PolySpec PolyBridgeProofs PolySearchProofs PolyLinearProofs PolyBisectProofs.
Import ListNotations.
Open Scope Q_scope.
(** ** Neighbouring ranges *)
Lemma exact_opp n G r : ranges_exact n G r -> ranges_exact n (fun i => - G i) (SR (pos_range r) (neg_range r)).
Proof.
  intros [R1 R2 I1 I2]. split; cbn [neg_range pos_range]; [exact R2|exact R1| |]; intros i Li; [rewrite <- I2 by exact Li|rewrite <- I1 by exact Li]; split; lra.
Qed.
Lemma exact_ext n G G' r : (forall i, qsign (G i) = qsign (G' i)) -> ranges_exact n G r -> ranges_exact n G' r.
Proof.
  intros E [R1 R2 I1 I2]. split; [exact R1|exact R2| |]; intros i Li; [rewrite <- I1 by exact Li; rewrite <- !qsign_neg, E; reflexivity|rewrite <- I2 by exact Li; rewrite <- !qsign_pos, E; reflexivity].
Qed.
Section Gap.
Context (n : nat) (G : nat -> Q) (r : split_ranges) (U : uni n G) (R : ranges_exact n G r).
Notation a := (fst (neg_range r)). Notation b := (snd (neg_range r)). Notation c := (fst (pos_range r)). Notation d := (snd (pos_range r)).
Lemma neg_at j : (a <= j)%nat -> (j < b)%nat -> G j < 0.
Proof using All.
  intros J1 J2. pose proof (u_n _ _ U) as N. rewrite <- (u_mod _ _ U j). apply (re_neg_in _ _ _ R); [apply Nat.mod_upper_bound; lia|]. exists j. repeat split; assumption.
Qed.
Lemma pos_at j : (c <= j)%nat -> (j < d)%nat -> 0 < G j.
Proof using All.
  intros J1 J2. pose proof (u_n _ _ U) as N. rewrite <- (u_mod _ _ U j). apply (re_pos_in _ _ _ R); [apply Nat.mod_upper_bound; lia|]. exists j. repeat split; assumption.
Qed.
Lemma neg_find j : G j < 0 -> exists k, (a <= k)%nat /\ (k < b)%nat /\ (k mod n = j mod n)%nat.
Proof using All. intros X. pose proof (u_n _ _ U) as N. rewrite <- (u_mod _ _ U j) in X. apply (re_neg_in _ _ _ R) in X; [|apply Nat.mod_upper_bound; lia]. exact X. Qed.
Lemma pos_find j : 0 < G j -> exists k, (c <= k)%nat /\ (k < d)%nat /\ (k mod n = j mod n)%nat.
Proof using All. intros X. pose proof (u_n _ _ U) as N. rewrite <- (u_mod _ _ U j) in X. apply (re_pos_in _ _ _ R) in X; [|apply Nat.mod_upper_bound; lia]. exact X. Qed.
Lemma G_mod i j : (i mod n = j mod n)%nat -> G i = G j.
Proof using U. intros E. rewrite <- (u_mod _ _ U i), <- (u_mod _ _ U j), E. reflexivity. Qed.
Lemma mod_shift i j k : (0 < n)%nat -> (i mod n = j mod n)%nat -> ((i + k) mod n = (j + k) mod n)%nat.
Proof using. intros N E. rewrite <- (Nat.add_mod_idemp_l i), E, Nat.add_mod_idemp_l by lia. reflexivity. Qed.
Lemma mod_pred i j : (0 < n)%nat -> (1 <= i)%nat -> (1 <= j)%nat -> (i mod n = j mod n)%nat -> ((i - 1) mod n = (j - 1) mod n)%nat.
Proof using.
  intros N I J E. pose proof (mod_shift i j (n - 1) N E) as S. replace (i + (n - 1))%nat with ((i - 1) + 1 * n)%nat in S by lia. replace (j + (n - 1))%nat with ((j - 1) + 1 * n)%nat in S by lia. rewrite !Nat.mod_add in S by lia. exact S.
Qed.
Lemma gap : (a < b)%nat -> (c < d)%nat -> ((b mod n = c mod n)%nat /\ 0 < G b) \/ ((S b mod n = c mod n)%nat /\ G b == 0).
Proof using All.
  intros L1 L2. pose proof (u_n _ _ U) as N. pose proof (neg_at (b - 1)%nat ltac:(lia) ltac:(lia)) as Gp. pose proof (pos_at c ltac:(lia) L2) as Gc.
  destruct (re_neg _ _ _ R) as [_ Bn]. destruct (re_pos _ _ _ R) as [_ Bp].
  assert (First : forall j, (1 <= j)%nat -> 0 < G j -> ~ 0 < G (j - 1)%nat -> (j mod n = c mod n)%nat).
  { intros j J1 Gj Gj'. destruct (pos_find j Gj) as (k & K1 & K2 & K3). destruct (Nat.eq_dec k c) as [->|NEQ]; [congruence|]. exfalso. apply Gj'. rewrite <- (G_mod (k - 1) (j - 1)) by (apply mod_pred; lia). apply pos_at; lia. }
  destruct (Qlt_le_dec 0 (G b)) as [X|X]; [left; split; [apply First; [lia|exact X|lra]|exact X]|].
  destruct (proj1 (Qle_lteq _ _) X) as [Y|Y].
  { exfalso. destruct (neg_find b Y) as (k & K1 & K2 & K3).
    (* the negative range would be everything *)
    destruct (Nat.eq_dec k a) as [->|NEQ].
    - assert (b = a + n)%nat. { apply (window_unique n (S a)); try lia. rewrite <- K3. replace (a + n)%nat with (a + 1 * n)%nat by lia. symmetry. apply Nat.mod_add. lia. }
      destruct (u_rep _ _ U a c) as (c' & C1 & C2 & C3 & _). pose proof (neg_at c' C1 ltac:(lia)) as Z. rewrite C3 in Z. lra.
    - assert (k = b) by (apply (window_unique n (S a)); try lia). lia. }
  right. split; [|exact Y]. destruct (Qeq_dec (G b) (G (S b))) as [E|E]; [exfalso; exact (u_flat _ _ U b (b - 1) c E ltac:(lra) ltac:(lra))|].
  destruct (Qlt_le_dec 0 (G (S b))) as [Z|Z]; [apply First; [lia|exact Z|replace (S b - 1)%nat with b by lia; lra]|exfalso].
  assert (Zn : G (S b) < 0) by (destruct (proj1 (Qle_lteq _ _) Z) as [W|W]; [exact W|exfalso; apply E; lra]).
  destruct (u_rep _ _ U (b - 1) c) as (m & M1 & M2 & M3 & _). rewrite <- M3 in Gc.
  assert (m <> b - 1)%nat by (intros ->; lra). assert (m <> b)%nat by (intros ->; lra). assert (m <> S b)%nat by (intros ->; lra).
  destruct (max2 (G (b - 1)%nat) (G (S b))) as (e & E1 & E2 & E3).
  apply (u_alt _ _ U e b (S b) m (b - 1 + n)%nat); try lia; try (destruct E3; lra). rewrite (u_period _ _ U). exact E1.
Qed.
End Gap.
Lemma emit_neg_lt n G r : ranges_exact n G r -> emit_neg r = true <-> (fst (neg_range r) < snd (neg_range r))%nat.
Proof. intros R. destruct (re_neg _ _ _ R). unfold emit_neg. lia. Qed.
Lemma emit_pos_lt n G r : ranges_exact n G r -> emit_pos r = true <-> (fst (pos_range r) < snd (pos_range r))%nat.
Proof. intros R. destruct (re_pos _ _ _ R). unfold emit_pos. lia. Qed.
Lemma exact_valid n G r : uni n G -> ranges_exact n G r -> ranges_valid r n = true.
Proof.
  intros U R. pose proof (emit_neg_lt n G r R) as En. pose proof (emit_pos_lt n G r R) as Ep. pose proof (exact_opp n G r R) as R'. pose proof (uni_opp _ _ U) as U'.
  unfold ranges_valid. destruct (re_neg _ _ _ R) as [N1 N2]. destruct (re_pos _ _ _ R) as [P1 P2].
  pose proof (gap n G r U R) as G1. pose proof (gap n _ _ U' R') as G2. cbn [neg_range pos_range] in G2. destruct (neg_range r) as [n1 n2] eqn:En'. destruct (pos_range r) as [p1 p2] eqn:Ep'. cbn [fst snd] in *.
  rewrite (proj2 (Nat.leb_le n1 n2) N1), (proj2 (Nat.leb_le n2 (n1 + n)) N2), (proj2 (Nat.leb_le p1 p2) P1), (proj2 (Nat.leb_le p2 (p1 + n)) P2). cbn [andb].
  destruct (emit_neg r) eqn:E1; [|reflexivity]. destruct (emit_pos r) eqn:E2; [|reflexivity]. cbn [andb].
  specialize (G1 (proj1 En eq_refl) (proj1 Ep eq_refl)). specialize (G2 (proj1 Ep eq_refl) (proj1 En eq_refl)).
  destruct G1 as [[-> _]|[-> _]], G2 as [[-> _]|[-> _]]; rewrite ?Nat.eqb_refl, ?Bool.orb_true_r; reflexivity.
Qed.
(** ** Lines and planes *)
Lemma line_wf_of_point l q : pl_valid l = true -> line_points l q -> line_wf l.
Proof.
  intros V (A & B & C). split; [exact V|]. apply inject_eq. unfold v3_dot. rewrite !inject_Z_plus, !inject_Z_mult. unfold qcross, qpt in *. cbn [qx qy qz] in *. rewrite <- A, <- B, <- C. change (inject_Z 0) with 0. ring.
Qed.
Lemma denotes_eq x q q' : qp_eq q q' -> denotes x q -> denotes x q'.
Proof. intros (A & B & C) (W & X & Y & Z). unfold denotes. rewrite <- A, <- B, <- C. auto. Qed.
(** The point at the fraction t of the way from a to b. *)
Lemma side_between h a b t : side h (between a b t) == side h a + t * (side h b - side h a).
Proof. unfold side, between, qdot, qadd, qscale, qsub. cbn [qx qy qz]. ring. Qed.
Lemma side_eq h a b : qp_eq a b -> side h a == side h b.
Proof. intros (A & B & C). unfold side, qdot. rewrite A, B, C. reflexivity. Qed.
Lemma edge_intersection l h a b k : line_points l a -> 0 < k -> qp_eq (qpt (ld l)) (qscale k (qsub b a)) -> (side h a < 0 /\ 0 < side h b) \/ (0 < side h a /\ side h b < 0) ->
  exists t, 0 < t /\ t < 1 /\ denotes (pl_intersect l h) (between a b t) /\ side h (between a b t) == 0.
Proof.
  intros La K D S. set (x := side h a) in *. set (y := side h b) in *.
  assert (NE : ~ y - x == 0) by (destruct S; lra). exists (x / (x - y)).
  assert (NE' : ~ x - y == 0) by (intros Z; apply NE; lra).
  assert (T : 0 < x / (x - y) /\ x / (x - y) < 1).
  { destruct S as [[S1 S2]|[S1 S2]].
    - setoid_replace (x / (x - y)) with ((- x) / (y - x)) by (field; split; lra). split; [apply Qlt_shift_div_l; lra|apply Qlt_shift_div_r; lra].
    - split; [apply Qlt_shift_div_l; lra|apply Qlt_shift_div_r; lra]. }
  split; [apply T|]. split; [apply T|]. 
  assert (Sd : side h (between a b (x / (x - y))) == 0). { rewrite side_between. fold x y. field. exact NE'. }
  split; [|exact Sd].
  assert (V : pl_valid l = true).
  { apply pl_valid_true. intros Z. apply NE. assert (E : qp_eq a b). { apply qsub_zero. apply (proj1 (qp_scale_zero k _ K)). apply (qp_eq_trans _ (qpt (ld l))); [apply qp_eq_sym; exact D|exact Z]. }
    unfold x, y. rewrite (side_eq h a b E). lra. }
  pose proof (line_wf_of_point l a V La) as Wf.
  assert (HW : hw (pl_intersect l h) <> 0%Z).
  { unfold pl_intersect. cbn [hw]. intros Z. apply NE. apply (f_equal inject_Z) in Z. change (inject_Z 0) with 0 in Z.
    assert (Q : k * (y - x) == inject_Z (v3_dot (hn h) (ld l))).
    { unfold v3_dot. rewrite !inject_Z_plus, !inject_Z_mult. destruct D as (D1 & D2 & D3). unfold qpt, qscale, qsub in *. cbn [qx qy qz] in *. rewrite D1, D2, D3. unfold x, y, side, qdot, qpt. cbn [qx qy qz]. ring. }
    rewrite Z in Q. apply Qmult_integral in Q as [Q|Q]; [lra|exact Q]. }
  destruct (pl_intersect_spec l h Wf HW) as (r & Dr & _ & _ & Uq). apply (denotes_eq _ r); [|exact Dr]. apply qp_eq_sym. apply Uq; [|exact Sd].
  destruct La as (A & B & C). destruct D as (D1 & D2 & D3). unfold line_points, qp_eq, qcross, between, qadd, qscale, qsub, qpt in *. cbn [qx qy qz] in *. rewrite D2, D3 in A. rewrite D1, D3 in B. rewrite D1, D2 in C. rewrite <- A, <- B, <- C, D1, D2, D3. repeat split; ring.
Qed.
(** The half-plane that GetSplitInfo compares with. *)
Lemma project_side (pp h : hspace3) d q : (d < 3)%nat -> side pp q == 0 ->
  side2 (pl_project2d (pl_of_planes pp h) d) (qdrop d q) == - inject_Z (comp (hn pp) d) * side h q.
Proof.
  intros L S. destruct pp as [[px py pz] pd], h as [[ax ay az] ad], q as [x y z].
  unfold side2, pl_project2d, pl_of_planes, side, qdot, qpt, v2_perp, drop_dim, v3_cross, zdet in *.
  destruct d as [|[|[|d]]]; [| | |lia]; cbn [hn2 hd2 hn hd ld lm comp Nat.add Nat.modulo Nat.divmod Nat.sub fst snd x2 y2 vx vy vz qx qy qz qdrop qx2 qy2] in *;
  unfold Z.sub; rewrite ?inject_Z_opp, ?inject_Z_plus, ?inject_Z_opp, ?inject_Z_mult in *; rewrite ?inject_Z_plus, ?inject_Z_opp, ?inject_Z_mult in *.
  - setoid_replace (inject_Z pd) with (inject_Z px * x + inject_Z py * y + inject_Z pz * z) by lra. ring.
  - setoid_replace (inject_Z pd) with (inject_Z px * x + inject_Z py * y + inject_Z pz * z) by lra. ring.
  - setoid_replace (inject_Z pd) with (inject_Z px * x + inject_Z py * y + inject_Z pz * z) by lra. ring.
Qed.
Lemma abs_mult_pos z : z <> 0%Z -> 0 < inject_Z (zabs_mult z) * inject_Z z.
Proof. intros N. rewrite zabs_mult_sgn by exact N. rewrite <- inject_Z_mult. change 0 with (inject_Z 0). rewrite <- Zlt_Qlt. destruct (Z.sgn_spec z) as [[? ->]|[[? ->]|[? ->]]]; lia. Qed.
Lemma parallel_side (pp h : hspace3) d q : (d < 3)%nat -> side pp q == 0 -> pl_valid (pl_of_planes pp h) = false ->
  inject_Z (comp (hn pp) d) * side h q == inject_Z (hd pp * comp (hn h) d - hd h * comp (hn pp) d).
Proof.
  intros L S V. destruct pp as [[px py pz] pd], h as [[ax ay az] ad], q as [x y z].
  unfold pl_valid, pl_of_planes, v3_is_zero, v3_cross in V. cbn [ld hn vx vy vz] in V.
  assert (E : (py * az - pz * ay = 0 /\ pz * ax - px * az = 0 /\ px * ay - py * ax = 0)%Z) by (destruct (_ =? 0)%Z eqn:E1, (pz * ax - px * az =? 0)%Z eqn:E2, (px * ay - py * ax =? 0)%Z eqn:E3; try discriminate; lia).
  destruct E as (E1 & E2 & E3). apply (f_equal inject_Z) in E1, E2, E3. unfold Z.sub in *. rewrite inject_Z_plus, inject_Z_opp, !inject_Z_mult in E1, E2, E3. change (inject_Z 0) with 0 in *.
  assert (F1 : inject_Z py * inject_Z az - inject_Z pz * inject_Z ay == 0) by (unfold Qminus; rewrite E1; reflexivity).
  assert (F2 : inject_Z pz * inject_Z ax - inject_Z px * inject_Z az == 0) by (unfold Qminus; rewrite E2; reflexivity).
  assert (F3 : inject_Z px * inject_Z ay - inject_Z py * inject_Z ax == 0) by (unfold Qminus; rewrite E3; reflexivity). clear E1 E2 E3.
  unfold side, qdot, qpt in *. destruct d as [|[|[|d]]]; [| | |lia]; cbn [hn hd comp vx vy vz qx qy qz] in *; rewrite inject_Z_plus, inject_Z_opp, !inject_Z_mult;
  setoid_replace (inject_Z pd) with (inject_Z px * x + inject_Z py * y + inject_Z pz * z) by lra.
  - setoid_replace (inject_Z px * (inject_Z ax * x + inject_Z ay * y + inject_Z az * z - inject_Z ad)) with
      ((inject_Z px * x + inject_Z py * y + inject_Z pz * z) * inject_Z ax - inject_Z ad * inject_Z px + y * (inject_Z px * inject_Z ay - inject_Z py * inject_Z ax) - z * (inject_Z pz * inject_Z ax - inject_Z px * inject_Z az)) by ring. rewrite F2, F3. ring.
  - setoid_replace (inject_Z py * (inject_Z ax * x + inject_Z ay * y + inject_Z az * z - inject_Z ad)) with
      ((inject_Z px * x + inject_Z py * y + inject_Z pz * z) * inject_Z ay - inject_Z ad * inject_Z py - x * (inject_Z px * inject_Z ay - inject_Z py * inject_Z ax) + z * (inject_Z py * inject_Z az - inject_Z pz * inject_Z ay)) by ring. rewrite F1, F3. ring.
  - setoid_replace (inject_Z pz * (inject_Z ax * x + inject_Z ay * y + inject_Z az * z - inject_Z ad)) with
      ((inject_Z px * x + inject_Z py * y + inject_Z pz * z) * inject_Z az - inject_Z ad * inject_Z pz + x * (inject_Z pz * inject_Z ax - inject_Z px * inject_Z az) - y * (inject_Z py * inject_Z az - inject_Z pz * inject_Z ay)) by ring. rewrite F1, F2. ring.
Qed.
(** ** GetSplitInfo *)
Section Info.
Context {A : Type} (p : poly A) (qs : list qpoint) (H : poly_ok p qs) (h : hspace3).
Notation n := (pcount p).
Notation G := (fun j => side h (cyc o3 qs j)).
Lemma ok_on_plane i : side (pplane p) (cyc o3 qs i) == 0.
Proof using H. pose proof (po_plane p qs H) as F. rewrite Forall_forall in F. apply F. apply cyc_In. rewrite (ok_length p qs H). apply (ok_n p qs H). Qed.
Lemma side_uni : uni n G.
Proof using H.
  pose proof (ok_cvx p qs H) as C. destruct (po_drop p qs H) as [Dl Dn].
  (* on the plane of p the side of h is an affine function of the projection *)
  set (c := inject_Z (pnormal_drop p)). pose proof (inject_Z_neq0 _ Dn) as C0. fold c in C0.
  assert (E : exists f, forall i, side h (cyc o3 qs i) == ev f (flat_at p qs i)).
  { pose proof ok_on_plane as P. destruct h as [[ax ay az] ad]. destruct (pplane p) as [[px py pz] pd] eqn:Ep. unfold flat_at.
    assert (Cc : c = inject_Z (comp (V3 px py pz) (pdrop p))) by (unfold c, pnormal_drop; rewrite Ep; reflexivity).
    destruct (pdrop p) as [|[|[|d]]]; [| | |lia]; cbn [comp vx vy vz] in Cc.
    - exists (Aff (inject_Z ay - inject_Z ax * inject_Z py / c) (inject_Z az - inject_Z ax * inject_Z pz / c) (inject_Z ax * inject_Z pd / c - inject_Z ad)). intros i. specialize (P i). destruct (cyc o3 qs i) as [x y z].
      unfold side, qdot, qpt, ev, qdrop in *. cbn [hn hd vx vy vz qx qy qz fa fb fc qx2 qy2] in *. rewrite <- Cc in P.
      setoid_replace x with ((inject_Z pd - inject_Z py * y - inject_Z pz * z) / c) at 1; [field; exact C0|]. rewrite <- (Qmult_inj_l _ _ c C0). field_simplify; [lra|exact C0].
    - exists (Aff (inject_Z az - inject_Z ay * inject_Z pz / c) (inject_Z ax - inject_Z ay * inject_Z px / c) (inject_Z ay * inject_Z pd / c - inject_Z ad)). intros i. specialize (P i). destruct (cyc o3 qs i) as [x y z].
      unfold side, qdot, qpt, ev, qdrop in *. cbn [hn hd vx vy vz qx qy qz fa fb fc qx2 qy2] in *. rewrite <- Cc in P.
      setoid_replace y with ((inject_Z pd - inject_Z px * x - inject_Z pz * z) / c) at 1; [field; exact C0|]. rewrite <- (Qmult_inj_l _ _ c C0). field_simplify; [lra|exact C0].
    - exists (Aff (inject_Z ax - inject_Z az * inject_Z px / c) (inject_Z ay - inject_Z az * inject_Z py / c) (inject_Z az * inject_Z pd / c - inject_Z ad)). intros i. specialize (P i). destruct (cyc o3 qs i) as [x y z].
      unfold side, qdot, qpt, ev, qdrop in *. cbn [hn hd vx vy vz qx qy qz fa fb fc qx2 qy2] in *. rewrite <- Cc in P.
      setoid_replace z with ((inject_Z pd - inject_Z px * x - inject_Z py * y) / c) at 1; [field; exact C0|]. rewrite <- (Qmult_inj_l _ _ c C0). field_simplify; [lra|exact C0]. }
  destruct E as (f & E). pose proof (cvx_uni _ _ _ f C) as [N Pe Al Fl]. split; [exact N| | |].
  - intros i. f_equal. rewrite <- (ok_length p qs H). apply cyc_period. rewrite (ok_length p qs H). exact N.
  - intros e i j k l. rewrite !E. apply Al.
  - intros i a b. rewrite !E. apply Fl.
Qed.
Lemma shared_ok b c o : (1 <= b)%nat -> G (b - 1)%nat < 0 /\ 0 < G b \/ 0 < G (b - 1)%nat /\ G b < 0 -> (b mod n = c mod n)%nat ->
  (e <- pedge_at p ((b + n - 1) mod n) ;; Ok (Some (pl_intersect (pl e) h))) = Ok o -> shared h qs b c o.
Proof using H.
  intros B S E. pose proof (ok_n p qs H) as N. destruct (ok_edge p qs H ((b + n - 1) mod n) ltac:(apply Nat.mod_upper_bound; lia)) as (e & Ee & De & Le & (k & K & Dir)).
  unfold pedge_at. rewrite Ee. cbn [rbind]. intros X. injection X as <-. unfold shared. rewrite (ok_length p qs H). split; [exact E|].
  assert (Q0 : cyc o3 qs ((b + n - 1) mod n) = cyc o3 qs (b - 1)).
  { rewrite <- (ok_length p qs H). rewrite cyc_mod by (rewrite (ok_length p qs H); exact N). replace (b + length qs - 1)%nat with ((b - 1) + length qs)%nat by lia. apply cyc_period. rewrite (ok_length p qs H). exact N. }
  assert (Q1 : cyc o3 qs (Datatypes.S ((b + n - 1) mod n)) = cyc o3 qs b).
  { rewrite <- (ok_length p qs H). assert (N' : (0 < length qs)%nat) by (rewrite (ok_length p qs H); exact N). rewrite <- (cyc_mod o3 qs (Datatypes.S _) N'), <- (cyc_mod o3 qs b N'). f_equal.
    replace (Datatypes.S ((b + length qs - 1) mod length qs)) with (1 + (b + length qs - 1) mod length qs)%nat by lia. rewrite Nat.add_mod_idemp_r by lia. replace (1 + (b + length qs - 1))%nat with (b + 1 * length qs)%nat by lia. apply Nat.mod_add. lia. }
  rewrite Q0, Q1 in *. destruct (edge_intersection (pl e) h _ _ k Le K Dir S) as (t & T). exists t. exact T.
Qed.
Lemma get_split_info_ok dbg : exists i, get_split_info dbg p h = Ok i /\ info_ok p qs h i.
Proof using H.
  pose proof (ok_n p qs H) as N. pose proof (ok_length p qs H) as Ln. destruct (po_drop p qs H) as [Dl Dn]. pose proof side_uni as U.
  unfold get_split_info. set (line := pl_of_planes (pplane p) h). set (flip := zabs_mult (pnormal_drop p)).
  assert (CK : forall b, b = true -> check dbg b = Ok tt) by (intros b ->; destruct dbg; reflexivity).
  destruct (pl_valid line) eqn:V; cbn [negb].
  - set (h2 := hs2_scale (pl_project2d line (pdrop p)) (- flip)).
    pose proof (ok_sees p qs H (hn2 h2)) as Se. set (F := fun i => along2 (hn2 h2) (flat_at p qs i)) in Se.
    assert (Off : forall i, off h2 F i == (inject_Z flip * inject_Z (pnormal_drop p)) * side h (cyc o3 qs i)).
    { intros i. pose proof (project_side (pplane p) h (pdrop p) (cyc o3 qs i) Dl (ok_on_plane i)) as Ps. fold line in Ps. 
      transitivity (- inject_Z flip * side2 (pl_project2d line (pdrop p)) (qdrop (pdrop p) (cyc o3 qs i))); [|rewrite Ps; unfold pnormal_drop; ring].
      unfold off, F, along2, h2, hs2_scale, side2, flat_at, v2_scale. cbn [hn2 hd2 x2 y2]. rewrite !inject_Z_mult, inject_Z_opp. ring. }
    pose proof (abs_mult_pos _ Dn) as Kp. fold flip in Kp.
    assert (Nz : v2_is_zero (hn2 h2) = false).
    { destruct (v2_is_zero (hn2 h2)) eqn:E; [exfalso|reflexivity]. unfold h2, hs2_scale, v2_is_zero, v2_scale in E. cbn [hn2 x2 y2] in E.
      assert (Fl : (flip = 1 \/ flip = -1)%Z) by (unfold flip; rewrite zabs_mult_spec; destruct (_ <? 0)%Z; auto).
      unfold pl_valid, v3_is_zero in V. unfold pl_project2d, v2_perp in E. cbn [hn2 x2 y2] in E.
      assert (Or : v3_dot (hn (pplane p)) (ld line) = 0%Z) by (unfold line, pl_of_planes, v3_dot, v3_cross; cbn [ld vx vy vz]; ring). unfold v3_dot in Or.
      unfold pnormal_drop in Dn. destruct (pdrop p) as [|[|[|d]]]; [| | |lia]; cbn [drop_dim comp Nat.add Nat.modulo Nat.divmod Nat.sub fst snd x2 y2] in E, Dn; destruct (ld line) as [lx ly lz]; cbn [vx vy vz] in *; nia. }
    assert (NC : exists i j, F i < F j).
    { destruct (not_constant _ _ _ (ok_cvx p qs H) (Aff (inject_Z (x2 (hn2 h2))) (inject_Z (y2 (hn2 h2))) 0)) as (i & j & L).
      - cbn [fa fb]. intros [X Y]. change 0 with (inject_Z 0) in X, Y. apply (proj1 (inject_eq _ _)) in X. apply (proj1 (inject_eq _ _)) in Y. unfold v2_is_zero in Nz. lia.
      - exists i, j. unfold ev in L. cbn [fa fb fc] in L. unfold F, along2. lra. }
    assert (Re : exists r, (if (n <? 10)%nat then split_linear dbg p h2 (pdrop p) else split_bisect dbg p h2 (pdrop p)) = Ok r /\ ranges_exact n (off h2 F) r).
    { destruct (n <? 10)%nat.
      - apply split_linear_ok; [exact (off_uni p h2 _ F Se)|intros i Li; unfold off; apply sees_cmp; assumption|exact Dn|exact Nz|].
        destruct NC as (i & j & L). destruct (Qeq_dec (off h2 F i) 0) as [X|X]; [exists j|exists i; exact X]. unfold off in *. lra.
      - apply split_bisect_ok; assumption. }
    destruct Re as (r & Er & Rx). rewrite Er. cbn [rbind].
    assert (R : ranges_exact n G r). { apply (exact_ext n (off h2 F)); [|exact Rx]. intros i. apply (qsign_scale_pos _ _ _ Kp). rewrite Off. ring. }
    pose proof (exact_valid n G r U R) as Va. rewrite Va, CK by reflexivity. cbn [rbind].
    destruct (emit_neg r) eqn:En; destruct (emit_pos r) eqn:Ep; cbn [negb orb].
    + pose proof (proj1 (emit_neg_lt _ _ _ R) En) as Ln'. pose proof (proj1 (emit_pos_lt _ _ _ R) Ep) as Lp'.
      destruct (re_neg _ _ _ R) as [_ Bn]. destruct (re_pos _ _ _ R) as [_ Bp].
      pose proof (gap n G r U R Ln' Lp') as G2. pose proof (gap n _ _ (uni_opp _ _ U) (exact_opp n G r R) Lp' Ln') as G1. cbn [neg_range pos_range] in G1.
      pose proof (neg_at n G r U R (snd (neg_range r) - 1) ltac:(lia) ltac:(lia)) as Nl. pose proof (pos_at n G r U R (snd (pos_range r) - 1) ltac:(lia) ltac:(lia)) as Pl. cbv beta in *.
      assert (X2 : exists o, (if (snd (neg_range r) mod n =? fst (pos_range r) mod n)%nat then e <- pedge_at p ((snd (neg_range r) + n - 1) mod n) ;; Ok (Some (pl_intersect (pl e) h)) else Ok None) = Ok o /\
        shared h qs (snd (neg_range r)) (fst (pos_range r)) o /\ (snd (neg_range r) mod n =? fst (pos_range r) mod n)%nat = is_some o).
      { destruct (snd (neg_range r) mod n =? fst (pos_range r) mod n)%nat eqn:E.
        - apply Nat.eqb_eq in E. destruct (ok_edge p qs H ((snd (neg_range r) + n - 1) mod n) ltac:(apply Nat.mod_upper_bound; lia)) as (e & Ee & _).
          eexists. split; [unfold pedge_at; rewrite Ee; reflexivity|]. split; [|reflexivity]. apply (shared_ok (snd (neg_range r)) (fst (pos_range r))); [lia| |exact E|unfold pedge_at; rewrite Ee; reflexivity].
          left. split; [exact Nl|]. cbv beta. rewrite (G_mod n G U (snd (neg_range r)) (fst (pos_range r)) E). apply (pos_at n G r U R); lia.
        - exists None. split; [reflexivity|]. split; [|reflexivity]. unfold shared. rewrite Ln. destruct G2 as [[X _]|[X Y]]; [lia|]. split; assumption. }
      assert (X1 : exists o, (if (snd (pos_range r) mod n =? fst (neg_range r) mod n)%nat then e <- pedge_at p ((snd (pos_range r) + n - 1) mod n) ;; Ok (Some (pl_intersect (pl e) h)) else Ok None) = Ok o /\
        shared h qs (snd (pos_range r)) (fst (neg_range r)) o /\ (snd (pos_range r) mod n =? fst (neg_range r) mod n)%nat = is_some o).
      { destruct (snd (pos_range r) mod n =? fst (neg_range r) mod n)%nat eqn:E.
        - apply Nat.eqb_eq in E. destruct (ok_edge p qs H ((snd (pos_range r) + n - 1) mod n) ltac:(apply Nat.mod_upper_bound; lia)) as (e & Ee & _).
          eexists. split; [unfold pedge_at; rewrite Ee; reflexivity|]. split; [|reflexivity]. apply (shared_ok (snd (pos_range r)) (fst (neg_range r))); [lia| |exact E|unfold pedge_at; rewrite Ee; reflexivity].
          right. split; [exact Pl|]. cbv beta. rewrite (G_mod n G U (snd (pos_range r)) (fst (neg_range r)) E). apply (neg_at n G r U R); lia.
        - exists None. split; [reflexivity|]. split; [|reflexivity]. unfold shared. rewrite Ln. destruct G1 as [[X _]|[X Y]]; [lia|]. split; [lra|exact X]. }
      destruct X2 as (o2 & E2 & S2 & I2), X1 as (o1 & E1 & S1 & I1). rewrite E2. cbn [rbind]. rewrite E1. cbn [rbind].
      assert (IV : info_valid (SI r line o1 o2) n = true) by (unfold info_valid; cbn [si_ranges si_point1 si_point2]; rewrite Va, En, Ep, I1, I2, !Bool.eqb_reflx; reflexivity).
      rewrite IV, CK by reflexivity. cbn [rbind]. eexists. split; [reflexivity|]. split; cbn [si_ranges si_line si_point1 si_point2]; [rewrite Ln; exact R|reflexivity| |].
      * rewrite En, Ep. discriminate.
      * intros _ _. split; [exact V|]. split; assumption.
    + assert (IV : info_valid (SI r line None None) n = true) by (unfold info_valid; cbn [si_ranges si_point1 si_point2]; rewrite Va, En, Ep; reflexivity). rewrite IV, CK by reflexivity. cbn [rbind].
      eexists. split; [reflexivity|]. split; cbn [si_ranges si_line si_point1 si_point2]; [rewrite Ln; exact R|reflexivity|auto|congruence].
    + assert (IV : info_valid (SI r line None None) n = true) by (unfold info_valid; cbn [si_ranges si_point1 si_point2]; rewrite Va, En; reflexivity). rewrite IV, CK by reflexivity. cbn [rbind].
      eexists. split; [reflexivity|]. split; cbn [si_ranges si_line si_point1 si_point2]; [rewrite Ln; exact R|reflexivity|auto|congruence].
    + assert (IV : info_valid (SI r line None None) n = true) by (unfold info_valid; cbn [si_ranges si_point1 si_point2]; rewrite Va, En; reflexivity). rewrite IV, CK by reflexivity. cbn [rbind].
      eexists. split; [reflexivity|]. split; cbn [si_ranges si_line si_point1 si_point2]; [rewrite Ln; exact R|reflexivity|auto|congruence].
  - set (c := (zcompare (hd (pplane p) * comp (hn h) (pdrop p)) (hd h * pnormal_drop p) * flip)%Z).
    assert (Sg : forall i, qsign (side h (cyc o3 qs i)) = c).
    { intros i. pose proof (parallel_side (pplane p) h (pdrop p) (cyc o3 qs i) Dl (ok_on_plane i) V) as Ps. unfold c. rewrite zcompare_sgn, <- qsign_inject. fold (pnormal_drop p) in Ps. rewrite <- (qsign_comp _ _ Ps), qsign_mult, qsign_inject.
      unfold flip. rewrite zabs_mult_sgn by exact Dn. destruct (Z.sgn_spec (pnormal_drop p)) as [[? ->]|[[? ->]|[? ->]]]; lia. }
    assert (Cs : (c = -1 \/ c = 0 \/ c = 1)%Z) by (rewrite <- (Sg 0%nat); apply qsign_range).
    assert (Full : forall i, (i < n)%nat -> in_cyclic_range n (0, n)%nat i <-> True) by (intros i Li; rewrite range_plain by lia; lia).
    assert (NE : forall i, (i < n)%nat -> in_cyclic_range n (0, 0)%nat i <-> False) by (intros; apply range_empty).
    set (r := if (c <? 0)%Z then SR (0, n)%nat (0, 0)%nat else if (0 <? c)%Z then SR (0, 0)%nat (0, n)%nat else SR (0, 0)%nat (0, 0)%nat).
    assert (R : ranges_exact n G r).
    { unfold r. destruct Cs as [Ec|[Ec|Ec]]; rewrite Ec in *; cbn [Z.ltb Z.compare]; (split; cbn [neg_range pos_range]; [split; cbn; lia|split; cbn; lia| |]); intros i Li; rewrite ?Full, ?NE by exact Li; rewrite <- ?qsign_neg, <- ?qsign_pos, Sg; split; intros; try exact I; try contradiction; try lia. }
    pose proof (exact_valid n G r U R) as Va.
    assert (On : emit_neg r && emit_pos r = false) by (unfold r; destruct (c <? 0)%Z; [apply Bool.andb_false_r|]; destruct (0 <? c)%Z; reflexivity).
    assert (IV : info_valid (SI r line None None) n = true) by (unfold info_valid; cbn [si_ranges si_point1 si_point2]; rewrite Va, On; reflexivity).
    rewrite IV, CK by reflexivity. cbn [rbind]. eexists. split; [reflexivity|]. split; cbn [si_ranges si_line si_point1 si_point2]; [rewrite Ln; exact R|reflexivity|auto|]. intros X Y. rewrite X, Y in On. discriminate.
Qed.
End Info.
