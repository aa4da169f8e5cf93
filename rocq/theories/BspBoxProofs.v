(** Bounding boxes of polygons that are split. *)
From Coq Require Import List Bool Arith ZArith QArith Lqa Lia ZifyBool Morphisms Setoid.
From Verif Require Import BigUIntModel GeoModel GeoSpec GeoProofs AabbModel AabbSpec AabbProofs AabbTrackerProofs AabbSplitProofs CvxSpec CvxProofs CvxCapProofs CvxMergeProofs PolyModel PolySpec PolyBridgeProofs PolyInfoProofs PolyCapProofs PolyChildProofs PolyTopProofs MergeProofs RTransModel FilterModel BspModel BspSpec BspGeoProofs.
Import ListNotations.
Open Scope Q_scope.
(** ** Where the negative range starts *)
Lemma lin_find_bound {A} (p : poly A) h d stop k : forall i r, lin_find p h d stop k i = Ok r -> (fst r <= i + k)%nat.
Proof.
  induction k as [|k IH]; intros i r E; cbn [lin_find] in E; [injection E as <-; cbn; lia|]. apply rbind_ok in E as (c & _ & E). destruct (stop c); [injection E as <-; cbn; lia|]. apply IH in E. lia.
Qed.
Lemma split_info_start {A} dbg (p : poly A) h i : get_split_info dbg p h = Ok i -> (0 < pcount p)%nat -> emit_neg (si_ranges i) = true -> emit_pos (si_ranges i) = true -> (fst (neg_range (si_ranges i)) <= pcount p)%nat.
Proof.
  intros E N En Ep. unfold get_split_info in E. destruct (negb _).
  { apply rbind_ok in E as (_ & _ & E). injection E as <-. cbn [si_ranges] in *. destruct (_ <? 0)%Z; [cbn; lia|]. destruct (0 <? _)%Z; cbn; lia. }
  apply rbind_ok in E as (r & Er & E). apply rbind_ok in E as (_ & _ & E).
  assert (B : emit_neg r = true -> emit_pos r = true -> (fst (neg_range r) <= pcount p)%nat).
  { clear E En Ep. intros En Ep. destruct (pcount p <? 10)%nat.
    - unfold split_linear in Er. cbv zeta in Er. do 3 (apply rbind_ok in Er as (_ & _ & Er)). apply rbind_ok in Er as (init & _ & Er).
      assert (By : forall z x y, (fst x <= pcount p)%nat -> (fst y <= pcount p)%nat -> (fst (neg_range (ranges_by z x y)) <= pcount p)%nat) by (intros z x y; unfold ranges_by; destruct (z <? 0)%Z; auto).
      assert (Fi : forall stop i r, lin_find p (hs2_scale (pl_project2d (pl_of_planes (pplane p) h) (pdrop p)) (- zabs_mult (pnormal_drop p))) (pdrop p) stop (pcount p - i) i = Ok r -> (i <= pcount p)%nat -> (fst r <= pcount p)%nat) by (intros stop j x Ex L; apply lin_find_bound in Ex; lia).
      assert (Fi' : forall stop i r, lin_find p (hs2_scale (pl_project2d (pl_of_planes (pplane p) h) (pdrop p)) (- zabs_mult (pnormal_drop p))) (pdrop p) stop (pcount p - S i) (S i) = Ok r -> (i < pcount p)%nat -> (fst r <= pcount p)%nat) by (intros; eapply Fi; [eassumption|lia]).
      destruct (init =? 0)%Z.
      + apply rbind_ok in Er as (a & Ea & Er). apply Fi in Ea; [|lia]. destruct (pcount p <=? fst a)%nat eqn:La; [destruct dbg; discriminate|]. apply rbind_ok in Er as (b & Eb & Er). apply Fi' in Eb; [|lia].
        destruct (fst b =? pcount p)%nat eqn:Lb; [injection Er as <-; apply By; cbn; lia|]. apply rbind_ok in Er as (c & Ec & Er). assert (Lc : (fst c <= pcount p)%nat) by (destruct (snd b =? 0)%Z; [apply Fi' in Ec; lia|injection Ec as <-; lia]).
        destruct (fst c =? pcount p)%nat eqn:Lc'; [injection Er as <-; apply By; cbn; lia|]. apply rbind_ok in Er as (e & _ & Er). injection Er as <-. apply By; cbn; lia.
      + apply rbind_ok in Er as (b & Eb & Er). apply Fi in Eb; [|lia]. destruct (fst b =? pcount p)%nat eqn:Lb; [injection Er as <-; apply By; cbn; lia|]. apply rbind_ok in Er as (c & Ec & Er).
        assert (Lc : (fst c <= pcount p)%nat) by (destruct (snd b =? 0)%Z; [apply Fi' in Ec; lia|injection Ec as <-; lia]).
        destruct (fst c =? pcount p)%nat eqn:Lc'; [injection Er as <-; apply By; cbn; lia|]. destruct (0 <=? Z.lxor init (snd c))%Z; [apply rbind_ok in Er as (_ & _ & Er); injection Er as <-; apply By; cbn; lia|].
        apply rbind_ok in Er as (e & Ee & Er). apply Fi' in Ee; [|lia]. destruct (fst e =? pcount p)%nat eqn:Le; [injection Er as <-; apply By; cbn; lia|]. apply rbind_ok in Er as (g & Eg & Er).
        assert (Lg : (fst g <= pcount p)%nat) by (destruct (snd e =? 0)%Z; [apply Fi' in Eg; lia|injection Eg as <-; lia]).
        destruct (fst g =? pcount p)%nat; [injection Er as <-; apply By; cbn; lia|]. apply rbind_ok in Er as (_ & _ & Er). injection Er as <-. apply By; cbn; lia.
    - unfold split_bisect in Er. do 2 (apply rbind_ok in Er as (_ & _ & Er)). apply rbind_ok in Er as (o & _ & Er). apply rbind_ok in Er as (ns & _ & Er). destruct (0 <=? fst ns)%Z.
      { apply rbind_ok in Er as (f & _ & Er). injection Er as <-. cbn. lia. }
      apply rbind_ok in Er as (ps & _ & Er). destruct (fst ps <=? 0)%Z.
      { apply rbind_ok in Er as (f & _ & Er). injection Er as <-. discriminate Ep. }
      apply rbind_ok in Er as (nb & _ & Er). apply rbind_ok in Er as (pb & Epb & Er). apply rbind_ok in Er as (n2 & _ & Er). apply rbind_ok in Er as (p2 & _ & Er). injection Er as <-. cbn [neg_range fst].
      unfold last_pos_side in Epb. apply rbind_ok in Epb as (r0 & Er0 & Epb). injection Epb as <-. cbn [snd]. unfold last_neg_side in Er0. apply rbind_ok in Er0 as (l & _ & Er0). apply rbind_ok in Er0 as (_ & _ & Er0). apply rbind_ok in Er0 as (r1 & _ & Er0). injection Er0 as <-. cbn [snd].
      pose proof (Nat.mod_upper_bound (snd r1) (pcount p)). lia. }
  destruct (negb (emit_pos r) || negb (emit_neg r)) eqn:O.
  - apply rbind_ok in E as (_ & _ & E). injection E as <-. cbn [si_ranges] in *. rewrite En, Ep in O. discriminate.
  - apply rbind_ok in E as (? & _ & E). apply rbind_ok in E as (? & _ & E). apply rbind_ok in E as (_ & _ & E). injection E as <-. cbn [si_ranges] in *. apply B; assumption.
Qed.
(** ** A box on one side of a plane *)
Lemma box_side {A} (p : poly A) qs t h : poly_ok p qs -> tracks t (map pv (pedges p)) ->
  (bx_plane_side (tbox t) h = (-1)%Z -> forall q, In q qs -> side h q < 0) /\ (bx_plane_side (tbox t) h = 1%Z -> forall q, In q qs -> 0 < side h q).
Proof.
  intros H T. assert (In_box : forall q, In q qs -> exists q', in_box (tbox t) q' /\ qp_eq q q').
  { intros q I. apply (In_cyc o3) in I as (i & L & ->). pose proof (ok_length p qs H) as Ln. destruct (ok_edge p qs H i ltac:(lia)) as (e & Ee & De & _). exists (value (pv e)).
    split; [apply (tracks_box t (map pv (pedges p))); [exact T|apply in_map; eapply nth_error_In; exact Ee]|]. apply (denotes_unique (pv e)); [exact De|]. apply denotes_value. apply De. }
  split; intros E q I; destruct (In_box q I) as (q' & B & Q); rewrite Q; pose proof (bx_plane_side_spec (tbox t) h q' (proj1 T) B) as (S1 & S2 & _); [apply S2|apply S1]; assumption.
Qed.
(** ** Results *)
Definition quiet {A} (r : res A) : Prop := match r with Ok _ | UB => True | _ => False end.
Lemma quiet_bind {A B} (r : res A) (f : A -> res B) : quiet r -> (forall x, quiet (f x)) -> quiet (rbind r f).
Proof. intros H F. destruct r; try contradiction; [apply F|exact I]. Qed.
Lemma zabs_quiet z : quiet (zabs z).
Proof. unfold zabs. repeat (destruct (_ =? _)%Z); exact I. Qed.
Lemma round_quiet a b c : quiet (round_down a b c) /\ quiet (round_up a b c).
Proof. split; [unfold round_down|unfold round_up]; (apply quiet_bind; [unfold zdiv_rem; repeat (destruct (_ =? _)%Z); cbn; try exact I; destruct (_ && _); exact I|intros; exact I]). Qed.
Lemma update_quiet t mins maxs minm maxm vs : quiet (update_extremes t mins maxs minm maxm vs).
Proof.
  unfold update_extremes. apply quiet_bind.
  - unfold max_denominator. repeat (apply quiet_bind; [apply zabs_quiet|intros ?]). exact I.
  - intros den. destruct (negb _).
    + unfold approximate_extremes, bound_min, bound_max. repeat (apply quiet_bind; [apply round_quiet|intros ?]). exact I.
    + cbv zeta. unfold bound_min, bound_max. repeat (apply quiet_bind; [destruct (_ _); [apply round_quiet|exact I]|intros ?]). exact I.
Qed.
Lemma tracker_quiet dbg t vs N P s1 s2 start pr1 o1 o2 :
  split_cycle vs N P s1 s2 start o1 o2 -> finite vs -> hw s1 <> 0%Z -> hw s2 <> 0%Z -> tracks t vs ->
  ((pr1 + (length vs - start)) mod length vs)%nat = (length N + length o2)%nat ->
  quiet (AabbModel.split_children dbg t (length vs) (N ++ [s2; s1]) (s2 :: P ++ [s1]) start (start + length N) pr1 (pr1 + length P)).
Proof.
  intros SC FV FS1 FS2 T HP1. pose proof (sc_neg _ _ _ _ _ _ _ _ SC) as HN. pose proof (sc_pos _ _ _ _ _ _ _ _ SC) as HP. pose proof (sc_start _ _ _ _ _ _ _ _ SC) as HS.
  assert (LN : (0 < length N)%nat) by (destruct N; [contradiction|cbn [length]; lia]). assert (LP : (0 < length P)%nat) by (destruct P; [contradiction|cbn [length]; lia]).
  unfold AabbModel.split_children. destruct (Nat.eqb_spec start (start + length N)); [lia|]. destruct (Nat.eqb_spec pr1 (pr1 + length P)); [lia|]. destruct (Nat.eqb_spec (length vs) 0); [lia|].
  assert (CT : check dbg (negb false) = Ok tt) by (destruct dbg; reflexivity). rewrite CT. cbn [rbind]. cbv zeta. rewrite HP1.
  replace (start + length N - start)%nat with (length N) by lia. replace (pr1 + length P - pr1)%nat with (length P) by lia.
  replace (vat (N ++ [s2; s1]) (S (length N))) with s1 by (unfold vat; rewrite app_nth2 by lia; replace (S (length N) - length N)%nat with 1%nat by lia; reflexivity).
  change (vat (s2 :: P ++ [s1]) 0) with s2.
  destruct (Nat.ltb_spec (length N + length o2) (length N + length o2 + length P)); [|lia].
  replace (check dbg true) with (@Ok unit tt) by (destruct dbg; reflexivity). cbn [rbind].
  assert (KM : forall i, (i < 3)%nat -> (iget (tmin t) i < length vs)%nat /\ (iget (tmax t) i < length vs)%nat).
  { intros i Hi. destruct T as [_ TC]. destruct (TC i Hi) as (lo & hi & A & B & _). split; [apply (nth_error_vat _ _ _ A)|apply (nth_error_vat _ _ _ B)]. }
  pose proof (fun m i k => split_component_total vs N P s1 s2 start o1 o2 SC FS1 FS2 dbg m i k) as G.
  destruct (G (-1)%Z 0%nat _ (proj1 (KM 0%nat lt03))) as [x0 X0]. destruct (G (-1)%Z 1%nat _ (proj1 (KM 1%nat lt13))) as [x1 X1]. destruct (G (-1)%Z 2%nat _ (proj1 (KM 2%nat lt23))) as [x2 X2].
  destruct (G 1%Z 0%nat _ (proj2 (KM 0%nat lt03))) as [y0 Y0]. destruct (G 1%Z 1%nat _ (proj2 (KM 1%nat lt13))) as [y1 Y1]. destruct (G 1%Z 2%nat _ (proj2 (KM 2%nat lt23))) as [y2 Y2].
  cbn [iget] in X0, X1, X2, Y0, Y1, Y2. rewrite X0, X1, X2, Y0, Y1, Y2. cbn [rbind].
  apply quiet_bind; [apply update_quiet|intros nb]. apply quiet_bind; [apply update_quiet|intros pb]. exact I.
Qed.
(** Starting at index n is starting at index 0. *)
Lemma tracker_wrap dbg t n nvs pvs m pr1 pr2 : n <> 0%nat -> AabbModel.split_children dbg t n nvs pvs n (n + m) pr1 pr2 = AabbModel.split_children dbg t n nvs pvs 0 (0 + m) pr1 pr2.
Proof.
  intros N. unfold AabbModel.split_children. assert (E : forall k, ((k + (n - n)) mod n = (k + (n - 0)) mod n)%nat) by (intros k; rewrite Nat.sub_diag, Nat.sub_0_r, Nat.add_0_r; replace (k + n)%nat with (k + 1 * n)%nat by lia; symmetry; apply Nat.mod_add; exact N).
  rewrite !E. replace (n + m - n)%nat with m by lia. replace (0 + m - 0)%nat with m by lia. destruct (Nat.eqb_spec n (n + m)), (Nat.eqb_spec 0 (0 + m)); try lia; reflexivity.
Qed.
(** ** The chord *)
Section Chord.
Context {A : Type} (p : poly A) (qs : list qpoint) (H : poly_ok p qs) (h : hspace3) (neg pos : poly A) (ns ps : list qpoint) (X Y : qpoint).
Context (Sok : split_ok p qs h neg pos (ns ++ [X; Y]) (X :: ps ++ [Y])) (HX : side h X == 0) (HY : side h Y == 0) (Hn : forall q, In q ns -> side h q < 0) (Hp : forall q, In q ps -> 0 < side h q) (Ne : ns <> []).
Notation d := (pdrop p).
Notation s := (inject_Z (pnormal_drop p)).
Lemma neg_nth i q : nth_error (ns ++ [X; Y]) i = Some q -> nth_error (map (qdrop d) (ns ++ [X; Y])) i = Some (qdrop d q).
Proof using. intros E. apply map_nth_error. exact E. Qed.
Lemma cut_distinct : ~ qp2_eq (qdrop d X) (qdrop d Y).
Proof using Sok.
  destruct (so_neg _ _ _ _ _ _ _ Sok) as [_ _ _ _ (_ & Nd & _)]. rewrite (proj1 (so_drop _ _ _ _ _ _ _ Sok)) in Nd.
  apply (Nd (length ns)); [apply neg_nth; rewrite nth_error_app2, Nat.sub_diag by lia; reflexivity|]. rewrite map_length, app_length. cbn [length]. rewrite Nat.mod_small by lia.
  apply neg_nth. rewrite nth_error_app2 by lia. replace (S (length ns) - length ns)%nat with 1%nat by lia. reflexivity.
Qed.
Lemma on_pplane q : In q (ns ++ [X; Y]) -> side (pplane p) q == 0.
Proof using Sok. intros I. pose proof (po_plane _ _ (so_neg _ _ _ _ _ _ _ Sok)) as Pl. rewrite Forall_forall, (proj1 (so_plane _ _ _ _ _ _ _ Sok)) in Pl. apply Pl. exact I. Qed.
Lemma X_plane : side (pplane p) X == 0. Proof using Sok. apply on_pplane. apply in_app_iff. right. left. reflexivity. Qed.
Lemma Y_plane : side (pplane p) Y == 0. Proof using Sok. apply on_pplane. apply in_app_iff. right. right. left. reflexivity. Qed.
Lemma chord a b : In a ns -> In b ps -> exists x, on_segment a b x /\ on_segment Y X x.
Proof using All.
  intros Ia Ib. destruct (po_drop p qs H) as [Dl Dn]. pose proof X_plane as PX. pose proof Y_plane as PY. pose proof cut_distinct as Xy.
  pose proof (on_pplane a ltac:(apply in_app_iff; left; exact Ia)) as Pa.
  assert (Pb : side (pplane p) b == 0). { pose proof (po_plane _ _ (so_pos _ _ _ _ _ _ _ Sok)) as Pl. rewrite Forall_forall, (proj2 (so_plane _ _ _ _ _ _ _ Sok)) in Pl. apply Pl. right. apply in_app_iff. left. exact Ib. }
  pose proof (Hn a Ia) as Ha. pose proof (Hp b Ib) as Hb. set (t := side h a / (side h a - side h b)). assert (Dt : ~ side h a - side h b == 0) by lra.
  assert (Tm : t * (side h a - side h b) == side h a) by (unfold t; field; exact Dt).
  assert (T0 : 0 <= t) by nra. assert (T1 : t <= 1) by nra.
  set (Z := between a b t). assert (HZ : side h Z == 0) by (unfold Z; rewrite PolyInfoProofs.side_between; lra). assert (PZ : side (pplane p) Z == 0) by (unfold Z; rewrite PolyInfoProofs.side_between; rewrite Pa, Pb; ring).
  exists Z. split; [apply segment_between; assumption|].
  (* Z is a point of the negative part *)
  assert (ZN : polygon_point (pplane p) d (ns ++ [X; Y]) Z).
  { apply (so_neg_points _ _ _ _ _ _ _ Sok). split; [|lra]. 
    assert (Qa : polygon_point (pplane p) d qs a). { apply (so_neg_points _ _ _ _ _ _ _ Sok). pose proof (vertex_point _ _ a (so_neg _ _ _ _ _ _ _ Sok) ltac:(apply in_app_iff; left; exact Ia)) as V. rewrite (proj1 (so_plane _ _ _ _ _ _ _ Sok)), (proj1 (so_drop _ _ _ _ _ _ _ Sok)) in V. exact V. }
    assert (Qb : polygon_point (pplane p) d qs b). { apply (so_pos_points _ _ _ _ _ _ _ Sok). pose proof (vertex_point _ _ b (so_pos _ _ _ _ _ _ _ Sok) ltac:(right; apply in_app_iff; left; exact Ib)) as V. rewrite (proj2 (so_plane _ _ _ _ _ _ _ Sok)), (proj2 (so_drop _ _ _ _ _ _ _ Sok)) in V. exact V. }
    destruct Qa as [_ Qa], Qb as [_ Qb]. split; [exact PZ|]. intros i u v Eu Ev. unfold Z. rewrite qdrop_between, turn_lerp3. specialize (Qa i u v Eu Ev). specialize (Qb i u v Eu Ev).
    setoid_replace (inject_Z (comp (hn (pplane p)) d) * ((1 - t) * turn u v (qdrop d a) + t * turn u v (qdrop d b))) with ((1 - t) * (inject_Z (comp (hn (pplane p)) d) * turn u v (qdrop d a)) + t * (inject_Z (comp (hn (pplane p)) d) * turn u v (qdrop d b))) by ring.
    assert (0 <= 1 - t) by lra. nra. }
  (* it is on the line X Y *)
  pose proof (fun x (Px : side (pplane p) x == 0) => flat_side_ok (pplane p) h d x Dl Dn Px) as F.
  destruct (flat_multiple (flat_side (pplane p) h d) _ _ Xy) as (k & K); [rewrite !F by assumption; rewrite HX, HY; reflexivity|].
  assert (Kx : forall x, side (pplane p) x == 0 -> side h x == k * turn (qdrop d X) (qdrop d Y) (qdrop d x)) by (intros x Px; specialize (K (qdrop d x)); rewrite !F in K by assumption; rewrite HX in K; lra).
  assert (K0 : ~ k == 0) by (intros E; specialize (Kx a Pa); rewrite E in Kx; lra).
  assert (TZ : turn (qdrop d X) (qdrop d Y) (qdrop d Z) == 0) by (apply (Qmult_integral_l k); [exact K0|]; rewrite <- (Kx Z PZ); exact HZ).
  destruct (parallel2 (qsub2 (qdrop d Z) (qdrop d X)) (qsub2 (qdrop d Y) (qdrop d X))) as (r & R1 & R2).
  { intros [E1 E2]. apply Xy. unfold qsub2 in E1, E2. cbn [qx2 qy2] in E1, E2. split; lra. }
  { unfold turn, qcross2 in *. lra. }
  assert (L : qp2_eq (qdrop d Z) (lerp (qdrop d X) (qdrop d Y) r)) by (unfold lerp, qsub2 in *; cbn [qx2 qy2] in *; split; cbn [qx2 qy2]; lra).
  assert (E : qp_eq Z (between X Y r)) by (apply (MergeProofs.plane_between (pplane p) d); assumption).
  (* both neighbouring edges bound it *)
  assert (off : forall w, In w ns -> ~ turn (qdrop d X) (qdrop d Y) (qdrop d w) == 0).
  { intros w I E0. pose proof (Hn w I). pose proof (Kx w (on_pplane w ltac:(apply in_app_iff; left; exact I))) as Kw. rewrite E0 in Kw. lra. }
  assert (VX : polygon_point (pplane p) d (ns ++ [X; Y]) X). { pose proof (vertex_point _ _ X (so_neg _ _ _ _ _ _ _ Sok) ltac:(apply in_app_iff; right; left; reflexivity)) as V. rewrite (proj1 (so_plane _ _ _ _ _ _ _ Sok)), (proj1 (so_drop _ _ _ _ _ _ _ Sok)) in V. exact V. }
  assert (VY : polygon_point (pplane p) d (ns ++ [X; Y]) Y). { pose proof (vertex_point _ _ Y (so_neg _ _ _ _ _ _ _ Sok) ltac:(apply in_app_iff; right; right; left; reflexivity)) as V. rewrite (proj1 (so_plane _ _ _ _ _ _ _ Sok)), (proj1 (so_drop _ _ _ _ _ _ _ Sok)) in V. exact V. }
  assert (R0 : 0 <= r).
  { destruct (exists_last Ne) as (ns' & w & En). assert (Iw : In w ns) by (rewrite En; apply in_elt).
    assert (E1 : nth_error (map (qdrop d) (ns ++ [X; Y])) (length ns') = Some (qdrop d w)) by (apply neg_nth; rewrite En, <- app_assoc, nth_error_app2, Nat.sub_diag by lia; reflexivity).
    assert (E2 : nth_error (map (qdrop d) (ns ++ [X; Y])) (S (length ns') mod length (map (qdrop d) (ns ++ [X; Y]))) = Some (qdrop d X)).
    { rewrite map_length, app_length, En, app_length. cbn [length]. rewrite Nat.mod_small by lia. rewrite <- En. apply neg_nth. rewrite En, <- app_assoc, nth_error_app2 by lia. replace (S (length ns') - length ns')%nat with 1%nat by lia. reflexivity. }
    pose proof (proj2 ZN _ _ _ E1 E2) as GZ. pose proof (proj2 VY _ _ _ E1 E2) as GY. rewrite L, turn_lerp3 in GZ. fold (pnormal_drop p) in *.
    assert (GX : turn (qdrop d w) (qdrop d X) (qdrop d X) == 0) by (unfold turn, qcross2; ring). rewrite GX in GZ.
    assert (Nt : ~ turn (qdrop d w) (qdrop d X) (qdrop d Y) == 0) by (intros E0; apply (off w Iw); rewrite <- E0; unfold turn, qcross2, qsub2; cbn [qx2 qy2]; ring).
    assert (Ns : ~ s == 0) by (intros E0; apply Dn; apply inject_Z_injective; exact E0).
    assert (G0 : ~ s * turn (qdrop d w) (qdrop d X) (qdrop d Y) == 0) by (intros E0; apply Qmult_integral in E0; tauto).
    destruct (Qlt_le_dec r 0) as [Lr|]; [exfalso|assumption]. assert (0 < s * turn (qdrop d w) (qdrop d X) (qdrop d Y)) by lra. nra. }
  assert (Rb : r <= 1).
  { destruct ns as [|v ns'] eqn:En; [contradiction|]. rewrite <- En in *. assert (Iv : In v ns) by (rewrite En; left; reflexivity).
    assert (E1 : nth_error (map (qdrop d) (ns ++ [X; Y])) (S (length ns)) = Some (qdrop d Y)) by (apply neg_nth; rewrite nth_error_app2 by lia; replace (S (length ns) - length ns)%nat with 1%nat by lia; reflexivity).
    assert (E2 : nth_error (map (qdrop d) (ns ++ [X; Y])) (S (S (length ns)) mod length (map (qdrop d) (ns ++ [X; Y]))) = Some (qdrop d v)).
    { rewrite map_length, app_length. cbn [length]. replace (length ns + 2)%nat with (S (S (length ns))) by lia. rewrite Nat.mod_same by lia. rewrite En. reflexivity. }
    pose proof (proj2 ZN _ _ _ E1 E2) as GZ. pose proof (proj2 VX _ _ _ E1 E2) as GX. rewrite L, turn_lerp3 in GZ. fold (pnormal_drop p) in *.
    assert (GY : turn (qdrop d Y) (qdrop d v) (qdrop d Y) == 0) by (unfold turn, qcross2, qsub2; cbn [qx2 qy2]; ring). rewrite GY in GZ.
    assert (Nt : ~ turn (qdrop d Y) (qdrop d v) (qdrop d X) == 0) by (intros E0; apply (off v Iv); rewrite <- E0; unfold turn, qcross2, qsub2; cbn [qx2 qy2]; ring).
    assert (Ns : ~ s == 0) by (intros E0; apply Dn; apply inject_Z_injective; exact E0).
    assert (G0 : ~ s * turn (qdrop d Y) (qdrop d v) (qdrop d X) == 0) by (intros E0; apply Qmult_integral in E0; tauto).
    destruct (Qlt_le_dec 1 r) as [Lr|]; [exfalso|assumption]. assert (0 < s * turn (qdrop d Y) (qdrop d v) (qdrop d X)) by lra. nra. }
  exists (1 - r). split; [split; lra|]. destruct E as (E1 & E2 & E3). unfold between, qadd, qscale, qsub in *. cbn [qx qy qz] in *. repeat split; cbn [qx qy qz]; [rewrite E1|rewrite E2|rewrite E3]; ring.
Qed.
End Chord.
(** ** The tracker of a split polygon *)
Lemma value_eq v q : denotes v q -> qp_eq (value v) q.
Proof. intros D. assert (W : hw v <> 0%Z) by (destruct D; assumption). exact (denotes_unique v _ q (denotes_value v W) D). Qed.
Lemma segment_value a b x u v w : qp_eq a u -> qp_eq b v -> qp_eq x w -> on_segment u v w -> on_segment a b x.
Proof. intros A B C S. apply (segment_eq u v w); [symmetry; exact A|symmetry; exact B|symmetry; exact C|exact S]. Qed.
Lemma app_inj_len {B} (l1 l2 m1 m2 : list B) : l1 ++ m1 = l2 ++ m2 -> length l1 = length l2 -> l1 = l2 /\ m1 = m2.
Proof. revert l2. induction l1 as [|x l1 IH]; intros [|y l2] E L; try discriminate L; [split; [reflexivity|exact E]|]. injection E as -> E. injection L as L. destruct (IH l2 E L) as [-> ->]. split; reflexivity. Qed.
Lemma same_shift_n n j k m : (0 < n)%nat -> (j mod n = k mod n -> (j + m) mod n = (k + m) mod n)%nat.
Proof. intros N X0. rewrite <- (Nat.add_mod_idemp_l j), <- (Nat.add_mod_idemp_l k) by lia. rewrite X0. reflexivity. Qed.
Lemma mod_diff_n n j k : (0 < n)%nat -> (j <= k)%nat -> (j mod n = k mod n)%nat -> exists m, (k = j + m * n)%nat.
Proof.
  intros N L X0. exists (k / n - j / n)%nat. pose proof (Nat.div_mod j n ltac:(lia)). pose proof (Nat.div_mod k n ltac:(lia)). pose proof (Nat.div_le_mono j k n ltac:(lia) L). rewrite Nat.mul_sub_distr_r. nia.
Qed.
Lemma map_seq_In f x m (q : qpoint) : In q (map f (seq x m)) -> exists j, (x <= j)%nat /\ (j < x + m)%nat /\ q = f j.
Proof. intros I. apply in_map_iff in I as (j & <- & I). apply in_seq in I. exists j. repeat split; lia. Qed.
Lemma F2_map {B C D} (f : B -> C) (R : C -> D -> Prop) l l' : Forall2 (fun e q => R (f e) q) l l' -> Forall2 R (map f l) l'.
Proof. intros F. induction F; cbn [map]; constructor; assumption. Qed.
Section Tracker.
Context {A : Type} (E : einfo A) (p : poly A) (qs : list qpoint) (H : poly_ok p qs) (h : hspace3) (i : split_info) (neg pos : poly A) (X Y : qpoint).
Notation n := (pcount p).
Notation q_ := (cyc o3 qs).
Notation a := (fst (neg_range (si_ranges i))).
Notation b := (snd (neg_range (si_ranges i))).
Notation c := (fst (pos_range (si_ranges i))).
Notation d := (snd (pos_range (si_ranges i))).
Context (Sh : split_shape E p qs h i neg pos X Y) (Ng : forall j, (a <= j)%nat -> (j < b)%nat -> side h (q_ j) < 0) (Ps : forall j, (c <= j)%nat -> (j < d)%nat -> 0 < side h (q_ j)).
Context (HX : side h X == 0) (HY : side h Y == 0) (Sok : split_ok p qs h neg pos (map q_ (seq a (b - a)) ++ [X; Y]) (X :: map q_ (seq c (d - c)) ++ [Y])) (St : (a <= n)%nat).
Lemma vertex_nth j : exists e, nth_error (pedges p) (j mod n) = Some e /\ denotes (pv e) (q_ j).
Proof using H. destruct (edge_at p qs H j) as (e & X0 & Y0 & _). exists e. split; assumption. Qed.
Lemma tracker_split dbg t : tracks t (map pv (pedges p)) ->
  match AabbModel.split_children dbg t n (map pv (pedges neg)) (map pv (pedges pos)) a b c d with
  | Ok (tn, tp) => tracks tn (map pv (pedges neg)) /\ tracks tp (map pv (pedges pos))
  | UB => True
  | _ => False
  end.
Proof using All.
  intros T. pose proof (ok_n p qs H) as N3. pose proof (ok_length p qs H) as Ln. pose proof (fun j k m => same_shift_n n j k m ltac:(lia)) as same_shift. pose proof (fun j k => mod_diff_n n j k ltac:(lia)) as mod_diff.
  destruct Sh as [(neg1 & pos1 & x1 & x2 & y1 & y2 & eb & eb1 & ed & ed1 & t0 & u0 & Sh')]. cbv zeta in Sh'.
  destruct Sh' as ((Lab & Lb & Lcd & Ld) & En & Ep & Ln1 & N1 & Lp1 & P1 & Eb & Eb1 & Ed & Ed1 & T0 & EX & U0 & EY & M2 & M1).
  assert (T1 : t0 <= 1) by (destruct (si_point2 i); destruct M2; lra). assert (U1 : u0 <= 1) by (destruct (si_point1 i); destruct M1; lra).
  (* the vertices of the children *)
  assert (Vn : Forall2 denotes (map pv (pedges neg)) (map q_ (seq a (b - a)) ++ [X; Y])) by (apply F2_map; exact (po_vertices _ _ (so_neg _ _ _ _ _ _ _ Sok))).
  assert (Vp : Forall2 denotes (map pv (pedges pos)) (X :: map q_ (seq c (d - c)) ++ [Y])) by (apply F2_map; exact (po_vertices _ _ (so_pos _ _ _ _ _ _ _ Sok))).
  rewrite En, map_app in Vn. rewrite Ep in Vp. cbn [map] in Vn, Vp. rewrite map_app in Vp. cbn [map] in Vp.
  apply Forall2_app_inv_l in Vn as (l1 & l2 & F1 & F2 & El). assert (Ll : length l1 = length (map q_ (seq a (b - a)))) by (apply F2_length in F1; rewrite map_length, Ln1 in F1; rewrite <- F1, map_length, seq_length; reflexivity).
  apply app_inj_len in El as [E1 E2]; [|symmetry; exact Ll]. subst l1 l2.
  inversion F2 as [|? ? ? ? DX2 F2']; subst. inversion F2' as [|? ? ? ? DY2 F2'']; subst. clear F2 F2' F2''.
  inversion Vp as [|? ? ? ? DX1 Vp']; subst. apply Forall2_app_inv_l in Vp' as (l1 & l2 & G1 & G2 & El). assert (Ll2 : length l1 = length (map q_ (seq c (d - c)))) by (apply F2_length in G1; rewrite map_length, Lp1 in G1; rewrite <- G1, map_length, seq_length; reflexivity).
  apply app_inj_len in El as [E1 E2]; [|symmetry; exact Ll2]. subst l1 l2. inversion G2 as [|? ? ? ? DY1 G2']; subst. clear G2 G2' Vp.
  set (X := between (q_ (b - 1)) (q_ b) t0) in *. set (Y := between (q_ (d - 1)) (q_ d) u0) in *.
  assert (Vx : pv x1 = pv x2) by (destruct (si_point2 i); destruct M2 as (_ & _ & -> & ->); reflexivity).
  assert (Vy : pv y1 = pv y2) by (destruct (si_point1 i); destruct M1 as (_ & _ & -> & ->); reflexivity).
  set (o2 := match si_point2 i with None => [pv eb] | Some _ => [] end). set (o1 := match si_point1 i with None => [pv ed] | Some _ => [] end).
  set (k2 := length o2). set (k1 := length o1). assert (K2 : (k2 <= 1)%nat) by (unfold k2, o2; destruct (si_point2 i); cbn; lia). assert (K1 : (k1 <= 1)%nat) by (unfold k1, o1; destruct (si_point1 i); cbn; lia).
  assert (C2 : ((b + k2) mod n = c mod n)%nat) by (unfold k2, o2; destruct (si_point2 i); cbn [length]; [rewrite Nat.add_0_r|rewrite Nat.add_1_r]; apply M2).
  assert (C1 : ((d + k1) mod n = a mod n)%nat) by (unfold k1, o1; destruct (si_point1 i); cbn [length]; [rewrite Nat.add_0_r|rewrite Nat.add_1_r]; apply M1).
  assert (Len : ((b - a) + k2 + (d - c) + k1 = n)%nat).
  { assert (Ba : (b < a + n)%nat).
    { destruct (Nat.eq_dec b (a + n)) as [Eq|]; [exfalso|lia]. assert (Q : exists j, (a <= j /\ j < b)%nat /\ (j mod n = c mod n)%nat).
      { destruct (Nat.le_gt_cases (a mod n) (c mod n)).
        - exists (a + (c mod n - a mod n))%nat. pose proof (Nat.mod_upper_bound c n). split; [lia|]. rewrite (same_shift a (a mod n)) by (symmetry; apply Nat.mod_mod; lia). replace (a mod n + (c mod n - a mod n))%nat with (c mod n) by lia. apply Nat.mod_mod. lia.
        - exists (a + (n + c mod n - a mod n))%nat. pose proof (Nat.mod_upper_bound a n). split; [lia|]. rewrite (same_shift a (a mod n)) by (symmetry; apply Nat.mod_mod; lia). replace (a mod n + (n + c mod n - a mod n))%nat with (c mod n + 1 * n)%nat by lia. rewrite Nat.mod_add by lia. apply Nat.mod_mod. lia. }
      destruct Q as (j & [J1 J2] & J3). pose proof (Ng j J1 J2). pose proof (Ps c ltac:(lia) ltac:(lia)) as Pc. rewrite <- (q_same p qs H j c J3) in Pc. lra. }
    assert (D1 : (b + k2 + (d - c) <= a + n)%nat).
    { destruct (Nat.le_gt_cases (b + k2 + (d - c)) (a + n)); [assumption|exfalso]. pose proof (Ng a ltac:(lia) Lab) as Na. set (m := (a + n - (b + k2))%nat). pose proof (Ps (c + m)%nat ltac:(lia) ltac:(unfold m; lia)) as Pc.
      rewrite <- (q_same p qs H (b + k2 + m) (c + m)) in Pc by (apply same_shift; exact C2). replace (b + k2 + m)%nat with (a + n)%nat in Pc by (unfold m; lia). rewrite (q_same p qs H (a + n) a) in Pc by (replace (a + n)%nat with (a + 1 * n)%nat by lia; apply Nat.mod_add; lia). lra. }
    assert (C : (a mod n = (b + k2 + (d - c) + k1) mod n)%nat).
    { rewrite <- C1. replace (d + k1)%nat with (c + ((d - c) + k1))%nat by lia. rewrite <- (same_shift _ _ ((d - c) + k1)%nat C2). f_equal. lia. }
    pose proof (c_n _ _ _ (ok_cvx p qs H)). destruct (mod_diff a (b + k2 + (d - c) + k1)%nat ltac:(lia) C) as (m & Em). assert (m = 1)%nat by (destruct m as [|[|m]]; [lia|reflexivity|nia]). subst m. lia. }
  (* the cycle *)
  set (start := if (a =? n)%nat then 0%nat else a). assert (Hs : (start < n)%nat) by (unfold start; destruct (Nat.eqb_spec a n) as [Ea|Na]; lia).
  assert (Sm : (start mod n = a mod n)%nat) by (unfold start; destruct (Nat.eqb_spec a n) as [->|Na]; [rewrite Nat.mod_same, Nat.mod_0_l by lia|]; reflexivity).
  set (vs := map pv (pedges p)). assert (Lv : length vs = n) by (apply map_length).
  assert (Vat : forall j e, nth_error (pedges p) (j mod n) = Some e -> nth_error vs (j mod n) = Some (pv e)) by (intros j e Ee; unfold vs; apply map_nth_error; exact Ee).
  assert (Cyc : skipn start vs ++ firstn start vs = map pv neg1 ++ o2 ++ map pv pos1 ++ o1).
  { apply nth_error_ext. intros j. fold (PolyCapProofs.rotate start vs). destruct (Nat.lt_ge_cases j n) as [Lj|Lj].
    2:{ rewrite (proj2 (nth_error_None (PolyCapProofs.rotate start vs) j)) by (rewrite rotate_length; lia). symmetry. apply nth_error_None. rewrite !app_length, !map_length. fold k2 k1. lia. }
    rewrite rotate_nth by lia. rewrite Lv, (same_shift start a j Sm).
    destruct (Nat.lt_ge_cases j (b - a)) as [L1|L1].
    { rewrite nth_error_app1 by (rewrite map_length; lia). unfold vs. rewrite !nth_error_map, N1 by exact L1. reflexivity. }
    rewrite nth_error_app2 by (rewrite map_length; lia). rewrite map_length, Ln1. destruct (Nat.lt_ge_cases j (b - a + k2)) as [L2|L2].
    { assert (Ej : (j = b - a)%nat) by lia. subst j. rewrite Nat.sub_diag. replace (a + (b - a))%nat with b by lia. rewrite (Vat b eb Eb). unfold o2. destruct (si_point2 i); [exfalso; unfold k2, o2 in L2; cbn in L2; lia|]. reflexivity. }
    rewrite nth_error_app2 by (fold k2; lia). fold k2. destruct (Nat.lt_ge_cases j (b - a + k2 + (d - c))) as [L3|L3].
    { rewrite nth_error_app1 by (rewrite map_length; lia). unfold vs. rewrite !nth_error_map, P1 by lia. f_equal. f_equal. rewrite <- (same_shift _ _ _ C2). f_equal. lia. }
    rewrite nth_error_app2 by (rewrite map_length; lia). rewrite map_length, Lp1. assert (Ej : (j = b - a + k2 + (d - c))%nat /\ k1 = 1%nat) by lia. destruct Ej as [-> Ek]. replace (_ - _ - _ - _)%nat with 0%nat by lia.
    replace (a + (b - a + k2 + (d - c)))%nat with (b + k2 + (d - c))%nat by lia. rewrite (same_shift _ _ _ C2). replace (c + (d - c))%nat with d by lia. rewrite (Vat d ed Ed). unfold o1. destruct (si_point1 i); [exfalso; unfold k1, o1 in Ek; cbn in Ek; lia|]. reflexivity. }
  assert (In_vs : forall j, exists v, In v vs /\ denotes v (q_ j)).
  { intros j. destruct (vertex_nth j) as (e & Ee & De). exists (pv e). split; [|exact De]. apply (nth_error_In vs (j mod n)). apply Vat. exact Ee. }
  assert (SC : split_cycle vs (map pv neg1) (map pv pos1) (pv y2) (pv x2) start o1 o2).
  { split.
    - rewrite Lv. exact Hs.
    - exact Cyc.
    - intros Z. apply map_eq_nil in Z. subst neg1. cbn in Ln1. lia.
    - intros Z. apply map_eq_nil in Z. subst pos1. cbn in Lp1. lia.
    - unfold optional, o1. destruct (si_point1 i); [left; reflexivity|right]. destruct M1 as (_ & _ & _ & ->). reflexivity.
    - unfold optional, o2. destruct (si_point2 i); [left; reflexivity|right]. destruct M2 as (_ & _ & -> & _). reflexivity.
    - destruct (In_vs (d - 1)%nat) as (v & Iv & Dv), (In_vs d) as (w & Iw & Dw). exists v, w. split; [exact Iv|]. split; [exact Iw|]. apply (segment_value _ _ _ (q_ (d - 1)) (q_ d) Y); try (apply value_eq; assumption). apply segment_between; lra.
    - destruct (In_vs (b - 1)%nat) as (v & Iv & Dv), (In_vs b) as (w & Iw & Dw). exists v, w. split; [exact Iv|]. split; [exact Iw|]. apply (segment_value _ _ _ (q_ (b - 1)) (q_ b) X); try (apply value_eq; assumption). apply segment_between; lra.
    - intros v w Iv Iw. apply In_nth_error in Iv as (j & Ej), Iw as (k & Ek).
      assert (exists qj, nth_error (map q_ (seq a (b - a))) j = Some qj) as (qj & Qj). { destruct (nth_error (map q_ (seq a (b - a))) j) eqn:Z; [eexists; reflexivity|]. apply nth_error_None in Z. apply F2_length in F1. rewrite <- F1 in Z. apply nth_error_None in Z. congruence. }
      assert (exists qk, nth_error (map q_ (seq c (d - c))) k = Some qk) as (qk & Qk). { destruct (nth_error (map q_ (seq c (d - c))) k) eqn:Z; [eexists; reflexivity|]. apply nth_error_None in Z. apply F2_length in G1. rewrite <- G1 in Z. apply nth_error_None in Z. congruence. }
      pose proof (Forall2_at _ _ _ _ _ _ F1 Ej Qj) as Dj. pose proof (Forall2_at _ _ _ _ _ _ G1 Ek Qk) as Dk.
      destruct (chord p qs H h neg pos _ _ X Y Sok HX HY) with (a := qj) (b := qk) as (z & Z1 & Z2).
      + intros q I. apply map_seq_In in I as (m & M3 & M4 & ->). apply Ng; lia.
      + intros q I. apply map_seq_In in I as (m & M3 & M4 & ->). apply Ps; lia.
      + replace (b - a)%nat with (S (b - a - 1)) by lia. cbn. discriminate.
      + exact (nth_error_In _ _ Qj).
      + exact (nth_error_In _ _ Qk).
      + exists z. split; [apply (segment_value _ _ _ qj qk z); try (apply value_eq; assumption); [reflexivity|exact Z1]|apply (segment_value _ _ _ Y X z); try (apply value_eq; assumption); [reflexivity|exact Z2]]. }
  assert (FV : finite vs). { unfold finite. apply Forall_forall. intros v Iv. pose proof (F2_map pv denotes _ _ (po_vertices p qs H)) as V. apply In_nth_error in Iv as (j & Ej). assert (exists q, nth_error qs j = Some q) as (q & Q). { destruct (nth_error qs j) eqn:Z; [eexists; reflexivity|]. apply nth_error_None in Z. rewrite Ln in Z. unfold pcount in Z. rewrite <- (map_length pv) in Z. apply nth_error_None in Z. unfold vs in Ej. congruence. } destruct (Forall2_at _ _ _ _ _ _ V Ej Q). assumption. }
  assert (W1 : hw (pv y2) <> 0%Z) by (destruct DY2; assumption). assert (W2 : hw (pv x2) <> 0%Z) by (destruct DX2; assumption).
  assert (HP1 : ((c + (length vs - start)) mod length vs)%nat = (length (map pv neg1) + length o2)%nat).
  { rewrite Lv, map_length, Ln1. fold k2. rewrite <- (same_shift _ _ (n - start)%nat C2). assert (Z : ((b - a + k2) mod n = (b + k2 + (n - start)) mod n)%nat).
    { unfold start. destruct (Nat.eqb_spec a n) as [Ea|Na].
      - rewrite Nat.sub_0_r. replace (b + k2 + n)%nat with (b - a + k2 + 2 * n)%nat by lia. symmetry. apply Nat.mod_add. lia.
      - replace (b + k2 + (n - a))%nat with (b - a + k2 + 1 * n)%nat by lia. symmetry. apply Nat.mod_add. lia. }
    rewrite <- Z. apply Nat.mod_small. lia. }
  pose proof (tracker_quiet dbg t vs _ _ _ _ start c o1 o2 SC FV W1 W2 T HP1) as Qt. pose proof (fun tn tp => split_children_spec dbg t vs _ _ _ _ start c o1 o2 tn tp SC FV W1 W2 T HP1) as Sp.
  rewrite En, Ep, map_app. cbn [map]. rewrite map_app. cbn [map]. rewrite Vx, Vy. unfold neg_child, pos_child in Sp. rewrite !map_length, Lv in Qt. rewrite !map_length, Lv in Sp. rewrite Ln1, Lp1 in Qt. rewrite Ln1, Lp1 in Sp. replace (c + (d - c))%nat with d in * by lia.
  assert (Eq : AabbModel.split_children dbg t n (map pv neg1 ++ [pv x2; pv y2]) (pv x2 :: map pv pos1 ++ [pv y2]) a b c d = AabbModel.split_children dbg t n (map pv neg1 ++ [pv x2; pv y2]) (pv x2 :: map pv pos1 ++ [pv y2]) start (start + (b - a)) c d).
  { unfold start. destruct (Nat.eqb_spec a n) as [Ea|Na]; [|f_equal; lia]. replace b with (n + (b - a))%nat at 1 by lia. rewrite Ea at 1. apply tracker_wrap. lia. }
  rewrite Eq. destruct (AabbModel.split_children _ _ _ _ _ _ _ _ _) as [[tn tp]| | |]; cbn in Qt; try exact Qt. exact (Sp tn tp eq_refl).
Qed.
End Tracker.
