(** SplitEdge, TryMergeEdge, Invert, RotateEdges, SortVertices and operator==. *)
From Coq Require Import List Bool Arith ZArith QArith Lqa Lia ZifyBool Morphisms Setoid.
From Verif Require Import BigUIntModel GeoModel GeoSpec GeoProofs GeoPlaneProofs GeoDirProofs GeoPluckerProofs GeoReduceProofs CvxSpec CvxProofs CvxSeqProofs CvxCapProofs PolyModel PolySpec PolyBridgeProofs PolySearchProofs PolyInfoProofs PolyExtremeProofs PolyCapProofs PolyChildProofs CvxMergeProofs PolyOpsModel MergeSpec MergeProofs MergeTopProofs.
Import ListNotations.
Open Scope Q_scope.
(** ** A new vertex on the last side *)
Section Insert.
Context (n : nat) (s : Q) (P : nat -> qpoint2) (C : cvx n s P) (t : Q) (T0 : 0 < t) (T1 : t < 1) (M : qpoint2) (EM : qp2_eq M (lerp (P (n - 1)%nat) (P n) t)).
Definition with_last (i : nat) : qpoint2 := if (i <? n)%nat then P i else M.
Lemma last_side q : turn (P (n - 1)%nat) M q == t * turn (P (n - 1)%nat) (P n) q /\ turn M (P n) q == (1 - t) * turn (P (n - 1)%nat) (P n) q.
Proof using All. rewrite EM. unfold turn, qcross2, qsub2, lerp. cbn [qx2 qy2]. split; ring. Qed.
Lemma last_edge : ~ qp2_eq (P (n - 1)%nat) (P n).
Proof using All. pose proof (c_edge _ _ _ C (n - 1)) as D. pose proof (c_n _ _ _ C). replace (S (n - 1)) with n in D by lia. exact D. Qed.
Lemma last_start : P n = P 0%nat.
Proof using All. exact (c_period _ _ _ C 0%nat). Qed.
Lemma insert_cycle : convex_cycle s (map with_last (seq 0 (S n))).
Proof using All.
  pose proof (cvx_three _ _ _ C) as N. pose proof last_edge as D. pose proof last_start as P0. split; [|split].
  - intros i j k a b c Hij Hjk Ha Hb Hc. apply fmap_nth_inv in Ha as [La ->]. apply fmap_nth_inv in Hb as [Lb ->]. apply fmap_nth_inv in Hc as [Lc ->]. unfold with_last. destruct (Nat.ltb_spec i n); [|lia]. destruct (Nat.ltb_spec j n); [|lia].
    destruct (Nat.ltb_spec k n); [apply (c_triple _ _ _ C); lia|]. rewrite EM. pose proof (vertices_point n s P C i j (n - 1) t ltac:(lia) ltac:(lia) ltac:(lia) ltac:(lra) ltac:(lra)) as V. replace (S (n - 1)) with n in V by lia. exact V.
  - intros i a b Ha Hb. rewrite fmap_length in Hb. apply fmap_nth_inv in Ha as [La ->]. apply fmap_nth_inv in Hb as [_ ->]. unfold with_last. destruct (Nat.eq_dec i n) as [->|Ni].
    + rewrite Nat.mod_same by lia. destruct (Nat.ltb_spec n n); [lia|]. destruct (Nat.ltb_spec 0 n); [|lia]. rewrite EM, <- P0. intros X. assert (L : qp2_eq (lerp (P (n - 1)%nat) (P n) t) (lerp (P (n - 1)%nat) (P n) 1)) by (rewrite X; unfold lerp, qp2_eq; cbn [qx2 qy2]; split; ring). apply lerp_unique in L; [lra|exact D].
    + rewrite Nat.mod_small by lia. destruct (Nat.ltb_spec i n); [|lia]. destruct (Nat.ltb_spec (S i) n); [apply (c_edge _ _ _ C)|]. replace i with (n - 1)%nat by lia. rewrite EM. intros X.
      assert (L : qp2_eq (lerp (P (n - 1)%nat) (P n) 0) (lerp (P (n - 1)%nat) (P n) t)) by (rewrite <- X; unfold lerp, qp2_eq; cbn [qx2 qy2]; split; ring). apply lerp_unique in L; [lra|exact D].
  - destruct (cvx_cycle_of n s P C) as (_ & _ & (x & y & z & Ix & Iy & Iz & F)).
    assert (Sub : forall v, In v (map P (seq 0 n)) -> In v (map with_last (seq 0 (S n)))). { intros v I. apply in_map_iff in I as (i & <- & I). apply in_seq in I. apply in_map_iff. exists i. split; [unfold with_last; destruct (Nat.ltb_spec i n); [reflexivity|lia]|apply in_seq; lia]. }
    exists x, y, z. auto.
Qed.
Lemma insert_points q : in_polygon s (map with_last (seq 0 (S n))) q <-> in_polygon s (map P (seq 0 n)) q.
Proof using All.
  rewrite (fmap_polygon n s P q C). pose proof (c_n _ _ _ C) as N. pose proof last_start as P0. destruct (last_side q) as [X Y]. split; intros H.
  - intros i L. destruct (Nat.eq_dec (S i) n) as [E|E].
    + replace i with (n - 1)%nat by lia. replace (S (n - 1)) with n by lia. specialize (H (n - 1)%nat (P (n - 1)%nat) M). rewrite fmap_length in H. rewrite !Nat.mod_small in H by lia. replace (S (n - 1)) with n in H by lia. rewrite !fmap_nth in H by lia. unfold with_last in H. destruct (Nat.ltb_spec (n - 1) n); [|lia]. destruct (Nat.ltb_spec n n); [lia|]. specialize (H eq_refl eq_refl). rewrite X in H.
      apply (q_pos_mult t); [exact T0|]. setoid_replace (t * (s * turn (P (n - 1)%nat) (P n) q)) with (s * (t * turn (P (n - 1)%nat) (P n) q)) by ring. exact H.
    + specialize (H i (P i) (P (S i))). rewrite fmap_length in H. rewrite Nat.mod_small in H by lia. rewrite !fmap_nth in H by lia. unfold with_last in H. destruct (Nat.ltb_spec i n); [|lia]. destruct (Nat.ltb_spec (S i) n); [|lia]. exact (H eq_refl eq_refl).
  - assert (Last : 0 <= s * turn (P (n - 1)%nat) (P n) q). { specialize (H (n - 1)%nat ltac:(lia)). replace (S (n - 1)) with n in H by lia. exact H. }
    intros i a b Ha Hb. rewrite fmap_length in Hb. apply fmap_nth_inv in Ha as [La ->]. apply fmap_nth_inv in Hb as [_ ->]. unfold with_last. destruct (Nat.eq_dec i n) as [->|Ni].
    + rewrite Nat.mod_same by lia. destruct (Nat.ltb_spec n n); [lia|]. destruct (Nat.ltb_spec 0 n); [|lia]. rewrite <- P0, Y. setoid_replace (s * ((1 - t) * turn (P (n - 1)%nat) (P n) q)) with ((1 - t) * (s * turn (P (n - 1)%nat) (P n) q)) by ring. apply Qmult_le_0_compat; lra.
    + rewrite Nat.mod_small by lia. destruct (Nat.ltb_spec i n); [|lia]. destruct (Nat.ltb_spec (S i) n); [apply H; lia|]. replace i with (n - 1)%nat by lia. rewrite X. setoid_replace (s * (t * turn (P (n - 1)%nat) (P n) q)) with (t * (s * turn (P (n - 1)%nat) (P n) q)) by ring. apply Qmult_le_0_compat; lra.
Qed.
End Insert.
(** ** SplitEdge *)
(** Positions along the line of an edge. *)
Lemma along_less l a b qa qb : denotes a qa -> denotes b qb -> qdot (qpt (ld l)) qa < qdot (qpt (ld l)) qb ->
  zless_than (zdiff_sign (hw a) (hw b)) (v3_dot (ld l) (hv a) * hw b) (v3_dot (ld l) (hv b) * hw a) = true.
Proof.
  intros (Wa & Xa & Ya & Za) (Wb & Xb & Yb & Zb) L.
  assert (Da : inject_Z (v3_dot (ld l) (hv a)) == qdot (qpt (ld l)) qa * inject_Z (hw a)) by (unfold v3_dot, qdot, qpt; cbn [qx qy qz]; rewrite !inject_Z_plus, !inject_Z_mult, Xa, Ya, Za; ring).
  assert (Db : inject_Z (v3_dot (ld l) (hv b)) == qdot (qpt (ld l)) qb * inject_Z (hw b)) by (unfold v3_dot, qdot, qpt; cbn [qx qy qz]; rewrite !inject_Z_plus, !inject_Z_mult, Xb, Yb, Zb; ring).
  set (u := v3_dot (ld l) (hv a)) in *. set (v := v3_dot (ld l) (hv b)) in *. set (x := qdot _ qa) in *. set (y := qdot _ qb) in *.
  assert (Key : inject_Z (v * hw a - u * hw b) == (y - x) * inject_Z (hw a * hw b)). { unfold Z.sub. rewrite inject_Z_plus, inject_Z_opp, !inject_Z_mult, Da, Db. ring. }
  rewrite zdiff_sign_spec. unfold zless_than. 
  assert (Sg : (0 < hw a * hw b -> u * hw b < v * hw a)%Z /\ (hw a * hw b < 0 -> v * hw a < u * hw b)%Z).
  { split; intros P.
    - assert (Q0 : 0 < inject_Z (v * hw a - u * hw b)) by (rewrite Key; apply Qmult_lt_0_compat; [lra|rewrite Zlt_Qlt in P; exact P]). change 0 with (inject_Z 0) in Q0. rewrite <- Zlt_Qlt in Q0. lia.
    - assert (Q0 : 0 < inject_Z (- (v * hw a - u * hw b))). { rewrite inject_Z_opp, Key. setoid_replace (- ((y - x) * inject_Z (hw a * hw b))) with ((y - x) * - inject_Z (hw a * hw b)) by ring. apply Qmult_lt_0_compat; [lra|]. rewrite <- inject_Z_opp. change 0 with (inject_Z 0). rewrite <- Zlt_Qlt. lia. } change 0 with (inject_Z 0) in Q0. rewrite <- Zlt_Qlt in Q0. lia. }
  destruct (Z.ltb_spec (hw a) 0) as [A|A], (Z.ltb_spec (hw b) 0) as [B|B]; cbn [xorb]; [assert (0 < hw a * hw b)%Z by nia|assert (hw a * hw b < 0)%Z by nia|assert (hw a * hw b < 0)%Z by nia|assert (0 < hw a * hw b)%Z by nia]; lia.
Qed.
Lemma along_between l a b k : 0 < k -> qp_eq (qpt (ld l)) (qscale k (qsub b a)) -> ~ qp_eq a b -> exists g, 0 < g /\ forall t, qdot (qpt (ld l)) (between a b t) == qdot (qpt (ld l)) a + t * g.
Proof.
  intros K (X & Y & Z) N. set (dx := qx b - qx a). set (dy := qy b - qy a). set (dz := qz b - qz a). exists (k * (dx * dx + dy * dy + dz * dz)). split.
  - apply Qmult_lt_0_compat; [exact K|]. assert (sn : forall u, 0 <= u * u) by (intros u; nra). pose proof (sn dx). pose proof (sn dy). pose proof (sn dz).
    destruct (Qeq_dec (dx * dx + dy * dy + dz * dz) 0) as [E|E]; [|destruct (Q_dec 0 (dx * dx + dy * dy + dz * dz)) as [[G|G]|G]; lra]. exfalso. apply N.
    assert (sq : forall u, u * u == 0 -> u == 0) by (intros u U; apply Qmult_integral in U as [U|U]; exact U). assert (dx == 0) by (apply sq; lra). assert (dy == 0) by (apply sq; lra). assert (dz == 0) by (apply sq; lra). unfold dx, dy, dz in *. repeat split; lra.
  - intros u. unfold qdot, between, qadd, qscale, qsub, qp_eq, qpt in *. cbn [qx qy qz] in *. rewrite X, Y, Z. unfold dx, dy, dz. ring.
Qed.
Lemma edge_on_rest l x y t m : 0 < t -> t < 1 -> qp_eq m (between x y t) -> edge_on l x y -> edge_on l x m /\ edge_on l m y.
Proof.
  intros T0 T1 E On. pose proof (edge_on_end l x y t T0 On) as A. pose proof (edge_on_start l x y t T1 On) as B. split; [apply (edge_on_comp l x (between x y t))|apply (edge_on_comp l (between x y t) y)]; try assumption; try reflexivity; symmetry; exact E.
Qed.
Lemma insert_last {A} (p : poly A) qs t m e : poly_ok p qs -> 0 < t -> t < 1 -> qp_eq m (between (cyc o3 qs (pcount p - 1)) (cyc o3 qs (pcount p)) t) -> denotes (pv e) m ->
  option_map (fun x => pl x) (nth_error (pedges p) (pcount p - 1)) = Some (pl e) ->
  poly_ok (Poly (pplane p) (pdrop p) (pedges p ++ [e])) (qs ++ [m]) /\ forall q, polygon_point (pplane p) (pdrop p) (qs ++ [m]) q <-> polygon_point (pplane p) (pdrop p) qs q.
Proof.
  intros H T0 T1 Em Dm Le. pose proof (ok_cvx p qs H) as C. pose proof (cvx_three _ _ _ C) as N. pose proof (ok_length p qs H) as Ln. destruct (po_drop p qs H) as [Dl Dn]. set (n := pcount p) in *.
  set (f := fun i => if (i <? n)%nat then cyc o3 qs i else m). assert (Eq : qs ++ [m] = map f (seq 0 (S n))).
  { rewrite seq_S, map_app. cbn [map]. f_equal.
    - rewrite <- (firstn_all qs) at 1. rewrite (firstn_cyc o3) by lia. rewrite Ln. apply map_ext_in. intros i I. apply in_seq in I. unfold f. destruct (Nat.ltb_spec i n); [reflexivity|lia].
    - unfold f. destruct (Nat.ltb_spec (0 + n) n); [lia|reflexivity]. }
  assert (Fm : qp2_eq (qdrop (pdrop p) m) (lerp (flat_at p qs (n - 1)) (flat_at p qs n) t)).
  { rewrite Em. unfold flat_at, between, qadd, qscale, qsub, lerp, qp2_eq, qdrop. destruct (pdrop p) as [|[|d]]; cbn [qx qy qz qx2 qy2]; split; ring. }
  assert (Wl : forall i, qdrop (pdrop p) (f i) = with_last n (flat_at p qs) (qdrop (pdrop p) m) i) by (intros i; unfold f, with_last, flat_at; destruct (i <? n)%nat; reflexivity).
  assert (Mp : map (qdrop (pdrop p)) (map f (seq 0 (S n))) = map (with_last n (flat_at p qs) (qdrop (pdrop p) m)) (seq 0 (S n))) by (rewrite map_map; apply map_ext; exact Wl).
  destruct (ok_edge_on p qs H (n - 1) ltac:(fold n; lia)) as (el & El & _ & Onl). rewrite El in Le. cbn [option_map] in Le. injection Le as Le. replace (S (n - 1)) with n in Onl by lia. destruct (edge_on_rest _ _ _ t m T0 T1 Em Onl) as [On1 On2].
  rewrite Eq. split.
  - apply poly_ok_intro; [rewrite app_length; cbn [length]; unfold n, pcount; lia|lia|exact Dl|exact Dn| | |].
    + intros i L. unfold f. destruct (i <? n)%nat; [apply (ok_on_plane p qs H)|]. rewrite (side_eq _ _ _ Em). apply MergeProofs.side_between; apply (ok_on_plane p qs H).
    + intros i L. destruct (Nat.eq_dec i n) as [->|Ni].
      * exists e. rewrite nth_error_app2 by (unfold n, pcount; lia). replace (n - length (pedges p))%nat with 0%nat by (unfold n, pcount; lia). split; [reflexivity|]. rewrite Nat.mod_same by lia. unfold f. destruct (Nat.ltb_spec n n); [lia|]. destruct (Nat.ltb_spec 0 n); [|lia]. split; [exact Dm|].
        rewrite <- Le. assert (E0 : cyc o3 qs n = cyc o3 qs 0) by (rewrite <- Ln; apply (cyc_period o3 qs 0); lia). rewrite <- E0. exact On2.
      * destruct (ok_edge_on p qs H i ltac:(fold n; lia)) as (e' & E' & D' & On'). exists e'. rewrite nth_error_app1 by (unfold n, pcount in *; lia). split; [exact E'|]. rewrite Nat.mod_small by lia. unfold f. destruct (Nat.ltb_spec i n); [|lia]. split; [exact D'|].
        destruct (Nat.ltb_spec (S i) n); [exact On'|]. replace i with (n - 1)%nat in * by lia. rewrite El in E'. injection E' as <-. exact On1.
    + rewrite Mp. apply (insert_cycle _ _ _ C t T0 T1 _ Fm).
  - intros q. rewrite (ok_points p qs H). unfold polygon_point. apply and_iff_compat_l. rewrite Mp. exact (insert_points _ _ _ C t T0 T1 _ Fm (qdrop (pdrop p) q)).
Qed.
Lemma insert_rotate {B} k (x : B) l : (k < length l)%nat -> insert_after k x l = rotate (length l - S k) (rotate (S k) l ++ [x]).
Proof.
  intros K. unfold insert_after. replace (rotate (S k) l ++ [x]) with (skipn (S k) l ++ (firstn (S k) l ++ [x])) by (unfold rotate; rewrite app_assoc; reflexivity). replace (length l - S k)%nat with (length (skipn (S k) l)) by apply skipn_length. rewrite rotate_app, <- app_assoc. reflexivity.
Qed.
Lemma split_edge_ok {A} dbg (E : einfo A) p qs k t m mq : poly_ok p qs -> (k < pcount p)%nat -> 0 < t -> t < 1 -> denotes m mq -> qp_eq mq (between (cyc o3 qs k) (cyc o3 qs (S k)) t) ->
  exists r, split_edge dbg E p k m = Ok r /\ poly_ok r (insert_after k mq qs) /\ pplane r = pplane p /\ pdrop r = pdrop p /\ forall q, polygon_point (pplane p) (pdrop p) (insert_after k mq qs) q <-> polygon_point (pplane p) (pdrop p) qs q.
Proof.
  intros H K T0 T1 Dm Em. pose proof (ok_cvx p qs H) as C. pose proof (cvx_three _ _ _ C) as N. pose proof (ok_length p qs H) as Ln.
  destruct (ok_edge_mod p qs k H) as (e & He & De & On). rewrite Nat.mod_small in He by exact K. destruct (ok_edge_mod p qs (S k) H) as (e' & He' & De' & _).
  eexists. split; [|split; [|split; [|split]]].
  - unfold split_edge, pedge_at. rewrite He. cbn [rbind].
    assert (Co : pl_coincident (pl e) m = true). { apply (pl_coincident_spec _ _ _ Dm). pose proof (edge_on_point (pl e) _ _ t On) as X. unfold line_points in *. clear - X Em. destruct X as (X & Y & Z), Em as (X' & Y' & Z'). unfold qp_eq, qcross in *. cbn [qx qy qz] in *. rewrite X', Y', Z'. auto. }
    rewrite Co. assert (Ck : check dbg true = Ok tt) by (unfold check; destruct dbg; reflexivity). rewrite Ck. cbn [rbind].
    destruct On as [_ (kk & Kk & Ld)]. assert (Nn : ~ qp_eq (cyc o3 qs k) (cyc o3 qs (S k))). { intros X. apply (c_edge _ _ _ C k). unfold flat_at. rewrite X. reflexivity. }
    destruct (along_between (pl e) _ _ kk Kk Ld Nn) as (g & G & Al). assert (Am : qdot (qpt (ld (pl e))) mq == qdot (qpt (ld (pl e))) (cyc o3 qs k) + t * g) by (rewrite <- Al; clear - Em; destruct Em as (X & Y & Z); unfold qdot; rewrite X, Y, Z; reflexivity).
    assert (Ab : qdot (qpt (ld (pl e))) (cyc o3 qs (S k)) == qdot (qpt (ld (pl e))) (cyc o3 qs k) + 1 * g) by (rewrite <- Al; unfold qdot, between, qadd, qscale, qsub; cbn [qx qy qz]; ring). assert (Tg : 0 < t * g) by (apply Qmult_lt_0_compat; assumption). assert (Tg' : 0 < (1 - t) * g) by (apply Qmult_lt_0_compat; lra).
    rewrite (along_less (pl e) (pv e) m _ _ De Dm) by lra. rewrite Ck. cbn [rbind]. destruct dbg; [|reflexivity]. unfold pvertex, pedge_at. rewrite He'. cbn [rbind].
    pose proof (along_less (pl e) m (pv e') _ _ Dm De' ltac:(lra)) as L2. replace (v3_dot (ld (pl e)) (v3_scale (hv (pv e')) (hw m))) with (v3_dot (ld (pl e)) (hv (pv e')) * hw m)%Z by (unfold v3_dot, v3_scale; cbn [vx vy vz]; ring). rewrite L2. reflexivity.
  - set (e2 := edge_source E e m). change (firstn (S k) (pedges p) ++ e2 :: skipn (S k) (pedges p)) with (insert_after k e2 (pedges p)).
    pose proof (poly_ok_rotate p qs (S k) H ltac:(lia)) as R. set (r := Poly (pplane p) (pdrop p) (rotate (S k) (pedges p))) in *. assert (Cr : pcount r = pcount p) by (unfold pcount, r; cbn [pedges]; apply rotate_length).
    destruct (insert_last r (rotate (S k) qs) t mq e2 R T0 T1) as [R1 R2].
    { rewrite Cr, !cyc_rotate by lia. replace (S k + (pcount p - 1))%nat with (k + length qs)%nat by lia. replace (S k + pcount p)%nat with (S k + length qs)%nat by lia. rewrite !cyc_period by lia. exact Em. }
    { exact Dm. }
    { rewrite Cr. unfold r. cbn [pedges]. rewrite rotate_nth by (unfold pcount in *; lia). replace (S k + (pcount p - 1))%nat with (k + 1 * length (pedges p))%nat by (unfold pcount in *; lia). rewrite Nat.mod_add by (unfold pcount in *; lia). rewrite Nat.mod_small by exact K. rewrite He. reflexivity. }
    rewrite (insert_rotate k e2), (insert_rotate k mq) by (unfold pcount in *; lia). rewrite Ln. change (length (pedges p)) with (pcount p).
    exact (poly_ok_rotate _ _ (pcount p - S k) R1 ltac:(rewrite app_length, rotate_length; lia)).
  - reflexivity.
  - reflexivity.
  - intros q. pose proof (poly_ok_rotate p qs (S k) H ltac:(lia)) as R. set (r := Poly (pplane p) (pdrop p) (rotate (S k) (pedges p))) in *. assert (Cr : pcount r = pcount p) by (unfold pcount, r; cbn [pedges]; apply rotate_length).
    destruct (insert_last r (rotate (S k) qs) t mq (edge_source E e m) R T0 T1) as [R1 R2].
    { rewrite Cr, !cyc_rotate by lia. replace (S k + (pcount p - 1))%nat with (k + length qs)%nat by lia. replace (S k + pcount p)%nat with (S k + length qs)%nat by lia. rewrite !cyc_period by lia. exact Em. }
    { exact Dm. }
    { rewrite Cr. unfold r. cbn [pedges]. rewrite rotate_nth by (unfold pcount in *; lia). replace (S k + (pcount p - 1))%nat with (k + 1 * length (pedges p))%nat by (unfold pcount in *; lia). rewrite Nat.mod_add by (unfold pcount in *; lia). rewrite Nat.mod_small by exact K. rewrite He. reflexivity. }
    rewrite (insert_rotate k mq) by lia. etransitivity; [exact (polygon_rotate _ _ (length qs - S k) q R1 ltac:(rewrite app_length, rotate_length; lia))|]. cbn [pplane pdrop]. rewrite R2. exact (polygon_rotate p qs (S k) q H ltac:(lia)).
Qed.
