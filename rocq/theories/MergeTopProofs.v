(** TryMergeEdge, TryMergePolygon and SplitEdge. *)
From Coq Require Import List Bool Arith ZArith QArith Lqa Lia ZifyBool Morphisms Setoid.
From Verif Require Import BigUIntModel GeoModel GeoSpec GeoProofs GeoPlaneProofs GeoDirProofs GeoPluckerProofs CvxSpec CvxProofs CvxSeqProofs CvxCapProofs PolyModel PolySpec PolyBridgeProofs PolySearchProofs PolyInfoProofs PolyExtremeProofs PolyCapProofs PolyChildProofs CvxMergeProofs PolyOpsModel MergeSpec MergeProofs.
Import ListNotations.
Open Scope Q_scope.
(** ** Edges at any index *)
Lemma cyc_succ_mod {B} (x : B) l i : (0 < length l)%nat -> cyc x l (S (i mod length l)) = cyc x l (S i).
Proof. intros L. rewrite <- (cyc_mod x l (S (i mod length l))), mod_succ, cyc_mod by exact L. reflexivity. Qed.
Lemma ok_edge_mod {A} (p : poly A) qs i : poly_ok p qs -> exists e, nth_error (pedges p) (i mod pcount p) = Some e /\ denotes (pv e) (cyc o3 qs i) /\ edge_on (pl e) (cyc o3 qs i) (cyc o3 qs (S i)).
Proof.
  intros H. pose proof (ok_length p qs H) as Ln. pose proof (ok_n p qs H) as N. destruct (ok_edge_on p qs H (i mod pcount p) ltac:(apply Nat.mod_upper_bound; lia)) as (e & E & D & On). exists e. split; [exact E|].
  rewrite <- Ln in D, On. rewrite cyc_mod in D, On by lia. rewrite cyc_succ_mod in On by lia. split; assumption.
Qed.
Lemma flat_mod {A} (p : poly A) qs i : poly_ok p qs -> flat_at p qs (i mod pcount p) = flat_at p qs i.
Proof. intros H. apply (cvx_mod _ _ _ i (ok_cvx p qs H)). Qed.
Lemma flat_succ {A} (p : poly A) qs i : poly_ok p qs -> flat_at p qs (S (i mod pcount p)) = flat_at p qs (S i) /\ flat_at p qs (S (S (i mod pcount p))) = flat_at p qs (S (S i)).
Proof.
  intros H. pose proof (ok_n p qs H) as N. split.
  - rewrite <- (flat_mod p qs (S i) H), <- (flat_mod p qs (S (i mod pcount p)) H). f_equal. apply mod_succ. exact N.
  - rewrite <- (flat_mod p qs (S (S i)) H), <- (flat_mod p qs (S (S (i mod pcount p))) H). f_equal. change (S (S (i mod pcount p))) with (2 + i mod pcount p)%nat. rewrite Nat.add_mod_idemp_r by lia. reflexivity.
Qed.
(** ** TryMergeEdge *)
Definition data_at {A} (es : list (pedge A)) (i : nat) : option A := option_map pd (nth_error es i).
Lemma merge_edge_spec {A} dbg E (p : poly A) qs k r b : poly_ok p qs -> (k < pcount p)%nat -> turn (flat_at p qs k) (flat_at p qs (S k)) (flat_at p qs (S (S k))) == 0 ->
  try_merge_edge dbg E p k = Ok (r, b) -> exists rs, poly_ok r rs /\ pplane r = pplane p /\ pdrop r = pdrop p /\ (forall q, polygon_point (pplane p) (pdrop p) rs q <-> polygon_point (pplane p) (pdrop p) qs q) /\
    (if b then rs = without (S k mod pcount p) qs else r = p /\ rs = qs) /\ (exists x y, data_at (pedges p) k = Some x /\ data_at (pedges p) (S k mod pcount p) = Some y /\ b = ei_can_merge E x y).
Proof.
  intros H K Z Eq. pose proof (ok_n p qs H) as N. unfold try_merge_edge in Eq. destruct (check dbg (k <? pcount p)) as [[]| | |]; try discriminate. cbn [rbind] in Eq. destruct (Nat.eqb_spec (pcount p) 0); [lia|]. cbv zeta in Eq.
  assert (At : forall i, (i < pcount p)%nat -> exists e, nth_error (pedges p) i = Some e). { intros i L. destruct (nth_error (pedges p) i) eqn:X; [eauto|]. apply nth_error_None in X. unfold pcount in L. lia. }
  destruct (At k K) as [ea Ha]. destruct (At (S k mod pcount p)%nat ltac:(apply Nat.mod_upper_bound; lia)) as [eb Hb]. unfold pedge_at in Eq. rewrite Ha, Hb in Eq. cbn [rbind] in Eq.
  match type of Eq with rbind ?x _ = _ => destruct x as [[]| | |]; try discriminate end. cbn [rbind] in Eq.
  assert (Dt : exists x y, data_at (pedges p) k = Some x /\ data_at (pedges p) (S k mod pcount p) = Some y /\ ei_can_merge E (pd ea) (pd eb) = ei_can_merge E x y) by (exists (pd ea), (pd eb); unfold data_at; rewrite Ha, Hb; auto).
  destruct (ei_can_merge E (pd ea) (pd eb)) eqn:Cm; cbn [negb] in Eq.
  - injection Eq as <- <-. set (es := firstn k (pedges p) ++ PE (pv ea) (pl ea) (ei_merge E (pd ea) (pd eb)) :: skipn (S k) (pedges p)).
    assert (Sh : map shape es = map shape (pedges p)).
    { unfold es. rewrite map_app. cbn [map]. replace (pedges p) with (firstn k (pedges p) ++ ea :: skipn (S k) (pedges p)) at 3; [rewrite map_app; reflexivity|].
      transitivity (firstn k (pedges p) ++ skipn k (pedges p)); [f_equal|apply firstn_skipn]. clear - Ha. revert Ha. generalize (pedges p). induction k as [|k IH]; intros l Ha; (destruct l as [|x l]; [discriminate Ha|]); [cbn in *; congruence|]. apply IH. exact Ha. }
    pose proof (poly_ok_shape p qs es H Sh) as H'. set (p' := Poly (pplane p) (pdrop p) es) in *. assert (Cp : pcount p' = pcount p) by (unfold pcount, p'; cbn [pedges]; rewrite <- (map_length shape), Sh, map_length; reflexivity).
    destruct (remove_vertex p' qs k H') as [R1 R2]; [rewrite Cp; exact K|exact Z|]. rewrite Cp in R1, R2. exists (without (S k mod pcount p) qs). split; [exact R1|]. split; [reflexivity|]. split; [reflexivity|]. split; [exact R2|]. split; [reflexivity|exact Dt].
  - injection Eq as <- <-. exists qs. split; [exact H|]. split; [reflexivity|]. split; [reflexivity|]. split; [intros q; reflexivity|]. split; [auto|exact Dt].
Qed.
(** ** The other polygon's plane *)
Lemma polygon_point_plane h h' d d' qs q r : (d < 3)%nat -> (d' < 3)%nat -> comp (hn h) d <> 0%Z -> comp (hn h') d' <> 0%Z -> 0 < r -> (forall x, side h x == r * side h' x) ->
  (forall i, inject_Z (comp (hn h) i) == r * inject_Z (comp (hn h') i)) -> Forall (fun x => side h' x == 0) qs -> polygon_point h d qs q <-> polygon_point h' d' qs q.
Proof.
  intros L L' N N' R S0 Cn On. unfold polygon_point.
  assert (Z : side h q == 0 <-> side h' q == 0). { rewrite S0. split; intros Z; [apply Qmult_integral in Z as [Z|Z]; [lra|exact Z]|rewrite Z; ring]. }
  rewrite Z. assert (G : side h' q == 0 -> (in_polygon (inject_Z (comp (hn h) d)) (map (qdrop d) qs) (qdrop d q) <-> in_polygon (inject_Z (comp (hn h') d')) (map (qdrop d') qs) (qdrop d' q))); [|tauto]. intros Sq. rewrite Forall_forall in On.
  assert (T : forall a b, In a qs -> In b qs -> 0 <= inject_Z (comp (hn h) d) * turn (qdrop d a) (qdrop d b) (qdrop d q) <-> 0 <= inject_Z (comp (hn h') d') * turn (qdrop d' a) (qdrop d' b) (qdrop d' q)).
  { intros a b Ia Ib. rewrite (Cn d). assert (Nd : ~ inject_Z (comp (hn h') d) == 0). { intros X. pose proof (inject_Z_neq0 _ N) as Y. rewrite Cn, X in Y. apply Y. ring. } pose proof (inject_Z_neq0 _ N') as Nd'.
    setoid_replace (r * inject_Z (comp (hn h') d) * turn (qdrop d a) (qdrop d b) (qdrop d q)) with (r * (inject_Z (comp (hn h') d) * turn (qdrop d a) (qdrop d b) (qdrop d q))) by ring.
    assert (X : 0 <= r * (inject_Z (comp (hn h') d) * turn (qdrop d a) (qdrop d b) (qdrop d q)) <-> 0 <= inject_Z (comp (hn h') d) * turn (qdrop d a) (qdrop d b) (qdrop d q)) by (split; intros Y; [apply (q_pos_mult r); assumption|apply Qmult_le_0_compat; lra]).
    rewrite X. split; intros Y.
    - apply (ratio_sign _ _ (turn (qdrop d a) (qdrop d b) (qdrop d q)) _ Nd); [apply plane_turn; auto|exact Y].
    - apply (ratio_sign _ _ (turn (qdrop d' a) (qdrop d' b) (qdrop d' q)) _ Nd'); [apply plane_turn; auto|exact Y]. }
  unfold in_polygon. split; intros Hq i a b Ea Eb; rewrite map_length in Eb; apply nth_error_map' in Ea as (a' & Ea & ->); apply nth_error_map' in Eb as (b' & Eb & ->).
  - apply (proj1 (T a' b' (nth_error_In _ _ Ea) (nth_error_In _ _ Eb))). apply (Hq i); [apply map_nth_error; exact Ea|rewrite map_length; apply map_nth_error; exact Eb].
  - apply (proj2 (T a' b' (nth_error_In _ _ Ea) (nth_error_In _ _ Eb))). apply (Hq i); [apply map_nth_error; exact Ea|rewrite map_length; apply map_nth_error; exact Eb].
Qed.
Lemma poly_ok_plane {A} (o : poly A) os h d r : poly_ok o os -> (d < 3)%nat -> comp (hn h) d <> 0%Z -> 0 < r -> (forall x, side h x == r * side (pplane o) x) -> (forall i, inject_Z (comp (hn h) i) == r * inject_Z (comp (hn (pplane o)) i)) ->
  poly_ok (Poly h d (pedges o)) os.
Proof.
  intros H L N R S0 Cn. assert (N' : comp (hn (pplane o)) d <> 0%Z). { intros X. pose proof (Cn d) as C. rewrite X in C. pose proof (inject_Z_neq0 _ N) as Y. apply Y. rewrite C. change (inject_Z 0) with 0. ring. }
  destruct (poly_ok_drop o os d H L N') as [V D Pl Li (T & Nb & Nl)]. cbn [pedges pplane pdrop] in *. unfold pnormal_drop in *. cbn [pplane pdrop] in *. split; cbn [pedges pplane pdrop]; [exact V|split; [exact L|exact N]| |exact Li|].
  - apply Forall_forall. intros q I. rewrite Forall_forall in Pl. rewrite S0, (Pl q I). ring.
  - unfold pnormal_drop. cbn [pplane pdrop]. split; [|split; [exact Nb|exact Nl]]. intros i j k a b c Hij Hjk Ea Eb Ec. rewrite Cn. specialize (T i j k a b c Hij Hjk Ea Eb Ec).
    setoid_replace (r * inject_Z (comp (hn (pplane o)) d) * turn a b c) with (r * (inject_Z (comp (hn (pplane o)) d) * turn a b c)) by ring. apply Qmult_le_0_compat; lra.
Qed.
Lemma third u v w u' v' w' X Y Z : ~ Z == 0 -> inject_Z u * X + inject_Z v * Y + inject_Z w * Z == 0 -> inject_Z u' * X + inject_Z v' * Y + inject_Z w' * Z == 0 ->
  (u <> 0 \/ v <> 0 \/ w <> 0)%Z -> (u' <> 0 \/ v' <> 0 \/ w' <> 0)%Z -> same_direction [u; v] [u'; v'] -> exists a b, (0 < a /\ 0 < b /\ a * u = b * u' /\ a * v = b * v' /\ a * w = b * w')%Z.
Proof.
  assert (NZ : forall u v w, ~ Z == 0 -> inject_Z u * X + inject_Z v * Y + inject_Z w * Z == 0 -> (u <> 0 \/ v <> 0 \/ w <> 0)%Z -> Exists (fun t => t <> 0%Z) [u; v]).
  { clear. intros u v w NZ E H. destruct (Z.eq_dec u 0) as [->|Nu]; [|constructor; exact Nu]. destruct (Z.eq_dec v 0) as [->|Nv]; [|apply Exists_cons_tl; constructor; exact Nv]. exfalso.
    change (inject_Z 0) with 0 in E. assert (Ew : inject_Z w * Z == 0) by lra. apply Qmult_integral in Ew as [Ew|Ew]; [|contradiction]. apply (inject_Z_neq0 w); [lia|exact Ew]. }
  intros N E E' H H' S0. apply same_direction_nonzero in S0; [|reflexivity|apply (NZ u v w N E H)|apply (NZ u' v' w' N E' H')]. destruct S0 as (a & b & Ha & Hb & M). cbn [map] in M. injection M as M1 M2. exists a, b. repeat split; [exact Ha|exact Hb|exact M1|exact M2|].
  apply inject_Z_injective. rewrite !inject_Z_mult. assert (F1 := f_equal inject_Z M1). assert (F2 := f_equal inject_Z M2). rewrite !inject_Z_mult in F1, F2.
  assert (G : (inject_Z a * inject_Z w - inject_Z b * inject_Z w') * Z == 0).
  { assert (X1 : inject_Z a * (inject_Z u * X + inject_Z v * Y + inject_Z w * Z) == 0) by (rewrite E; ring). assert (X2 : inject_Z b * (inject_Z u' * X + inject_Z v' * Y + inject_Z w' * Z) == 0) by (rewrite E'; ring).
    transitivity (inject_Z a * (inject_Z u * X + inject_Z v * Y + inject_Z w * Z) - inject_Z b * (inject_Z u' * X + inject_Z v' * Y + inject_Z w' * Z) - (inject_Z a * inject_Z u - inject_Z b * inject_Z u') * X - (inject_Z a * inject_Z v - inject_Z b * inject_Z v') * Y); [ring|].
    rewrite X1, X2, F1, F2. ring. }
  apply Qmult_integral in G as [G|G]; [|contradiction]. lra.
Qed.
Lemma third_dim (n n' : vec3) X Y Z i : (i < 3)%nat -> ~ qcomp (QP X Y Z) i == 0 -> inject_Z (vx n) * X + inject_Z (vy n) * Y + inject_Z (vz n) * Z == 0 -> inject_Z (vx n') * X + inject_Z (vy n') * Y + inject_Z (vz n') * Z == 0 ->
  (vx n <> 0 \/ vy n <> 0 \/ vz n <> 0)%Z -> (vx n' <> 0 \/ vy n' <> 0 \/ vz n' <> 0)%Z -> same_direction [x2 (drop_dim n i); y2 (drop_dim n i)] [x2 (drop_dim n' i); y2 (drop_dim n' i)] ->
  exists a b, (0 < a /\ 0 < b /\ a * vx n = b * vx n' /\ a * vy n = b * vy n' /\ a * vz n = b * vz n')%Z.
Proof.
  intros L N E E' H H' S0. destruct i as [|[|[|i]]]; [| | |lia]; unfold drop_dim in S0; cbn [Nat.add Nat.modulo Nat.divmod fst snd Nat.sub comp x2 y2] in S0; cbn [qcomp qx qy qz] in N.
  - destruct (third (vy n) (vz n) (vx n) (vy n') (vz n') (vx n') Y Z X N) as (a & b & W); [rewrite <- E; ring|rewrite <- E'; ring|tauto|tauto|exact S0|]. exists a, b. tauto.
  - destruct (third (vz n) (vx n) (vy n) (vz n') (vx n') (vy n') Z X Y N) as (a & b & W); [rewrite <- E; ring|rewrite <- E'; ring|tauto|tauto|exact S0|]. exists a, b. tauto.
  - destruct (third (vx n) (vy n) (vz n) (vx n') (vy n') (vz n') X Y Z N) as (a & b & W); [exact E|exact E'|tauto|tauto|exact S0|]. exists a, b. tauto.
Qed.
Lemma comp_nonzero (n : vec3) d : comp n d <> 0%Z -> (vx n <> 0 \/ vy n <> 0 \/ vz n <> 0)%Z.
Proof. destruct d as [|[|d]]; cbn [comp]; tauto. Qed.
Lemma same_plane h h' a b i : (i < 3)%nat -> side h a == 0 -> side h b == 0 -> side h' a == 0 -> side h' b == 0 -> ~ qcomp a i == qcomp b i ->
  (vx (hn h) <> 0 \/ vy (hn h) <> 0 \/ vz (hn h) <> 0)%Z -> (vx (hn h') <> 0 \/ vy (hn h') <> 0 \/ vz (hn h') <> 0)%Z ->
  (same_direction [x2 (drop_dim (hn h) i); y2 (drop_dim (hn h) i)] [x2 (drop_dim (hn h') i); y2 (drop_dim (hn h') i)] <-> same_direction (l3 (hn h)) (l3 (hn h'))) /\
  (same_direction (l3 (hn h)) (l3 (hn h')) -> exists r, 0 < r /\ (forall x, side h x == r * side h' x) /\ (forall j, inject_Z (comp (hn h) j) == r * inject_Z (comp (hn h') j))).
Proof.
  intros L Sa Sb Sa' Sb' N H H'. split; [split|].
  - intros S0. destruct (third_dim (hn h) (hn h') (qx b - qx a) (qy b - qy a) (qz b - qz a) i L) as (u & v & Hu & Hv & E1 & E2 & E3); [| | |exact H|exact H'|exact S0|].
    + intros X. apply N. destruct i as [|[|i]]; cbn [qcomp qx qy qz] in *; lra.
    + unfold side, qdot, qpt in *. cbn [qx qy qz] in *. lra.
    + unfold side, qdot, qpt in *. cbn [qx qy qz] in *. lra.
    + exists u, v. repeat split; try lia. unfold l3. cbn [map]. congruence.
  - intros (u & v & Hu & Hv & Huv & M). exists u, v. repeat split; try assumption. unfold l3 in M. cbn [map] in M. injection M as M1 M2 M3. destruct i as [|[|[|i]]]; [| | |lia]; unfold drop_dim; cbn [Nat.add Nat.modulo Nat.divmod fst snd Nat.sub comp x2 y2 map]; congruence.
  - intros S0. apply same_direction_nonzero in S0; [|reflexivity| |].
    2: { unfold l3. destruct H as [H|[H|H]]; [constructor; exact H|apply Exists_cons_tl; constructor; exact H|apply Exists_cons_tl, Exists_cons_tl; constructor; exact H]. }
    2: { unfold l3. destruct H' as [H'|[H'|H']]; [constructor; exact H'|apply Exists_cons_tl; constructor; exact H'|apply Exists_cons_tl, Exists_cons_tl; constructor; exact H']. }
    destruct S0 as (u & v & Hu & Hv & M). unfold l3 in M. cbn [map] in M. injection M as M1 M2 M3.
    assert (Pu : 0 < inject_Z u) by (rewrite Zlt_Qlt in Hu; exact Hu). assert (Pv : 0 < inject_Z v) by (rewrite Zlt_Qlt in Hv; exact Hv).
    assert (K : forall x y, (u * x = v * y)%Z -> inject_Z x == inject_Z v / inject_Z u * inject_Z y). { intros x y E. assert (F := f_equal inject_Z E). rewrite !inject_Z_mult in F. assert (G : inject_Z u * inject_Z x == inject_Z v * inject_Z y) by (rewrite F; reflexivity). field_simplify_eq; [|lra]. rewrite <- G. ring. }
    assert (C1 := K _ _ M1). assert (C2 := K _ _ M2). assert (C3 := K _ _ M3). exists (inject_Z v / inject_Z u). set (r := inject_Z v / inject_Z u) in *. split; [apply Qlt_shift_div_l; lra|]. split.
    + intros x. unfold side, qdot, qpt in *. cbn [qx qy qz] in *.
      assert (D : inject_Z (hd h) == inject_Z (vx (hn h)) * qx a + inject_Z (vy (hn h)) * qy a + inject_Z (vz (hn h)) * qz a) by lra. assert (D' : inject_Z (hd h') == inject_Z (vx (hn h')) * qx a + inject_Z (vy (hn h')) * qy a + inject_Z (vz (hn h')) * qz a) by lra.
      rewrite D, D', C1, C2, C3. ring.
    + intros [|[|j]]; cbn [comp]; assumption.
Qed.
(** ** The turn at an end of the common edge *)
Lemma drop_cross d prev next u a c k1 k2 : (d < 3)%nat -> qp_eq (qpt prev) (qscale k1 (qsub a u)) -> qp_eq (qpt next) (qscale k2 (qsub c a)) ->
  inject_Z (v2_cross (drop_dim prev d) (drop_dim next d)) == k1 * k2 * turn (qdrop d u) (qdrop d a) (qdrop d c).
Proof.
  intros L (P1 & P2 & P3) (N1 & N2 & N3). unfold qpt, qscale, qsub in *. cbn [qx qy qz] in *.
  assert (I : forall x y, inject_Z (x - y) == inject_Z x - inject_Z y) by (intros; unfold Z.sub, Qminus; rewrite inject_Z_plus, inject_Z_opp; reflexivity).
  unfold v2_cross, drop_dim, turn, qcross2, qsub2, qdrop. destruct d as [|[|[|d]]]; [| | |lia]; cbn [Nat.add Nat.modulo Nat.divmod fst snd Nat.sub comp x2 y2 qx2 qy2]; rewrite I, !inject_Z_mult, ?P1, ?P2, ?P3, ?N1, ?N2, ?N3; ring.
Qed.
Lemma inject_sgn x y : inject_Z x == y -> (x = 0%Z <-> y == 0) /\ ((x < 0)%Z <-> y < 0).
Proof.
  intros E. rewrite <- E. split.
  - split; [intros ->; reflexivity|]. intros Z. apply inject_Z_injective. exact Z.
  - rewrite Zlt_Qlt. reflexivity.
Qed.
Lemma comp_scale v k q i : qp_eq (qpt v) (qscale k q) -> inject_Z (comp v i) == k * qcomp q i.
Proof. intros (X & Y & Z). destruct i as [|[|i]]; [exact X|exact Y|exact Z]. Qed.
Lemma qcomp_sub a b i : qcomp (qsub a b) i == qcomp a i - qcomp b i.
Proof. destruct i as [|[|i]]; reflexivity. Qed.
Lemma zget_sign_zero v : zget_sign v = 0%Z <-> v = 0%Z.
Proof. pose proof (zget_sign_sgn v) as E. lia. Qed.
Lemma diff_sign_iff x y : zdiff_sign x y = xorb (x <? 0)%Z (y <? 0)%Z.
Proof. unfold zdiff_sign. rewrite lxor_neg, !zget_sign_neg. reflexivity. Qed.
Lemma twist_spec h d nz prev next u a b c k1 k2 : let s := inject_Z (comp (hn h) d) in let U := qdrop d u in let A := qdrop d a in let B := qdrop d b in let C := qdrop d c in
  (d < 3)%nat -> comp (hn h) d <> 0%Z -> side h u == 0 -> side h a == 0 -> side h b == 0 -> side h c == 0 -> 0 < k1 -> 0 < k2 -> qp_eq (qpt prev) (qscale k1 (qsub a u)) -> qp_eq (qpt next) (qscale k2 (qsub c a)) ->
  ~ qp2_eq U A -> ~ qp2_eq A C -> 0 <= s * turn U A B -> (turn U A B == 0 -> exists t, 1 < t /\ qp2_eq B (lerp U A t)) -> 0 <= s * turn B A C -> ~ qcomp a nz == qcomp b nz ->
  match merge_twist d nz (comp (hn h) d) prev next with
  | Some t => 0 <= s * turn U A C /\ (forall t, qp2_eq C (lerp U A t) -> 1 <= t) /\ (t = 0%Z <-> turn U A C == 0)
  | None => s * turn U A C < 0 \/ (turn U A B == 0 /\ turn B A C == 0)
  end.
Proof.
  intros s U A B C L N Su Sa Sb Sc K1 K2 Pr Nx UA AC T1 Fw T2 Cn. unfold merge_twist. cbv zeta.
  pose proof (drop_cross d prev next u a c k1 k2 L Pr Nx) as X. fold U A C in X. set (z := v2_cross _ _) in *. assert (K : 0 < k1 * k2) by (apply Qmult_lt_0_compat; assumption).
  assert (Z0 : z = 0%Z <-> turn U A C == 0). { rewrite (proj1 (inject_sgn _ _ X)). split; [intros Y; apply Qmult_integral in Y as [Y|Y]; [lra|exact Y]|intros Y; rewrite Y; ring]. }
  assert (NS : ~ s == 0) by (apply inject_Z_neq0; exact N).
  destruct (Z.eqb_spec (zget_sign z) 0) as [E|E].
  - apply (proj1 (zget_sign_zero z)) in E. apply Z0 in E. rewrite diff_sign_iff.
    destruct (line_param U A C UA E) as (t & Et). assert (c_eq : qp_eq c (between u a t)) by (apply (plane_between h d); assumption).
    assert (t1 : ~ t == 1). { intros Y. apply AC. rewrite Et, Y. unfold qp2_eq, lerp. cbn [qx2 qy2]. split; ring. }
    assert (P0 := comp_scale _ _ _ nz Pr). assert (P1 := comp_scale _ _ _ nz Nx). rewrite qcomp_sub in P0, P1. rewrite c_eq in P1. rewrite qcomp_between in P1. set (x := qcomp a nz - qcomp u nz) in *.
    assert (P1' : inject_Z (comp next nz) == k2 * ((t - 1) * x)) by (rewrite P1; unfold x; ring). clear P1.
    assert (TB : turn B A C == - ((1 - t) * turn U A B)). { rewrite Et. unfold turn, qcross2, qsub2, lerp. cbn [qx2 qy2]. ring. }
    destruct (Qlt_le_dec t 1) as [Lt|Ge].
    + assert (T0 : turn U A B == 0). { rewrite TB in T2. assert (Y : (1 - t) * (s * turn U A B) == 0) by (assert (0 <= (1 - t) * (s * turn U A B)) by (apply Qmult_le_0_compat; lra); lra). apply Qmult_integral in Y as [Y|Y]; [lra|]. apply Qmult_integral in Y as [Y|Y]; [contradiction|exact Y]. }
      destruct (Fw T0) as (t' & Lt' & Eb). assert (b_eq : qp_eq b (between u a t')) by (apply (plane_between h d); assumption). rewrite b_eq, qcomp_between in Cn. fold x in Cn.
      assert (x0 : ~ x == 0). { intros Y. apply Cn. rewrite Y. unfold x in Y. lra. }
      destruct (inject_sgn _ _ P0) as [_ S1]. destruct (inject_sgn _ _ P1') as [_ S2].
      assert (W : xorb (comp prev nz <? 0)%Z (comp next nz <? 0)%Z = true).
      { destruct (Qlt_le_dec x 0) as [Lx|Gx].
        - assert ((comp prev nz < 0)%Z). { apply S1. assert (0 < k1 * - x) by (apply Qmult_lt_0_compat; lra). lra. }
          assert (~ (comp next nz < 0)%Z). { intros Y. apply S2 in Y. assert (0 < (1 - t) * - x) by (apply Qmult_lt_0_compat; lra). assert (0 < k2 * ((1 - t) * - x)) by (apply Qmult_lt_0_compat; lra). lra. }
          lia.
        - assert (0 < x) by (destruct (Q_dec 0 x) as [[|]|]; lra).
          assert (~ (comp prev nz < 0)%Z). { intros Y. apply S1 in Y. assert (0 < k1 * x) by (apply Qmult_lt_0_compat; lra). lra. }
          assert ((comp next nz < 0)%Z). { apply S2. assert (0 < (1 - t) * x) by (apply Qmult_lt_0_compat; lra). assert (0 < k2 * ((1 - t) * x)) by (apply Qmult_lt_0_compat; lra). lra. }
          lia. }
      rewrite W. right. split; [exact T0|]. rewrite TB, T0. ring.
    + assert (Gt : 1 < t) by (destruct (Q_dec 1 t) as [[|]|]; try lra; exfalso; apply t1; lra).
      destruct (inject_sgn _ _ P0) as [_ S1]. destruct (inject_sgn _ _ P1') as [_ S2].
      assert (W : xorb (comp prev nz <? 0)%Z (comp next nz <? 0)%Z = false).
      { destruct (Qlt_le_dec x 0) as [Lx|Gx].
        - assert ((comp prev nz < 0)%Z). { apply S1. assert (0 < k1 * - x) by (apply Qmult_lt_0_compat; lra). lra. }
          assert ((comp next nz < 0)%Z). { apply S2. assert (0 < (t - 1) * - x) by (apply Qmult_lt_0_compat; lra). assert (0 < k2 * ((t - 1) * - x)) by (apply Qmult_lt_0_compat; lra). lra. }
          lia.
        - assert (~ (comp prev nz < 0)%Z). { intros Y. apply S1 in Y. assert (0 <= k1 * x) by (apply Qmult_le_0_compat; lra). lra. }
          assert (~ (comp next nz < 0)%Z). { intros Y. apply S2 in Y. assert (0 <= (t - 1) * x) by (apply Qmult_le_0_compat; lra). assert (0 <= k2 * ((t - 1) * x)) by (apply Qmult_le_0_compat; lra). lra. }
          lia. }
      rewrite W. rewrite E. split; [lra|]. split; [|rewrite zget_sign_zero; rewrite Z0; rewrite E; tauto].
      intros t2 E2. rewrite Et in E2. apply lerp_unique in E2; [lra|exact UA].
  - assert (E' : ~ turn U A C == 0) by (intros Y; apply E, zget_sign_zero, Z0; exact Y). rewrite lxor_neg, !zget_sign_neg. destruct (inject_sgn _ _ X) as [_ S1]. destruct (inject_sgn _ s (Qeq_refl s)) as [_ S2].
    assert (W : s * turn U A C < 0 <-> xorb (z <? 0)%Z (comp (hn h) d <? 0)%Z = true).
    { assert (S3 : (z < 0)%Z <-> turn U A C < 0). { rewrite S1. split; intros Y; [destruct (Qlt_le_dec (turn U A C) 0) as [|G]; [assumption|]; assert (0 <= k1 * k2 * turn U A C) by (apply Qmult_le_0_compat; lra); lra|]. assert (0 < k1 * k2 * - turn U A C) by (apply Qmult_lt_0_compat; lra). lra. }
      assert (Hs : s < 0 \/ 0 < s) by (destruct (Q_dec s 0) as [[|]|]; auto; exfalso; apply NS; assumption). assert (Ht : turn U A C < 0 \/ 0 < turn U A C) by (destruct (Q_dec (turn U A C) 0) as [[|]|]; auto; contradiction).
      destruct Hs as [Hs|Hs], Ht as [Ht|Ht].
      - assert (0 < - s * - turn U A C) by (apply Qmult_lt_0_compat; lra). split; intros Y; [lra|]. apply S2 in Hs. apply S3 in Ht. lia.
      - assert (0 < - s * turn U A C) by (apply Qmult_lt_0_compat; lra). split; intros Y; [|lra]. assert (~ (z < 0)%Z) by (rewrite S3; lra). apply S2 in Hs. lia.
      - assert (0 < s * - turn U A C) by (apply Qmult_lt_0_compat; lra). split; intros Y; [|lra]. assert (~ (comp (hn h) d < 0)%Z) by (rewrite S2; lra). apply S3 in Ht. lia.
      - assert (0 < s * turn U A C) by (apply Qmult_lt_0_compat; lra). split; intros Y; [lra|]. assert (~ (comp (hn h) d < 0)%Z) by (rewrite S2; lra). assert (~ (z < 0)%Z) by (rewrite S3; lra). lia. }
    destruct (xorb _ _).
    + left. apply W. reflexivity.
    + split; [destruct (Qlt_le_dec (s * turn U A C) 0) as [Y|Y]; [apply W in Y; discriminate|exact Y]|]. split; [|rewrite zget_sign_zero, Z0; tauto].
      intros t Et. exfalso. apply E'. rewrite Et. unfold turn, qcross2, qsub2, lerp. cbn [qx2 qy2]. ring.
Qed.
(** ** TryMergeEdge returns *)
Lemma scaled_direction (u v : vec3) r : 0 < r -> qp_eq (qpt v) (qscale r (qpt u)) -> same_direction (l3 u) (l3 v).
Proof.
  intros R (X & Y & Z). destruct r as [n d]. unfold Qlt in R. cbn in R. exists n, (Z.pos d). split; [lia|]. split; [lia|]. split; [lia|]. unfold l3. cbn [map]. unfold qpt, qscale in X, Y, Z. cbn [qx qy qz] in X, Y, Z. unfold Qeq, Qmult, inject_Z in X, Y, Z. cbn [Qnum Qden] in X, Y, Z.
  assert (X' : (n * vx u = Z.pos d * vx v)%Z) by lia. assert (Y' : (n * vy u = Z.pos d * vy v)%Z) by lia. assert (Z' : (n * vz u = Z.pos d * vz v)%Z) by lia. rewrite X', Y', Z'. reflexivity.
Qed.
Lemma merge_edge_total {A} dbg E (p : poly A) qs k : poly_ok p qs -> (k < pcount p)%nat -> turn (flat_at p qs k) (flat_at p qs (S k)) (flat_at p qs (S (S k))) == 0 ->
  (dbg = true -> Forall (fun e => no_min (l3 (ld (pl e)))) (pedges p)) -> exists r b, try_merge_edge dbg E p k = Ok (r, b).
Proof.
  intros H K Z Nm. pose proof (ok_n p qs H) as N. pose proof (ok_cvx p qs H) as Cx. unfold try_merge_edge. replace (check dbg (k <? pcount p)) with (Ok tt) by (unfold check; destruct (Nat.ltb_spec k (pcount p)); [rewrite andb_false_r; reflexivity|lia]). cbn [rbind].
  destruct (Nat.eqb_spec (pcount p) 0); [lia|]. cbv zeta.
  destruct (ok_edge_mod p qs k H) as (ea & Ha & Da & La & k1 & K1 & Ld1). destruct (ok_edge_mod p qs (S k) H) as (eb & Hb & Db & Lb & k2 & K2 & Ld2). rewrite Nat.mod_small in Ha by lia. unfold pedge_at. rewrite Ha, Hb. cbn [rbind].
  match goal with |- context [rbind (if dbg then ?x else Ok tt) _] => assert (X : (if dbg then x else Ok tt) = Ok tt) end.
  { destruct dbg; [|reflexivity]. specialize (Nm eq_refl). rewrite Forall_forall in Nm. destruct (v3_same_dir_total _ _ (Nm ea (nth_error_In _ _ Ha)) (Nm eb (nth_error_In _ _ Hb))) as (s & Es). rewrite Es. cbn [rbind].
    assert (Hs : s = true).
    { apply (v3_same_dir_spec _ _ _ Es). destruct (line_param _ _ (flat_at p qs (S (S k))) (c_edge _ _ _ Cx k) Z) as (t & Et). pose proof (forward _ _ _ _ _ Cx Et) as T1.
      destruct (po_drop p qs H) as [Dl Dn]. pose proof (ok_on_plane p qs H) as Op. apply (plane_between (pplane p) (pdrop p) _ _ _ t Dl Dn) in Et; [|apply Op|apply Op|apply Op].
      apply (scaled_direction _ _ (k2 * (t - 1) / k1)); [apply Qlt_shift_div_l; [exact K1|]; assert (0 < k2 * (t - 1)) by (apply Qmult_lt_0_compat; lra); lra|].
      clear - Ld1 Ld2 Et K1. destruct Ld1 as (A1 & A2 & A3), Ld2 as (B1 & B2 & B3), Et as (C1 & C2 & C3). unfold between, qadd, qscale, qsub, qp_eq in *. cbn [qx qy qz] in *. rewrite A1, A2, A3, B1, B2, B3, C1, C2, C3. repeat split; field; lra. }
    subst s. cbn [check andb negb rbind]. rewrite (proj2 (pl_coincident_spec (pl ea) (pv eb) _ Db)); [reflexivity|].
    destruct (edge_on_point (pl ea) _ _ 1 (conj La (ex_intro _ k1 (conj K1 Ld1)))) as (X1 & X2 & X3). unfold line_points, between, qadd, qscale, qsub, qcross, qp_eq in *. cbn [qx qy qz] in *. rewrite <- X1, <- X2, <- X3. repeat split; ring. }
  rewrite X. cbn [rbind]. destruct (ei_can_merge E (pd ea) (pd eb)); cbn [negb]; eauto.
Qed.
(** ** The joined list of vertices *)
Definition splice {B} (k m : nat) (l l' : list B) : list B := firstn k l ++ (skipn (S m) l' ++ firstn m l') ++ skipn (S k) l.
Lemma splice_rotate {B} k m (l l' : list B) : (k < length l)%nat -> (m < length l')%nat ->
  splice k m l l' = rotate (length l - S k) (firstn (length l - 1) (rotate (S k) l) ++ firstn (length l' - 1) (rotate (S m) l')).
Proof.
  intros K M. rewrite !firstn_rotate by assumption. rewrite <- app_assoc. replace (length l - S k)%nat with (length (skipn (S k) l)) by (rewrite skipn_length; reflexivity). rewrite rotate_app. unfold splice. rewrite <- !app_assoc. reflexivity.
Qed.
Lemma splice_length {B} k m (l l' : list B) : (k < length l)%nat -> (m < length l')%nat -> length (splice k m l l') = (length l + length l' - 2)%nat.
Proof. intros K M. unfold splice. rewrite !app_length, !firstn_length, !skipn_length. lia. Qed.
Lemma cyc_rotate {B} (x : B) k l i : (0 < length l)%nat -> (k <= length l)%nat -> cyc x (rotate k l) i = cyc x l (k + i).
Proof.
  intros L K. rewrite <- (cyc_mod x (rotate k l)) by (rewrite rotate_length; exact L). rewrite rotate_length. pose proof (Nat.mod_upper_bound i (length l) ltac:(lia)) as U. 
  pose proof (cyc_nth_error x (rotate k l) (i mod length l) ltac:(rewrite rotate_length; exact U)) as E1. rewrite rotate_nth in E1 by assumption. rewrite (cyc_nth_error_mod x) in E1 by exact L. injection E1 as <-.
  rewrite <- (cyc_mod x l (k + i)), <- (cyc_mod x l (k + i mod length l)) by exact L. f_equal. rewrite Nat.add_mod_idemp_r by lia. reflexivity.
Qed.
Lemma cyc_app {B} (x : B) l l' i : (i < length l + length l')%nat -> cyc x (l ++ l') i = if (i <? length l)%nat then nth i l x else nth (i - length l) l' x.
Proof. intros L. unfold cyc. rewrite app_length, Nat.mod_small by exact L. destruct (Nat.ltb_spec i (length l)); [apply app_nth1; assumption|apply app_nth2; assumption]. Qed.
Lemma nth_firstn' {B} (x : B) k l i : (i < k)%nat -> (k <= length l)%nat -> nth i (firstn k l) x = cyc x l i.
Proof. intros L K. unfold cyc. rewrite Nat.mod_small by lia. rewrite <- (firstn_skipn k l) at 2. rewrite app_nth1 by (rewrite firstn_length; lia). reflexivity. Qed.
Lemma splice_other {B} (x : B) k m l l' i : (k < length l)%nat -> (m < length l')%nat -> (3 <= length l)%nat -> (3 <= length l')%nat -> (i < length l' - 1)%nat -> cyc x (splice k m l l') (k + i) = cyc x l' (S m + i).
Proof.
  intros K M L L' I. rewrite splice_rotate by assumption. assert (E1 : length (firstn (length l - 1) (rotate (S k) l)) = (length l - 1)%nat) by (rewrite firstn_length, rotate_length; lia). assert (E2 : length (firstn (length l' - 1) (rotate (S m) l')) = (length l' - 1)%nat) by (rewrite firstn_length, rotate_length; lia).
  rewrite cyc_rotate by (rewrite app_length; lia). rewrite cyc_app by lia. destruct (Nat.ltb_spec (length l - S k + (k + i)) (length (firstn (length l - 1) (rotate (S k) l)))); [lia|]. rewrite nth_firstn' by (rewrite ?rotate_length; lia). rewrite cyc_rotate by lia. f_equal. lia.
Qed.
Lemma splice_mine {B} (x : B) k m l l' i : (k < length l)%nat -> (m < length l')%nat -> (3 <= length l)%nat -> (3 <= length l')%nat -> (i < length l - 1)%nat -> cyc x (splice k m l l') (k + (length l' - 1) + i) = cyc x l (S k + i).
Proof.
  intros K M L L' I. rewrite splice_rotate by assumption. assert (E1 : length (firstn (length l - 1) (rotate (S k) l)) = (length l - 1)%nat) by (rewrite firstn_length, rotate_length; lia). assert (E2 : length (firstn (length l' - 1) (rotate (S m) l')) = (length l' - 1)%nat) by (rewrite firstn_length, rotate_length; lia).
  rewrite cyc_rotate by (rewrite app_length; lia). set (j := firstn _ _ ++ _). assert (Lj : length j = (length l - 1 + (length l' - 1))%nat) by (unfold j; rewrite app_length; lia).
  replace (length l - S k + (k + (length l' - 1) + i))%nat with (i + length j)%nat by lia. rewrite cyc_period by lia. unfold j. rewrite cyc_app by lia. destruct (Nat.ltb_spec i (length (firstn (length l - 1) (rotate (S k) l)))); [|lia]. rewrite nth_firstn' by (rewrite ?rotate_length; lia). rewrite cyc_rotate by lia. f_equal.
Qed.
Lemma without_cyc {B} (x : B) j l i : (j < length l)%nat -> (j <= i)%nat -> (i < j + length l - 1)%nat -> cyc x (without j l) i = cyc x l (S i).
Proof.
  intros J I1 I2. assert (Lw : length (without j l) = (length l - 1)%nat) by (unfold without; rewrite app_length, firstn_length, skipn_length; lia).
  rewrite without_rotate by exact J. assert (E1 : length (firstn (length l - 1) (rotate (S j) l)) = (length l - 1)%nat) by (rewrite firstn_length, rotate_length; lia). rewrite cyc_rotate by lia.
  replace (length l - S j + i)%nat with (i - j + length (firstn (length l - 1) (rotate (S j) l)))%nat by lia. rewrite cyc_period by lia. unfold cyc at 1. rewrite E1, Nat.mod_small by lia. rewrite nth_firstn' by (rewrite ?rotate_length; lia). rewrite cyc_rotate by lia. f_equal. lia.
Qed.
(** ** The two ends of the common edge *)
Definition corner_ok {A} (p o : poly A) (qs os : list qpoint) (k m : nat) : Prop :=
  0 <= inject_Z (pnormal_drop p) * turn (flat_at p qs (k + pcount p - 1)) (flat_at p qs k) (flat_at o os (S (S m))) /\
  forall t, qp2_eq (flat_at o os (S (S m))) (lerp (flat_at p qs (k + pcount p - 1)) (flat_at p qs k) t) -> 1 <= t.
Definition corner_bad {A} (p o : poly A) (qs os : list qpoint) (k m : nat) : Prop :=
  inject_Z (pnormal_drop p) * turn (flat_at p qs (k + pcount p - 1)) (flat_at p qs k) (flat_at o os (S (S m))) < 0 \/
  (turn (flat_at p qs (k + pcount p - 1)) (flat_at p qs k) (flat_at p qs (S k)) == 0 /\ turn (flat_at o os m) (flat_at o os (S m)) (flat_at o os (S (S m))) == 0).
Section Corner.
Context {A : Type} (p o : poly A) (qs os : list qpoint) (k m nz : nat) (H : poly_ok p qs) (O : poly_ok o os) (Hp : pplane o = pplane p) (Hd : pdrop o = pdrop p).
Context (Ea : qp_eq (cyc o3 os (S m)) (cyc o3 qs k)) (Eb : qp_eq (cyc o3 os m) (cyc o3 qs (S k))).
Lemma flat_corner : qp2_eq (flat_at o os (S m)) (flat_at p qs k) /\ qp2_eq (flat_at o os m) (flat_at p qs (S k)).
Proof using All. unfold flat_at. rewrite Hd, Ea, Eb. split; reflexivity. Qed.
Lemma before_corner : S (k + pcount p - 1) = (k + pcount p)%nat /\ flat_at p qs (k + pcount p) = flat_at p qs k /\ cyc o3 qs (k + pcount p) = cyc o3 qs k.
Proof using All. pose proof (ok_n p qs H) as N. pose proof (ok_length p qs H) as L. split; [lia|]. split; [apply (c_period _ _ _ (ok_cvx p qs H))|]. rewrite <- L. apply cyc_period. lia. Qed.
Lemma corner_twist (Ne : ~ qcomp (cyc o3 qs k) nz == qcomp (cyc o3 qs (S k)) nz) :
  exists ep en, pedge_at p ((k + pcount p - 1) mod pcount p) = Ok ep /\ pedge_at o ((m + 1 + pcount o) mod pcount o) = Ok en /\
  match merge_twist (pdrop p) nz (pnormal_drop p) (ld (pl ep)) (ld (pl en)) with
  | Some t => corner_ok p o qs os k m /\ (t = 0%Z <-> turn (flat_at p qs (k + pcount p - 1)) (flat_at p qs k) (flat_at o os (S (S m))) == 0)
  | None => corner_bad p o qs os k m
  end.
Proof using All.
  destruct flat_corner as [Fa Fb]. destruct before_corner as (B1 & B2 & B3). pose proof (ok_cvx p qs H) as CP. pose proof (ok_cvx o os O) as CQ.
  assert (Sn : pnormal_drop o = pnormal_drop p) by (unfold pnormal_drop; rewrite Hp, Hd; reflexivity). rewrite Sn in CQ. pose proof (cvx_three _ _ _ CP) as N. pose proof (cvx_three _ _ _ CQ) as M. pose proof (ok_length o os O) as Lo.
  destruct (ok_edge_mod p qs (k + pcount p - 1) H) as (ep & E1 & _ & _ & k1 & K1 & D1). rewrite B1, B3 in D1.
  destruct (ok_edge_mod o os (m + 1 + pcount o) O) as (en & E2 & _ & _ & k2 & K2 & D2).
  assert (C1 : cyc o3 os (m + 1 + pcount o) = cyc o3 os (S m)). { rewrite <- Lo. rewrite cyc_period by lia. f_equal. lia. } assert (C2 : cyc o3 os (S (m + 1 + pcount o)) = cyc o3 os (S (S m))). { rewrite <- Lo. change (S (m + 1 + length os)) with (S (m + 1) + length os)%nat. rewrite cyc_period by lia. f_equal. lia. }
  rewrite C1, C2 in D2. exists ep, en. unfold pedge_at. rewrite E1, E2. split; [reflexivity|]. split; [reflexivity|].
  destruct (po_drop p qs H) as [Dl Dn]. pose proof (ok_on_plane p qs H) as Op. pose proof (ok_on_plane o os O) as Oo. rewrite Hp in Oo.
  assert (D2' : qp_eq (qpt (ld (pl en))) (qscale k2 (qsub (cyc o3 os (S (S m))) (cyc o3 qs k)))). { clear - D2 Ea. destruct D2 as (X & Y & Z), Ea as (X' & Y' & Z'). unfold qp_eq, qscale, qsub in *. cbn [qx qy qz] in *. rewrite <- X', <- Y', <- Z'. auto. }
  pose proof (twist_spec (pplane p) (pdrop p) nz (ld (pl ep)) (ld (pl en)) (cyc o3 qs (k + pcount p - 1)) (cyc o3 qs k) (cyc o3 qs (S k)) (cyc o3 os (S (S m))) k1 k2) as T. cbv zeta in T.
  change (qdrop (pdrop p) (cyc o3 qs (k + pcount p - 1))) with (flat_at p qs (k + pcount p - 1)) in T. change (qdrop (pdrop p) (cyc o3 qs k)) with (flat_at p qs k) in T. change (qdrop (pdrop p) (cyc o3 qs (S k))) with (flat_at p qs (S k)) in T.
  replace (qdrop (pdrop p) (cyc o3 os (S (S m)))) with (flat_at o os (S (S m))) in T by (unfold flat_at; rewrite Hd; reflexivity). change (comp (hn (pplane p)) (pdrop p)) with (pnormal_drop p) in T.
  assert (T' := fun a b => T Dl Dn (Op _) (Op _) (Op _) (Oo _) K1 K2 D1 D2' a b). clear T.
  assert (N1 : ~ qp2_eq (flat_at p qs (k + pcount p - 1)) (flat_at p qs k)). { pose proof (c_edge _ _ _ CP (k + pcount p - 1)) as X. rewrite B1, B2 in X. exact X. }
  assert (N2 : ~ qp2_eq (flat_at p qs k) (flat_at o os (S (S m)))). { rewrite <- Fa. apply (c_edge _ _ _ CQ). }
  assert (Z1 : 0 <= inject_Z (pnormal_drop p) * turn (flat_at p qs (k + pcount p - 1)) (flat_at p qs k) (flat_at p qs (S k))). { pose proof (c_triple _ _ _ CP (k + pcount p - 1) (k + pcount p) (S k + pcount p) ltac:(lia) ltac:(lia) ltac:(lia)) as X. rewrite B2, (c_period _ _ _ CP) in X. exact X. }
  assert (Z2 : turn (flat_at p qs (k + pcount p - 1)) (flat_at p qs k) (flat_at p qs (S k)) == 0 -> exists t, 1 < t /\ qp2_eq (flat_at p qs (S k)) (lerp (flat_at p qs (k + pcount p - 1)) (flat_at p qs k) t)).
  { intros Z. destruct (line_param _ _ _ N1 Z) as (t & Et). exists t. split; [|exact Et]. pose proof (forward _ _ _ (k + pcount p - 1) t CP) as X. rewrite B1, B2 in X. change (S (k + pcount p)) with (S k + pcount p)%nat in X. rewrite (c_period _ _ _ CP) in X. apply X. exact Et. }
  assert (Z3 : 0 <= inject_Z (pnormal_drop p) * turn (flat_at p qs (S k)) (flat_at p qs k) (flat_at o os (S (S m)))). { pose proof (c_triple _ _ _ CQ m (S m) (S (S m)) ltac:(lia) ltac:(lia) ltac:(lia)) as X. rewrite Fa, Fb in X. exact X. }
  specialize (T' N1 N2 Z1 Z2 Z3 Ne). destruct (merge_twist (pdrop p) nz (pnormal_drop p) (ld (pl ep)) (ld (pl en))) as [t|].
  - destruct T' as (X1 & X2 & X3). split; [split; assumption|exact X3].
  - destruct T' as [X|[X1 X2]]; [left; exact X|right]. split; [exact X1|]. rewrite Fa, Fb. exact X2.
Qed.
(** Where the corner turns the wrong way, the union is not convex. *)
Lemma reflex_corner : inject_Z (pnormal_drop p) * turn (flat_at p qs (k + pcount p - 1)) (flat_at p qs k) (flat_at o os (S (S m))) < 0 ->
  exists x y, polygon_point (pplane p) (pdrop p) qs x /\ polygon_point (pplane p) (pdrop p) os y /\ ~ polygon_point (pplane p) (pdrop p) qs (between x y (1 # 2)) /\ ~ polygon_point (pplane p) (pdrop p) os (between x y (1 # 2)).
Proof using All.
  intros Z. destruct flat_corner as [Fa Fb]. destruct before_corner as (B1 & B2 & B3). pose proof (ok_cvx p qs H) as CP. pose proof (ok_cvx o os O) as CQ.
  assert (Sn : pnormal_drop o = pnormal_drop p) by (unfold pnormal_drop; rewrite Hp, Hd; reflexivity). rewrite Sn in CQ. pose proof (cvx_three _ _ _ CP) as N. pose proof (cvx_three _ _ _ CQ) as M.
  assert (In1 : forall B (r : poly B) rs i, poly_ok r rs -> polygon_point (pplane r) (pdrop r) rs (cyc o3 rs i)).
  { clear. intros B r rs i R. apply (ok_points r rs R). split; [apply (ok_on_plane r rs R)|]. pose proof (ok_cvx r rs R) as C. intros j a b Ej Eb. pose proof (c_n _ _ _ C) as N. rewrite map_length, seq_length in Eb.
    assert (J : (j < pcount r)%nat). { assert (Ej2 : nth_error (map (flat_at r rs) (seq 0 (pcount r))) j <> None) by congruence. apply nth_error_Some in Ej2. rename Ej2 into Ej3. clear Ej. rename Ej3 into Ej. rewrite map_length, seq_length in Ej. exact Ej. } rewrite fmap_nth in Ej by exact J. rewrite fmap_nth in Eb by (apply Nat.mod_upper_bound; lia). injection Ej as <-. injection Eb as <-.
    rewrite (flat_mod r rs (S j) R). change (qdrop (pdrop r) (cyc o3 rs i)) with (flat_at r rs i). apply (edge_side _ _ _ C). }
  assert (Out : forall B (r : poly B) rs i q, poly_ok r rs -> polygon_point (pplane r) (pdrop r) rs q -> 0 <= inject_Z (pnormal_drop r) * turn (flat_at r rs i) (flat_at r rs (S i)) (qdrop (pdrop r) q)).
  { clear. intros B r rs i q R I. apply (ok_points r rs R) in I as [_ I]. pose proof (ok_cvx r rs R) as C. pose proof (c_n _ _ _ C) as N. rewrite <- (flat_mod r rs i R), <- (flat_mod r rs (S i) R). apply (I (i mod pcount r)%nat).
    - apply fmap_nth. apply Nat.mod_upper_bound. lia.
    - rewrite map_length, seq_length. rewrite mod_succ by lia. apply fmap_nth. apply Nat.mod_upper_bound. lia. }
  exists (cyc o3 qs (k + pcount p - 1)), (cyc o3 os (S (S m))). set (x := cyc o3 qs (k + pcount p - 1)) in *. set (y := cyc o3 os (S (S m))) in *.
  assert (Mid : qp2_eq (qdrop (pdrop p) (between x y (1 # 2))) (lerp (flat_at p qs (k + pcount p - 1)) (flat_at o os (S (S m))) (1 # 2))). { unfold flat_at. rewrite Hd. fold x y. unfold between, qadd, qscale, qsub, lerp, qp2_eq, qdrop. destruct (pdrop p) as [|[|d]]; cbn [qx qy qz qx2 qy2]; split; ring. }
  split; [apply In1; exact H|]. split; [rewrite <- Hp, <- Hd; apply In1; exact O|]. split; intros I.
  - apply (Out _ p qs (k + pcount p - 1)%nat _ H) in I. rewrite B1, B2, Mid in I. set (s := inject_Z (pnormal_drop p)) in *. set (U := flat_at p qs (k + pcount p - 1)) in *. set (A0 := flat_at p qs k) in *. set (C0 := flat_at o os (S (S m))) in *.
    assert (X : turn U A0 (lerp U C0 (1 # 2)) == (1 # 2) * turn U A0 C0) by (unfold turn, qcross2, qsub2, lerp; cbn [qx2 qy2]; ring). rewrite X in I. assert (X2 : s * ((1 # 2) * turn U A0 C0) == (1 # 2) * (s * turn U A0 C0)) by ring. lra.
  - rewrite <- Hp, <- Hd in I. apply (Out _ o os (S m) _ O) in I. rewrite Hd, Mid, Fa, Sn in I. set (s := inject_Z (pnormal_drop p)) in *. set (U := flat_at p qs (k + pcount p - 1)) in *. set (A0 := flat_at p qs k) in *. set (C0 := flat_at o os (S (S m))) in *.
    assert (X : turn A0 C0 (lerp U C0 (1 # 2)) == (1 # 2) * turn U A0 C0) by (unfold turn, qcross2, qsub2, lerp; cbn [qx2 qy2]; ring). rewrite X in I. assert (X2 : s * ((1 # 2) * turn U A0 C0) == (1 # 2) * (s * turn U A0 C0)) by ring. lra.
Qed.
End Corner.
(** ** Joining *)
Lemma splice_ok {A} (p o : poly A) qs os k m : poly_ok p qs -> poly_ok o os -> pplane o = pplane p -> pdrop o = pdrop p -> (k < pcount p)%nat -> (m < pcount o)%nat ->
  qp_eq (cyc o3 os (S m)) (cyc o3 qs k) -> qp_eq (cyc o3 os m) (cyc o3 qs (S k)) -> corner_ok p o qs os k m -> corner_ok o p os qs m k ->
  poly_ok (Poly (pplane p) (pdrop p) (splice k m (pedges p) (pedges o))) (splice k m qs os) /\
  forall q, polygon_point (pplane p) (pdrop p) (splice k m qs os) q <-> polygon_point (pplane p) (pdrop p) qs q \/ polygon_point (pplane p) (pdrop p) os q.
Proof.
  intros H O Hp Hd K M Ea Eb J1 J2. pose proof (ok_length p qs H) as Lq. pose proof (ok_length o os O) as Lo. pose proof (ok_cvx p qs H) as CP. pose proof (ok_cvx o os O) as CQ. pose proof (cvx_three _ _ _ CP) as N3. pose proof (cvx_three _ _ _ CQ) as M3.
  assert (Sn : pnormal_drop o = pnormal_drop p) by (unfold pnormal_drop; rewrite Hp, Hd; reflexivity).
  set (p2 := Poly (pplane p) (pdrop p) (rotate (S k) (pedges p))). set (o2 := Poly (pplane o) (pdrop o) (rotate (S m) (pedges o))).
  pose proof (poly_ok_rotate p qs (S k) H ltac:(lia)) as H2. pose proof (poly_ok_rotate o os (S m) O ltac:(lia)) as O2. fold p2 in H2. fold o2 in O2.
  assert (Cp : pcount p2 = pcount p) by (unfold pcount, p2; cbn [pedges]; apply rotate_length). assert (Co : pcount o2 = pcount o) by (unfold pcount, o2; cbn [pedges]; apply rotate_length).
  assert (Fp : forall i, flat_at p2 (rotate (S k) qs) i = flat_at p qs (S k + i)) by (intros i; apply rotated_at; [exact H|lia]). assert (Fo : forall i, flat_at o2 (rotate (S m) os) i = flat_at o os (S m + i)) by (intros i; apply rotated_at; [exact O|lia]).
  assert (Pp : forall i, flat_at p qs (i + pcount p) = flat_at p qs i) by exact (c_period _ _ _ CP). assert (Po : forall i, flat_at o os (i + pcount o) = flat_at o os i) by exact (c_period _ _ _ CQ).
  destruct (join_ok p2 o2 (rotate (S k) qs) (rotate (S m) os) H2 O2) as [R1 R2].
  - exact Hp.
  - exact Hd.
  - rewrite !cyc_rotate by lia. rewrite Cp. replace (S k + (pcount p - 1))%nat with (k + length qs)%nat by lia. rewrite cyc_period by lia. rewrite Nat.add_0_r. exact Ea.
  - rewrite !cyc_rotate by lia. rewrite Co. replace (S m + (pcount o - 1))%nat with (m + length os)%nat by lia. rewrite cyc_period by lia. rewrite Nat.add_0_r. exact Eb.
  - unfold joints. rewrite Cp, Co. split; split; rewrite ?Fp, ?Fo.
    + destruct J1 as [J1 _]. replace (S k + (pcount p - 2))%nat with (k + pcount p - 1)%nat by lia. replace (S k + (pcount p - 1))%nat with (k + pcount p)%nat by lia. rewrite Pp. replace (S m + 1)%nat with (S (S m)) by lia. exact J1.
    + destruct J1 as [_ J1]. intros t. rewrite ?Fp, ?Fo. replace (S k + (pcount p - 2))%nat with (k + pcount p - 1)%nat by lia. replace (S k + (pcount p - 1))%nat with (k + pcount p)%nat by lia. rewrite Pp. replace (S m + 1)%nat with (S (S m)) by lia. apply J1.
    + destruct J2 as [J2 _]. rewrite Sn in J2. replace (S m + (pcount o - 2))%nat with (m + pcount o - 1)%nat by lia. replace (S m + (pcount o - 1))%nat with (m + pcount o)%nat by lia. rewrite Po. replace (S k + 1)%nat with (S (S k)) by lia. exact J2.
    + destruct J2 as [_ J2]. intros t. rewrite ?Fp, ?Fo. replace (S m + (pcount o - 2))%nat with (m + pcount o - 1)%nat by lia. replace (S m + (pcount o - 1))%nat with (m + pcount o)%nat by lia. rewrite Po. replace (S k + 1)%nat with (S (S k)) by lia. apply J2.
  - rewrite Cp, Co in R1, R2. cbn [p2 o2 pplane pdrop pedges] in R1, R2. change (pcount p) with (length (pedges p)) in *. change (pcount o) with (length (pedges o)) in *.
    rewrite (splice_rotate k m qs os), (splice_rotate k m (pedges p) (pedges o)) by lia. rewrite Lq, Lo. set (je := firstn _ (rotate (S k) (pedges p)) ++ _) in *. set (jv := firstn _ (rotate (S k) qs) ++ _) in *. set (pj := Poly (pplane p) (pdrop p) je) in *.
    assert (Lj : (length (pedges p) - S k <= length jv)%nat). { unfold jv. rewrite app_length, !firstn_length, !rotate_length. lia. }
    split; [exact (poly_ok_rotate pj jv (length (pedges p) - S k) R1 Lj)|]. intros q. pose proof (polygon_rotate pj jv (length (pedges p) - S k) q R1 Lj) as PR. cbn [pj pplane pdrop] in PR. rewrite PR. rewrite R2. unfold p2. cbn [pplane pdrop].
    rewrite (polygon_rotate p qs (S k) q H) by lia. rewrite <- Hp, <- Hd. rewrite (polygon_rotate o os (S m) q O) by lia. reflexivity.
Qed.
Lemma without_In {B} j (l : list B) x : In x (without j l) -> In x l.
Proof. unfold without. intros I. apply in_app_or in I as [I|I]; [rewrite <- (firstn_skipn j l)|rewrite <- (firstn_skipn (S j) l)]; apply in_or_app; auto. Qed.
Lemma splice_In {B} k m (l l' : list B) x : In x (splice k m l l') -> In x l \/ In x l'.
Proof.
  unfold splice. intros I. apply in_app_or in I as [I|I]; [left; rewrite <- (firstn_skipn k l); apply in_or_app; auto|]. apply in_app_or in I as [I|I]; [right|left; rewrite <- (firstn_skipn (S k) l); apply in_or_app; auto].
  apply in_app_or in I as [I|I]; [rewrite <- (firstn_skipn (S m) l')|rewrite <- (firstn_skipn m l')]; apply in_or_app; auto.
Qed.
(** What remains after the two possible removals of a vertex. *)
Lemma finish_steps {A} dbg E (p o : poly A) qs os k m t1 t2 : poly_ok p qs -> poly_ok o os -> pplane o = pplane p -> pdrop o = pdrop p -> (k < pcount p)%nat -> (m < pcount o)%nat ->
  qp_eq (cyc o3 os (S m)) (cyc o3 qs k) -> qp_eq (cyc o3 os m) (cyc o3 qs (S k)) -> corner_ok p o qs os k m -> corner_ok o p os qs m k ->
  (t1 = 0%Z -> turn (flat_at p qs (k + pcount p - 1)) (flat_at p qs k) (flat_at o os (S (S m))) == 0) -> (t2 = 0%Z -> turn (flat_at o os (m + pcount o - 1)) (flat_at o os m) (flat_at p qs (S (S k))) == 0) ->
  let q := Poly (pplane p) (pdrop p) (splice k m (pedges p) (pedges o)) in let first := if (t1 =? 0)%Z then try_merge_edge dbg E q ((k + pcount q - 1) mod pcount q) else Ok (q, false) in
  ((dbg = true -> Forall (fun e => no_min (l3 (ld (pl e)))) (pedges q)) -> exists r1, first = Ok r1) /\
  forall r1, first = Ok r1 -> exists rs, poly_ok (fst r1) rs /\ pplane (fst r1) = pplane p /\ pdrop (fst r1) = pdrop p /\ (forall x, In x rs -> In x qs \/ In x os) /\
    (forall x, polygon_point (pplane p) (pdrop p) rs x <-> polygon_point (pplane p) (pdrop p) qs x \/ polygon_point (pplane p) (pdrop p) os x) /\
    let i := (k + pcount o - 2 - (if snd r1 then 1 else 0))%nat in (i < pcount (fst r1))%nat /\ (t2 = 0%Z -> turn (flat_at (fst r1) rs i) (flat_at (fst r1) rs (S i)) (flat_at (fst r1) rs (S (S i))) == 0).
Proof.
  intros H O Hp Hd K M Ea Eb J1 J2 Z1 Z2 q. pose proof (ok_length p qs H) as Lq. pose proof (ok_length o os O) as Lo. pose proof (ok_cvx p qs H) as CP. pose proof (ok_cvx o os O) as CQ. pose proof (cvx_three _ _ _ CP) as N3. pose proof (cvx_three _ _ _ CQ) as M3.
  destruct (splice_ok p o qs os k m H O Hp Hd K M Ea Eb J1 J2) as [Q1 Q2]. fold q in Q1. set (sq := splice k m qs os) in *. assert (Cq : pcount q = (pcount p + pcount o - 2)%nat) by (unfold pcount, q; cbn [pedges]; apply splice_length; assumption).
  assert (Ls : length sq = (pcount p + pcount o - 2)%nat) by (unfold sq; rewrite splice_length by lia; lia). set (n := (pcount p + pcount o - 2)%nat) in *.
  assert (Os : forall i, (i < pcount o - 1)%nat -> cyc o3 sq (k + i) = cyc o3 os (S m + i)) by (intros i I; apply splice_other; lia).
  assert (Ms : forall i, (i < pcount p - 1)%nat -> cyc o3 sq (k + (pcount o - 1) + i) = cyc o3 qs (S k + i)) by (intros i I; rewrite <- Lo; apply splice_mine; lia).
  assert (Per : forall i, cyc o3 sq (i + n) = cyc o3 sq i) by (intros i; rewrite <- Ls; apply cyc_period; lia).
  assert (A1 : t1 = 0%Z -> turn (qdrop (pdrop p) (cyc o3 sq (k + n - 1))) (qdrop (pdrop p) (cyc o3 sq (k + n))) (qdrop (pdrop p) (cyc o3 sq (k + n + 1))) == 0).
  { intros Z. specialize (Z1 Z). replace (k + n - 1)%nat with (k + (pcount o - 1) + (pcount p - 2))%nat by lia. rewrite Ms by lia. replace (k + n + 1)%nat with (k + 1 + n)%nat by lia. rewrite !Per. replace k with (k + 0)%nat at 2 by lia. rewrite !Os by lia. rewrite Nat.add_0_r, Ea.
    unfold flat_at in Z1. rewrite Hd in Z1. rewrite <- Z1. replace (S k + (pcount p - 2))%nat with (k + pcount p - 1)%nat by lia. replace (S m + 1)%nat with (S (S m)) by lia. reflexivity. }
  assert (A2 : t2 = 0%Z -> turn (qdrop (pdrop p) (cyc o3 sq (k + pcount o - 2))) (qdrop (pdrop p) (cyc o3 sq (k + pcount o - 1))) (qdrop (pdrop p) (cyc o3 sq (k + pcount o))) == 0).
  { intros Z. specialize (Z2 Z). replace (k + pcount o - 2)%nat with (k + (pcount o - 2))%nat by lia. rewrite Os by lia. replace (k + pcount o - 1)%nat with (k + (pcount o - 1) + 0)%nat by lia. rewrite Ms by lia. replace (k + pcount o)%nat with (k + (pcount o - 1) + 1)%nat by lia. rewrite Ms by lia. rewrite Nat.add_0_r, <- Eb.
    unfold flat_at in Z2. rewrite Hd in Z2. rewrite <- Z2. replace (S m + (pcount o - 2))%nat with (m + pcount o - 1)%nat by lia. replace (S k + 1)%nat with (S (S k)) by lia. reflexivity. }
  assert (First : forall r1, (if (t1 =? 0)%Z then try_merge_edge dbg E q ((k + pcount q - 1) mod pcount q) else Ok (q, false)) = Ok r1 -> exists rs, poly_ok (fst r1) rs /\ pplane (fst r1) = pplane p /\ pdrop (fst r1) = pdrop p /\
    (forall x, In x rs -> In x sq) /\ (forall x, polygon_point (pplane p) (pdrop p) rs x <-> polygon_point (pplane p) (pdrop p) sq x) /\ length rs = (n - (if snd r1 then 1 else 0))%nat /\
    forall i, (k < i)%nat -> (i < k + n)%nat -> cyc o3 rs (i - (if snd r1 then 1 else 0)) = cyc o3 sq i).
  { intros [r1 b1] Er. destruct (Z.eqb_spec t1 0) as [Et|Et].
    - assert (Kq : ((k + pcount q - 1) mod pcount q < pcount q)%nat) by (apply Nat.mod_upper_bound; lia).
      destruct (merge_edge_spec dbg E q sq ((k + pcount q - 1) mod pcount q) r1 b1 Q1 Kq) as (rs & R1 & R2 & R3 & R4 & R5 & _); [|exact Er|].
      + rewrite (flat_mod q sq _ Q1), (proj1 (flat_succ q sq _ Q1)), (proj2 (flat_succ q sq _ Q1)). unfold flat_at. cbn [q pdrop]. rewrite Cq. replace (S (k + n - 1)) with (k + n)%nat by lia. replace (S (k + n)) with (k + n + 1)%nat by lia. apply A1, Et.
      + exists rs. cbn [fst snd]. split; [exact R1|]. split; [exact R2|]. split; [exact R3|]. destruct b1.
        * assert (Ej : (S ((k + pcount q - 1) mod pcount q) mod pcount q = k)%nat). { rewrite mod_succ by lia. replace (S (k + pcount q - 1)) with (k + 1 * pcount q)%nat by lia. rewrite Nat.mod_add by lia. apply Nat.mod_small. lia. }
          rewrite Ej in R5. split; [intros x I; subst rs; apply (without_In _ _ _ I)|]. split; [exact R4|]. subst rs. split; [unfold without; rewrite app_length, firstn_length, skipn_length; lia|]. intros i I1 I2. rewrite without_cyc by lia. f_equal. lia.
        * destruct R5 as [-> ->]. split; [auto|]. split; [reflexivity|]. split; [lia|]. intros i _ _. f_equal. lia.
    - injection Er as <- <-. exists sq. cbn [fst snd]. split; [exact Q1|]. split; [reflexivity|]. split; [reflexivity|]. split; [auto|]. split; [reflexivity|]. split; [lia|]. intros i _ _. f_equal. lia. }
  cbv zeta. split.
  { intros Nm. destruct (Z.eqb_spec t1 0) as [Et|Et]; [|eauto]. assert (Kq : ((k + pcount q - 1) mod pcount q < pcount q)%nat) by (apply Nat.mod_upper_bound; lia).
    destruct (merge_edge_total dbg E q sq ((k + pcount q - 1) mod pcount q) Q1 Kq) as (r1 & b1 & E1); [|exact Nm|exists (r1, b1); exact E1].
    rewrite (flat_mod q sq _ Q1), (proj1 (flat_succ q sq _ Q1)), (proj2 (flat_succ q sq _ Q1)). unfold flat_at. cbn [q pdrop]. rewrite Cq. replace (S (k + n - 1)) with (k + n)%nat by lia. replace (S (k + n)) with (k + n + 1)%nat by lia. apply A1, Et. }
  intros r1 Er. destruct (First r1 Er) as (rs & R1 & R2 & R3 & R4 & R5 & R6 & R7). pose proof (ok_length _ _ R1) as Lr. exists rs. split; [exact R1|]. split; [exact R2|]. split; [exact R3|]. split; [intros x I; apply (splice_In k m), R4, I|]. split; [intros x; rewrite R5; apply Q2|]. split; [destruct (snd r1); lia|]. intros Et.
  unfold flat_at. rewrite R3. replace (S (S (k + pcount o - 2 - (if snd r1 then 1 else 0)))) with (k + pcount o - (if snd r1 then 1 else 0))%nat by (destruct (snd r1); lia). replace (S (k + pcount o - 2 - (if snd r1 then 1 else 0))) with (k + pcount o - 1 - (if snd r1 then 1 else 0))%nat by (destruct (snd r1); lia).
  rewrite !R7 by lia. apply A2, Et.
Qed.
Lemma finish {A} dbg E (p o : poly A) qs os k m t1 t2 r : poly_ok p qs -> poly_ok o os -> pplane o = pplane p -> pdrop o = pdrop p -> (k < pcount p)%nat -> (m < pcount o)%nat ->
  qp_eq (cyc o3 os (S m)) (cyc o3 qs k) -> qp_eq (cyc o3 os m) (cyc o3 qs (S k)) -> corner_ok p o qs os k m -> corner_ok o p os qs m k ->
  (t1 = 0%Z -> turn (flat_at p qs (k + pcount p - 1)) (flat_at p qs k) (flat_at o os (S (S m))) == 0) -> (t2 = 0%Z -> turn (flat_at o os (m + pcount o - 1)) (flat_at o os m) (flat_at p qs (S (S k))) == 0) ->
  let q := Poly (pplane p) (pdrop p) (splice k m (pedges p) (pedges o)) in
  (r <- (if (t1 =? 0)%Z then try_merge_edge dbg E q ((k + pcount q - 1) mod pcount q) else Ok (q, false)) ;;
        if (t2 =? 0)%Z then r2 <- try_merge_edge dbg E (fst r) (k + pcount o - 2 - (if snd r then 1 else 0)) ;; Ok (Some (fst r2))
        else Ok (Some (fst r))) = Ok r ->
  exists g rs, r = Some g /\ poly_ok g rs /\ pplane g = pplane p /\ pdrop g = pdrop p /\ (forall x, In x rs -> In x qs \/ In x os) /\
    forall q, polygon_point (pplane p) (pdrop p) rs q <-> polygon_point (pplane p) (pdrop p) qs q \/ polygon_point (pplane p) (pdrop p) os q.
Proof.
  intros H O Hp Hd K M Ea Eb J1 J2 Z1 Z2 q Eq. destruct (finish_steps dbg E p o qs os k m t1 t2 H O Hp Hd K M Ea Eb J1 J2 Z1 Z2) as [_ First]. fold q in First.
  destruct (if (t1 =? 0)%Z then _ else _) as [r1| | |]; try discriminate Eq. cbn [rbind] in Eq. destruct (First r1 eq_refl) as (rs & R1 & R2 & R3 & R4 & R5 & R6 & R7).
  destruct (Z.eqb_spec t2 0) as [Et|Et].
  - destruct (try_merge_edge dbg E (fst r1) (k + pcount o - 2 - (if snd r1 then 1 else 0))) as [[r2 b2]| | |] eqn:E2; try discriminate Eq. cbn [rbind fst] in Eq. injection Eq as <-.
    destruct (merge_edge_spec dbg E (fst r1) rs (k + pcount o - 2 - (if snd r1 then 1 else 0)) r2 b2 R1 R6 (R7 Et) E2) as (rs2 & S1 & S2 & S3 & S4 & S5 & _).
    exists r2, rs2. split; [reflexivity|]. split; [exact S1|]. split; [congruence|]. split; [congruence|]. split.
    + intros x I. apply R4. destruct b2; [subst rs2; apply (without_In _ _ _ I)|destruct S5 as [_ ->]; exact I].
    + intros x. rewrite R2, R3 in S4. rewrite S4. apply R5.
  - injection Eq as <-. exists (fst r1), rs. split; [reflexivity|]. split; [exact R1|]. split; [exact R2|]. split; [exact R3|]. split; [exact R4|exact R5].
Qed.
Lemma Forall_splice {B} (P : B -> Prop) k m l l' : Forall P l -> Forall P l' -> Forall P (splice k m l l').
Proof. rewrite !Forall_forall. intros H H' x I. apply splice_In in I as [I|I]; auto. Qed.
Lemma merge_edge_lines {A} dbg E (p : poly A) k r b (P : pline -> Prop) : try_merge_edge dbg E p k = Ok (r, b) -> Forall (fun e => P (pl e)) (pedges p) -> Forall (fun e => P (pl e)) (pedges r).
Proof.
  unfold try_merge_edge. intros Eq F. destruct (check dbg _) as [[]| | |]; try discriminate. cbn [rbind] in Eq. destruct (pcount p =? 0)%nat; [discriminate|]. cbv zeta in Eq. unfold pedge_at in Eq. destruct (nth_error (pedges p) k) as [ea|] eqn:Ha; [|discriminate]. cbn [rbind] in Eq. destruct (nth_error _ (S k mod pcount p)) as [eb|]; [|discriminate]. cbn [rbind] in Eq.
  match type of Eq with rbind ?x _ = _ => destruct x as [[]| | |]; try discriminate end. cbn [rbind] in Eq. destruct (ei_can_merge E (pd ea) (pd eb)); cbn [negb] in Eq; injection Eq as <- <-; [|exact F]. cbn [pedges]. set (es := firstn k (pedges p) ++ _).
  assert (Fe : Forall (fun e => P (pl e)) es). { unfold es. rewrite Forall_forall in *. intros x I. apply in_app_or in I as [I|[<-|I]]; [apply F; rewrite <- (firstn_skipn k (pedges p)); apply in_or_app; auto|cbn [pl]; apply F, (nth_error_In _ _ Ha)|apply F; rewrite <- (firstn_skipn (S k) (pedges p)); apply in_or_app; auto]. }
  rewrite Forall_forall in *. intros x I. apply Fe. exact (without_In (S k mod pcount p) es x I).
Qed.
Lemma finish_total {A} dbg E (p o : poly A) qs os k m t1 t2 : poly_ok p qs -> poly_ok o os -> pplane o = pplane p -> pdrop o = pdrop p -> (k < pcount p)%nat -> (m < pcount o)%nat ->
  qp_eq (cyc o3 os (S m)) (cyc o3 qs k) -> qp_eq (cyc o3 os m) (cyc o3 qs (S k)) -> corner_ok p o qs os k m -> corner_ok o p os qs m k ->
  (t1 = 0%Z -> turn (flat_at p qs (k + pcount p - 1)) (flat_at p qs k) (flat_at o os (S (S m))) == 0) -> (t2 = 0%Z -> turn (flat_at o os (m + pcount o - 1)) (flat_at o os m) (flat_at p qs (S (S k))) == 0) ->
  (dbg = true -> Forall (fun e => no_min (l3 (ld (pl e)))) (pedges p) /\ Forall (fun e => no_min (l3 (ld (pl e)))) (pedges o)) ->
  let q := Poly (pplane p) (pdrop p) (splice k m (pedges p) (pedges o)) in exists g,
  (r <- (if (t1 =? 0)%Z then try_merge_edge dbg E q ((k + pcount q - 1) mod pcount q) else Ok (q, false)) ;;
        if (t2 =? 0)%Z then r2 <- try_merge_edge dbg E (fst r) (k + pcount o - 2 - (if snd r then 1 else 0)) ;; Ok (Some (fst r2))
        else Ok (Some (fst r))) = Ok g.
Proof.
  intros H O Hp Hd K M Ea Eb J1 J2 Z1 Z2 Nm q. destruct (finish_steps dbg E p o qs os k m t1 t2 H O Hp Hd K M Ea Eb J1 J2 Z1 Z2) as [Ret First]. fold q in First, Ret.
  assert (Nq : dbg = true -> Forall (fun e => no_min (l3 (ld (pl e)))) (pedges q)) by (intros D; destruct (Nm D); apply Forall_splice; assumption).
  destruct (Ret Nq) as (r1 & E1). rewrite E1. cbn [rbind]. destruct (First r1 E1) as (rs & R1 & R2 & R3 & R4 & R5 & R6 & R7). destruct (Z.eqb_spec t2 0) as [Et|Et]; [|eauto].
  destruct (merge_edge_total dbg E (fst r1) rs (k + pcount o - 2 - (if snd r1 then 1 else 0)) R1 R6 (R7 Et)) as (r2 & b2 & E2); [|rewrite E2; cbn [rbind]; eauto].
  intros D. specialize (Nq D). destruct (Z.eqb_spec t1 0) as [Et1|Et1]; [|injection E1 as <-; exact Nq]. destruct r1 as [r1 b1]. exact (merge_edge_lines _ _ _ _ _ _ (fun l => no_min (l3 (ld l))) E1 Nq).
Qed.
Section Main.
Context {A : Type} (dbg : bool) (E : einfo A) (p o : poly A) (qs os : list qpoint) (nz k m : nat) (H : poly_ok p qs) (O : poly_ok o os) (K : (k < pcount p)%nat) (M : (m < pcount o)%nat) (Nz : (nz < 3)%nat).
Context (Ea : qp_eq (cyc o3 os (S m)) (cyc o3 qs k)) (Eb : qp_eq (cyc o3 os m) (cyc o3 qs (S k))) (Ne : ~ qcomp (cyc o3 qs k) nz == qcomp (cyc o3 qs (S k)) nz).
Let o1 := Poly (pplane p) (pdrop p) (pedges o).
Lemma normals_dropped : same_direction [x2 (drop_dim (hn (pplane p)) nz); y2 (drop_dim (hn (pplane p)) nz)] [x2 (drop_dim (hn (pplane o)) nz); y2 (drop_dim (hn (pplane o)) nz)] <-> same_direction (l3 (hn (pplane p))) (l3 (hn (pplane o))).
Proof using All.
  pose proof (ok_on_plane p qs H) as Op. pose proof (ok_on_plane o os O) as Oo. apply (same_plane _ _ (cyc o3 qs k) (cyc o3 qs (S k)) nz Nz (Op k) (Op (S k))); [| |exact Ne| |].
  - rewrite <- (side_eq _ _ _ Ea). apply Oo.
  - rewrite <- (side_eq _ _ _ Eb). apply Oo.
  - apply (comp_nonzero _ (pdrop p)). apply (po_drop p qs H).
  - apply (comp_nonzero _ (pdrop o)). apply (po_drop o os O).
Qed.
Lemma same_normals : same_direction (l3 (hn (pplane p))) (l3 (hn (pplane o))) -> poly_ok o1 os /\ forall q, polygon_point (pplane p) (pdrop p) os q <-> polygon_point (pplane o) (pdrop o) os q.
Proof using All.
  intros S0. pose proof (ok_on_plane p qs H) as Op. pose proof (ok_on_plane o os O) as Oo. destruct (po_drop p qs H) as [Dl Dn]. destruct (po_drop o os O) as [Dl' Dn'].
  destruct (same_plane (pplane p) (pplane o) (cyc o3 qs k) (cyc o3 qs (S k)) nz Nz (Op k) (Op (S k))) as [_ X]; [| |exact Ne| | |].
  - rewrite <- (side_eq _ _ _ Ea). apply Oo.
  - rewrite <- (side_eq _ _ _ Eb). apply Oo.
  - apply (comp_nonzero _ (pdrop p)). exact Dn.
  - apply (comp_nonzero _ (pdrop o)). exact Dn'.
  - destruct (X S0) as (r & R & S1 & S2). split; [apply (poly_ok_plane o os (pplane p) (pdrop p) r); assumption|].
    intros q. apply (polygon_point_plane (pplane p) (pplane o) (pdrop p) (pdrop o) os q r); try assumption. apply (po_plane o os O).
Qed.
Lemma shared_edge : exists a b a' b', pedge_at p k = Ok a /\ pedge_at o m = Ok b /\ pvertex o (S m mod pcount o) = Ok a' /\ pvertex p (S k mod pcount p) = Ok b' /\ comp (ld (pl a)) nz <> 0%Z /\ hp_eq (pv a) a' = true /\ hp_eq (pv b) b' = true.
Proof using All.
  destruct (ok_edge_mod p qs k H) as (a & Ha & Da & _ & k1 & K1 & Ld1). destruct (ok_edge_mod o os m O) as (b & Hb & Db & _). destruct (ok_edge_mod o os (S m) O) as (a' & Ha' & Da' & _). destruct (ok_edge_mod p qs (S k) H) as (b' & Hb' & Db' & _).
  rewrite Nat.mod_small in Ha by exact K. rewrite Nat.mod_small in Hb by exact M. exists a, b, (pv a'), (pv b'). unfold pvertex, pedge_at. rewrite Ha, Hb, Ha', Hb'. cbn [rbind]. repeat split.
  - intros X. pose proof (comp_scale _ _ _ nz Ld1) as Y. rewrite X, qcomp_sub in Y. change (inject_Z 0) with 0 in Y. symmetry in Y. apply Qmult_integral in Y as [Y|Y]; [lra|]. apply Ne. lra.
  - apply (hp_eq_spec _ _ _ _ Da Da'). symmetry. exact Ea.
  - apply (hp_eq_spec _ _ _ _ Db Db'). exact Eb.
Qed.
Lemma swapped_corner : ~ qcomp (cyc o3 os m) nz == qcomp (cyc o3 os (S m)) nz.
Proof using All. rewrite Ea, Eb. intros X. apply Ne. symmetry. exact X. Qed.
Lemma merge_spec x : try_merge dbg E p nz k o m = Ok x ->
  match x with
  | Some r => same_direction (l3 (hn (pplane p))) (l3 (hn (pplane o))) /\ exists rs, poly_ok r rs /\ pplane r = pplane p /\ pdrop r = pdrop p /\ (forall v, In v rs -> In v qs \/ In v os) /\
      forall q, polygon_point (pplane r) (pdrop r) rs q <-> polygon_point (pplane p) (pdrop p) qs q \/ polygon_point (pplane o) (pdrop o) os q
  | None => ~ same_direction (l3 (hn (pplane p))) (l3 (hn (pplane o))) \/ (poly_ok o1 os /\ (corner_bad p o1 qs os k m \/ corner_bad o1 p os qs m k))
  end.
Proof using All.
  intros Eq. unfold try_merge in Eq. cbv zeta in Eq. pose proof (ok_n p qs H) as N0. pose proof (ok_n o os O) as M0. destruct (Nat.eqb_spec (pcount p) 0); [lia|]. destruct (Nat.eqb_spec (pcount o) 0); [lia|]. cbn [orb] in Eq.
  destruct shared_edge as (a & b & a' & b' & G1 & G2 & G3 & G4 & G5 & G6 & G7). rewrite G1, G2 in Eq. cbn [rbind] in Eq. destruct (check dbg _) as [[]| | |]; try discriminate. cbn [rbind] in Eq. rewrite G3 in Eq. cbn [rbind] in Eq. destruct (check dbg _) as [[]| | |]; try discriminate. cbn [rbind] in Eq. rewrite G4 in Eq. cbn [rbind] in Eq. destruct (check dbg _) as [[]| | |]; try discriminate. cbn [rbind] in Eq.
  destruct (v2_same_dir _ _) as [same| | |] eqn:Sd; try discriminate. cbn [rbind] in Eq. apply v2_same_dir_spec in Sd. rewrite normals_dropped in Sd. destruct same; cbn [negb] in Eq; [|injection Eq as <-; left; intros X; apply Sd in X; discriminate].
  pose proof (proj1 Sd eq_refl) as S0. destruct (same_normals S0) as [O1 Pts]. assert (Co : pcount o1 = pcount o) by reflexivity.
  destruct (corner_twist p o1 qs os k m nz H O1 eq_refl eq_refl Ea Eb Ne) as (e1 & e2 & L1 & L2 & T1). destruct (corner_twist o1 p os qs m k nz O1 H eq_refl eq_refl) as (e3 & e4 & L3 & L4 & T2); [symmetry; exact Eb|symmetry; exact Ea|exact swapped_corner|].
  rewrite Co in L2, L3. change (pedge_at o1) with (pedge_at o) in L2, L3. rewrite L1, L2, L4, L3 in Eq. cbn [rbind] in Eq. change (pdrop o1) with (pdrop p) in T2. change (pnormal_drop o1) with (pnormal_drop p) in T2.
  destruct (merge_twist (pdrop p) nz (pnormal_drop p) (ld (pl e1)) (ld (pl e2))) as [t1|]; [|injection Eq as <-; right; auto]. destruct (merge_twist (pdrop p) nz (pnormal_drop p) (ld (pl e3)) (ld (pl e4))) as [t2|]; [|injection Eq as <-; right; auto].
  destruct T1 as [C1 Z1]. destruct T2 as [C2 Z2]. destruct (finish dbg E p o1 qs os k m t1 t2 x H O1 eq_refl eq_refl K M Ea Eb C1 C2 (proj1 Z1) (proj1 Z2)) as (g & rs & -> & R1 & R2 & R3 & R4 & R5); [exact Eq|].
  split; [exact S0|]. exists rs. split; [exact R1|]. split; [exact R2|]. split; [exact R3|]. split; [exact R4|]. intros q. rewrite R2, R3, R5, Pts. reflexivity.
Qed.
Lemma merge_total : no_min (l3 (hn (pplane p))) -> no_min (l3 (hn (pplane o))) -> (dbg = true -> Forall (fun e => no_min (l3 (ld (pl e)))) (pedges p) /\ Forall (fun e => no_min (l3 (ld (pl e)))) (pedges o)) ->
  exists x, try_merge dbg E p nz k o m = Ok x.
Proof using All.
  intros Np No Nm. unfold try_merge. cbv zeta. pose proof (ok_n p qs H) as N0. pose proof (ok_n o os O) as M0. destruct (Nat.eqb_spec (pcount p) 0); [lia|]. destruct (Nat.eqb_spec (pcount o) 0); [lia|]. cbn [orb].
  destruct shared_edge as (a & b & a' & b' & G1 & G2 & G3 & G4 & G5 & G6 & G7). rewrite G1, G2. cbn [rbind]. apply Z.eqb_neq in G5. rewrite G5. assert (Ck : check dbg true = Ok tt) by (unfold check; destruct dbg; reflexivity). cbn [negb]. rewrite Ck. cbn [rbind]. rewrite G3. cbn [rbind]. rewrite G6, Ck. cbn [rbind]. rewrite G4. cbn [rbind]. rewrite G7, Ck. cbn [rbind].
  assert (Nd : forall v, no_min (l3 v) -> no_min [x2 (drop_dim v nz); y2 (drop_dim v nz)]). { intros v X. unfold no_min, l3 in *. rewrite !Forall_cons_iff in X. destruct X as (X & Y & Z & _). unfold drop_dim. destruct nz as [|[|[|?]]]; [| | |lia]; cbn [Nat.add Nat.modulo Nat.divmod fst snd Nat.sub comp x2 y2]; repeat constructor; assumption. }
  destruct (v2_same_dir_total _ _ (Nd _ Np) (Nd _ No)) as (same & Sd). rewrite Sd. cbn [rbind]. apply v2_same_dir_spec in Sd. rewrite normals_dropped in Sd. destruct same; cbn [negb]; [|eauto].
  pose proof (proj1 Sd eq_refl) as S0. destruct (same_normals S0) as [O1 Pts]. assert (Co : pcount o1 = pcount o) by reflexivity.
  destruct (corner_twist p o1 qs os k m nz H O1 eq_refl eq_refl Ea Eb Ne) as (e1 & e2 & L1 & L2 & T1). destruct (corner_twist o1 p os qs m k nz O1 H eq_refl eq_refl) as (e3 & e4 & L3 & L4 & T2); [symmetry; exact Eb|symmetry; exact Ea|exact swapped_corner|].
  rewrite Co in L2, L3. change (pedge_at o1) with (pedge_at o) in L2, L3. rewrite L1, L2, L4, L3. cbn [rbind]. change (pdrop o1) with (pdrop p) in T2. change (pnormal_drop o1) with (pnormal_drop p) in T2.
  destruct (merge_twist (pdrop p) nz (pnormal_drop p) (ld (pl e1)) (ld (pl e2))) as [t1|]; [|eauto]. destruct (merge_twist (pdrop p) nz (pnormal_drop p) (ld (pl e3)) (ld (pl e4))) as [t2|]; [|eauto].
  destruct T1 as [C1 Z1]. destruct T2 as [C2 Z2].
  destruct (finish_total dbg E p o1 qs os k m t1 t2 H O1 eq_refl eq_refl K M Ea Eb C1 C2 (proj1 Z1) (proj1 Z2)) as (g & Eg); [exact Nm|]. exists g. exact Eg.
Qed.
End Main.
(** ** Reasons to refuse *)
Lemma straight_line {A} (p : poly A) qs i : poly_ok p qs -> turn (flat_at p qs (i + pcount p - 1)) (flat_at p qs i) (flat_at p qs (S i)) == 0 -> straight_at qs i.
Proof.
  intros H Z. pose proof (ok_cvx p qs H) as C. pose proof (ok_n p qs H) as N. pose proof (ok_length p qs H) as L. pose proof (c_edge _ _ _ C (i + pcount p - 1)) as D. replace (S (i + pcount p - 1)) with (i + pcount p)%nat in D by lia. rewrite (c_period _ _ _ C) in D.
  destruct (line_param _ _ _ D Z) as (t & Et). destruct (po_drop p qs H) as [Dl Dn]. unfold straight_at. rewrite L. exists t. apply (plane_between (pplane p) (pdrop p)); try assumption; apply (ok_on_plane p qs H).
Qed.
Lemma straight_line_next {A} (p : poly A) qs i : poly_ok p qs -> turn (flat_at p qs i) (flat_at p qs (S i)) (flat_at p qs (S (S i))) == 0 -> straight_at qs (S i).
Proof.
  intros H Z. apply (straight_line p qs (S i) H). pose proof (ok_n p qs H) as N. replace (S i + pcount p - 1)%nat with (i + pcount p)%nat by lia. rewrite (c_period _ _ _ (ok_cvx p qs H)). exact Z.
Qed.
Lemma refused {A} dbg E (p o : poly A) qs os nz k m : poly_ok p qs -> poly_ok o os -> (k < pcount p)%nat -> (m < pcount o)%nat -> (nz < 3)%nat -> qp_eq (cyc o3 os (S m)) (cyc o3 qs k) -> qp_eq (cyc o3 os m) (cyc o3 qs (S k)) ->
  ~ qcomp (cyc o3 qs k) nz == qcomp (cyc o3 qs (S k)) nz -> try_merge dbg E p nz k o m = Ok None ->
  ~ same_direction (l3 (hn (pplane p))) (l3 (hn (pplane o))) \/ not_convex (in_either p qs o os) \/
  (straight_at qs k /\ straight_at os (S m)) \/ (straight_at qs (S k) /\ straight_at os m).
Proof.
  intros H O K M N Ea Eb Ne Eq. destruct (v2_same_dir (drop_dim (hn (pplane p)) nz) (drop_dim (hn (pplane o)) nz)) as [b| | |] eqn:Sd.
  2,3,4: exfalso; unfold try_merge in Eq; cbv zeta in Eq; rewrite Sd in Eq; destruct (_ || _); [discriminate|]; repeat match type of Eq with rbind ?x _ = _ => destruct x as [?| | |]; try discriminate; cbn [rbind] in Eq end.
  apply v2_same_dir_spec in Sd. rewrite (normals_dropped dbg E p o qs os nz k m H O K M N Ea Eb Ne) in Sd. destruct b; [|left; intros X; apply Sd in X; discriminate]. pose proof (proj1 Sd eq_refl) as S0. right.
  destruct (same_normals dbg E p o qs os nz k m H O K M N Ea Eb Ne S0) as [_ Pts]. destruct (merge_spec dbg E p o qs os nz k m H O K M N Ea Eb Ne None Eq) as [X|(O1 & X)]; [contradiction|]. set (o1 := Poly (pplane p) (pdrop p) (pedges o)) in *.
  destruct X as [[X|[X Y]]|[X|[X Y]]].
  - left. destruct (reflex_corner p o1 qs os k m nz H O1 eq_refl eq_refl Ea Eb X) as (x & y & R1 & R2 & R3 & R4). exists x, y. unfold in_either. rewrite <- !Pts. tauto.
  - right. left. split; [exact (straight_line p qs k H X)|exact (straight_line_next o1 os m O1 Y)].
  - left. destruct (reflex_corner o1 p os qs m k nz O1 H eq_refl eq_refl (symmetry Eb) (symmetry Ea) X) as (x & y & R1 & R2 & R3 & R4). cbn [o1 pplane pdrop] in R1, R2, R3, R4. exists x, y. unfold in_either. rewrite <- !Pts. tauto.
  - right. right. split; [exact (straight_line_next p qs k H Y)|exact (straight_line o1 os m O1 X)].
Qed.
