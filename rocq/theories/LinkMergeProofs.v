(** Merging two edges that follow each other straight on. *)
From Coq Require Import List Bool Arith ZArith QArith Lqa Lia ZifyBool Morphisms Setoid.
From Verif Require Import BigUIntModel GeoModel GeoSpec GeoProofs GeoDirProofs GeoPluckerProofs AabbSpec CvxSpec CvxProofs CvxCapProofs CvxMergeProofs PolyModel PolySpec PolyOpsModel PolyBridgeProofs PolyInfoProofs PolyCapProofs PolyInvertProofs TriSpec BspGeoProofs MergeProofs MergeTopProofs LinkModel LinkSpec LinkProofs.
Import ListNotations.
Open Scope Q_scope.

(** ** Points of a polygon *)
Definition straight (x y z : qpoint) : Prop := exists t, 1 < t /\ qp_eq z (between x y t).
Lemma pts_length p : length (pts p) = pcount p.
Proof. apply map_length. Qed.
Lemma half_points p k h : half_at p k h -> (k < pcount p)%nat /\ f_from h = cyc o3 (pts p) k /\ f_to h = cyc o3 (pts p) (S k).
Proof.
  intros (e & e' & E & E' & ->). pose proof (nth_lt _ _ _ E) as L. split; [exact L|]. cbn [f_from f_to]. unfold cyc. rewrite pts_length. fold (pcount p) in E', L. unfold pts. split; symmetry; apply nth_error_nth; rewrite nth_error_map; [rewrite Nat.mod_small by exact L; rewrite E|rewrite E']; reflexivity.
Qed.
Lemma points_distinct {A} (p : poly A) qs x y : poly_ok p qs -> (x < pcount p)%nat -> (y < pcount p)%nat -> qp_eq (cyc o3 qs x) (cyc o3 qs y) -> x = y.
Proof.
  intros H X Y E. pose proof (ok_cvx p qs H) as C. assert (F : qp2_eq (flat_at p qs x) (flat_at p qs y)) by (unfold flat_at; rewrite E; reflexivity).
  destruct (lt_eq_lt_dec x y) as [[L|L]|L]; [|exact L|]; exfalso; [exact (cvx_distinct _ _ _ x y C L ltac:(lia) F)|exact (cvx_distinct _ _ _ y x C L ltac:(lia) (symmetry F))].
Qed.
Lemma points_two {A} (p : poly A) qs x : poly_ok p qs -> ~ qp_eq (cyc o3 qs x) (cyc o3 qs (S x)) /\ ~ qp_eq (cyc o3 qs x) (cyc o3 qs (S (S x))).
Proof.
  intros H. pose proof (ok_cvx p qs H) as C. pose proof (cvx_three _ _ _ C) as N. split; intros E; [apply (cvx_distinct _ _ _ x (S x) C)|apply (cvx_distinct _ _ _ x (S (S x)) C)]; try lia; unfold flat_at; rewrite E; reflexivity.
Qed.
Lemma turn_straight {A} (p : poly A) qs k : poly_ok p qs -> turn (flat_at p qs k) (flat_at p qs (S k)) (flat_at p qs (S (S k))) == 0 -> straight (cyc o3 qs k) (cyc o3 qs (S k)) (cyc o3 qs (S (S k))).
Proof.
  intros H Z. pose proof (ok_cvx p qs H) as Cx. destruct (line_param _ _ (flat_at p qs (S (S k))) (c_edge _ _ _ Cx k) Z) as (t & Et). pose proof (forward _ _ _ _ _ Cx Et) as T1. exists t. split; [exact T1|].
  destruct (po_drop p qs H) as [Dl Dn]. pose proof (ok_on_plane p qs H) as Op. exact (plane_between (pplane p) (pdrop p) _ _ _ t Dl Dn (Op k) (Op (S k)) (Op (S (S k))) Et).
Qed.
Lemma straight_turn x y z d : straight x y z -> turn (qdrop d x) (qdrop d y) (qdrop d z) == 0.
Proof.
  intros (t & _ & E). rewrite E. unfold turn, qcross2, qsub2, qdrop, between, qadd, qscale, qsub. destruct d as [|[|d]]; cbn [qcomp qx2 qy2 qx qy qz]; cbn; ring.
Qed.
Lemma straight_back x y z : straight x y z -> straight z y x.
Proof.
  intros (t & T & (X & Y & Z)). exists (t / (t - 1)). split; [apply Qlt_shift_div_l; lra|]. unfold between, qadd, qscale, qsub, qp_eq in *. cbn [qx qy qz] in *. rewrite X, Y, Z. repeat split; field; lra.
Qed.
Global Instance straight_proper : Proper (qp_eq ==> qp_eq ==> qp_eq ==> iff) straight.
Proof.
  assert (G : forall x x' y y' z z', qp_eq x x' -> qp_eq y y' -> qp_eq z z' -> straight x y z -> straight x' y' z').
  { intros x x' y y' z z' (X1 & X2 & X3) (Y1 & Y2 & Y3) (Z1 & Z2 & Z3) (t & T & (A & B & C)). exists t. split; [exact T|]. unfold between, qadd, qscale, qsub, qp_eq in *. cbn [qx qy qz] in *. rewrite <- X1, <- X2, <- X3, <- Y1, <- Y2, <- Y3, <- Z1, <- Z2, <- Z3. auto. }
  intros x x' X y y' Y z z' Z. split; apply G; auto; symmetry; assumption.
Qed.

(** ** Directions *)
Definition nonzero (v : vec3) : Prop := Exists (fun u => u <> 0%Z) (l3 v).
Lemma ok_nonzero {A} (p : poly A) qs k e : poly_ok p qs -> nth_error (pedges p) k = Some e -> nonzero (ld (pl e)).
Proof.
  intros H E. pose proof (nth_lt _ _ _ E) as L. destruct (ok_edge_mod p qs k H) as (e' & E' & _ & _ & (c & C & (X & Y & Z))). fold (pcount p) in L. rewrite Nat.mod_small in E' by exact L. assert (e' = e) by congruence. subst e'.
  pose proof (proj1 (points_two p qs k H)) as N. unfold nonzero, l3. destruct (Z.eq_dec (vx (ld (pl e))) 0) as [X0|X0]; [|constructor; exact X0]. destruct (Z.eq_dec (vy (ld (pl e))) 0) as [Y0|Y0]; [|apply Exists_cons_tl; constructor; exact Y0]. destruct (Z.eq_dec (vz (ld (pl e))) 0) as [Z0|Z0]; [|apply Exists_cons_tl, Exists_cons_tl; constructor; exact Z0].
  exfalso. apply N. unfold qpt, qscale, qsub in X, Y, Z. cbn [qx qy qz] in X, Y, Z. rewrite X0 in X. rewrite Y0 in Y. rewrite Z0 in Z. change (inject_Z 0) with 0 in X, Y, Z.
  assert (G : forall u v, 0 == c * (u - v) -> v == u) by (intros u v Q; symmetry in Q; apply Qmult_integral in Q as [Q|Q]; lra). repeat split; apply G; assumption.
Qed.
Lemma same_dir_sym u v : same_direction u v -> same_direction v u.
Proof. intros (a & b & A & B & C & D). exists b, a. repeat split; [lia..|congruence]. Qed.
Lemma same_dir_trans u v w : nonzero u -> nonzero v -> nonzero w -> same_direction (l3 u) (l3 v) -> same_direction (l3 v) (l3 w) -> same_direction (l3 u) (l3 w).
Proof.
  intros U V W A B. apply same_direction_nonzero in A as (a & b & A0 & B0 & M); [|reflexivity|exact U|exact V]. apply same_direction_nonzero in B as (c & d & C0 & D0 & M'); [|reflexivity|exact V|exact W].
  exists (a * c)%Z, (b * d)%Z. unfold l3 in *. cbn [map] in *. injection M as M1 M2 M3. injection M' as N1 N2 N3.
  assert (G : forall x y z, (a * x = b * y -> c * y = d * z -> a * c * x = b * d * z)%Z).
  { intros x y z X Y. transitivity (c * (a * x))%Z; [ring|]. rewrite X. transitivity (b * (c * y))%Z; [ring|]. rewrite Y. ring. }
  split; [nia|]. split; [nia|]. split; [nia|]. rewrite (G _ _ _ M1 N1), (G _ _ _ M2 N2), (G _ _ _ M3 N3). reflexivity.
Qed.
(** ** The assertions *)
Definition chk (a b : pedge cdata) : Prop := v3_same_dir (ld (pl a)) (ld (pl b)) = Ok true /\ pl_coincident (pl a) (pv b) = true.
Lemma straight_chk p k a b : poly_ok p (pts p) -> nth_error (pedges p) k = Some a -> nth_error (pedges p) (S k mod pcount p) = Some b -> straight (cyc o3 (pts p) k) (cyc o3 (pts p) (S k)) (cyc o3 (pts p) (S (S k))) ->
  no_min (l3 (ld (pl a))) -> no_min (l3 (ld (pl b))) -> chk a b /\ same_direction (l3 (ld (pl a))) (l3 (ld (pl b))).
Proof.
  intros H A B (t & T & Et) Na Nb. pose proof (nth_lt _ _ _ A) as L. fold (pcount p) in L.
  destruct (ok_edge_mod p _ k H) as (a' & A' & Da & La & k1 & K1 & Ld1). rewrite Nat.mod_small in A' by exact L. assert (a' = a) by congruence. subst a'.
  destruct (ok_edge_mod p _ (S k) H) as (b' & B' & Db & Lb & k2 & K2 & Ld2). assert (b' = b) by congruence. subst b'.
  assert (Sd : same_direction (l3 (ld (pl a))) (l3 (ld (pl b)))).
  { apply (scaled_direction _ _ (k2 * (t - 1) / k1)); [apply Qlt_shift_div_l; [exact K1|]; assert (0 < k2 * (t - 1)) by (apply Qmult_lt_0_compat; lra); lra|].
    clear - Ld1 Ld2 Et K1. destruct Ld1 as (A1 & A2 & A3), Ld2 as (B1 & B2 & B3), Et as (C1 & C2 & C3). unfold between, qadd, qscale, qsub, qp_eq in *. cbn [qx qy qz] in *. rewrite A1, A2, A3, B1, B2, B3, C1, C2, C3. repeat split; field; lra. }
  split; [|exact Sd]. split.
  - destruct (v3_same_dir_total _ _ Na Nb) as (s & Es). rewrite Es. f_equal. exact (proj2 (v3_same_dir_spec _ _ _ Es) Sd).
  - apply (pl_coincident_spec (pl a) (pv b) _ Db). destruct (edge_on_point (pl a) _ _ 1 (conj La (ex_intro _ k1 (conj K1 Ld1)))) as (X1 & X2 & X3). unfold line_points, between, qadd, qscale, qsub, qcross, qp_eq in *. cbn [qx qy qz] in *. rewrite <- X1, <- X2, <- X3. repeat split; ring.
Qed.
Lemma chk_run (dbg : bool) a b : chk a b -> (if dbg then s <- v3_same_dir (ld (pl a)) (ld (pl b)) ;; _ <- check dbg s ;; check dbg (pl_coincident (pl a) (pv b)) else Ok tt) = Ok tt.
Proof. intros [A B]. destruct dbg; [|reflexivity]. rewrite A, B. reflexivity. Qed.
Lemma check_true dbg b : b = true -> check dbg b = Ok tt.
Proof. intros ->. unfold check. rewrite andb_false_r. reflexivity. Qed.

(** ** Merging when the second edge has no partner *)
Lemma can_free fuel dbg st i k j m a b : once st -> at_ st i k a -> at_ st j m b -> chk a b -> c_partner (pd b) = None -> can_merge fuel dbg st (eid a) (eid b) = Ok true.
Proof.
  intros O A B C N. destruct fuel; cbn [can_merge]; rewrite (deref_at _ _ _ _ O A), (deref_at _ _ _ _ O B); cbn [rbind]; rewrite (chk_run dbg a b C); cbn [rbind]; rewrite N; destruct (c_partner (pd a)); reflexivity.
Qed.
Lemma merge_free fuel dbg st i k p a b : once st -> nth_error st i = Some p -> nth_error (pedges p) k = Some a -> nth_error (pedges p) (S k mod pcount p) = Some b -> chk a b -> c_partner (pd b) = None ->
  merge_edge fuel dbg st i k = Ok (erase st i (S k mod pcount p), true).
Proof.
  intros O P A B C N. pose proof (nth_lt _ _ _ A) as L. fold (pcount p) in L.
  assert (G : merge_edge fuel dbg st i k = (p <- poly_at st i ;; Ok (upd st i (set_edges p (firstn (S k mod pcount p) (pedges p) ++ skipn (S (S k mod pcount p)) (pedges p))), true))).
  { destruct fuel; cbn [merge_edge]; unfold poly_at, pedge_at; rewrite P; cbn [rbind]; rewrite check_true by (apply Nat.ltb_lt; exact L); cbn [rbind]; destruct (Nat.eqb_spec (pcount p) 0) as [Q|Q]; try lia; rewrite A, B; cbn [rbind];
    rewrite (can_free 1 dbg st i k i (S k mod pcount p) a b O); try assumption; try (exists p; auto); cbn [rbind negb]; rewrite N; cbn [rbind]; rewrite P; reflexivity. }
  rewrite G. unfold poly_at. rewrite P. cbn [rbind]. unfold erase. rewrite P. reflexivity.
Qed.

(** ** Merging together with the partners *)
Definition relink (a b pa pb : nat) (d : cdata) : cdata :=
  on_id b (set_partner None) (on_id pb (set_partner (Some a)) (on_id a (set_partner (Some pb)) (on_id pa (set_partner None) d))).
Lemma on_id_id x o d : c_id (on_id x (set_partner o) d) = c_id d.
Proof. unfold on_id. destruct (c_id d =? x); reflexivity. Qed.
Lemma relink_id a b pa pb d : c_id (relink a b pa pb d) = c_id d.
Proof. unfold relink. rewrite !on_id_id. reflexivity. Qed.
Lemma on_id_poly x o d : c_poly (on_id x (set_partner o) d) = c_poly d.
Proof. unfold on_id. destruct (c_id d =? x); reflexivity. Qed.
Lemma relink_poly a b pa pb d : c_poly (relink a b pa pb d) = c_poly d.
Proof. unfold relink. rewrite !on_id_poly. reflexivity. Qed.
Lemma relink_partner a b pa pb d : c_partner (relink a b pa pb d) =
  if c_id d =? b then None else if c_id d =? pb then Some a else if c_id d =? a then Some pb else if c_id d =? pa then None else c_partner d.
Proof.
  unfold relink, on_id. destruct (c_id d =? pa) eqn:E1; cbn [c_id set_partner]; destruct (c_id d =? a) eqn:E2; cbn [c_id set_partner]; destruct (c_id d =? pb) eqn:E3; cbn [c_id set_partner]; destruct (c_id d =? b) eqn:E4; reflexivity.
Qed.
Lemma eid_redata g e : (forall d, c_id (g d) = c_id d) -> eid (redata_edge g e) = eid e.
Proof. intros G. apply G. Qed.
Lemma chk_redata g a b : chk a b -> chk (redata_edge g a) (redata_edge g b).
Proof. intros H. exact H. Qed.
Section Linked.
Context (dbg : bool) (st : mesh) (i j k m : nat) (p o : poly cdata) (a b ea eb : pedge cdata).
Let n := (S k mod pcount p)%nat.
Let n' := (S m mod pcount o)%nat.
Context (O : once st) (P : nth_error st i = Some p) (Q : nth_error st j = Some o) (IJ : i <> j).
Context (A : nth_error (pedges p) k = Some a) (B : nth_error (pedges p) n = Some b) (EB : nth_error (pedges o) m = Some eb) (EA : nth_error (pedges o) n' = Some ea).
Context (Pa : c_partner (pd a) = Some (eid ea)) (Pb : c_partner (pd b) = Some (eid eb)) (Pe : c_partner (pd ea) = Some (eid a)) (Ca : c_poly (pd ea) = j) (Cb : c_poly (pd eb) = j).
Context (C1 : chk a b) (C2 : chk eb ea) (N3 : (3 <= pcount p)%nat) (M3 : (3 <= pcount o)%nat).
Let G := relink (eid a) (eid b) (eid ea) (eid eb).
Lemma linked_ids : eid a <> eid b /\ eid a <> eid ea /\ eid a <> eid eb /\ eid b <> eid ea /\ eid b <> eid eb /\ eid ea <> eid eb.
Proof using All.
  assert (X : forall i p k e j o m f, nth_error st i = Some p -> nth_error (pedges p) k = Some e -> nth_error st j = Some o -> nth_error (pedges o) m = Some f -> (i <> j \/ k <> m) -> eid e <> eid f).
  { intros i1 p1 k1 e1 j1 o1 m1 f1 H1 H2 H3 H4 H5 H6. destruct (at_unique st i1 k1 e1 j1 m1 f1 O) as (Y1 & Y2 & _); [exists p1; auto|exists o1; auto|exact H6|]. destruct H5; contradiction. }
  assert (Kn : k <> n). { pose proof (nth_lt _ _ _ A) as L. fold (pcount p) in L. unfold n. rewrite succ_mod by exact L. destruct (Nat.eqb_spec (S k) (pcount p)); lia. }
  assert (Mn : m <> n'). { pose proof (nth_lt _ _ _ EB) as L. fold (pcount o) in L. unfold n'. rewrite succ_mod by exact L. destruct (Nat.eqb_spec (S m) (pcount o)); lia. }
  repeat split.
  - exact (X i p k a i p n b P A P B (or_intror Kn)).
  - exact (X i p k a j o n' ea P A Q EA (or_introl IJ)).
  - exact (X i p k a j o m eb P A Q EB (or_introl IJ)).
  - exact (X i p n b j o n' ea P B Q EA (or_introl IJ)).
  - exact (X i p n b j o m eb P B Q EB (or_introl IJ)).
  - intros E. exact (X j o m eb j o n' ea Q EB Q EA (or_intror Mn) (eq_sym E)).
Qed.
Lemma at_a : at_ st i k a. Proof using A P. exists p; auto. Qed.
Lemma at_b : at_ st i n b. Proof using B P. exists p; auto. Qed.
Lemma at_ea : at_ st j n' ea. Proof using EA Q. exists o; auto. Qed.
Lemma at_eb : at_ st j m eb. Proof using EB Q. exists o; auto. Qed.
Lemma can_linked : can_merge 1 dbg st (eid a) (eid b) = Ok true.
Proof using All.
  cbn [can_merge]. rewrite (deref_at _ _ _ _ O at_a), (deref_at _ _ _ _ O at_b). cbn [rbind]. rewrite (chk_run dbg a b C1). cbn [rbind]. rewrite Pa, Pb, (deref_at _ _ _ _ O at_ea), (deref_at _ _ _ _ O at_eb). cbn [rbind]. rewrite Ca, Cb, Nat.eqb_refl. cbn [negb].
  rewrite (index_of_at _ _ _ _ O at_ea Ca), (index_of_at _ _ _ _ O at_eb Cb). cbn [rbind]. rewrite Pe, check_true by apply Nat.eqb_refl. cbn [rbind]. rewrite (modify_redata st (eid ea) _ j n' ea O at_ea eq_refl). cbn [rbind].
  set (g := on_id (eid ea) (set_partner None)). assert (Gi : forall d, c_id (g d) = c_id d) by (intros d; apply on_id_id).
  pose proof (can_free 0 dbg (redata g st) j m j n' (redata_edge g eb) (redata_edge g ea)) as X. rewrite !(eid_redata g) in X by exact Gi. apply X.
  - apply redata_once; assumption.
  - apply redata_at. exists eb. split; [exact at_eb|reflexivity].
  - apply redata_at. exists ea. split; [exact at_ea|reflexivity].
  - apply chk_redata. exact C2.
  - unfold g, redata_edge, on_id. cbn [pd]. change (c_id (pd ea)) with (eid ea). rewrite Nat.eqb_refl. reflexivity.
Qed.
Lemma relink_run : (st <- modify st (eid ea) (set_partner None) ;; st <- modify st (eid a) (set_partner (Some (eid eb))) ;; st <- modify st (eid eb) (set_partner (Some (eid a))) ;; modify st (eid b) (set_partner None)) = Ok (redata G st).
Proof using All.
  rewrite (modify_redata st (eid ea) _ j n' ea O at_ea eq_refl). cbn [rbind].
  assert (St : forall g x f i0 k0 e0, (forall d, c_id (g d) = c_id d) -> at_ st i0 k0 e0 -> eid e0 = x -> modify (redata g st) x f = Ok (redata (fun d => on_id x f (g d)) st)).
  { intros g x f i0 k0 e0 Gi At Ex. rewrite (modify_redata (redata g st) x f i0 k0 (redata_edge g e0)); [rewrite redata_redata; reflexivity|apply redata_once; assumption|apply redata_at; exists e0; auto|rewrite eid_redata by exact Gi; exact Ex]. }
  rewrite (St _ (eid a) _ i k a); [cbn [rbind]|intros d; apply on_id_id|exact at_a|reflexivity].
  rewrite (St _ (eid eb) _ j m eb); [cbn [rbind]|intros d; rewrite !on_id_id; reflexivity|exact at_eb|reflexivity].
  rewrite (St _ (eid b) _ i n b); [reflexivity|intros d; rewrite !on_id_id; reflexivity|exact at_b|reflexivity].
Qed.
Lemma merge_linked : merge_edge 1 dbg st i k = Ok (erase (erase (redata G st) j n') i n, true).
Proof using All.
  pose proof (nth_lt _ _ _ A) as L. fold (pcount p) in L. destruct linked_ids as (D1 & D2 & D3 & D4 & D5 & D6). assert (Gi : forall d, c_id (G d) = c_id d) by (intros d; apply relink_id).
  cbn [merge_edge]. unfold poly_at at 1. rewrite P. cbn [rbind]. rewrite check_true by (apply Nat.ltb_lt; exact L). cbn [rbind]. destruct (Nat.eqb_spec (pcount p) 0) as [Z|Z]; [lia|]. unfold pedge_at at 1 2. rewrite A. cbn [rbind]. fold n. rewrite B. cbn [rbind].
  rewrite can_linked. cbn [rbind negb]. rewrite Pa, Pb.
  assert (Once : once (redata G st)) by (apply redata_once; assumption).
  assert (In_ : merge_edge 0 dbg (redata G st) j m = Ok (erase (redata G st) j n', true)).
  { pose proof (merge_free 0 dbg (redata G st) j m (redata_poly G o) (redata_edge G eb) (redata_edge G ea)) as X. assert (Pc : pcount (redata_poly G o) = pcount o) by (unfold pcount, redata_poly; cbn [set_edges pedges]; apply map_length). rewrite Pc in X. fold n' in X. apply X.
    - exact Once.
    - rewrite redata_nth, Q. reflexivity.
    - cbn [redata_poly set_edges pedges]. rewrite nth_error_map, EB. reflexivity.
    - cbn [redata_poly set_edges pedges]. rewrite nth_error_map, EA. reflexivity.
    - exact C2.
    - unfold redata_edge. cbn [pd]. unfold G. rewrite relink_partner. change (c_id (pd ea)) with (eid ea). repeat match goal with |- context [Nat.eqb ?x ?y] => destruct (Nat.eqb_spec x y) end; congruence. }
  pose proof relink_run as R.
  assert (Idx : index_of (redata G st) (eid eb) = Ok (j, m)).
  { pose proof (index_of_at (redata G st) j m (redata_edge G eb) Once) as X. rewrite (eid_redata G) in X by exact Gi. apply X; [apply redata_at; exists eb; split; [exact at_eb|reflexivity]|]. unfold redata_edge. cbn [pd]. unfold G. rewrite relink_poly. exact Cb. }
  destruct (modify st (eid ea) (set_partner None)) as [s1| | |]; try discriminate R. cbn [rbind] in R |- *. destruct (modify s1 (eid a) _) as [s2| | |]; try discriminate R. cbn [rbind] in R |- *. destruct (modify s2 (eid eb) _) as [s3| | |]; try discriminate R. cbn [rbind] in R |- *.
  rewrite R. cbn [rbind]. rewrite Idx. cbn [rbind fst snd]. change (merge_edge 0 dbg (redata G st) j m) with (merge_edge 0 dbg (redata G st) j m) in In_. match goal with |- context [rbind ?x _] => change x with (merge_edge 0 dbg (redata G st) j m) end. rewrite In_. cbn [rbind fst snd]. rewrite check_true by reflexivity. cbn [rbind].
  assert (Oj : nth_error (redata G st) j = Some (redata_poly G o)) by (rewrite redata_nth, Q; reflexivity).
  assert (Ni : nth_error (erase (redata G st) j n') i = Some (redata_poly G p)) by (rewrite (erase_nth _ _ _ _ _ Oj); destruct (Nat.eqb_spec i j); [contradiction|]; rewrite redata_nth, P; reflexivity).
  unfold poly_at. rewrite Ni. cbn [rbind]. generalize dependent (erase (redata G st) j n'). intros s4 _ Ni. unfold erase. rewrite Ni. reflexivity.
Qed.
End Linked.
