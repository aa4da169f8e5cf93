(** Proofs about splitting an edge of a mesh. *)
From Coq Require Import List Bool Arith ZArith QArith Lqa Lia ZifyBool.
From Verif Require Import BigUIntModel GeoModel GeoSpec CvxSpec CvxProofs CvxSeqProofs CvxCapProofs PolyModel PolyOpsModel PolySpec TriSpec PolyBridgeProofs PolyInfoProofs PolyCapProofs PolyTopProofs PolyValidProofs GeoProofs MergeSpec PolyEditProofs CvxMergeProofs MergeProofs MergeTopProofs LinkModel LinkSpec LinkProofs LinkMergeProofs LinkGoodProofs LinkPolyProofs TidySpec TidyProofs SplitModel SplitSpec.
From Verif Require TriTileProofs ConnModel ConnSpec.
Import ListNotations.
Open Scope nat_scope.

(** ** The polygon with the new edge *)
Lemma upd_upd {B} (l : list B) i x y : i < length l -> nth_error l i = Some y -> upd (upd l i x) i y = l.
Proof.
  intros L N. unfold upd. apply nth_error_split in N as (a & b & -> & <-).
  assert (Fa : forall c : list B, firstn (length a) (a ++ c) = a) by (intros c; rewrite firstn_app, Nat.sub_diag, firstn_all; cbn [firstn]; apply app_nil_r).
  assert (Sa : forall z (c : list B), skipn (S (length a)) (a ++ z :: c) = c) by (intros z c; rewrite skipn_app, skipn_all2 by lia; replace (S (length a) - length a) with 1 by lia; reflexivity).
  rewrite !Fa, !Sa. reflexivity.
Qed.
Lemma insert_without {B} k (x : B) l : k < length l -> firstn (S k) (insert_after k x l) ++ skipn (S (S k)) (insert_after k x l) = l.
Proof.
  intros K. unfold insert_after. assert (F : length (firstn (S k) l) = S k) by (rewrite firstn_length; lia). rewrite <- (firstn_skipn (S k) l) at 5. generalize dependent (firstn (S k) l). intros w F. rewrite <- F.
  rewrite firstn_app, Nat.sub_diag, firstn_O, app_nil_r, firstn_all. f_equal. rewrite skipn_app, skipn_all2 by lia. replace (S (length w) - length w) with 1 by lia. reflexivity.
Qed.
Lemma insert_nth {B} k (x : B) l j : k < length l -> nth_error (insert_after k x l) j = if j <=? k then nth_error l j else if j =? S k then Some x else nth_error l (j - 1).
Proof.
  intros K. unfold insert_after. assert (F : length (firstn (S k) l) = S k) by (rewrite firstn_length; lia). destruct (Nat.leb_spec j k) as [J|J].
  - rewrite nth_error_app1 by lia. rewrite <- (firstn_skipn (S k) l) at 2. rewrite nth_error_app1 by lia. reflexivity.
  - rewrite nth_error_app2 by lia. rewrite F. destruct (Nat.eqb_spec j (S k)) as [->|J']; [rewrite Nat.sub_diag; reflexivity|].
    replace (j - S k) with (S (j - 1 - S k)) by lia. cbn [nth_error]. rewrite <- (firstn_skipn (S k) l) at 2. rewrite nth_error_app2 by lia. rewrite F. reflexivity.
Qed.
Lemma insert_length {B} k (x : B) l : k < length l -> length (insert_after k x l) = S (length l).
Proof. intros K. unfold insert_after. rewrite app_length, firstn_length. cbn [length]. rewrite skipn_length. lia. Qed.
Lemma insert_map {B C} (f : B -> C) k x l : map f (insert_after k x l) = insert_after k (f x) (map f l).
Proof. unfold insert_after. rewrite map_app. cbn [map]. rewrite firstn_map, skipn_map. reflexivity. Qed.
Lemma insert_in {B} k (x : B) l y : In y (insert_after k x l) -> y = x \/ In y l.
Proof. unfold insert_after. rewrite in_app_iff. cbn [In]. intros [I|[I|I]]; [right|left|right]; [rewrite <- (firstn_skipn (S k) l); apply in_or_app; auto|auto|rewrite <- (firstn_skipn (S k) l); apply in_or_app; auto]. Qed.
Lemma insert_nodup {B} k (x : B) l : NoDup l -> ~ In x l -> NoDup (insert_after k x l).
Proof.
  intros N I. unfold insert_after. apply NoDup_Add with (a := x) (l := firstn (S k) l ++ skipn (S k) l); [apply Add_app|]. rewrite firstn_skipn. auto.
Qed.

(** ** Inserting the edge *)
Section Insert.
Context (st : mesh) (M : polys_ok st) (i k : nat) (p : poly cdata) (e e' : pedge cdata) (new : nat) (m : hpoint3).
Context (P : nth_error st i = Some p) (E : nth_error (pedges p) k = Some e) (E' : nth_error (pedges p) (S k mod length (pedges p)) = Some e') (F : fresh st new).
Let h := half_of e e'.
Let n := edge_source (split_info new) e m.
Let r := set_edges p (insert_after k n (pedges p)).
Let st1 := upd st i r.
Lemma ins_k : k < length (pedges p). Proof. exact (nth_lt _ _ _ E). Qed.
Lemma ins_i : i < length st. Proof. exact (nth_lt _ _ _ P). Qed.
Lemma ins_half : half_in st i h. Proof. exists p, k. split; [exact P|]. exists e, e'. auto. Qed.
Lemma ins_poly : poly_ok p (pts p).
Proof. destruct (ps_convex st M i p P) as [Z|H]; [rewrite Z in E; destruct k; discriminate|exact H]. Qed.
Lemma ins_nth j : nth_error st1 j = if j =? i then Some r else nth_error st j.
Proof. apply upd_nth. exact ins_i. Qed.
Lemma ins_ids : ids r = insert_after k new (ids p).
Proof. unfold ids, r. cbn [set_edges pedges]. rewrite insert_map. reflexivity. Qed.
Lemma id_half j q x : nth_error st j = Some q -> In x (ids q) -> exists g, half_in st j g /\ f_id g = x.
Proof.
  intros Q I. unfold ids in I. apply in_map_iff in I as (f & <- & I). apply In_nth_error in I as (l & L). destruct (at_half_in st j l f) as (q' & f' & Q' & F1 & F2 & F3 & F4); [exists q; auto|]. exists (half_of f f'). auto.
Qed.
Lemma ins_once : once st1.
Proof.
  destruct (ps_once st M) as [A B]. assert (Nw : forall j q, nth_error st j = Some q -> ~ In new (ids q)) by (intros j q Q I; destruct (id_half j q new Q I) as (g & G & Gi); exact (F j g G Gi)). split.
  - intros j q Q. rewrite ins_nth in Q. destruct (Nat.eqb_spec j i) as [->|N]; [injection Q as <-; rewrite ins_ids; apply insert_nodup; [exact (A i p P)|exact (Nw i p P)]|exact (A j q Q)].
  - intros j l q s x N Q R I J. rewrite ins_nth in Q, R. destruct (Nat.eqb_spec j i) as [->|N1], (Nat.eqb_spec l i) as [->|N2]; try lia.
    + injection Q as <-. rewrite ins_ids in I. destruct (insert_in _ _ _ _ I) as [->|I']; [exact (Nw l s R J)|exact (B i l p s x N P R I' J)].
    + injection R as <-. rewrite ins_ids in J. destruct (insert_in _ _ _ _ J) as [->|J']; [exact (Nw j q Q I)|exact (B j i q p x N Q P I J')].
    + exact (B j l q s x N Q R I J).
Qed.
Lemma ins_first : half_at r k (part h (f_id h) (f_partner h) (f_from h) (hp_point m)).
Proof.
  exists e, n. unfold r. cbn [set_edges pedges]. pose proof ins_k as K. rewrite (insert_length k n _ K). rewrite !insert_nth by exact K. rewrite Nat.mod_small by lia. rewrite Nat.leb_refl, Nat.eqb_refl. destruct (Nat.leb_spec (S k) k); [lia|]. auto.
Qed.
Lemma ins_second : half_at r (S k) (part h new None (hp_point m) (f_to h)).
Proof.
  exists n, e'. unfold r. cbn [set_edges pedges]. pose proof ins_k as K. rewrite (insert_length k n _ K). rewrite !insert_nth by exact K. rewrite Nat.eqb_refl. destruct (Nat.leb_spec (S k) k); [lia|]. split; [reflexivity|]. split; [|reflexivity].
  rewrite <- E'. rewrite (succ_mod k _ K), (succ_mod (S k) (S (length (pedges p))) ltac:(lia)). destruct (Nat.eqb_spec (S k) (length (pedges p))) as [X|X], (Nat.eqb_spec (S (S k)) (S (length (pedges p)))) as [Y|Y]; try lia; try reflexivity.
  destruct (Nat.leb_spec (S (S k)) k); [lia|]. destruct (Nat.eqb_spec (S (S k)) (S k)); [lia|]. reflexivity.
Qed.
Lemma ins_erase : erase st1 i (S k) = st.
Proof.
  unfold erase. rewrite ins_nth, Nat.eqb_refl. change (pedges r) with (insert_after k n (pedges p)). rewrite (insert_without k n _ ins_k).
  assert (Rp : set_edges r (pedges p) = p) by (unfold r, set_edges; cbn [pplane pdrop]; clear; destruct p; reflexivity). rewrite Rp. apply upd_upd; [exact ins_i|exact P].
Qed.
Lemma ins_in j g : half_in st1 j g <-> (j = i /\ (g = part h (f_id h) (f_partner h) (f_from h) (hp_point m) \/ g = part h new None (hp_point m) (f_to h))) \/ (half_in st j g /\ f_id g <> f_id h).
Proof.
  pose proof ins_once as O. assert (R : nth_error st1 i = Some r) by (rewrite ins_nth, Nat.eqb_refl; reflexivity).
  pose proof (ok_length p (pts p) ins_poly) as Ln. pose proof (cvx_three _ _ _ (ok_cvx p (pts p) ins_poly)) as N3.
  assert (L3 : length (pedges r) >= 3) by (unfold r; cbn [set_edges pedges]; rewrite (insert_length k n _ ins_k); unfold pcount in *; lia).
  assert (Sk : S k = S k mod length (pedges r)) by (unfold r; cbn [set_edges pedges]; rewrite (insert_length k n _ ins_k), Nat.mod_small; [reflexivity|pose proof ins_k; lia]).
  pose proof (half_in_erase st1 i r k (S k) _ _ O R L3 Sk ins_first ins_second) as H. rewrite ins_erase in H. pose proof (H j g) as Hg. cbn [part f_id] in Hg.
  assert (I1 : half_in st1 i (part h (f_id h) (f_partner h) (f_from h) (hp_point m))) by (exists r, k; split; [exact R|exact ins_first]).
  assert (I2 : half_in st1 i (part h new None (hp_point m) (f_to h))) by (exists r, (S k); split; [exact R|exact ins_second]).
  split.
  - intros G. destruct (Nat.eq_dec (f_id g) (f_id h)) as [X|X]; [|destruct (Nat.eq_dec (f_id g) new) as [Y|Y]].
    + left. destruct (half_unique st1 j i g _ O G I1 X) as [-> ->]. auto.
    + left. destruct (half_unique st1 j i g _ O G I2 Y) as [-> ->]. auto.
    + right. split; [|exact X]. apply Hg. right. auto.
  - intros [[-> [->| ->]]|[G X]]; [exact I1|exact I2|]. apply Hg in G. destruct G as [[-> ->]|(G & _)]; [|exact G]. exfalso. apply X. reflexivity.
Qed.
End Insert.

(** ** What stays *)
Lemma views_shows st st' : views st st' -> forall l q, shows st' l q <-> shows st l q.
Proof.
  intros [L V] l q. split; intros (p & P & N & X).
  - destruct (nth_error st l) as [p0|] eqn:P0; [|apply nth_error_None in P0; pose proof (nth_lt _ _ _ P); lia]. destruct (V l p0 p P0 P) as (A & B & C & D). exists p0. split; [exact P0|]. split; [tauto|]. rewrite A, B in X. apply D. exact X.
  - destruct (nth_error st' l) as [p0|] eqn:P0; [|apply nth_error_None in P0; pose proof (nth_lt _ _ _ P); lia]. destruct (V l p p0 P P0) as (A & B & C & D). exists p0. split; [exact P0|]. split; [tauto|]. rewrite A, B. apply D. exact X.
Qed.
Lemma views_faces st st' : views st st' -> forall l v, faces st' l v <-> faces st l v.
Proof.
  intros [L V] l v. split; intros (p & P & N & X).
  - destruct (nth_error st l) as [p0|] eqn:P0; [|apply nth_error_None in P0; pose proof (nth_lt _ _ _ P); lia]. destruct (V l p0 p P0 P) as (A & B & C & D). exists p0. split; [exact P0|]. split; [tauto|]. rewrite <- A. exact X.
  - destruct (nth_error st' l) as [p0|] eqn:P0; [|apply nth_error_None in P0; pose proof (nth_lt _ _ _ P); lia]. destruct (V l p p0 P P0) as (A & B & C & D). exists p0. split; [exact P0|]. split; [tauto|]. rewrite A. exact X.
Qed.
Lemma hmap_id g h : g (hdata h) = hdata h -> hmap g h = h.
Proof. intros E. unfold hmap. rewrite E. destruct h. reflexivity. Qed.
Lemma redata_polys g st : (forall d, c_id (g d) = c_id d) -> (forall d, c_poly (g d) = c_poly d) -> polys_ok st -> polys_ok (redata g st).
Proof.
  intros G1 G2 [A B C]. split; [exact (redata_convex g st A)|exact (redata_once g st G1 B)|]. intros i h H. apply half_in_redata in H as (h0 & H & ->). unfold hmap. cbn [f_poly]. rewrite G2. exact (C i h0 H).
Qed.
Lemma on_id_id id o d : c_id (on_id id (set_partner o) d) = c_id d. Proof. unfold on_id. destruct (c_id d =? id); reflexivity. Qed.
Lemma on_id_poly id o d : c_poly (on_id id (set_partner o) d) = c_poly d. Proof. unfold on_id. destruct (c_id d =? id); reflexivity. Qed.
Lemma half_modify st i h o : once st -> half_in st i h -> modify st (f_id h) (set_partner o) = Ok (redata (on_id (f_id h) (set_partner o)) st).
Proof. intros O H. destruct (half_in_at st i h H) as (k & e & A & Ei & _). rewrite <- Ei. exact (modify_redata st _ _ i k e O A eq_refl). Qed.
Lemma set_on_id id o h : hmap (on_id id (set_partner o)) h = if f_id h =? id then with_partner h o else h.
Proof. unfold hmap, on_id. cbn [c_id hdata]. destruct (f_id h =? id); [reflexivity|]. destruct h. reflexivity. Qed.
Lemma modified_in st id o j g : half_in (redata (on_id id (set_partner o)) st) j g <-> exists g0, half_in st j g0 /\ g = if f_id g0 =? id then with_partner g0 o else g0.
Proof. rewrite half_in_redata. split; intros (g0 & H & ->); exists g0; (split; [exact H|]); [apply set_on_id|symmetry; apply set_on_id]. Qed.

(** ** Splitting *)
Section Split.
Context (dbg : bool) (st : mesh) (M : polys_ok st) (Mu : mutual st) (i : nat) (h : hedge) (H : half_in st i h) (new : nat) (F : fresh st new) (m : hpoint3) (W : hw m <> 0%Z).
Context (t : Q) (T0 : (0 < t)%Q) (T1 : (t < 1)%Q) (Em : qp_eq (hp_point m) (between (f_from h) (f_to h) t)).
Lemma split_inserted : exists p k e e', nth_error st i = Some p /\ nth_error (pedges p) k = Some e /\ nth_error (pedges p) (S k mod length (pedges p)) = Some e' /\ h = half_of e e' /\ c_poly (pd e) = i /\ c_id (pd e) = f_id h /\
  let r := set_edges p (insert_after k (edge_source (split_info new) e m) (pedges p)) in split_edge dbg (split_info new) p k m = Ok r /\ polys_ok (upd st i r) /\ views st (upd st i r).
Proof.
  destruct H as (p & k & P & Hk). pose proof Hk as (e & e' & E & E' & Eh). exists p, k, e, e'. split; [exact P|]. split; [exact E|]. split; [exact E'|]. split; [exact Eh|].
  pose proof (ps_back st M i h H) as Bk. split; [rewrite <- Bk, Eh; reflexivity|]. split; [rewrite Eh; reflexivity|].
  destruct (half_points p k h Hk) as (K & A & B). pose proof (ins_poly st M i k p e e' new m P E E') as Ok0. rewrite A, B in Em.
  destruct (split_edge_ok dbg (split_info new) p (pts p) k t m (hp_point m) Ok0 K T0 T1 (TriTileProofs.hp_point_denotes m W) Em) as (r & R & R1 & R2 & R3 & R4).
  cbv zeta. assert (Er : r = set_edges p (insert_after k (edge_source (split_info new) e m) (pedges p))).
  { unfold split_edge, pedge_at in R. rewrite E in R. cbn [rbind] in R. unfold insert_after, set_edges.
    repeat (match type of R with (rbind ?x _) = _ => destruct x; try discriminate; cbn [rbind] in R end). apply (f_equal (fun z => match z with Ok a => a | _ => r end)) in R. symmetry. exact R. }
  rewrite <- Er. split; [exact R|]. pose proof (ins_nth st i k p e new m P) as In0. rewrite <- Er in In0.
  assert (Pt : pts r = insert_after k (hp_point m) (pts p)) by (rewrite Er; unfold pts; cbn [set_edges pedges]; rewrite insert_map; reflexivity).
  split.
  - split.
    + intros j q Q. rewrite In0 in Q. destruct (Nat.eqb_spec j i) as [->|N]; [injection Q as <-; right; rewrite Pt; exact R1|exact (ps_convex st M j q Q)].
    + pose proof (ins_once st M i k p e new m P F) as O. rewrite <- Er in O. exact O.
    + intros j g G. pose proof (ins_in st M i k p e e' new m P E E' F j g) as I. rewrite <- Er in I. apply I in G. destruct G as [[-> [-> | ->]]|[G _]]; [cbn; rewrite <- Bk, Eh; reflexivity|cbn; rewrite <- Bk, Eh; reflexivity|exact (ps_back st M j g G)].
  - split; [apply upd_length; exact (nth_lt _ _ _ P)|]. intros l q q' Q Q'. rewrite In0 in Q'. destruct (Nat.eqb_spec l i) as [->|N]; [|assert (q = q') by congruence; subst; apply view_refl].
    assert (q = p) by congruence. assert (q' = r) by congruence. subst q q'. split; [exact R2|]. split; [exact R3|]. split; [|rewrite Pt; exact R4].
    split; intros Z; exfalso; [|rewrite Z in E; destruct k; discriminate]. rewrite Er in Z. cbn [set_edges pedges] in Z. apply (f_equal (@length _)) in Z. rewrite insert_length in Z by exact K. discriminate.
Qed.
Definition first_part (pos : bool) : hedge := part h (f_id h) (if pos then f_partner h else None) (f_from h) (hp_point m).
Definition second_part (pos : bool) : hedge := part h new (if pos then None else f_partner h) (hp_point m) (f_to h).
Lemma links_back g0 j : half_in st j g0 -> f_partner g0 = Some (f_id h) -> f_partner h = Some (f_id g0).
Proof.
  intros G E. destruct (Mu j g0 _ G E) as (_ & l & g & G1 & G2 & G3). destruct (half_unique st l i g h (ps_once st M) G1 H G2) as [_ ->]. exact G3.
Qed.
Lemma split_result pos : exists st', split_connected dbg st (f_id h) m pos new = Ok st' /\ polys_ok st' /\ views st st' /\
  (exists p k, nth_error st' i = Some p /\ half_at p k (first_part pos) /\ half_at p (S k) (second_part pos)) /\
  forall j g, half_in st' j g <-> (j = i /\ (g = first_part pos \/ g = second_part pos)) \/ exists g0, half_in st j g0 /\ f_id g0 <> f_id h /\ g = if pos then g0 else redirected (f_id h) new g0.
Proof.
  destruct split_inserted as (p & k & e & e' & P & E & E' & Eh & Bk & Ei & R & Ps & Vi). pose proof (ps_once st M) as O. cbv zeta in *.
  set (r := set_edges p (insert_after k (edge_source (split_info new) e m) (pedges p))) in *. set (st1 := upd st i r) in *.
  assert (Ix : index_of st (f_id h) = Ok (i, k)) by (rewrite <- Ei; apply (index_of_at st i k e O); [exists p; auto|exact Bk]).
  pose proof (ins_in st M i k p e e' new m P E E' F) as I. fold r st1 in I. rewrite <- Eh in I.
  pose proof (ins_first k p e e' new m E) as H1. fold r in H1. rewrite <- Eh in H1.
  pose proof (ins_second k p e e' new m E E') as H2. fold r in H2. rewrite <- Eh in H2.
  assert (R1 : nth_error st1 i = Some r) by (unfold st1; rewrite upd_nth, Nat.eqb_refl by exact (nth_lt _ _ _ P); reflexivity).
  assert (Hn : new <> f_id h) by (intros X; exact (F i h H (eq_sym X))).
  unfold split_connected. rewrite Ix. cbn [rbind fst snd]. unfold poly_at at 1. rewrite P. cbn [rbind]. rewrite R. cbn [rbind]. fold st1. destruct pos.
  - exists st1. split; [reflexivity|]. split; [exact Ps|]. split; [exact Vi|]. split; [exists r, k; auto|]. intros j g. rewrite I. split; (intros [X|X]; [left; exact X|right]).
    + exists g. tauto.
    + destruct X as (g0 & A & B & ->). auto.
  - pose proof (ps_once st1 Ps) as O1. pose proof H1 as (a & a' & Ea & Ea' & Ha). assert (At : at_ st1 i k a) by (exists r; auto).
    assert (Ia : eid a = f_id h) by (apply (f_equal f_id) in Ha; cbn in Ha; unfold eid; congruence). assert (Pa : c_partner (pd a) = f_partner h) by (apply (f_equal f_partner) in Ha; cbn in Ha; congruence).
    pose proof (deref_at st1 i k a O1 At) as Dr. rewrite Ia in Dr. rewrite Dr. cbn [rbind]. rewrite Pa.
    assert (S1 : half_in st1 i (part h (f_id h) (f_partner h) (f_from h) (hp_point m))) by (exists r, k; auto).
    assert (S2 : half_in st1 i (part h new None (hp_point m) (f_to h))) by (exists r, (S k); auto).
    pose proof (half_modify st1 i _ (f_partner h) O1 S2) as X1. cbn [part f_id] in X1. rewrite X1. cbn [rbind]. clear X1.
    set (st2 := redata (on_id new (set_partner (f_partner h))) st1). assert (Ps2 : polys_ok st2) by (apply redata_polys; [apply on_id_id|apply on_id_poly|exact Ps]). pose proof (ps_once st2 Ps2) as O2.
    assert (S3 : half_in st2 i (part h (f_id h) (f_partner h) (f_from h) (hp_point m))). { apply modified_in. eexists. split; [exact S1|]. cbn [part f_id]. destruct (Nat.eqb_spec (f_id h) new); [congruence|reflexivity]. }
    pose proof (half_modify st2 i _ None O2 S3) as X1. cbn [part f_id] in X1. rewrite X1. cbn [rbind]. clear X1.
    set (st3 := redata (on_id (f_id h) (set_partner None)) st2). assert (Ps3 : polys_ok st3) by (apply redata_polys; [apply on_id_id|apply on_id_poly|exact Ps2]). pose proof (ps_once st3 Ps3) as O3.
    assert (V3 : views st st3) by (eapply views_trans; [exact Vi|]; eapply views_trans; [apply redata_views|apply redata_views]).
    assert (I3 : forall j g, half_in st3 j g <-> (j = i /\ (g = first_part false \/ g = second_part false)) \/ (half_in st j g /\ f_id g <> f_id h)).
    { intros j g. unfold st3. rewrite modified_in. split.
      - intros (g1 & G1 & ->). apply modified_in in G1 as (g0 & G0 & ->). apply I in G0. destruct G0 as [[-> [-> | ->]]|[G0 N]].
        + left. split; [reflexivity|]. left. cbn [part f_id]. destruct (Nat.eqb_spec (f_id h) new); [congruence|]. cbn [f_id]. rewrite Nat.eqb_refl. reflexivity.
        + left. split; [reflexivity|]. right. cbn [part f_id]. rewrite Nat.eqb_refl. cbn [with_partner part f_id]. destruct (Nat.eqb_spec new (f_id h)); [congruence|]. reflexivity.
        + right. pose proof (F j g0 G0) as N2. destruct (Nat.eqb_spec (f_id g0) new); [congruence|]. destruct (Nat.eqb_spec (f_id g0) (f_id h)); [congruence|]. auto.
      - intros [[-> [-> | ->]]|[G0 N]].
        + eexists. split; [exact S3|]. cbn [part f_id]. rewrite Nat.eqb_refl. reflexivity.
        + exists (second_part false). split; [|unfold second_part; cbn [part f_id]; destruct (Nat.eqb_spec new (f_id h)); [congruence|reflexivity]]. apply modified_in. eexists. split; [exact S2|]. cbn [part f_id]. rewrite Nat.eqb_refl. reflexivity.
        + exists g. split; [|destruct (Nat.eqb_spec (f_id g) (f_id h)); [congruence|reflexivity]]. apply modified_in. exists g. split; [apply I; right; auto|]. pose proof (F j g G0). destruct (Nat.eqb_spec (f_id g) new); [congruence|reflexivity]. }
    assert (Pl3 : exists p k, nth_error st3 i = Some p /\ half_at p k (first_part false) /\ half_at p (S k) (second_part false)).
    { exists (redata_poly (on_id (f_id h) (set_partner None)) (redata_poly (on_id new (set_partner (f_partner h))) r)), k. split; [unfold st3, st2; rewrite !redata_nth, R1; reflexivity|]. split; apply half_at_redata.
      - eexists. split; [apply half_at_redata; eexists; split; [exact H1|reflexivity]|]. rewrite !set_on_id. cbn [part f_id]. destruct (Nat.eqb_spec (f_id h) new); [congruence|]. cbn [f_id]. rewrite Nat.eqb_refl. reflexivity.
      - eexists. split; [apply half_at_redata; eexists; split; [exact H2|reflexivity]|]. rewrite !set_on_id. cbn [part f_id]. rewrite Nat.eqb_refl. cbn [with_partner part f_id]. destruct (Nat.eqb_spec new (f_id h)); [congruence|reflexivity]. }
    assert (Rd : forall j g0, half_in st j g0 -> f_partner h <> Some (f_id g0) -> redirected (f_id h) new g0 = g0).
    { intros j g0 G0 N. unfold redirected. destruct (f_partner g0) as [d|] eqn:D; [destruct (Nat.eqb_spec d (f_id h)) as [->|]; [exfalso; exact (N (links_back g0 j G0 D))|]|]; unfold with_partner; rewrite <- D; destruct g0; reflexivity. }
    destruct (f_partner h) as [q|] eqn:Q.
    + destruct (Mu i h q H Q) as (Nq & l & g & G1 & G2 & G3). assert (G3' : half_in st3 l g) by (apply I3; right; split; [exact G1|congruence]).
      pose proof (half_modify st3 l g (Some new) O3 G3') as X1. rewrite G2 in X1. rewrite X1. clear X1. set (st4 := redata (on_id q (set_partner (Some new))) st3).
      exists st4. split; [reflexivity|]. split; [apply redata_polys; [apply on_id_id|apply on_id_poly|exact Ps3]|]. split; [eapply views_trans; [exact V3|apply redata_views]|].
      assert (Nn : new <> q) by (intros ->; exact (F l g G1 G2)).
      assert (Qf : f_id (first_part false) =? q = false) by (apply Nat.eqb_neq; cbn; congruence). assert (Qs : f_id (second_part false) =? q = false) by (apply Nat.eqb_neq; exact Nn).
      split.
      * destruct Pl3 as (p3 & k3 & A & B & C). exists (redata_poly (on_id q (set_partner (Some new))) p3), k3. split; [unfold st4; rewrite redata_nth, A; reflexivity|]. split; apply half_at_redata; eexists; (split; [eassumption|]); rewrite set_on_id; [rewrite Qf|rewrite Qs]; reflexivity.
      * intros j x. unfold st4. rewrite modified_in. split.
        -- intros (x0 & X0 & ->). apply I3 in X0. destruct X0 as [[-> [-> | ->]]|[X0 N]]; [rewrite Qf; auto|rewrite Qs; auto|]. right. exists x0. split; [exact X0|]. split; [exact N|]. destruct (Nat.eqb_spec (f_id x0) q) as [X|X].
           ++ destruct (half_unique st j l x0 g O X0 G1 ltac:(congruence)) as [_ ->]. unfold redirected. rewrite G3, Nat.eqb_refl. reflexivity.
           ++ symmetry. apply (Rd j); [exact X0|congruence].
        -- intros [[-> X]|(x0 & X0 & N & ->)].
           ++ exists x. split; [apply I3; left; auto|]. destruct X as [-> | ->]; [rewrite Qf|rewrite Qs]; reflexivity.
           ++ exists x0. split; [apply I3; right; auto|]. destruct (Nat.eqb_spec (f_id x0) q) as [X|X].
              ** destruct (half_unique st j l x0 g O X0 G1 ltac:(congruence)) as [_ ->]. unfold redirected. rewrite G3, Nat.eqb_refl. reflexivity.
              ** apply (Rd j); [exact X0|congruence].
    + exists st3. split; [reflexivity|]. split; [exact Ps3|]. split; [exact V3|]. split; [exact Pl3|]. intros j x. rewrite I3. split; (intros [X|X]; [left; exact X|right]).
      * destruct X as [X N]. exists x. split; [exact X|]. split; [exact N|]. symmetry. apply (Rd j); [exact X|discriminate].
      * destruct X as (x0 & X0 & N & ->). rewrite (Rd j x0 X0) by discriminate. auto.
Qed.
Lemma split_mutual pos st' : (forall j g, half_in st' j g <-> (j = i /\ (g = first_part pos \/ g = second_part pos)) \/ exists g0, half_in st j g0 /\ f_id g0 <> f_id h /\ g = if pos then g0 else redirected (f_id h) new g0) -> mutual st'.
Proof.
  intros I j g d G D. apply I in G. assert (Nf : forall j g, half_in st j g -> f_id g <> new) by exact F. destruct pos.
  - destruct G as [[-> [-> | ->]]|(g0 & G0 & N & ->)]; cbn [first_part second_part part f_partner f_id] in *; [|discriminate|].
    + destruct (Mu i h d H D) as (A & l & g & G1 & G2 & G3). split; [exact A|]. exists l, g. split; [apply I; right; exists g; split; [exact G1|]; split; [congruence|reflexivity]|]. auto.
    + destruct (Mu j g0 d G0 D) as (A & l & g & G1 & G2 & G3). split; [exact A|]. destruct (Nat.eq_dec (f_id g) (f_id h)) as [X|X].
      * destruct (half_unique st l i g h (ps_once st M) G1 H X) as [-> ->]. exists i, (first_part true). split; [apply I; left; auto|]. cbn [first_part part f_id f_partner]. auto.
      * exists l, g. split; [apply I; right; exists g; auto|]. auto.
  - destruct G as [[-> [-> | ->]]|(g0 & G0 & N & ->)]; cbn [first_part second_part part f_partner f_id] in *; [discriminate| |].
    + destruct (Mu i h d H D) as (A & l & g & G1 & G2 & G3). split; [intros ->; exact (Nf l g G1 G2)|]. exists l, (redirected (f_id h) new g). split; [apply I; right; exists g; split; [exact G1|]; split; [congruence|reflexivity]|].
      split; [exact G2|]. unfold redirected. cbn [with_partner f_partner]. rewrite G3, Nat.eqb_refl. reflexivity.
    + unfold redirected in D. cbn [with_partner f_partner] in D. destruct (f_partner g0) as [d0|] eqn:D0; [|discriminate]. destruct (Mu j g0 d0 G0 D0) as (A & l & g & G1 & G2 & G3). change (f_id (redirected (f_id h) new g0)) with (f_id g0). injection D as <-. destruct (Nat.eqb_spec d0 (f_id h)) as [->|X].
      * split; [intros X; exact (Nf j g0 G0 (eq_sym X))|]. exists i, (second_part false). split; [apply I; left; auto|]. split; [reflexivity|]. cbn [second_part part f_partner]. exact (links_back g0 j G0 D0).
      * split; [exact A|]. exists l, (redirected (f_id h) new g). split; [apply I; right; exists g; split; [exact G1|]; split; [congruence|reflexivity]|]. split; [exact G2|]. unfold redirected. cbn [with_partner f_partner]. rewrite G3. destruct (Nat.eqb_spec (f_id g0) (f_id h)); [congruence|reflexivity].
Qed.
End Split.

(** ** Connecting two edges *)
Lemma link_result dbg st i j a b : polys_ok st -> mutual st -> half_in st i a -> half_in st j b -> f_id a <> f_id b -> f_partner a = None -> f_partner b = None ->
  exists st', link_edges dbg st (f_id a) (f_id b) = Ok st' /\ polys_ok st' /\ mutual st' /\ views st st' /\
    forall l g, half_in st' l g <-> exists g0, half_in st l g0 /\ g = if f_id g0 =? f_id a then with_partner g0 (Some (f_id b)) else if f_id g0 =? f_id b then with_partner g0 (Some (f_id a)) else g0.
Proof.
  intros M Mu A B N Pa Pb. pose proof (ps_once st M) as O. change (once st) in O. destruct (half_in_at st i a A) as (k & ea & At & Ia & _ & Qa & _). destruct (half_in_at st j b B) as (l & eb & Bt & Ib & _ & Qb & _).
  unfold link_edges. pose proof (deref_at st i k ea O At) as Da. pose proof (deref_at st j l eb O Bt) as Db. rewrite Ia in Da. rewrite Ib in Db. rewrite Da, Db. cbn [rbind]. rewrite Qa, Qb, Pa, Pb. assert (Ck : check dbg true = Ok tt) by (destruct dbg; reflexivity). rewrite Ck. cbn [rbind].
  rewrite (half_modify st i a (Some (f_id b)) O A). cbn [rbind]. set (st1 := redata (on_id (f_id a) (set_partner (Some (f_id b)))) st). assert (M1 : polys_ok st1) by (apply redata_polys; [apply on_id_id|apply on_id_poly|exact M]).
  assert (B1 : half_in st1 j b) by (apply modified_in; exists b; split; [exact B|]; destruct (Nat.eqb_spec (f_id b) (f_id a)); [congruence|reflexivity]).
  rewrite (half_modify st1 j b (Some (f_id a)) (ps_once st1 M1) B1). eexists. split; [reflexivity|]. set (st2 := redata (on_id (f_id b) (set_partner (Some (f_id a)))) st1). assert (M2 : polys_ok st2) by (apply redata_polys; [apply on_id_id|apply on_id_poly|exact M1]).
  assert (I : forall l g, half_in st2 l g <-> exists g0, half_in st l g0 /\ g = if f_id g0 =? f_id a then with_partner g0 (Some (f_id b)) else if f_id g0 =? f_id b then with_partner g0 (Some (f_id a)) else g0).
  { intros l0 g. unfold st2. rewrite modified_in. split.
    - intros (g1 & G1 & ->). apply modified_in in G1 as (g0 & G0 & ->). exists g0. split; [exact G0|]. destruct (Nat.eqb_spec (f_id g0) (f_id a)) as [X|X]; [|reflexivity]. cbn [with_partner f_id]. destruct (Nat.eqb_spec (f_id g0) (f_id b)); [congruence|reflexivity].
    - intros (g0 & G0 & ->). eexists. split; [apply modified_in; exists g0; split; [exact G0|reflexivity]|]. destruct (Nat.eqb_spec (f_id g0) (f_id a)) as [X|X]; [|reflexivity]. cbn [with_partner f_id]. destruct (Nat.eqb_spec (f_id g0) (f_id b)); [congruence|reflexivity]. }
  split; [exact M2|]. split; [|split; [eapply views_trans; apply redata_views|exact I]].
  intros l0 g d G D. apply I in G as (g0 & G0 & ->). destruct (Nat.eqb_spec (f_id g0) (f_id a)) as [X|X]; [|destruct (Nat.eqb_spec (f_id g0) (f_id b)) as [Y|Y]]; cbn [with_partner f_partner f_id] in *.
  - injection D as <-. split; [congruence|]. exists j, (with_partner b (Some (f_id a))). split; [apply I; exists b; split; [exact B|]; rewrite Nat.eqb_refl; destruct (Nat.eqb_spec (f_id b) (f_id a)); [congruence|reflexivity]|]. cbn [with_partner f_partner f_id]. rewrite X. auto.
  - injection D as <-. split; [congruence|]. exists i, (with_partner a (Some (f_id b))). split; [apply I; exists a; split; [exact A|]; rewrite Nat.eqb_refl; reflexivity|]. cbn [with_partner f_partner f_id]. rewrite Y. auto.
  - destruct (Mu l0 g0 d G0 D) as (Nd & l1 & g & G1 & G2 & G3). split; [exact Nd|]. exists l1, g. split; [|auto]. apply I. exists g. split; [exact G1|].
    destruct (Nat.eqb_spec (f_id g) (f_id a)) as [Z|Z]; [destruct (half_unique st l1 i g a O G1 A Z) as [_ ->]; congruence|]. destruct (Nat.eqb_spec (f_id g) (f_id b)) as [Z'|Z']; [destruct (half_unique st l1 j g b O G1 B Z') as [_ ->]; congruence|reflexivity].
Qed.

(** ** Pieces *)
Lemma between_0 a b : qp_eq a (between a b 0).
Proof. unfold between, qp_eq, qadd, qscale, qsub. cbn [qx qy qz]. repeat split; ring. Qed.
Lemma between_1 a b : qp_eq b (between a b 1).
Proof. unfold between, qp_eq, qadd, qscale, qsub. cbn [qx qy qz]. repeat split; ring. Qed.
Lemma in_line_same g h : f_dir g = f_dir h -> f_from g = f_from h -> f_to g = f_to h -> in_line g h.
Proof. intros D A B. split; [exact D|]. exists 0%Q, 1%Q. rewrite A, B. split; [apply between_0|apply between_1]. Qed.
Lemma in_line_trans a b c : in_line a b -> in_line b c -> in_line a c.
Proof.
  intros [D (t & u & A & B)] [D' (t' & u' & A' & B')]. split; [congruence|]. exists (t' + t * (u' - t'))%Q, (t' + u * (u' - t'))%Q.
  assert (X : forall v, qp_eq (between (f_from b) (f_to b) v) (between (f_from c) (f_to c) (t' + v * (u' - t')))).
  { intros v. destruct A' as (A1 & A2 & A3), B' as (B1 & B2 & B3). unfold between, qp_eq, qadd, qscale, qsub in *. cbn [qx qy qz] in *. rewrite A1, A2, A3, B1, B2, B3. repeat split; ring. }
  split; [rewrite A; apply X|rewrite B; apply X].
Qed.
Lemma split_nth {B} (l : list B) a x y i : a < length l -> nth_error (ConnModel.set_nth l a x ++ [y]) i = if i =? a then Some x else if i =? length l then Some y else nth_error l i.
Proof.
  intros A. change (ConnModel.set_nth l a x) with (upd l a x). destruct (Nat.lt_ge_cases i (length l)) as [L|L].
  - rewrite nth_error_app1 by (rewrite upd_length by exact A; exact L). rewrite upd_nth by exact A. destruct (Nat.eqb_spec i a); [reflexivity|]. destruct (Nat.eqb_spec i (length l)); [lia|reflexivity].
  - rewrite nth_error_app2 by (rewrite upd_length by exact A; exact L). rewrite upd_length by exact A. destruct (Nat.eqb_spec i a); [lia|]. destruct (Nat.eqb_spec i (length l)) as [->|N]; [rewrite Nat.sub_diag; reflexivity|]. rewrite (proj2 (nth_error_None l i)) by lia. apply nth_error_None. cbn [length]. lia.
Qed.
Lemma snoc_nth {B} (l : list B) y i z : nth_error (l ++ [y]) i = Some z -> (i < length l /\ nth_error l i = Some z) \/ (i = length l /\ z = y).
Proof.
  intros N. destruct (Nat.lt_ge_cases i (length l)) as [L|L]; [left; rewrite nth_error_app1 in N by exact L; auto|right]. pose proof (nth_lt _ _ _ N) as X. rewrite app_length in X. cbn [length] in X. assert (i = length l) by lia. subst i. rewrite nth_error_app2, Nat.sub_diag in N by lia. cbn in N. split; [reflexivity|congruence].
Qed.
Lemma snoc_old {B} (l : list B) y i z : nth_error l i = Some z -> nth_error (l ++ [y]) i = Some z.
Proof. intros N. rewrite nth_error_app1; [exact N|exact (nth_lt _ _ _ N)]. Qed.
Section Pieces.
Context (dbg : bool) (s : nat) (c : ConnModel.cstate) (id : nat) (loc : hpoint3) (c' : ConnModel.cstate) (e : ConnModel.active) (q : ConnModel.piece) (x : nat) (st : mesh) (gs : list nat) (new : nat).
Context (Ge : ConnModel.get_act (ConnModel.c_active c) id = Ok e) (Cur : ConnModel.a_cur e = false) (Nq : nth_error (ConnModel.c_pieces c) (ConnModel.a_piece e) = Some q) (Nx : nth_error gs (ConnModel.a_piece e) = Some x).
Context (M : polys_ok st) (Mu : mutual st) (Sh : shows_pieces st gs (ConnModel.c_pieces c)) (F : fresh st new) (W : hw loc <> 0%Z).
Context (t : Q) (T0 : (0 < t)%Q) (T1 : (t < 1)%Q) (Em : qp_eq (hp_point loc) (between (hp_point (ConnModel.p_from q)) (hp_point (ConnModel.p_to q)) t)).
Context (Run : ConnModel.maybe_split dbg s c id loc = Ok c').
Let ps := ConnModel.c_pieces c.
Let a := ConnModel.a_piece e.
Lemma pieces_split : exists st', split_connected dbg st x loc (fst (ConnModel.a_key e)) new = Ok st' /\ polys_ok st' /\ mutual st' /\ views st st' /\
  (forall j g, half_in st j g -> ~ In (f_id g) gs -> half_in st' j g) /\ (forall j g, half_in st' j g -> ~ In (f_id g) (gs ++ [new]) -> half_in st j g) /\
  (forall j g, half_in st' j g -> In (f_id g) (gs ++ [new]) -> exists g0, half_in st j g0 /\ In (f_id g0) gs /\ in_line g g0) /\ shows_pieces st' (gs ++ [new]) (ConnModel.c_pieces c').
Proof.
  destruct Sh as (Nd & Len & Each). destruct (Each a q x Nq Nx) as (i & h & H & Hx & Hf & Ht & Hp). rewrite <- Hf, <- Ht in Em. pose proof (nth_lt _ _ _ Nq) as La. fold ps a in La, Nq, Nx.
  destruct (split_result dbg st M Mu i h H new F loc W t T0 T1 Em (fst (ConnModel.a_key e))) as (st' & R1 & R2 & R3 & _ & I). rewrite Hx in R1. exists st'. split; [exact R1|]. split; [exact R2|]. split; [exact (split_mutual st M Mu i h H new F loc _ st' I)|]. split; [exact R3|].
  assert (Off : forall j g, half_in st j g -> ~ In (f_id g) gs -> f_id g <> f_id h /\ redirected (f_id h) new g = g).
  { intros j g G Ng. split; [intros X; apply Ng; rewrite X, Hx; exact (nth_error_In _ _ Nx)|]. unfold redirected. destruct (f_partner g) as [d|] eqn:D; [destruct (Nat.eqb_spec d (f_id h)) as [->|]|]; [|unfold with_partner; rewrite <- D; destruct g; reflexivity|unfold with_partner; rewrite <- D; destruct g; reflexivity].
    exfalso. pose proof (links_back st M Mu i h H g j G D) as X. destruct (ConnModel.p_partner q) as [b|]; [|congruence]. destruct Hp as (d' & D1 & D2). apply Ng. replace (f_id g) with d' by congruence. exact (nth_error_In _ _ D1). }
  split. { intros j g G Ng. apply I. right. exists g. destruct (Off j g G Ng) as [X1 X2]. split; [exact G|]. split; [exact X1|]. destruct (fst (ConnModel.a_key e)); congruence. }
  split. { intros j g G Ng. rewrite in_app_iff in Ng. apply I in G. destruct G as [[-> [-> | ->]]|(g0 & G0 & N0 & ->)].
    - exfalso. apply Ng. left. cbn [first_part part f_id]. rewrite Hx. exact (nth_error_In _ _ Nx).
    - exfalso. apply Ng. right. left. reflexivity.
    - destruct (fst (ConnModel.a_key e)); [exact G0|]. change (f_id (redirected (f_id h) new g0)) with (f_id g0) in Ng. rewrite (proj2 (Off j g0 G0 ltac:(tauto))). exact G0. }
  split. { intros j g G Ig. assert (Ih : In (f_id h) gs) by (rewrite Hx; exact (nth_error_In _ _ Nx)). apply I in G. destruct G as [[-> [-> | ->]]|(g0 & G0 & N0 & ->)].
    - exists h. split; [exact H|]. split; [exact Ih|]. split; [reflexivity|]. exists 0%Q, t. split; [apply between_0|exact Em].
    - exists h. split; [exact H|]. split; [exact Ih|]. split; [reflexivity|]. exists t, 1%Q. split; [exact Em|apply between_1].
    - exists g0. assert (E0 : forall b : bool, f_id (if b then g0 else redirected (f_id h) new g0) = f_id g0) by (intros [|]; reflexivity). rewrite E0 in Ig. split; [exact G0|]. split; [apply in_app_or in Ig as [Z|[Z|[]]]; [exact Z|exfalso; exact (F j g0 G0 (eq_sym Z))]|]. apply in_line_same; destruct (fst (ConnModel.a_key e)); reflexivity. }
  assert (Nn : ~ In new gs). { intros X. apply In_nth_error in X as (l & X). destruct (nth_error ps l) as [r|] eqn:Rl; [|apply nth_error_None in Rl; pose proof (nth_lt _ _ _ X); unfold ps in Rl; lia]. destruct (Each l r new Rl X) as (j & g & G & Gi & _). exact (F j g G Gi). }
  assert (Nd' : NoDup (gs ++ [new])) by (apply (NoDup_Add (a := new) (l := gs)); [rewrite <- (app_nil_r gs) at 1; apply Add_app|auto]).
  assert (Inj : forall l1 l2 y, nth_error gs l1 = Some y -> nth_error gs l2 = Some y -> l1 = l2). { intros l1 l2 y Y1 Y2. apply (proj1 (NoDup_nth_error gs) Nd); [exact (nth_lt _ _ _ Y1)|congruence]. }
  assert (New : nth_error (gs ++ [new]) (length ps) = Some new) by (unfold ps; rewrite <- Len, nth_error_app2, Nat.sub_diag by lia; reflexivity).
  assert (Hi : forall l y, l <> a -> nth_error gs l = Some y -> y <> f_id h) by (intros l y Nl Y X; subst y; rewrite Hx in Y; exact (Nl (Inj l a x Y Nx))).
  unfold ConnModel.maybe_split in Run. rewrite Ge in Run. cbn [rbind] in Run. rewrite Cur in Run. unfold ConnModel.get_piece, ConnModel.of_option in Run. fold ps a in Run. rewrite Nq in Run. cbn [rbind] in Run.
  match type of Run with (rbind ?y _) = _ => destruct y; try discriminate; cbn [rbind] in Run end.
  destruct (fst (ConnModel.a_key e)).
  - injection Run as <-. cbn [ConnModel.with_active ConnModel.with_pieces ConnModel.c_pieces]. split; [exact Nd'|]. split; [rewrite !app_length; change (ConnModel.set_nth ps a) with (upd ps a); rewrite upd_length by exact La; unfold ps; rewrite Len; reflexivity|].
    intros l r y Nr Ny. rewrite (split_nth ps a _ _ l La) in Nr. destruct (Nat.eqb_spec l a) as [->|Nl]; [|destruct (Nat.eqb_spec l (length ps)) as [->|Nl']].
    + injection Nr as <-. cbn [ConnModel.p_from ConnModel.p_to ConnModel.p_partner]. assert (y = x) by (rewrite nth_error_app1 in Ny by exact (nth_lt _ _ _ Nx); congruence). subst y. exists i, (first_part h loc true). split; [apply I; left; auto|]. split; [exact Hx|]. split; [exact Hf|]. split; [reflexivity|]. cbn [first_part part f_partner].
      destruct (ConnModel.p_partner q) as [d|]; [|exact Hp]. destruct Hp as (d' & D1 & D2). exists d'. split; [apply snoc_old; exact D1|exact D2].
    + injection Nr as <-. cbn [ConnModel.p_from ConnModel.p_to ConnModel.p_partner]. assert (y = new) by congruence. subst y. exists i, (second_part h new loc true). split; [apply I; left; auto|]. split; [reflexivity|]. split; [reflexivity|]. split; [exact Ht|reflexivity].
    + destruct (snoc_nth _ _ _ _ Ny) as [[Ll Y]|[Ll _]]; [|unfold ps in Nl'; lia]. destruct (Each l r y Nr Y) as (j & g & G & Gi & Gf & Gt & Gp). exists j, g. split; [apply I; right; exists g; split; [exact G|]; split; [rewrite Gi; exact (Hi l y Nl Y)|reflexivity]|]. split; [exact Gi|]. split; [exact Gf|]. split; [exact Gt|].
      destruct (ConnModel.p_partner r) as [d|]; [|exact Gp]. destruct Gp as (d' & D1 & D2). exists d'. split; [apply snoc_old; exact D1|exact D2].
  - assert (Fin : ConnModel.c_pieces c' = match ConnModel.p_partner q with Some b => match nth_error ps b with Some rb => upd (ConnModel.set_nth ps a (ConnModel.Piece (ConnModel.p_edge q) (ConnModel.p_from q) loc None) ++ [ConnModel.Piece (ConnModel.p_edge q) loc (ConnModel.p_to q) (ConnModel.p_partner q)]) b (ConnModel.link (Some (length ps)) rb) | None => [] end | None => ConnModel.set_nth ps a (ConnModel.Piece (ConnModel.p_edge q) (ConnModel.p_from q) loc None) ++ [ConnModel.Piece (ConnModel.p_edge q) loc (ConnModel.p_to q) (ConnModel.p_partner q)] end /\
      forall b, ConnModel.p_partner q = Some b -> b < length ps /\ b <> a /\ exists y, nth_error gs b = Some y /\ f_partner h = Some y).
    { destruct (ConnModel.p_partner q) as [b|] eqn:Pq.
      - destruct Hp as (d' & D1 & D2). assert (Lb : b < length ps) by (pose proof (nth_lt _ _ _ D1); unfold ps; lia). assert (Nb : b <> a) by (intros ->; destruct (Mu i h d' H D2) as (X & _); congruence).
        split; [|intros b' X; injection X as <-; split; [exact Lb|]; split; [exact Nb|]; exists d'; auto].
        unfold ConnModel.upd_piece, ConnModel.get_piece, ConnModel.of_option in Run. cbn [ConnModel.with_pieces ConnModel.c_pieces] in Run. rewrite (split_nth ps a _ _ b La) in Run. destruct (Nat.eqb_spec b a); [contradiction|]. destruct (Nat.eqb_spec b (length ps)); [lia|]. destruct (nth_error ps b) as [rb|] eqn:Rb; [|discriminate]. cbn [rbind] in Run. injection Run as <-. reflexivity.
      - injection Run as <-. split; [reflexivity|]. discriminate. }
    destruct Fin as [Fin Pb]. set (ps1 := ConnModel.set_nth ps a (ConnModel.Piece (ConnModel.p_edge q) (ConnModel.p_from q) loc None) ++ [ConnModel.Piece (ConnModel.p_edge q) loc (ConnModel.p_to q) (ConnModel.p_partner q)]) in *.
    assert (L1 : length ps1 = S (length ps)) by (unfold ps1; rewrite app_length; change (ConnModel.set_nth ps a) with (upd ps a); rewrite upd_length by exact La; cbn [length]; lia).
    assert (At : forall l, nth_error (ConnModel.c_pieces c') l = if l =? a then Some (ConnModel.Piece (ConnModel.p_edge q) (ConnModel.p_from q) loc None) else if l =? length ps then Some (ConnModel.Piece (ConnModel.p_edge q) loc (ConnModel.p_to q) (ConnModel.p_partner q))
      else option_map (fun r => if match ConnModel.p_partner q with Some b => l =? b | None => false end then ConnModel.link (Some (length ps)) r else r) (nth_error ps l)).
    { intros l. rewrite Fin. destruct (ConnModel.p_partner q) as [b|] eqn:Pq.
      - destruct (Pb b eq_refl) as (Lb & Nb & _). destruct (nth_error ps b) as [rb|] eqn:Rb; [|apply nth_error_None in Rb; lia]. rewrite upd_nth by lia. unfold ps1. rewrite (split_nth ps a _ _ l La). destruct (Nat.eqb_spec l b) as [->|Xb].
        + destruct (Nat.eqb_spec b a); [contradiction|]. destruct (Nat.eqb_spec b (length ps)); [lia|]. rewrite Rb. reflexivity.
        + destruct (l =? a); [reflexivity|]. destruct (l =? length ps); [reflexivity|]. destruct (nth_error ps l); reflexivity.
      - unfold ps1. rewrite (split_nth ps a _ _ l La). destruct (l =? a); [reflexivity|]. destruct (l =? length ps); [reflexivity|]. destruct (nth_error ps l); reflexivity. }
    assert (L2 : length (ConnModel.c_pieces c') = S (length ps)). { rewrite Fin. destruct (ConnModel.p_partner q) as [b|] eqn:Pq; [|exact L1]. destruct (Pb b eq_refl) as (Lb & Nb & _). destruct (nth_error ps b) as [rb|] eqn:Rb; [|apply nth_error_None in Rb; lia]. rewrite upd_length by lia. exact L1. }
    split; [exact Nd'|]. split; [rewrite app_length, L2; cbn [length]; unfold ps; lia|].
    intros l r y Nr Ny. rewrite At in Nr. destruct (Nat.eqb_spec l a) as [->|Nl]; [|destruct (Nat.eqb_spec l (length ps)) as [->|Nl']].
    + injection Nr as <-. cbn [ConnModel.p_from ConnModel.p_to ConnModel.p_partner]. assert (y = x) by (rewrite nth_error_app1 in Ny by exact (nth_lt _ _ _ Nx); congruence). subst y. exists i, (first_part h loc false). split; [apply I; left; auto|]. split; [exact Hx|]. split; [exact Hf|]. split; reflexivity.
    + injection Nr as <-. cbn [ConnModel.p_from ConnModel.p_to ConnModel.p_partner]. assert (y = new) by congruence. subst y. exists i, (second_part h new loc false). split; [apply I; left; auto|]. split; [reflexivity|]. split; [reflexivity|]. split; [exact Ht|]. cbn [second_part part f_partner].
      destruct (ConnModel.p_partner q) as [d|]; [|exact Hp]. destruct Hp as (d' & D1 & D2). exists d'. split; [apply snoc_old; exact D1|exact D2].
    + destruct (snoc_nth _ _ _ _ Ny) as [[Ll Y]|[Ll _]]; [|unfold ps in Nl'; lia]. destruct (nth_error ps l) as [r0|] eqn:Nr0; [|discriminate]. cbn [option_map] in Nr. destruct (Each l r0 y Nr0 Y) as (j & g & G & Gi & Gf & Gt & Gp).
      assert (Ng : f_id g <> f_id h) by (rewrite Gi; exact (Hi l y Nl Y)). exists j, (redirected (f_id h) new g). split; [apply I; right; exists g; auto|]. split; [exact Gi|].
      assert (Back : f_partner g = Some (f_id h) <-> ConnModel.p_partner q = Some l).
      { split; intros X.
        - pose proof (links_back st M Mu i h H g j G X) as Y1. destruct (ConnModel.p_partner q) as [b|]; [|congruence]. destruct Hp as (d' & D1 & D2). f_equal. apply (Inj b l d' D1). congruence.
        - destruct (Pb l X) as (_ & _ & z & Z1 & Z2). assert (z = y) by congruence. subst z. destruct (Mu i h y H Z2) as (_ & j2 & g2 & G2 & G3 & G4). destruct (half_unique st j2 j g2 g (ps_once st M) G2 G ltac:(congruence)) as [_ ->]. exact G4. }
      assert (Same : ConnModel.p_from r = ConnModel.p_from r0 /\ ConnModel.p_to r = ConnModel.p_to r0) by (destruct (match ConnModel.p_partner q with Some b => l =? b | None => false end); injection Nr as <-; auto). destruct Same as [-> ->]. split; [exact Gf|]. split; [exact Gt|].
      unfold redirected. cbn [with_partner f_partner]. destruct (f_partner g) as [d|] eqn:Dg.
      * destruct (Nat.eqb_spec d (f_id h)) as [->|X].
        -- rewrite (proj1 Back eq_refl), Nat.eqb_refl in Nr. injection Nr as <-. cbn [ConnModel.link ConnModel.p_partner]. exists new. auto.
        -- assert (Z : match ConnModel.p_partner q with Some b => l =? b | None => false end = false). { destruct (ConnModel.p_partner q) as [b|]; [|reflexivity]. apply Nat.eqb_neq. intros ->. pose proof (proj2 Back eq_refl). congruence. }
           rewrite Z in Nr. injection Nr as <-. destruct (ConnModel.p_partner r0) as [b|]; [|discriminate]. destruct Gp as (d' & D1 & D2). exists d'. split; [apply snoc_old; exact D1|exact D2].
      * assert (Z : match ConnModel.p_partner q with Some b => l =? b | None => false end = false). { destruct (ConnModel.p_partner q) as [b|]; [|reflexivity]. apply Nat.eqb_neq. intros ->. pose proof (proj2 Back eq_refl). congruence. }
        rewrite Z in Nr. injection Nr as <-. destruct (ConnModel.p_partner r0) as [b|]; [destruct Gp as (d' & D1 & D2); discriminate|reflexivity].
Qed.
End Pieces.
