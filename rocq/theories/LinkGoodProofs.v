(** Merging two edges keeps the mesh consistent. *)
From Coq Require Import List Bool Arith ZArith QArith Lqa Lia ZifyBool Morphisms Setoid.
From Verif Require Import BigUIntModel GeoModel GeoSpec GeoProofs CvxSpec CvxProofs CvxMergeProofs PolyModel PolySpec PolyOpsModel PolyBridgeProofs PolyInfoProofs PolyCapProofs TriSpec BspGeoProofs MergeProofs MergeTopProofs LinkModel LinkSpec LinkProofs LinkMergeProofs.
Import ListNotations.
Open Scope Q_scope.

Definition good (st : mesh) : Prop := mesh_ok st /\ even st /\ mesh_no_min st.
Definition convex_at (st : mesh) : Prop := forall i p, nth_error st i = Some p -> pedges p = [] \/ poly_ok p (pts p).
(** ** What the polygons show *)
Definition view (p p' : poly cdata) : Prop := pplane p' = pplane p /\ pdrop p' = pdrop p /\ (pedges p' = [] <-> pedges p = []) /\
  forall q, polygon_point (pplane p) (pdrop p) (pts p') q <-> polygon_point (pplane p) (pdrop p) (pts p) q.
Definition views (st st' : mesh) : Prop := length st' = length st /\ forall l p p', nth_error st l = Some p -> nth_error st' l = Some p' -> view p p'.
Lemma Some_inj {B} (x y : B) : Some x = Some y -> x = y.
Proof. congruence. Qed.
Lemma view_refl p : view p p.
Proof. split; [reflexivity|]. split; [reflexivity|]. split; [tauto|]. intros q. reflexivity. Qed.
Lemma view_trans p q r : view p q -> view q r -> view p r.
Proof. intros (A & B & C & D) (A' & B' & C' & D'). rewrite A, B in D'. split; [congruence|]. split; [congruence|]. split; [tauto|]. intros x. rewrite D'. apply D. Qed.
Lemma views_refl st : views st st.
Proof. split; [reflexivity|]. intros l p p' P P'. assert (p = p') by congruence. subst. apply view_refl. Qed.
Lemma views_trans a b c : views a b -> views b c -> views a c.
Proof.
  intros [L V] [L' V']. split; [congruence|]. intros l p r P R. destruct (nth_error b l) as [q|] eqn:Q; [exact (view_trans _ _ _ (V l p q P Q) (V' l q r Q R))|]. apply nth_error_None in Q. pose proof (nth_lt _ _ _ P). lia.
Qed.
Lemma redata_pts g p : pts (redata_poly g p) = pts p.
Proof. unfold pts, redata_poly. cbn [set_edges pedges]. rewrite map_map. reflexivity. Qed.
Lemma redata_count g p : pcount (redata_poly g p) = pcount p.
Proof. unfold pcount, redata_poly. cbn [set_edges pedges]. apply map_length. Qed.
Lemma redata_empty g p : pedges (redata_poly g p) = [] <-> pedges p = [].
Proof. unfold redata_poly. cbn [set_edges pedges]. destruct (pedges p); cbn; split; congruence. Qed.
Lemma redata_ok g p : poly_ok p (pts p) -> poly_ok (redata_poly g p) (pts (redata_poly g p)).
Proof. intros H. rewrite redata_pts. apply (poly_ok_shape p); [exact H|]. rewrite map_map. reflexivity. Qed.
Lemma redata_views g st : views st (redata g st).
Proof.
  split; [apply map_length|]. intros l p p' P P'. rewrite redata_nth, P in P'. injection P' as <-. split; [reflexivity|]. split; [reflexivity|]. split; [apply redata_empty|]. intros q. rewrite redata_pts. reflexivity.
Qed.
Lemma redata_convex g st : convex_at st -> convex_at (redata g st).
Proof. intros C i p P. rewrite redata_nth in P. destruct (nth_error st i) as [q|] eqn:Q; [|discriminate]. injection P as <-. destruct (C i q Q) as [E|K]; [left; apply redata_empty; exact E|right; apply redata_ok; exact K]. Qed.
Definition straight_at (p : poly cdata) (k : nat) : Prop := straight (cyc o3 (pts p) k) (cyc o3 (pts p) (S k)) (cyc o3 (pts p) (S (S k))).
Lemma straight_flat p k : straight_at p k -> turn (flat_at p (pts p) k) (flat_at p (pts p) (S k)) (flat_at p (pts p) (S (S k))) == 0.
Proof. intros T. apply straight_turn. exact T. Qed.
Lemma without_pts p n : pts (set_edges p (firstn n (pedges p) ++ skipn (S n) (pedges p))) = without n (pts p).
Proof. unfold pts, without. cbn [set_edges pedges]. rewrite map_app, firstn_map, skipn_map. reflexivity. Qed.
Lemma erase_poly p k : poly_ok p (pts p) -> (k < pcount p)%nat -> straight_at p k ->
  let p' := set_edges p (firstn (S k mod pcount p) (pedges p) ++ skipn (S (S k mod pcount p)) (pedges p)) in poly_ok p' (pts p') /\ view p p'.
Proof.
  intros H K T. cbv zeta. destruct (remove_vertex p (pts p) k H K (straight_flat p k T)) as [R1 R2]. pose proof (cvx_three _ _ _ (ok_cvx p (pts p) H)) as N. rewrite without_pts. split; [exact R1|]. split; [reflexivity|]. split; [reflexivity|]. split.
  - cbn [set_edges pedges]. assert (L : (S k mod pcount p < pcount p)%nat) by (apply Nat.mod_upper_bound; lia). unfold pcount in *. split; intros E; [|rewrite E in N; cbn in N; lia]. apply (f_equal (@length _)) in E. rewrite without_length in E by exact L. cbn in E. lia.
  - intros q. rewrite without_pts. apply R2.
Qed.
Lemma erase_length st i n : length (erase st i n) = length st.
Proof. unfold erase. destruct (nth_error st i) eqn:P; [apply upd_length; exact (nth_lt _ _ _ P)|reflexivity]. Qed.
Lemma erase_views st i p k : nth_error st i = Some p -> poly_ok p (pts p) -> (k < pcount p)%nat -> straight_at p k -> views st (erase st i (S k mod pcount p)).
Proof.
  intros P H K T. split; [apply erase_length|]. pose proof (proj2 (erase_poly p k H K T)) as V. cbv zeta in V. intros l q q' Q Q'. rewrite (erase_nth st i _ p l P) in Q'. destruct (Nat.eqb_spec l i) as [->|N].
  - assert (q = p) by congruence. subst q. apply Some_inj in Q'. subst q'. exact V.
  - assert (q = q') by congruence. subst. apply view_refl.
Qed.
Lemma erase_convex st i p k : convex_at st -> nth_error st i = Some p -> poly_ok p (pts p) -> (k < pcount p)%nat -> straight_at p k -> convex_at (erase st i (S k mod pcount p)).
Proof.
  intros C P H K T. pose proof (proj1 (erase_poly p k H K T)) as V. cbv zeta in V. intros l q Q. rewrite (erase_nth st i _ p l P) in Q. destruct (Nat.eqb_spec l i) as [->|N]; [apply Some_inj in Q; subst q; right; exact V|exact (C l q Q)].
Qed.

(** ** Where the new half-edges come from *)
Definition origin (st : mesh) (h' : hedge) : Prop := exists lx hx ly hy, half_in st lx hx /\ half_in st ly hy /\ f_id h' = f_id hx /\ qp_eq (f_from h') (f_from hx) /\ qp_eq (f_to h') (f_to hy) /\
  f_dir h' = f_dir hx /\ same_direction (l3 (f_dir hx)) (l3 (f_dir hy)) /\ (f_partner h' = None <-> f_partner hx = None) /\ (f_partner hx = None <-> f_partner hy = None).
Lemma same_dir_refl v : same_direction v v.
Proof. exists 1%Z, 1%Z. repeat split; lia. Qed.
Lemma origin_self st l h : half_in st l h -> origin st h.
Proof. intros H. exists l, h, l, h. repeat split; auto; try reflexivity. apply same_dir_refl. Qed.
Lemma half_nonzero st l h : convex_at st -> half_in st l h -> nonzero (f_dir h).
Proof. intros C (p & k & P & (e & e' & E & E' & ->)). destruct (C l p P) as [X|H]; [rewrite X in E; destruct k; discriminate|]. exact (ok_nonzero p _ k e H E). Qed.
Lemma origin_even st st' : convex_at st -> convex_at st' -> even st -> (forall l h, half_in st' l h -> origin st h) -> even st'.
Proof.
  intros C C' Ev Or i j h g H1 H2 Eq Sd. destruct (Or i h H1) as (lx & hx & ly & hy & X1 & X2 & X3 & X4 & X5 & X6 & X7 & X8 & X9). destruct (Or j g H2) as (lu & gx & lv & gy & Y1 & Y2 & Y3 & Y4 & Y5 & Y6 & Y7 & Y8 & Y9).
  rewrite X8, Y8, X9. apply (Ev ly lu hy gx X2 Y1).
  - rewrite <- X5, <- Y4. exact Eq.
  - rewrite X6, Y6 in Sd. apply (same_dir_trans _ (f_dir hx)); [exact (half_nonzero st ly hy C X2)|exact (half_nonzero st lx hx C X1)|exact (half_nonzero st lu gx C Y1)|apply same_dir_sym; exact X7|exact Sd].
Qed.
Lemma origin_kept st st' : (forall l h, half_in st' l h -> origin st h) -> kept st st'.
Proof. intros Or l h H. destruct (Or l h H) as (lx & hx & ly & hy & X1 & X2 & X3 & X4 & X5 & X6 & X7 & X8 & X9). exists lx, hx. split; [exact X1|]. split; [congruence|]. split; [congruence|]. tauto. Qed.
Lemma origin_min st st' : views st st' -> mesh_no_min st -> (forall l h, half_in st' l h -> origin st h) -> mesh_no_min st'.
Proof.
  intros [L V] [N1 N2] Or. split.
  - intros l p' P'. destruct (nth_error st l) as [p|] eqn:P; [|apply nth_error_None in P; pose proof (nth_lt _ _ _ P'); lia]. destruct (V l p p' P P') as (-> & _). exact (N1 l p P).
  - intros l h H. destruct (Or l h H) as (lx & hx & ly & hy & X1 & X2 & X3 & X4 & X5 & X6 & X7 & X8 & X9). rewrite X6. exact (N2 lx hx X1).
Qed.
Lemma kept_refl st : kept st st.
Proof. intros l h H. exists l, h. repeat split; auto. Qed.
Lemma kept_trans a b c : kept a b -> kept b c -> kept a c.
Proof. intros A B l h H. destruct (B l h H) as (l1 & h1 & H1 & E1 & D1 & P1). destruct (A l1 h1 H1) as (l2 & h2 & H2 & E2 & D2 & P2). exists l2, h2. split; [exact H2|]. split; [congruence|]. split; [congruence|tauto]. Qed.

(** ** The vertex that goes away *)
Lemma cyc_mod {B} (x : B) l i : (0 < length l)%nat -> cyc x l (i mod length l) = cyc x l i.
Proof. intros L. unfold cyc. rewrite Nat.mod_mod by lia. reflexivity. Qed.
Lemma pair_halves st i p k : mesh_ok st -> nth_error st i = Some p -> (k < pcount p)%nat -> exists a b ha hb, poly_ok p (pts p) /\ (3 <= pcount p)%nat /\
  nth_error (pedges p) k = Some a /\ nth_error (pedges p) (S k mod pcount p) = Some b /\ half_at p k ha /\ half_at p (S k mod pcount p) hb /\ half_in st i ha /\ half_in st i hb /\
  f_id ha = eid a /\ f_id hb = eid b /\ f_partner ha = c_partner (pd a) /\ f_partner hb = c_partner (pd b) /\ f_dir ha = ld (pl a) /\ f_dir hb = ld (pl b) /\
  f_from ha = cyc o3 (pts p) k /\ f_to ha = cyc o3 (pts p) (S k) /\ f_from hb = cyc o3 (pts p) (S k) /\ f_to hb = cyc o3 (pts p) (S (S k)).
Proof.
  intros M P K. assert (H : poly_ok p (pts p)) by (destruct (mo_convex st M i p P) as [E|H]; [unfold pcount in K; rewrite E in K; cbn in K; lia|exact H]).
  pose proof (cvx_three _ _ _ (ok_cvx p _ H)) as N. destruct (nth_error (pedges p) k) as [a|] eqn:A; [|apply nth_error_None in A; unfold pcount in K; lia].
  destruct (at_half_in st i k a) as (p1 & b & P1 & A1 & B & Ha & Ha'); [exists p; auto|]. assert (p1 = p) by congruence. subst p1. fold (pcount p) in B.
  destruct (at_half_in st i (S k mod pcount p) b) as (p1 & c & P2 & B1 & C & Hb & Hb'); [exists p; auto|]. assert (p1 = p) by congruence. subst p1.
  exists a, b, (half_of a b), (half_of b c). destruct (half_points p k _ Ha) as (_ & F1 & F2). destruct (half_points p _ _ Hb) as (_ & F3 & F4).
  pose proof (pts_length p) as Lp. rewrite <- Lp in F3, F4. rewrite cyc_mod in F3 by lia. rewrite cyc_succ_mod in F4 by lia.
  repeat (split; [first [assumption|reflexivity]|]). exact F4.
Qed.
Section Merge.
Context (dbg : bool) (st : mesh) (i k : nat) (p : poly cdata) (Gd : good st) (P : nth_error st i = Some p) (K : (k < pcount p)%nat) (T : straight_at p k).
Lemma merge_edge_ok : exists st' b, merge_edge 1 dbg st i k = Ok (st', b) /\ good st' /\ kept st st' /\ views st st' /\
  (if b then exists p', nth_error st' i = Some p' /\ map shape (pedges p') = map shape (without (S k mod pcount p) (pedges p)) else st' = st).
Proof using All.
  destruct Gd as (M & Ev & Nm). pose proof (mo_once st M) as O. pose proof (mo_convex st M) as Cv. change (once st) in O. change (convex_at st) in Cv.
  destruct (pair_halves st i p k M P K) as (a & b & ha & hb & H & N3 & A & B & Ha & Hb & Ha' & Hb' & Ia & Ib & Qa & Qb & Da & Db & Fa & Ta & Fb & Tb). set (n := (S k mod pcount p)%nat) in *.
  destruct (straight_chk p k a b H A B T) as [Ck Sd]; [rewrite <- Da; exact (proj2 Nm i ha Ha')|rewrite <- Db; exact (proj2 Nm i hb Hb')|].
  assert (Even : f_partner ha = None <-> f_partner hb = None). { apply (Ev i i ha hb Ha' Hb'); [rewrite Ta, Fb; reflexivity|rewrite Da, Db; exact Sd]. }
  destruct (c_partner (pd b)) as [pb|] eqn:Eb.
  2: { (* no partners *)
    assert (Na : f_partner ha = None) by (apply Even; congruence).
    exists (erase st i n), true. split; [exact (merge_free 1 dbg st i k p a b O P A B Ck Eb)|].
    pose proof (half_in_erase st i p k n ha hb O P N3 eq_refl Ha Hb) as D. pose proof (erase_views st i p k P H K T) as V. fold n in V.
    pose proof (erase_convex st i p k Cv P H K T) as Cv'. fold n in Cv'.
    assert (Or : forall l h, half_in (erase st i n) l h -> origin st h).
    { intros l h X. apply D in X as [[-> ->]|(X & _)]; [|exact (origin_self st l h X)]. exists i, ha, i, hb. repeat (split; [first [assumption|reflexivity|exact (conj (fun z => z) (fun z => z))]|]). split; [rewrite Da, Db; exact Sd|]. split; [cbn; tauto|exact Even]. }
    assert (M' : mesh_ok (erase st i n)).
    { split; [exact Cv'|exact (erase_once st i n O)| |].
      - intros l h X. apply D in X as [[-> ->]|(X & _)]; [exact (mo_back st M i ha Ha')|exact (mo_back st M l h X)].
      - intros l h d X Pd. apply D in X as [[-> ->]|(X & _)]; [cbn [join f_partner] in Pd; congruence|]. destruct (mo_partner st M l h d X Pd) as (j & g & Hg & Ig & Pg & E1 & E2). exists j, g. split; [|repeat split; try assumption; try (apply E1); try (apply E2)].
        apply D. right. split; [exact Hg|]. split; intros Q; [destruct (half_unique st j i g ha O Hg Ha' Q); subst; congruence|destruct (half_unique st j i g hb O Hg Hb' Q); subst; congruence]. }
    split; [split; [exact M'|split; [exact (origin_even st _ Cv Cv' Ev Or)|exact (origin_min st _ V Nm Or)]]|]. split; [exact (origin_kept st _ Or)|]. split; [exact V|].
    eexists. split; [rewrite (erase_nth st i n p i P), Nat.eqb_refl; reflexivity|]. reflexivity. }
  (* partners *)
  destruct (c_partner (pd a)) as [pa|] eqn:Ea; [|exfalso; rewrite Qa, Qb in Even; destruct Even as [X _]; discriminate (X eq_refl)].
  destruct (mo_partner st M i ha pa Ha' Qa) as (j & ga & Ga & Iga & Pga & E1 & E2). destruct (mo_partner st M i hb pb Hb' Qb) as (j' & gb & Gb & Igb & Pgb & E3 & E4).
  pose proof (mo_back st M j ga Ga) as Cga. pose proof (mo_back st M j' gb Gb) as Cgb.
  destruct (half_in_at st j ga Ga) as (m' & ea & At_a & X1 & X2 & X3 & X4 & X5). destruct (half_in_at st j' gb Gb) as (m & eb & At_b & Y1 & Y2 & Y3 & Y4 & Y5).
  destruct (Nat.eq_dec j' j) as [->|NE].
  2: { (* partners in different polygons *)
    exists st, false. split; [|split; [exact Gd|]; split; [apply kept_refl|]; split; [apply views_refl|reflexivity]].
    pose proof (nth_lt _ _ _ A) as L. fold (pcount p) in L. cbn [merge_edge]. unfold poly_at at 1. rewrite P. cbn [rbind]. rewrite check_true by (apply Nat.ltb_lt; exact L). cbn [rbind]. destruct (Nat.eqb_spec (pcount p) 0) as [Z|Z]; [lia|]. unfold pedge_at at 1 2. rewrite A. cbn [rbind]. fold n. rewrite B. cbn [rbind].
    assert (Can : can_merge 1 dbg st (eid a) (eid b) = Ok false); [|rewrite Can; reflexivity].
    cbn [can_merge]. rewrite (deref_at st i k a O), (deref_at st i n b O) by (exists p; auto). cbn [rbind]. rewrite (chk_run dbg a b Ck). cbn [rbind]. rewrite Ea, Eb. rewrite <- Iga, <- X1, (deref_at _ _ _ _ O At_a). cbn [rbind]. rewrite <- Igb, <- Y1, (deref_at _ _ _ _ O At_b). cbn [rbind]. rewrite X2, Cga, Y2, Cgb. destruct (Nat.eqb_spec j j'); [congruence|]. reflexivity. }
  (* the partners follow each other *)
  destruct Ga as (o & m1 & Q & Ga). destruct Gb as (o1 & m2 & Q1 & Gb). assert (o1 = o) by congruence. subst o1.
  assert (Ga' : half_in st j ga) by (exists o, m1; auto). assert (Gb' : half_in st j gb) by (exists o, m2; auto).
  destruct (half_points o m1 ga Ga) as (L1 & F1 & F2). destruct (half_points o m2 gb Gb) as (L2 & F3 & F4).
  destruct (pair_halves st j o m2 M Q L2) as (eb1 & ea1 & gb1 & ga1 & Ho & M3 & EB & EA & HB & HA & HB' & HA' & IB & IA & QB & QA & DB & DA & FB & TB & FA & TA).
  assert (gb1 = gb) by exact (half_at_fun _ _ _ _ HB Gb). subst gb1. set (n' := (S m2 mod pcount o)%nat) in *.
  assert (Mn : m1 = n'). { apply (points_distinct o (pts o) m1 n' Ho L1); [apply Nat.mod_upper_bound; lia|]. rewrite <- F1, <- E2, Ta, <- Fb, E3, TB. unfold n'. rewrite <- (pts_length o), cyc_mod by (rewrite pts_length; lia). reflexivity. }
  subst m1. assert (ga1 = ga) by exact (half_at_fun _ _ _ _ HA Ga). subst ga1.
  assert (IJ : i <> j).
  { intros <-. assert (o = p) by congruence. subst o. assert (n' = n). { apply (points_distinct p (pts p) n' n H L1); [apply Nat.mod_upper_bound; lia|]. rewrite <- F1, <- E2, Ta. unfold n. rewrite <- (pts_length p), cyc_mod by (rewrite pts_length; lia). reflexivity. }
    apply (proj2 (points_two p (pts p) k H)). rewrite <- Fa, E1, F2. rewrite H0. unfold n. rewrite <- (pts_length p), cyc_succ_mod by (rewrite pts_length; lia). reflexivity. }
  assert (T' : straight_at o m2). { unfold straight_at. rewrite <- FB, <- TB, <- TA. rewrite <- E4, <- E3, <- E1, Tb, Fb, Fa. apply straight_back. exact T. }
  destruct (straight_chk o m2 eb1 ea1 Ho EB EA T') as [Ck' Sd']; [rewrite <- DB; exact (proj2 Nm j gb HB')|rewrite <- DA; exact (proj2 Nm j ga HA')|].
  assert (Wa : eid ea1 = pa) by congruence. assert (Wb : eid eb1 = pb) by congruence.
  assert (Na : at_ st j n' ea1) by (exists o; auto). assert (Nb : at_ st j m2 eb1) by (exists o; auto).
  assert (Ce : c_poly (pd ea1) = j) by (destruct Ga as (x & x' & U1 & U2 & U3); assert (x = ea1) by congruence; subst x; rewrite U3 in Cga; exact Cga).
  assert (Cf : c_poly (pd eb1) = j) by (destruct Gb as (x & x' & U1 & U2 & U3); assert (x = eb1) by congruence; subst x; rewrite U3 in Cgb; exact Cgb).
  assert (Pa1 : c_partner (pd a) = Some (eid ea1)) by congruence. assert (Pb1 : c_partner (pd b) = Some (eid eb1)) by congruence. assert (Pe1 : c_partner (pd ea1) = Some (eid a)) by congruence.
  pose proof (merge_linked dbg st i j k m2 p o a b ea1 eb1 O P Q IJ A B EB EA Pa1 Pb1 Pe1 Ce Cf Ck Ck' N3 M3) as Run. fold n n' in Run.
  destruct (linked_ids dbg st i j k m2 p o a b ea1 eb1) as (D1 & D2 & D3 & D4 & D5 & D6); try assumption.
  set (G := relink (eid a) (eid b) (eid ea1) (eid eb1)) in *. assert (Gi : forall d, c_id (G d) = c_id d) by (intros d; apply relink_id).
  set (st1 := redata G st) in *. assert (O1 : once st1) by (apply redata_once; assumption).
  assert (P1 : nth_error st1 i = Some (redata_poly G p)) by (unfold st1; rewrite redata_nth, P; reflexivity). assert (Q1' : nth_error st1 j = Some (redata_poly G o)) by (unfold st1; rewrite redata_nth, Q; reflexivity).
  assert (Hmap : forall x g, half_at x g = half_at x g) by reflexivity.
  assert (HA1 : half_at (redata_poly G o) n' (hmap G ga)) by (apply half_at_redata; eauto). assert (HB1 : half_at (redata_poly G o) m2 (hmap G gb)) by (apply half_at_redata; eauto).
  assert (Ha1 : half_at (redata_poly G p) k (hmap G ha)) by (apply half_at_redata; eauto). assert (Hb1 : half_at (redata_poly G p) n (hmap G hb)) by (apply half_at_redata; eauto).
  assert (Mo : (length (pedges (redata_poly G o)) >= 3)%nat) by (pose proof (redata_count G o) as X; unfold pcount in *; lia). assert (Mp : (length (pedges (redata_poly G p)) >= 3)%nat) by (pose proof (redata_count G p) as X; unfold pcount in *; lia).
  assert (En' : n' = (S m2 mod length (pedges (redata_poly G o)))%nat) by (pose proof (redata_count G o) as X; unfold pcount in X; rewrite X; reflexivity). assert (En : n = (S k mod length (pedges (redata_poly G p)))%nat) by (pose proof (redata_count G p) as X; unfold pcount in X; rewrite X; reflexivity).
  pose proof (half_in_erase st1 j (redata_poly G o) m2 n' (hmap G gb) (hmap G ga) O1 Q1' Mo En' HB1 HA1) as U1.
  set (st2 := erase st1 j n') in *. assert (O2 : once st2) by (apply erase_once; exact O1).
  assert (P2 : nth_error st2 i = Some (redata_poly G p)) by (unfold st2; rewrite (erase_nth st1 j n' _ i Q1'); destruct (Nat.eqb_spec i j); [contradiction|exact P1]).
  pose proof (half_in_erase st2 i (redata_poly G p) k n (hmap G ha) (hmap G hb) O2 P2 Mp En Ha1 Hb1) as U2.
  set (st3 := erase st2 i n) in *.
  assert (Ids : forall h, f_id (hmap G h) = f_id h) by (intros h; exact (Gi (hdata h))).
  assert (Ma : hmap G ha = HE (f_id ha) i (Some pb) (f_from ha) (f_to ha) (f_dir ha)).
  { unfold hmap. cbv zeta. unfold G at 1 2 3. rewrite relink_id, relink_poly, relink_partner. cbn [hdata c_id c_poly]. rewrite (mo_back st M i ha Ha'), Ia. repeat match goal with |- context [Nat.eqb ?x ?y] => destruct (Nat.eqb_spec x y) end; congruence. }
  assert (Mb : hmap G gb = HE (f_id gb) j (Some (eid a)) (f_from gb) (f_to gb) (f_dir gb)).
  { unfold hmap. cbv zeta. unfold G at 1 2 3. rewrite relink_id, relink_poly, relink_partner. cbn [hdata c_id c_poly]. rewrite (mo_back st M j gb HB'), IB. repeat match goal with |- context [Nat.eqb ?x ?y] => destruct (Nat.eqb_spec x y) end; congruence. }
  assert (Mx : forall h, f_id h <> eid a -> f_id h <> eid b -> f_id h <> eid ea1 -> f_id h <> eid eb1 -> hmap G h = h).
  { intros h K1 K2 K3 K4. unfold hmap. cbv zeta. unfold G. rewrite relink_id, relink_poly, relink_partner. cbn [hdata c_id c_poly c_partner]. repeat match goal with |- context [Nat.eqb ?x ?y] => destruct (Nat.eqb_spec x y); [contradiction|] end. destruct h; reflexivity. }
  set (new := HE (eid a) i (Some pb) (f_from ha) (f_to hb) (f_dir ha)) in *. set (wen := HE pb j (Some (eid a)) (f_from gb) (f_to ga) (f_dir gb)) in *.
  assert (Jn : join (hmap G ha) (hmap G hb) = new) by (rewrite Ma; unfold new, join; cbn; rewrite Ia; reflexivity).
  assert (Jw : join (hmap G gb) (hmap G ga) = wen) by (rewrite Mb; unfold wen, join; cbn; rewrite Igb; reflexivity).
  rewrite Jn in U2. rewrite Jw in U1. rewrite !Ids in U1, U2. rewrite Ia, Ib in U2. rewrite IA, IB in U1.
  assert (D : forall l h, half_in st3 l h <-> (l = i /\ h = new) \/ (l = j /\ h = wen) \/ (half_in st l h /\ f_id h <> eid a /\ f_id h <> eid b /\ f_id h <> eid ea1 /\ f_id h <> eid eb1)).
  { intros l h. rewrite U2, U1. unfold st1. rewrite half_in_redata. split.
    - intros [X|([X|((h0 & X & ->) & V1 & V2)] & V3 & V4)]; [auto|auto|]. right. right. rewrite Ids in V1, V2, V3, V4. rewrite (Mx h0) by assumption. auto.
    - intros [X|[(-> & ->)|(X & V1 & V2 & V3 & V4)]]; [auto| |].
      + right. split; [left; auto|]. cbn [wen f_id]. rewrite <- Wb. split; congruence.
      + right. split; [|auto]. right. split; [exists h; rewrite (Mx h) by assumption; auto|auto]. }
  clear U1 U2.
  assert (V : views st st3).
  { apply (views_trans _ st1); [apply redata_views|]. apply (views_trans _ st2).
    - pose proof (erase_views st1 j (redata_poly G o) m2 Q1' (redata_ok G o Ho)) as X. rewrite redata_count in X. apply X; [exact L2|]. unfold straight_at. rewrite redata_pts. exact T'.
    - pose proof (erase_views st2 i (redata_poly G p) k P2 (redata_ok G p H)) as X. rewrite redata_count in X. apply X; [exact K|]. unfold straight_at. rewrite redata_pts. exact T. }
  assert (Cv' : convex_at st3).
  { pose proof (erase_convex st1 j (redata_poly G o) m2 (redata_convex G st Cv) Q1' (redata_ok G o Ho)) as X. rewrite redata_count in X. specialize (X L2). unfold straight_at in X. rewrite redata_pts in X. specialize (X T'). fold n' st2 in X.
    pose proof (erase_convex st2 i (redata_poly G p) k X P2 (redata_ok G p H)) as Y. rewrite redata_count in Y. specialize (Y K). unfold straight_at in Y. rewrite redata_pts in Y. exact (Y T). }
  assert (Or : forall l h, half_in st3 l h -> origin st h).
  { intros l h X. apply D in X as [(-> & ->)|[(-> & ->)|(X & _)]]; [| |exact (origin_self st l h X)].
    - exists i, ha, i, hb. split; [exact Ha'|]. split; [exact Hb'|]. split; [cbn; congruence|]. split; [reflexivity|]. split; [reflexivity|]. split; [reflexivity|]. split; [rewrite Da, Db; exact Sd|]. cbn [new f_partner]. rewrite Qa, Qb. split; split; discriminate.
    - exists j, gb, j, ga. split; [exact HB'|]. split; [exact HA'|]. split; [cbn; congruence|]. split; [reflexivity|]. split; [reflexivity|]. split; [reflexivity|]. split; [rewrite DB, DA; exact Sd'|]. cbn [wen f_partner]. rewrite Pga, Pgb. split; split; discriminate. }
  assert (M' : mesh_ok st3).
  { split; [exact Cv'|apply erase_once; exact O2| |].
    - intros l h X. apply D in X as [(-> & ->)|[(-> & ->)|(X & _)]]; [reflexivity|reflexivity|exact (mo_back st M l h X)].
    - intros l h d X Pd. apply D in X as [(-> & ->)|[(-> & ->)|(X & V1 & V2 & V3 & V4)]].
      + cbn [new f_partner] in Pd. injection Pd as <-. exists j, wen. split; [apply D; auto|]. split; [reflexivity|]. split; [reflexivity|]. split; [exact E1|exact E4].
      + cbn [wen f_partner] in Pd. injection Pd as <-. exists i, new. split; [apply D; auto|]. split; [reflexivity|]. split; [reflexivity|]. split; symmetry; [exact E4|exact E1].
      + destruct (mo_partner st M l h d X Pd) as (j2 & g & Hg & Ig & Pg & R1 & R2). exists j2, g. split; [|split; [exact Ig|]; split; [exact Pg|]; split; [exact R1|exact R2]].
        apply D. right. right. split; [exact Hg|]. repeat split; intros Z.
        * destruct (half_unique st j2 i g ha O Hg Ha' ltac:(congruence)) as [_ ->]. congruence.
        * destruct (half_unique st j2 i g hb O Hg Hb' ltac:(congruence)) as [_ ->]. congruence.
        * destruct (half_unique st j2 j g ga O Hg HA' ltac:(congruence)) as [_ ->]. congruence.
        * destruct (half_unique st j2 j g gb O Hg HB' ltac:(congruence)) as [_ ->]. congruence. }
  exists st3, true. split; [exact Run|]. split; [split; [exact M'|split; [exact (origin_even st _ Cv Cv' Ev Or)|exact (origin_min st _ V Nm Or)]]|]. split; [exact (origin_kept st _ Or)|]. split; [exact V|].
  eexists. split; [unfold st3; rewrite (erase_nth st2 i n _ i P2), Nat.eqb_refl; reflexivity|]. cbn [redata_poly set_edges pedges]. rewrite firstn_map, skipn_map, <- map_app, map_map. reflexivity.
Qed.
End Merge.
