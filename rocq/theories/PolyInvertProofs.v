(** Invert, RotateEdges, SortVertices and operator==. *)
From Coq Require Import List Bool Arith ZArith QArith Lqa Lia ZifyBool Morphisms Setoid.
From Verif Require Import BigUIntModel GeoModel GeoSpec GeoProofs GeoPlaneProofs GeoDirProofs GeoPluckerProofs GeoReduceProofs CvxSpec CvxProofs CvxSeqProofs CvxCapProofs PolyModel PolySpec PolyBridgeProofs PolySearchProofs PolyInfoProofs PolyExtremeProofs PolyCapProofs PolyChildProofs CvxMergeProofs PolyOpsModel MergeSpec MergeProofs MergeTopProofs.
Import ListNotations.
Open Scope Q_scope.
(** ** Invert *)
Definition reversed_at (qs : list qpoint) (i : nat) : qpoint := cyc o3 qs (length qs - i).
Lemma zip3_nth {A} (vs : list hpoint3) ls (ds : list A) i : nth_error (zip3 vs ls ds) i = match nth_error vs i, nth_error ls i, nth_error ds i with Some v, Some l, Some d => Some (PE v l d) | _, _, _ => None end.
Proof.
  revert ls ds i. induction vs as [|v vs IH]; intros ls ds i; [destruct i; reflexivity|]. destruct ls as [|l ls]; [cbn [zip3]; destruct i; cbn [nth_error]; [reflexivity|destruct (nth_error vs i); reflexivity]|].
  destruct ds as [|d ds]; [cbn [zip3]; destruct i; cbn [nth_error]; [reflexivity|destruct (nth_error vs i), (nth_error ls i); reflexivity]|]. destruct i; cbn [zip3 nth_error]; [reflexivity|apply IH].
Qed.
Lemma zip3_length {A} (vs : list hpoint3) ls (ds : list A) : length vs = length ls -> length ls = length ds -> length (zip3 vs ls ds) = length ds.
Proof. revert ls ds. induction vs as [|v vs IH]; intros [|l ls] [|d ds] E1 E2; cbn in *; try lia. rewrite IH; lia. Qed.
Lemma nth_error_rev {B} (l : list B) i : (i < length l)%nat -> nth_error (rev l) i = nth_error l (length l - S i).
Proof.
  intros L. destruct l as [|x l']; [cbn in L; lia|]. set (l := x :: l') in *. rewrite (nth_error_nth' (rev l) x) by (rewrite rev_length; exact L). rewrite rev_nth by exact L. rewrite (nth_error_nth' l x) by lia. reflexivity.
Qed.
Lemma invert_edges {A} (p : poly A) : (0 < pcount p)%nat -> pcount (invert p) = pcount p /\ pplane (invert p) = hs_neg (pplane p) /\ pdrop (invert p) = pdrop p /\ map pd (pedges (invert p)) = map pd (pedges p) /\
  forall i, (i < pcount p)%nat -> exists ev el ed, nth_error (pedges p) ((pcount p - i) mod pcount p) = Some ev /\ nth_error (pedges p) (pcount p - 1 - i) = Some el /\ nth_error (pedges p) i = Some ed /\
    nth_error (pedges (invert p)) i = Some (PE (pv ev) (pl_neg (pl el)) (pd ed)).
Proof.
  intros N. unfold invert. destruct (pedges p) as [|e es] eqn:Ep; [unfold pcount in N; rewrite Ep in N; cbn in N; lia|]. assert (Np : pcount p = S (length es)) by (unfold pcount; rewrite Ep; reflexivity).
  set (vs := pv e :: rev (map pv es)). set (ls := map pl_neg (rev (map pl (e :: es)))). set (ds := map pd (e :: es)).
  assert (Lv : length vs = S (length es)) by (unfold vs; cbn [length]; rewrite rev_length, map_length; reflexivity). assert (Ll : length ls = S (length es)) by (unfold ls; rewrite map_length, rev_length, map_length; reflexivity). assert (Ld : length ds = S (length es)) by (unfold ds; rewrite map_length; reflexivity).
  assert (Lz : length (zip3 vs ls ds) = S (length es)) by (rewrite zip3_length; lia).
  assert (At : forall i, (i < S (length es))%nat -> exists e0, nth_error (e :: es) i = Some e0). { intros i L. destruct (nth_error (e :: es) i) eqn:X; [eauto|]. apply nth_error_None in X. cbn in X. lia. }
  assert (Nth : forall i, (i < S (length es))%nat -> exists ev el ed, nth_error (e :: es) ((S (length es) - i) mod S (length es)) = Some ev /\ nth_error (e :: es) (S (length es) - 1 - i) = Some el /\ nth_error (e :: es) i = Some ed /\ nth_error (zip3 vs ls ds) i = Some (PE (pv ev) (pl_neg (pl el)) (pd ed))).
  { intros i L. destruct (At ((S (length es) - i) mod S (length es))%nat ltac:(apply Nat.mod_upper_bound; lia)) as (ev & Ev). destruct (At (S (length es) - 1 - i)%nat ltac:(lia)) as (el & El). destruct (At i L) as (ed & Ed). exists ev, el, ed. split; [exact Ev|]. split; [exact El|]. split; [exact Ed|].
    rewrite zip3_nth. assert (V : nth_error vs i = Some (pv ev)).
    { unfold vs. destruct i as [|i]; cbn [nth_error].
      - rewrite Nat.sub_0_r, Nat.mod_same in Ev by lia. cbn in Ev. congruence.
      - rewrite nth_error_rev by (rewrite map_length; lia). rewrite map_length. rewrite Nat.mod_small in Ev by lia. replace (S (length es) - S i)%nat with (S (length es - S i)) in Ev by lia. cbn [nth_error] in Ev. apply map_nth_error. exact Ev. }
    assert (Ls : nth_error ls i = Some (pl_neg (pl el))).
    { unfold ls. apply map_nth_error. rewrite nth_error_rev by (rewrite map_length; cbn [length]; lia). apply map_nth_error. rewrite map_length. cbn [length]. replace (S (length es) - S i)%nat with (S (length es) - 1 - i)%nat by lia. exact El. }
    rewrite V, Ls. unfold ds. rewrite (map_nth_error pd i (e :: es) Ed). reflexivity. }
  rewrite Np. split; [unfold pcount; cbn [pedges]; exact Lz|]. split; [reflexivity|]. split; [reflexivity|]. split.
  - cbn [pedges]. apply nth_error_ext. intros i. destruct (Nat.lt_ge_cases i (S (length es))) as [L|L].
    + destruct (Nth i L) as (ev & el & ed & _ & _ & Ed & Z). rewrite (map_nth_error pd i _ Z). unfold ds. rewrite (map_nth_error pd i _ Ed). reflexivity.
    + transitivity (@None A); [|symmetry]; apply nth_error_None; [rewrite map_length, Lz|cbn [length map]; rewrite ?map_length]; lia.
  - exact Nth.
Qed.
Lemma edge_on_neg l a b : edge_on l a b -> edge_on (pl_neg l) b a.
Proof.
  intros On. pose proof (edge_on_point l a b 1 On) as P1. destruct On as [L0 (k & K & D)]. split.
  - unfold line_points, qp_eq, qcross, between, qadd, qscale, qsub, pl_neg, v3_neg, qpt in *. cbn [qx qy qz ld lm vx vy vz] in *. rewrite !inject_Z_opp. destruct P1 as (X & Y & Z). rewrite <- X, <- Y, <- Z. repeat split; ring.
  - exists k. split; [exact K|]. unfold qp_eq, qscale, qsub, pl_neg, v3_neg, qpt in *. cbn [qx qy qz ld vx vy vz] in *. rewrite !inject_Z_opp. destruct D as (X & Y & Z). rewrite X, Y, Z. repeat split; ring.
Qed.
Lemma comp_neg v i : comp (v3_neg v) i = (- comp v i)%Z.
Proof. destruct i as [|[|i]]; reflexivity. Qed.
Lemma invert_ok {A} (p : poly A) qs : poly_ok p qs -> let rs := map (reversed_at qs) (seq 0 (length qs)) in
  poly_ok (invert p) rs /\ forall q, polygon_point (pplane (invert p)) (pdrop (invert p)) rs q <-> polygon_point (pplane p) (pdrop p) qs q.
Proof.
  intros H rs. pose proof (ok_cvx p qs H) as C. pose proof (cvx_three _ _ _ C) as N. pose proof (ok_length p qs H) as Ln. destruct (po_drop p qs H) as [Dl Dn]. destruct (invert_edges p ltac:(lia)) as (I1 & I2 & I3 & I4 & I5). set (n := pcount p) in *.
  assert (Es : invert p = Poly (hs_neg (pplane p)) (pdrop p) (pedges (invert p))) by (rewrite <- I2, <- I3; destruct (invert p); reflexivity).
  set (s := inject_Z (pnormal_drop p)) in *. assert (Cs : inject_Z (comp (hn (hs_neg (pplane p))) (pdrop p)) == - s) by (unfold hs_neg; cbn [hn]; rewrite comp_neg, inject_Z_opp; reflexivity).
  pose proof (cvx_shift _ _ _ (n - 1) (cvx_backwards _ _ _ C)) as CB. set (B := fun i => backwards n (flat_at p qs) (n - 1 + i)) in *.
  assert (Bi : forall i, (i <= n)%nat -> B i = flat_at p qs (n - i)).
  { intros i L. unfold B, backwards. destruct i as [|i]; [rewrite Nat.add_0_r, Nat.mod_small by lia; replace (n - 1 - (n - 1))%nat with 0%nat by lia; symmetry; rewrite Nat.sub_0_r; exact (c_period _ _ _ C 0%nat)|]. replace (n - 1 + S i)%nat with (i + 1 * n)%nat by lia. rewrite Nat.mod_add by lia. destruct (Nat.eq_dec i n); [lia|]. rewrite Nat.mod_small by lia. f_equal. lia. }
  assert (Mp : map (qdrop (pdrop p)) rs = map B (seq 0 n)). { unfold rs. rewrite map_map, Ln. apply map_ext_in. intros i I. apply in_seq in I. rewrite Bi by lia. unfold flat_at, reversed_at. rewrite Ln. reflexivity. }
  split.
  - rewrite Es. unfold rs. rewrite Ln. apply poly_ok_intro; [exact I1|lia|exact Dl|unfold hs_neg; cbn [hn]; rewrite comp_neg; unfold pnormal_drop in Dn; lia| | |].
    + intros i L. rewrite side_hs_neg. unfold reversed_at. rewrite (ok_on_plane p qs H). reflexivity.
    + intros i L. destruct (I5 i L) as (ev & el & ed & Ev & El & _ & Z). eexists. split; [exact Z|]. cbn [pv pl]. destruct (ok_edge_mod p qs (n - i) H) as (e1 & E1 & D1 & _). fold n in E1. rewrite Ev in E1. injection E1 as <-. unfold reversed_at at 1. rewrite Ln. split; [exact D1|].
      destruct (ok_edge_on p qs H (n - 1 - i) ltac:(fold n; lia)) as (e2 & E2 & _ & On). rewrite El in E2. injection E2 as <-. unfold reversed_at. rewrite Ln. replace (S (n - 1 - i)) with (n - i)%nat in On by lia.
      replace (cyc o3 qs (n - S i mod n)) with (cyc o3 qs (n - 1 - i)); [apply edge_on_neg; exact On|].
      destruct (Nat.eq_dec (S i) n) as [X|X]; [rewrite X, Nat.mod_same by lia; replace (n - 1 - i)%nat with 0%nat by lia; rewrite Nat.sub_0_r, <- Ln; symmetry; apply (cyc_period o3 qs 0); lia|]. rewrite Nat.mod_small by lia. f_equal. lia.
    + rewrite <- Ln. fold rs. rewrite Mp. destruct (cvx_cycle_of _ _ _ CB) as (A1 & A2 & A3). split; [|split; assumption]. intros i j k a b c Hij Hjk Ha Hb Hc. rewrite Cs. exact (A1 i j k a b c Hij Hjk Ha Hb Hc).
  - intros q. rewrite I2, I3, (ok_points p qs H). unfold polygon_point. rewrite Mp. fold n s.
    assert (Z : side (hs_neg (pplane p)) q == 0 <-> side (pplane p) q == 0) by (rewrite side_hs_neg; split; intros; lra). rewrite Z. apply and_iff_compat_l.
    assert (X : in_polygon (inject_Z (comp (hn (hs_neg (pplane p))) (pdrop p))) (map B (seq 0 n)) (qdrop (pdrop p) q) <-> in_polygon (- s) (map B (seq 0 n)) (qdrop (pdrop p) q)) by (split; intros I i a b Ha Hb; specialize (I i a b Ha Hb); rewrite Cs in *; exact I).
    rewrite X, (fmap_polygon _ _ _ _ CB), (fmap_polygon _ _ _ _ C). fold n s. split; intros I i L.
    + specialize (I (n - 1 - i)%nat ltac:(lia)). rewrite !Bi in I by lia. replace (n - (n - 1 - i))%nat with (S i) in I by lia. replace (n - S (n - 1 - i))%nat with i in I by lia. rewrite turn_swap in I. lra.
    + specialize (I (n - 1 - i)%nat ltac:(lia)). rewrite !Bi by lia. replace (S (n - 1 - i)) with (n - i)%nat in I by lia. replace (n - S i)%nat with (n - 1 - i)%nat by lia. rewrite turn_swap. lra.
Qed.
Lemma neg_neg_line l : pl_neg (pl_neg l) = l.
Proof. destruct l as [[a b c] [d e f]]. unfold pl_neg, v3_neg. cbn [ld lm vx vy vz]. rewrite !Z.opp_involutive. reflexivity. Qed.
Lemma neg_neg_plane h : hs_neg (hs_neg h) = h.
Proof. destruct h as [[a b c] d]. unfold hs_neg, v3_neg. cbn [hn hd vx vy vz]. rewrite !Z.opp_involutive. reflexivity. Qed.
Lemma invert_twice {A} (p : poly A) : invert (invert p) = p.
Proof.
  destruct (Nat.eq_dec (pcount p) 0) as [Z|Z]; [unfold invert; destruct p as [h d [|e es]]; [reflexivity|discriminate Z]|].
  destruct (invert_edges p ltac:(lia)) as (A1 & A2 & A3 & _ & A5). destruct (invert_edges (invert p) ltac:(lia)) as (B1 & B2 & B3 & _ & B5). rewrite A1 in *. rewrite A2, neg_neg_plane in B2. rewrite A3 in B3. set (n := pcount p) in *.
  assert (Ed : pedges (invert (invert p)) = pedges p).
  { apply nth_error_ext. intros i. destruct (Nat.lt_ge_cases i n) as [L|L]; [|transitivity (@None (pedge A)); [|symmetry]; apply nth_error_None; [unfold pcount in B1; lia|unfold n, pcount in L; lia]].
    destruct (B5 i L) as (ev & el & ed & E1 & E2 & E3 & E4). rewrite E4.
    destruct (A5 ((n - i) mod n)%nat ltac:(apply Nat.mod_upper_bound; lia)) as (ev1 & el1 & ed1 & F1 & _ & _ & F4). rewrite F4 in E1. injection E1 as <-.
    destruct (A5 (n - 1 - i)%nat ltac:(lia)) as (ev2 & el2 & ed2 & _ & G2 & _ & G4). rewrite G4 in E2. injection E2 as <-.
    destruct (A5 i L) as (ev3 & el3 & ed3 & _ & _ & H3 & H4). rewrite H4 in E3. injection E3 as <-. cbn [pv pl pd]. rewrite neg_neg_line.
    replace ((n - (n - i) mod n) mod n)%nat with i in F1. 2: { destruct i as [|i]; [rewrite Nat.sub_0_r, Nat.mod_same, Nat.sub_0_r, Nat.mod_same by lia; reflexivity|]. rewrite (Nat.mod_small (n - S i)) by lia. rewrite Nat.mod_small by lia. lia. }
    replace (n - 1 - (n - 1 - i))%nat with i in G2 by lia. rewrite F1 in *. injection G2 as <-. injection H3 as <-. destruct ev1. reflexivity. }
  destruct (invert (invert p)) as [h d es], p as [h' d' es']. cbn in *. congruence.
Qed.
(** ** GetMinimumIndex, RotateEdges, SortVertices *)
Lemma qlex_trans a b c : ~ qlex_lt b a -> ~ qlex_lt c b -> ~ qlex_lt c a.
Proof. unfold qlex_lt. intros X Y Z. destruct (Q_dec (qx a) (qx b)) as [[|]|], (Q_dec (qx b) (qx c)) as [[|]|], (Q_dec (qy a) (qy b)) as [[|]|], (Q_dec (qy b) (qy c)) as [[|]|]; try (apply X; lra); try (apply Y; lra); destruct Z as [Z|[Z1 [Z2|[Z2 Z3]]]]; try lra; try (apply X; lra); try (apply Y; lra); destruct (Qlt_le_dec (qz b) (qz a)); try (apply X; lra); apply Y; lra. Qed.
Lemma qlex_irrefl a : ~ qlex_lt a a.
Proof. unfold qlex_lt. intros X. lra. Qed.
Lemma minimum_loop_ok vs qs : Forall2 denotes vs qs -> forall i m b bq, denotes b bq ->
  let r := minimum_loop vs i m b in
  (r = m /\ Forall (fun q => ~ qlex_lt q bq) qs) \/ (exists j q, r = (i + j)%nat /\ nth_error qs j = Some q /\ qlex_lt q bq /\ Forall (fun x => ~ qlex_lt x q) qs).
Proof.
  intros F. induction F as [|v q vs qs D F IH]; intros i m b bq Db; cbv zeta; cbn [minimum_loop]; [left; split; [reflexivity|constructor]|].
  pose proof (hp_lex_lt_spec v b q bq D Db) as L. destruct (hp_lex_lt v b) eqn:Lt.
  - assert (Lq : qlex_lt q bq) by (apply L; reflexivity). right. destruct (IH (S i) i v q D) as [[-> Fa]|(j & x & -> & Nj & Lx & Fa)].
    + exists 0%nat, q. split; [lia|]. split; [reflexivity|]. split; [exact Lq|]. constructor; [apply qlex_irrefl|exact Fa].
    + exists (S j), x. split; [lia|]. split; [exact Nj|]. assert (Nx : ~ qlex_lt q x). { intros Y. revert Lx Y. unfold qlex_lt. intros. lra. } split; [|constructor; assumption]. revert Lx Lq. clear. unfold qlex_lt. intros. lra.
  - assert (Nq : ~ qlex_lt q bq) by (intros X; apply L in X; discriminate). destruct (IH (S i) m b bq Db) as [[-> Fa]|(j & x & -> & Nj & Lx & Fa)].
    + left. split; [reflexivity|]. constructor; assumption.
    + right. exists (S j), x. split; [lia|]. split; [exact Nj|]. split; [exact Lx|]. constructor; [|exact Fa]. intros Y. apply Nq. revert Lx Y. clear. unfold qlex_lt. intros. lra.
Qed.
Lemma minimum_ok {A} (p : poly A) qs : pedges p <> [] -> Forall2 (fun e q => denotes (pv e) q) (pedges p) qs -> exists q, nth_error qs (minimum_index p) = Some q /\ Forall (fun x => ~ qlex_lt x q) qs.
Proof.
  intros N F. unfold minimum_index. destruct F as [|e q es qs D F]; [contradiction|]. cbn [map].
  assert (F' : Forall2 denotes (map pv es) qs) by (clear - F; induction F; constructor; assumption).
  destruct (minimum_loop_ok _ _ F' 1 0 (pv e) q D) as [[-> Fa]|(j & x & -> & Nj & Lx & Fa)].
  - exists q. split; [reflexivity|]. constructor; [apply qlex_irrefl|exact Fa].
  - exists x. split; [exact Nj|]. constructor; [|exact Fa]. intros Y. revert Lx Y. clear. unfold qlex_lt. intros. lra.
Qed.
(** ** operator== *)
Lemma cvx_distinct n s P i j : cvx n s P -> (i < j)%nat -> (j < i + n)%nat -> ~ qp2_eq (P i) (P j).
Proof.
  intros C Hij Hj E. pose proof (c_n _ _ _ C) as N. assert (N1 : (S i < j)%nat). { destruct (Nat.eq_dec j (S i)) as [->|]; [|lia]. exfalso. exact (c_edge _ _ _ C i E). }
  assert (N2 : (S j < i + n)%nat). { destruct (Nat.eq_dec (S j) (i + n)) as [X|]; [|lia]. exfalso. apply (c_edge _ _ _ C j). rewrite X, (c_period _ _ _ C). symmetry. exact E. }
  assert (Z : forall k l, (i < k)%nat -> (k < j)%nat -> (j < l)%nat -> (l < i + n)%nat -> turn (P i) (P k) (P l) == 0).
  { intros k l K1 K2 L1 L2. pose proof (c_triple _ _ _ C i k l ltac:(lia) ltac:(lia) ltac:(lia)) as A. pose proof (c_triple _ _ _ C k j l ltac:(lia) ltac:(lia) ltac:(lia)) as B. rewrite <- E, turn_swap in B. assert (X : s * turn (P i) (P k) (P l) == 0) by lra. apply Qmult_integral in X as [X|X]; [destruct (c_s _ _ _ C X)|exact X]. }
  destruct (off_line n s P C _ _ (c_edge _ _ _ C i)) as (m & M). apply M. destruct (in_window n s P C i m) as (m' & t & u & W1 & W2 & W3). assert (Em : P m = P m') by (rewrite <- (period_mult n s P C m u), <- W3, (period_mult n s P C); reflexivity). rewrite Em.
  destruct (Nat.eq_dec m' i) as [->|Ni]; [apply turn_same13|]. destruct (Nat.eq_dec m' j) as [->|Nj]; [rewrite <- E; apply turn_same13|]. destruct (Nat.lt_ge_cases j m') as [G|G]; [apply Z; lia|].
  assert (D : ~ qp2_eq (P i) (P (S j))) by (rewrite E; apply (c_edge _ _ _ C)). pose proof (Z m' (S j) ltac:(lia) ltac:(lia) ltac:(lia) ltac:(lia)) as Z1. pose proof (Z (S i) (S j) ltac:(lia) ltac:(lia) ltac:(lia) ltac:(lia)) as Z2. rewrite turn_swap23 in Z1, Z2.
  destruct (line_param _ _ (P m') D ltac:(lra)) as (a & Ea). destruct (line_param _ _ (P (S i)) D ltac:(lra)) as (b & Eb). rewrite Ea, Eb. unfold turn, qcross2, qsub2, lerp. cbn [qx2 qy2]. ring.
Qed.
Lemma denotes_drop v q d : (d < 3)%nat -> denotes v q -> denotes2 (hp_drop_dim v d) (qdrop d q).
Proof. intros L (W & X & Y & Z). unfold hp_drop_dim, denotes2, drop_dim, qdrop. destruct d as [|[|[|d]]]; [| | |lia]; cbn [hw2 hv2 Nat.add Nat.modulo Nat.divmod fst snd Nat.sub comp x2 y2 qx2 qy2]; repeat split; assumption. Qed.
Lemma match_loop_spec d v vs i : match match_loop d v vs i with
  | Some k => (i <= k)%nat /\ (k < i + length vs)%nat /\ exists w, nth_error vs (k - i) = Some w /\ hp2_eq (hp_drop_dim w d) (hp_drop_dim v d) = true
  | None => forall w, In w vs -> hp2_eq (hp_drop_dim w d) (hp_drop_dim v d) = false end.
Proof.
  revert i. induction vs as [|w vs IH]; intros i; cbn [match_loop]; [intros w []|]. destruct (hp2_eq (hp_drop_dim w d) (hp_drop_dim v d)) eqn:Q.
  - split; [lia|]. split; [cbn [length]; lia|]. exists w. rewrite Nat.sub_diag. auto.
  - specialize (IH (S i)). destruct (match_loop d v vs (S i)) as [k|].
    + destruct IH as (L1 & L2 & x & X & Y). split; [lia|]. split; [cbn [length]; lia|]. exists x. replace (k - i)%nat with (S (k - S i)) by lia. auto.
    + intros x [<-|I]; [exact Q|apply IH; exact I].
Qed.
Lemma same_half_space h h' : same_direction (l4 h) (l4 h') -> (vx (hn h) <> 0 \/ vy (hn h) <> 0 \/ vz (hn h) <> 0)%Z -> (vx (hn h') <> 0 \/ vy (hn h') <> 0 \/ vz (hn h') <> 0)%Z -> exists r, 0 < r /\ forall q, side h q == r * side h' q.
Proof.
  intros S0 H H'. assert (Ex : forall g : hspace3, (vx (hn g) <> 0 \/ vy (hn g) <> 0 \/ vz (hn g) <> 0)%Z -> Exists (fun u => u <> 0%Z) (l4 g)). { intros g [G|[G|G]]; unfold l4; [constructor; exact G|apply Exists_cons_tl; constructor; exact G|apply Exists_cons_tl, Exists_cons_tl; constructor; exact G]. }
  apply same_direction_nonzero in S0; [|reflexivity|apply Ex; assumption|apply Ex; assumption]. destruct S0 as (u & v & Hu & Hv & M). unfold l4 in M. cbn [map] in M. injection M as M1 M2 M3 M4.
  assert (Pu : 0 < inject_Z u) by (rewrite Zlt_Qlt in Hu; exact Hu). assert (Pv : 0 < inject_Z v) by (rewrite Zlt_Qlt in Hv; exact Hv). exists (inject_Z v / inject_Z u). split; [apply Qlt_shift_div_l; lra|]. intros q.
  assert (K : forall x y, (u * x = v * y)%Z -> inject_Z x == inject_Z v / inject_Z u * inject_Z y). { intros x y E. assert (F := f_equal inject_Z E). rewrite !inject_Z_mult in F. assert (G : inject_Z u * inject_Z x == inject_Z v * inject_Z y) by (rewrite F; reflexivity). field_simplify_eq; [|lra]. rewrite <- G. ring. }
  unfold side, qdot, qpt. cbn [qx qy qz]. rewrite (K _ _ M1), (K _ _ M2), (K _ _ M3), (K _ _ M4). ring.
Qed.
Section Equal.
Context {A : Type} (E : einfo A) (p o : poly A) (qs os : list qpoint) (H : poly_ok p qs) (O : poly_ok o os).
Definition data_same (i j : nat) : Prop := exists x y, data_at (pedges p) i = Some x /\ data_at (pedges o) j = Some y /\ ei_eq E x y = true.
Definition same_vertex (i j : nat) : Prop := qp2_eq (qdrop (pdrop p) (cyc o3 qs i)) (qdrop (pdrop p) (cyc o3 os j)).
Lemma vertex_test i j a b : nth_error (pedges p) (i mod pcount p) = Some a -> nth_error (pedges o) (j mod pcount o) = Some b -> hp2_eq (hp_drop_dim (pv a) (pdrop p)) (hp_drop_dim (pv b) (pdrop p)) = true <-> same_vertex i j.
Proof using H O.
  intros Ha Hb. destruct (ok_edge_mod p qs i H) as (a' & Ea & Da & _). rewrite Ha in Ea. injection Ea as <-. destruct (ok_edge_mod o os j O) as (b' & Eb & Db & _). rewrite Hb in Eb. injection Eb as <-. pose proof (proj1 (po_drop p qs H)) as L. apply hp2_eq_spec; apply denotes_drop; assumption.
Qed.
Lemma eq_loop_spec (Hn : pcount o = pcount p) : forall k i j b, (i + k <= pcount p)%nat -> eq_loop E p o k i j = Ok b -> (b = true <-> forall x, (x < k)%nat -> same_vertex (i + x) (j + x) /\ data_same (i + x) ((j + x) mod pcount p)).
Proof using H O.
  pose proof (ok_n p qs H) as N. induction k as [|k IH]; intros i j b L Eq; cbn [eq_loop] in Eq; [injection Eq as <-; split; [intros _ x X; lia|reflexivity]|].
  unfold pedge_at in Eq. destruct (nth_error (pedges p) i) as [a|] eqn:Ha; [|discriminate]. cbn [rbind] in Eq. destruct (nth_error (pedges o) (j mod pcount p)) as [c|] eqn:Hc; [|discriminate]. cbn [rbind] in Eq.
  assert (V := vertex_test i j a c). rewrite Nat.mod_small in V by lia. rewrite Hn in V. specialize (V Ha Hc). destruct (hp2_eq _ _); cbn [negb] in Eq.
  - assert (Dt : data_same i (j mod pcount p) <-> ei_eq E (pd a) (pd c) = true). { unfold data_same, data_at. rewrite Ha, Hc. cbn [option_map]. split; [intros (x & y & X & Y & Z); congruence|intros Z; eauto]. }
    destruct (ei_eq E (pd a) (pd c)); cbn [negb] in Eq.
    + rewrite (IH (S i) (S j) b ltac:(lia) Eq). split; intros F x X.
      * destruct x as [|x]; [rewrite !Nat.add_0_r; split; [apply V|apply Dt]; reflexivity|]. replace (i + S x)%nat with (S i + x)%nat by lia. replace (j + S x)%nat with (S j + x)%nat by lia. apply F. lia.
      * replace (S i + x)%nat with (i + S x)%nat by lia. replace (S j + x)%nat with (j + S x)%nat by lia. apply F. lia.
    + injection Eq as <-. split; [discriminate|]. intros F. destruct (F 0%nat ltac:(lia)) as [_ F0]. rewrite !Nat.add_0_r in F0. apply Dt in F0. discriminate.
  - injection Eq as <-. split; [discriminate|]. intros F. destruct (F 0%nat ltac:(lia)) as [F0 _]. rewrite !Nat.add_0_r in F0. apply V in F0. discriminate.
Qed.
Lemma eq_loop_total (Hn : pcount o = pcount p) : forall k i j, (i + k <= pcount p)%nat -> exists b, eq_loop E p o k i j = Ok b.
Proof using H O.
  pose proof (ok_n p qs H) as N. induction k as [|k IH]; intros i j L; cbn [eq_loop]; [eauto|]. unfold pedge_at. destruct (nth_error (pedges p) i) eqn:Ha; [|apply nth_error_None in Ha; unfold pcount in L; lia]. cbn [rbind].
  pose proof (Nat.mod_upper_bound j (pcount p) ltac:(lia)) as U. destruct (nth_error (pedges o) (j mod pcount p)) eqn:Hc; [|apply nth_error_None in Hc; unfold pcount in *; lia]. cbn [rbind]. destruct (negb _); [eauto|]. destruct (negb _); [eauto|]. apply IH. lia.
Qed.
Lemma poly_eq_total : no_min (l4 (pplane p)) -> no_min (l4 (pplane o)) -> exists b, poly_eq E p o = Ok b.
Proof using H O.
  intros Np No. unfold poly_eq. destruct (hs_eq_total _ _ Np No) as (s & ->). cbn [rbind]. destruct s; cbn [negb]; [|eauto]. destruct (Nat.eqb_spec (pcount p) (pcount o)) as [Hn|]; cbn [negb]; [|eauto]. destruct (pedges p); [eauto|]. destruct (match_loop _ _ _ _); [|eauto]. apply eq_loop_total; [congruence|]. pose proof (ok_n p qs H). lia.
Qed.
Lemma same_vertex_eq i j : same_direction (l4 (pplane p)) (l4 (pplane o)) -> same_vertex i j <-> qp_eq (cyc o3 qs i) (cyc o3 os j).
Proof using H O.
  intros S0. destruct (po_drop p qs H) as [Dl Dn]. destruct (po_drop o os O) as [Dl' Dn']. destruct (same_half_space _ _ S0 (comp_nonzero _ _ Dn) (comp_nonzero _ _ Dn')) as (r & R & Sd). split; intros X.
  - apply (plane_point (pplane p) (pdrop p)); try assumption; [apply (ok_on_plane p qs H)|]. rewrite Sd, (ok_on_plane o os O). ring.
  - unfold same_vertex. rewrite X. reflexivity.
Qed.
Lemma poly_eq_spec b : poly_eq E p o = Ok b ->
  (b = true <-> same_direction (l4 (pplane p)) (l4 (pplane o)) /\ pcount p = pcount o /\ exists k, (forall i, qp_eq (cyc o3 qs i) (cyc o3 os (k + i))) /\ forall i, (0 < i)%nat -> (i < pcount p)%nat -> data_same i ((k + i) mod pcount p)).
Proof using H O.
  intros Eq. unfold poly_eq in Eq. destruct (hs_eq _ _) as [s| | |] eqn:Hs; try discriminate. cbn [rbind] in Eq. apply hs_eq_spec in Hs. destruct s; cbn [negb] in Eq. 2: { injection Eq as <-. split; [discriminate|]. intros (X & _). apply Hs in X. discriminate. }
  pose proof (proj1 Hs eq_refl) as S0. destruct (Nat.eqb_spec (pcount p) (pcount o)) as [Hn|Hn]; cbn [negb] in Eq. 2: { injection Eq as <-. split; [discriminate|]. intros (_ & X & _). contradiction. }
  pose proof (ok_n p qs H) as N. pose proof (ok_length p qs H) as Lq. pose proof (ok_length o os O) as Lo. destruct (pedges p) as [|e es] eqn:Ep; [unfold pcount in N; rewrite Ep in N; cbn in N; lia|].
  assert (E0 : nth_error (pedges p) (0 mod pcount p) = Some e) by (rewrite Nat.mod_small by lia; rewrite Ep; reflexivity).
  pose proof (match_loop_spec (pdrop p) (pv e) (map pv (pedges o)) 0) as M. destruct (match_loop _ _ _ _) as [k|].
  - destruct M as (_ & Lk & w & Hw & Qw). rewrite Nat.sub_0_r in Hw. rewrite map_length in Lk. cbn in Lk. change (length (pedges o)) with (pcount o) in Lk. apply nth_error_map' in Hw as (c & Hc & ->).
    assert (V0 : same_vertex 0 k). { apply (vertex_test 0 k e c E0); [rewrite Nat.mod_small by exact Lk; exact Hc|]. destruct (po_drop p qs H) as [Dl _]. destruct (ok_edge_mod p qs 0 H) as (a' & Ea & Da & _). rewrite E0 in Ea. injection Ea as <-. destruct (ok_edge_mod o os k O) as (b' & Eb & Db & _). rewrite Nat.mod_small, Hc in Eb by exact Lk. injection Eb as <-.
      apply (hp2_eq_spec _ _ _ _ (denotes_drop _ _ _ Dl Db) (denotes_drop _ _ _ Dl Da)) in Qw. apply (hp2_eq_spec _ _ _ _ (denotes_drop _ _ _ Dl Da) (denotes_drop _ _ _ Dl Db)). symmetry. exact Qw. }
    pose proof (eq_loop_spec (eq_sym Hn) (pcount p - 1) 1 (S k) b ltac:(lia) Eq) as L. rewrite L. split.
    + intros F. split; [exact S0|]. split; [exact Hn|]. exists k. split.
      * intros i. rewrite <- (cyc_mod o3 qs i) by lia. assert (Ei : cyc o3 os (k + i) = cyc o3 os (k + i mod length qs)). { rewrite <- (cyc_mod o3 os (k + i)), <- (cyc_mod o3 os (k + i mod length qs)) by lia. f_equal. replace (length os) with (length qs) by lia. rewrite Nat.add_mod_idemp_r by lia. reflexivity. } rewrite Ei. pose proof (Nat.mod_upper_bound i (length qs) ltac:(lia)) as U. set (x := (i mod length qs)%nat) in *. clearbody x.
        apply same_vertex_eq; [exact S0|]. destruct x as [|x]; [rewrite Nat.add_0_r; exact V0|]. destruct (F x ltac:(lia)) as [F1 _]. replace (k + S x)%nat with (S k + x)%nat by lia. exact F1.
      * intros i I1 I2. destruct (F (i - 1)%nat ltac:(lia)) as [_ F2]. replace (1 + (i - 1))%nat with i in F2 by lia. replace (S k + (i - 1))%nat with (k + i)%nat in F2 by lia. exact F2.
    + intros (_ & _ & k' & F1 & F2) x X.
      assert (Kk : (k' mod pcount p = k)%nat).
      { assert (V : qp2_eq (flat_at o os k) (flat_at o os (k' mod pcount o))). { rewrite (flat_mod o os k' O). specialize (F1 0%nat). rewrite Nat.add_0_r in F1. apply (same_vertex_eq 0 k S0) in V0. unfold flat_at. rewrite <- V0, F1. reflexivity. }
        pose proof (ok_cvx o os O) as C. pose proof (Nat.mod_upper_bound k' (pcount o) ltac:(lia)) as U. rewrite Hn. destruct (Nat.lt_trichotomy k (k' mod pcount o)) as [G|[G|G]]; [|auto|]; exfalso; [apply (cvx_distinct _ _ _ _ _ C G ltac:(lia) V)|symmetry in V; apply (cvx_distinct _ _ _ _ _ C G ltac:(lia) V)]. }
      assert (Ki : forall i, ((k' + i) mod pcount p = (k + i) mod pcount p)%nat) by (intros i; rewrite <- Kk, Nat.add_mod_idemp_l by lia; reflexivity).
      split.
      * apply same_vertex_eq; [exact S0|]. rewrite (F1 (1 + x)%nat). rewrite <- (cyc_mod o3 os (k' + (1 + x))), <- (cyc_mod o3 os (S k + x)) by lia. replace (length os) with (pcount p) by lia. rewrite Ki. replace (k + (1 + x))%nat with (S k + x)%nat by lia. reflexivity.
      * specialize (F2 (1 + x)%nat ltac:(lia) ltac:(lia)). rewrite Ki in F2. replace (k + (1 + x))%nat with (S k + x)%nat in F2 by lia. exact F2.
  - injection Eq as <-. split; [discriminate|]. intros (_ & _ & k & F & _). exfalso. specialize (F 0%nat). rewrite Nat.add_0_r in F. apply (same_vertex_eq 0 k S0) in F.
    destruct (ok_edge_mod o os k O) as (c & Hc & Dc & _). destruct (ok_edge_mod p qs 0 H) as (a' & Ea & Da & _). rewrite E0 in Ea. injection Ea as <-. destruct (po_drop p qs H) as [Dl _]. specialize (M (pv c) (in_map pv _ _ (nth_error_In _ _ Hc))).
    assert (X : hp2_eq (hp_drop_dim (pv c) (pdrop p)) (hp_drop_dim (pv e) (pdrop p)) = true); [|congruence]. apply (hp2_eq_spec _ _ _ _ (denotes_drop _ _ _ Dl Dc) (denotes_drop _ _ _ Dl Da)). symmetry. exact F.
Qed.
End Equal.
