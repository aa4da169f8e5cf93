(** Proofs about FilterEmptyPolygons and IsValidState. *)
From Coq Require Import List Bool Arith ZArith QArith Lqa Lia ZifyBool.
From Verif Require Import BigUIntModel GeoModel GeoSpec CvxSpec CvxProofs CvxSeqProofs CvxCapProofs PolyModel PolySpec TriSpec PolyBridgeProofs PolyInfoProofs PolyCapProofs PolyTopProofs PolyValidProofs GeoPluckerProofs GeoProofs MergeProofs MergeTopProofs LinkModel LinkSpec LinkProofs LinkMergeProofs LinkGoodProofs LinkSpliceProofs LinkPolyProofs LinkTopProofs TidyModel TidySpec.
From Verif Require TriTileProofs.
Import ListNotations.
Open Scope nat_scope.

(** ** Removing empty polygons *)
Lemma set_back_redata j p : set_back j p = redata_poly (set_poly j) p.
Proof. reflexivity. Qed.
Lemma face_back j p : poly_face (set_back j p) = poly_face p.
Proof. unfold poly_face, set_back, set_edges. cbn [pplane pdrop pedges]. rewrite map_map. reflexivity. Qed.
Lemma count_edges (p : poly cdata) : (pcount p =? 0) = negb (has_edges p).
Proof. unfold pcount, has_edges. destruct (pedges p); reflexivity. Qed.
Lemma has_edges_iff p : has_edges p = true <-> pedges p <> [].
Proof. unfold has_edges. destruct (pedges p); split; congruence. Qed.
Lemma move_faces st : forall j, map poly_face (fe_move j st) = map poly_face (filter has_edges st).
Proof.
  induction st as [|p st IH]; intros j; [reflexivity|]. cbn [fe_move filter]. rewrite count_edges. destruct (has_edges p); cbn [negb map]; [rewrite face_back, IH; reflexivity|apply IH].
Qed.
Lemma find_faces st : forall j, map poly_face (fe_find j st) = map poly_face (filter has_edges st).
Proof.
  induction st as [|p st IH]; intros j; [reflexivity|]. cbn [fe_find filter]. rewrite count_edges. destruct (has_edges p); cbn [negb map]; [rewrite IH; reflexivity|apply move_faces].
Qed.
Lemma back_same j p : Forall (fun e => c_poly (pd e) = j) (pedges p) -> set_back j p = p.
Proof.
  intros F. unfold set_back, set_edges. destruct p as [h d es]. cbn [pplane pdrop pedges] in *. f_equal. rewrite <- (map_id es) at 2. apply map_ext_in. intros e I. rewrite Forall_forall in F. specialize (F e I). destruct e as [v l [a b c]]. cbn in *. subst b. reflexivity.
Qed.
Lemma find_move st : forall j, (forall i p, nth_error st i = Some p -> Forall (fun e => c_poly (pd e) = j + i) (pedges p)) -> fe_find j st = fe_move j st.
Proof.
  induction st as [|p st IH]; intros j B; [reflexivity|]. cbn [fe_find fe_move]. destruct (pcount p =? 0); [reflexivity|]. rewrite (back_same j p) by (rewrite <- (Nat.add_0_r j); apply (B 0 p); reflexivity). f_equal. apply IH. intros i q Q. specialize (B (S i) q Q). rewrite Nat.add_succ_r in B. exact B.
Qed.
Lemma mesh_back st : mesh_ok st -> forall i p, nth_error st i = Some p -> Forall (fun e => c_poly (pd e) = i) (pedges p).
Proof.
  intros M i p P. apply Forall_forall. intros e I. apply In_nth_error in I as (k & K). destruct (at_half_in st i k e) as (p' & e' & _ & _ & _ & _ & H); [exists p; auto|]. exact (mo_back st M i _ H).
Qed.
(** The new position. *)
Definition rank (st : mesh) (i : nat) : nat := length (filter has_edges (firstn i st)).
Lemma move_to st : forall j i p, nth_error st i = Some p -> pedges p <> [] -> nth_error (fe_move j st) (rank st i) = Some (set_back (j + rank st i) p).
Proof.
  induction st as [|q st IH]; intros j i p P N; [destruct i; discriminate|]. destruct i as [|i].
  - injection P as ->. cbn [fe_move]. rewrite count_edges, (proj2 (has_edges_iff p) N). cbn. rewrite Nat.add_0_r. reflexivity.
  - cbn [nth_error] in P. cbn [fe_move]. rewrite count_edges. unfold rank. cbn [firstn filter]. destruct (has_edges q); cbn [negb length nth_error].
    + fold (rank st i). rewrite (IH (S j) i p P N). rewrite Nat.add_succ_r. reflexivity.
    + exact (IH j i p P N).
Qed.
Lemma move_from st : forall j k p', nth_error (fe_move j st) k = Some p' -> exists i p, nth_error st i = Some p /\ pedges p <> [] /\ p' = set_back (j + k) p /\ rank st i = k.
Proof.
  induction st as [|q st IH]; intros j k p' P; [destruct k; discriminate|]. cbn [fe_move] in P. rewrite count_edges in P. destruct (has_edges q) eqn:H; cbn [negb] in P.
  - destruct k as [|k].
    + injection P as <-. exists 0, q. split; [reflexivity|]. split; [apply has_edges_iff, H|]. rewrite Nat.add_0_r. split; reflexivity.
    + cbn [nth_error] in P. destruct (IH (S j) k p' P) as (i & p & A & B & C & D). exists (S i), p. split; [exact A|]. split; [exact B|]. split; [rewrite C, Nat.add_succ_r; reflexivity|]. unfold rank in *. cbn [firstn filter]. rewrite H. cbn [length]. rewrite D. reflexivity.
  - destruct (IH j k p' P) as (i & p & A & B & C & D). exists (S i), p. split; [exact A|]. split; [exact B|]. split; [exact C|]. unfold rank in *. cbn [firstn filter]. rewrite H. exact D.
Qed.
Section Filter.
Context (st : mesh) (M : mesh_ok st).
Lemma filter_move : filter_empty st = fe_move 0 st.
Proof. apply find_move. intros i p P. exact (mesh_back st M i p P). Qed.
Lemma half_to i h : half_in st i h -> half_in (filter_empty st) (rank st i) (hmap (set_poly (rank st i)) h).
Proof.
  intros (p & k & P & H). rewrite filter_move. exists (set_back (rank st i) p), k. split; [exact (move_to st 0 i p P ltac:(intros E; destruct H as (e & _ & X & _); rewrite E in X; destruct k; discriminate))|]. rewrite set_back_redata. apply half_at_redata. exists h. auto.
Qed.
Lemma half_from k h' : half_in (filter_empty st) k h' -> exists i h, half_in st i h /\ rank st i = k /\ h' = hmap (set_poly k) h.
Proof.
  rewrite filter_move. intros (p' & l & P & H). destruct (move_from st 0 k p' P) as (i & p & A & B & -> & D). rewrite set_back_redata in H. apply half_at_redata in H as (h & H & ->). exists i, h. split; [exists p, l; auto|]. split; [exact D|reflexivity].
Qed.
Lemma filter_mesh : mesh_ok (filter_empty st).
Proof.
  split.
  - intros k p' P. rewrite filter_move in P. destruct (move_from st 0 k p' P) as (i & p & A & B & -> & _). right. rewrite set_back_redata. apply redata_ok. exact (nonempty_ok st i p M A B).
  - destruct (mo_once st M) as [O1 O2]. rewrite filter_move. split.
    + intros k p' P. destruct (move_from st 0 k p' P) as (i & p & A & _ & -> & _). rewrite set_back_redata, redata_ids by reflexivity. exact (O1 i p A).
    + intros k l p' q' x N P Q. destruct (move_from st 0 k p' P) as (i & p & A & _ & -> & Ri). destruct (move_from st 0 l q' Q) as (j & q & C & _ & -> & Rj). rewrite !set_back_redata, !redata_ids by reflexivity. apply (O2 i j p q x); [congruence|exact A|exact C].
  - intros k h' H. destruct (half_from k h' H) as (i & h & _ & _ & ->). reflexivity.
  - intros k h' d H D. destruct (half_from k h' H) as (i & h & Hh & R & ->). cbn in D. destruct (mo_partner st M i h d Hh D) as (j & g & G & Ig & Pg & E1 & E2). exists (rank st j), (hmap (set_poly (rank st j)) g). split; [apply half_to, G|]. split; [exact Ig|]. split; [exact Pg|]. split; [exact E1|exact E2].
Qed.
Lemma filter_even : even st -> even (filter_empty st).
Proof.
  intros E k l h' g' H G A B. destruct (half_from k h' H) as (i & h & Hh & _ & ->). destruct (half_from l g' G) as (j & g & Gg & _ & ->). exact (E i j h g Hh Gg A B).
Qed.
Lemma filter_closed : closed_mesh st -> closed_mesh (filter_empty st).
Proof. intros C k h' H. destruct (half_from k h' H) as (i & h & Hh & _ & ->). exact (C i h Hh). Qed.
Lemma filter_min : mesh_no_min st -> mesh_no_min (filter_empty st).
Proof.
  intros [A B]. split.
  - intros k p' P. rewrite filter_move in P. destruct (move_from st 0 k p' P) as (i & p & Pi & _ & -> & _). exact (A i p Pi).
  - intros k h' H. destruct (half_from k h' H) as (i & h & Hh & _ & ->). exact (B i h Hh).
Qed.
Lemma filter_none : no_empty (filter_empty st).
Proof.
  apply Forall_forall. intros p' I. apply In_nth_error in I as (k & P). rewrite filter_move in P. destruct (move_from st 0 k p' P) as (i & p & _ & B & -> & _). rewrite set_back_redata. intros E. apply B. apply redata_empty in E. exact E.
Qed.
Lemma filter_surface v q : surface (filter_empty st) v q <-> surface st v q.
Proof.
  unfold surface, faces, shows. split.
  - intros (k & n & (p1 & P1 & _ & Hn) & Sd & (p2 & P2 & _ & Pp)). assert (p2 = p1) by congruence. subst p2. rewrite filter_move in P1. destruct (move_from st 0 k p1 P1) as (i & p & A & B & -> & _). rewrite set_back_redata in Pp. rewrite redata_pts in Pp.
    exists i, n. split; [exists p; auto|]. split; [exact Sd|]. exists p. auto.
  - intros (i & n & (p1 & P1 & B & Hn) & Sd & (p2 & P2 & _ & Pp)). assert (p2 = p1) by congruence. subst p2. pose proof (move_to st 0 i p1 P1 B) as Q. rewrite <- filter_move in Q. cbn [Nat.add] in Q.
    assert (N : pedges (set_back (rank st i) p1) <> []) by (rewrite set_back_redata; intros E; apply redata_empty in E; contradiction).
    exists (rank st i), n. split; [exists (set_back (rank st i) p1); auto|]. split; [exact Sd|]. exists (set_back (rank st i) p1). split; [exact Q|]. split; [exact N|]. rewrite set_back_redata, redata_pts. exact Pp.
Qed.
End Filter.
(** ** The state is valid *)
Open Scope Q_scope.
Lemma neg_points l q : line_points (pl_neg l) q <-> line_points l q.
Proof.
  unfold line_points, pl_neg, qp_eq, qcross, qpt, v3_neg. cbn [ld lm vx vy vz qx qy qz]. rewrite !inject_Z_opp. split; intros (A & B & C); repeat split; lra.
Qed.
Lemma opposite_lines l m a b a' b' : edge_on l a b -> edge_on m b' a' -> qp_eq a a' -> qp_eq b b' -> ~ qp_eq a b -> pl_eq l (pl_neg m) = true.
Proof.
  intros Ol Om Ea Eb N. assert (N' : ~ qp_eq b' a') by (intros X; apply N; destruct Ea as (? & ? & ?), Eb as (? & ? & ?), X as (? & ? & ?); repeat split; lra).
  pose proof (edge_on_valid _ _ _ N Ol) as Vl. pose proof (edge_on_valid _ _ _ N' Om) as Vm. destruct Ol as (Pl & k & K & Dl). destruct Om as (Pm & c & C & Dm).
  assert (Vn : pl_valid (pl_neg m) = true) by (unfold pl_valid, pl_neg, v3_neg, v3_is_zero in *; cbn [ld vx vy vz]; lia).
  assert (Dn : qp_eq (qpt (ld (pl_neg m))) (qscale c (qsub b a))).
  { destruct Dm as (D1 & D2 & D3), Ea as (A1 & A2 & A3), Eb as (B1 & B2 & B3). unfold qp_eq, qpt, qscale, qsub, pl_neg, v3_neg in *. cbn [ld vx vy vz qx qy qz] in *. rewrite !inject_Z_opp. rewrite D1, D2, D3, A1, A2, A3, B1, B2, B3. repeat split; ring. }
  assert (Pn : line_points (pl_neg m) a).
  { apply neg_points. apply (on_line_repr m b' a' c C Dm Pm Vm a). exists 1. destruct Ea as (A1 & A2 & A3). unfold qp_eq, qadd, qscale, qsub. cbn [qx qy qz]. rewrite A1, A2, A3. repeat split; ring. }
  apply pl_eq_lines; [exact (line_wf_of_point _ a Vl Pl)|exact (line_wf_of_point _ a Vn Pn)|]. split; [exact (same_direction_q _ _ k c (qsub b a) K C Dl Dn)|]. intros q. rewrite (on_line_repr l a b k K Dl Pl Vl q). symmetry. exact (on_line_repr _ a b c C Dn Pn Vn q).
Qed.
Lemma edge_fact st i p k e : mesh_ok st -> nth_error st i = Some p -> nth_error (pedges p) k = Some e ->
  (3 <= pcount p)%nat /\ (k < pcount p)%nat /\ poly_ok p (pts p) /\ denotes (pv e) (cyc o3 (pts p) k) /\ edge_on (pl e) (cyc o3 (pts p) k) (cyc o3 (pts p) (S k)) /\ ~ qp_eq (cyc o3 (pts p) k) (cyc o3 (pts p) (S k)).
Proof.
  intros M P E. assert (K : (k < pcount p)%nat) by exact (nth_lt _ _ _ E). destruct (pair_halves st i p k M P K) as (_ & _ & _ & _ & H & N & _). destruct (ok_edge_mod p (pts p) k H) as (f & F & D & O). rewrite Nat.mod_small in F by exact K. assert (f = e) by congruence. subst f.
  split; [exact N|]. split; [exact K|]. split; [exact H|]. split; [exact D|]. split; [exact O|]. exact (distinct3 _ _ _ (c_edge _ _ _ (ok_cvx p _ H) k)).
Qed.
Lemma next_vertex st i p k e : mesh_ok st -> nth_error st i = Some p -> nth_error (pedges p) k = Some e -> exists v, pvertex p ((k + 1) mod pcount p) = Ok v /\ denotes v (cyc o3 (pts p) (S k)).
Proof.
  intros M P E. destruct (edge_fact st i p k e M P E) as (_ & _ & H & _). destruct (ok_edge_mod p (pts p) (S k) H) as (f & F & D & _). exists (pv f). split; [|exact D]. unfold pvertex, pedge_at. rewrite Nat.add_1_r, F. reflexivity.
Qed.
Lemma valid_edge_ok st id : mesh_ok st -> valid_edge st id = Ok true.
Proof.
  intros M. pose proof (mo_once st M) as O. change (once st) in O. unfold valid_edge. destruct (place id st) as [[i k]|] eqn:Pc; [|reflexivity]. destruct (place_some _ _ _ _ Pc) as (e & At & Ie). subst id. rewrite (deref_at _ _ _ _ O At). cbn [rbind].
  destruct (at_half_in st i k e At) as (p & e' & P & E1 & E2 & Ha & Ha'). pose proof (mo_back st M i _ Ha') as B1. cbn [half_of f_poly] in B1. unfold poly_at at 1. rewrite B1, P. cbn [rbind].
  destruct (edge_fact st i p k e M P E1) as (N & K & _ & De & Oe & Ne). destruct (Nat.ltb_spec (pcount p) 3) as [X|_]; [lia|]. destruct (c_partner (pd e)) as [d|] eqn:Pe; [|reflexivity].
  destruct (mo_partner st M i _ d Ha' Pe) as (j & g & Gg & Ig & Pg & Q1 & Q2). pose proof Gg as (o & m & Q & Hb). pose proof Hb as (f & f' & F1 & F2 & Fg). assert (Atf : at_ st j m f) by (exists o; auto). assert (Idf : eid f = d) by (rewrite Fg in Ig; exact Ig).
  pose proof (mo_back st M j g Gg) as B2. rewrite Fg in B2. cbn [f_poly] in B2. rewrite <- Idf, (deref_at _ _ _ _ O Atf). cbn [rbind]. unfold poly_at. rewrite B2, Q. cbn [rbind].
  destruct (edge_fact st j o m f M Q F1) as (No & Km & _ & Df & Of & Nf). destruct (Nat.ltb_spec (pcount o) 3) as [X|_]; [lia|]. rewrite (index_of_at _ _ _ _ O Atf B2). cbn [rbind snd]. unfold pedge_at at 1. rewrite F1. cbn [rbind].
  destruct (half_points p k _ Ha) as (_ & Fa & Ta). destruct (half_points o m _ Hb) as (_ & Fb & Tb). rewrite Fa, Tb in Q1. rewrite Ta, Fb in Q2.
  rewrite (opposite_lines _ _ _ _ _ _ Oe Of Q1 Q2 Ne). cbn [negb]. destruct (next_vertex st j o m f M Q F1) as (a & Va & Da). rewrite Va. cbn [rbind]. rewrite (proj2 (hp_eq_spec _ _ _ _ De Da) Q1). cbn [negb].
  rewrite (index_of_at _ _ _ _ O At B1). cbn [rbind snd]. destruct (next_vertex st i p k e M P E1) as (b & Vb & Db). rewrite Vb. cbn [rbind]. f_equal. apply (hp_eq_spec _ _ _ _ Df Db). destruct Q2 as (X & Y & W). repeat split; symmetry; assumption.
Qed.
Lemma valid_state_ok st ids : mesh_ok st -> valid_state st ids = Ok true.
Proof. intros M. induction ids as [|id ids IH]; [reflexivity|]. cbn [valid_state]. rewrite (valid_edge_ok st id M). cbn [rbind]. exact IH. Qed.
Lemma assert_valid_ok dbg st ids : mesh_ok st -> assert_valid dbg st ids = Ok tt.
Proof. intros M. unfold assert_valid. destruct dbg; [rewrite (valid_state_ok st ids M)|]; reflexivity. Qed.
(** ** The loop with the assertions *)
Lemma merge_checked_same dbg drop all l : forall st, good st -> in_plane st drop l -> merge_checked dbg drop st all l = merge_all dbg drop st l.
Proof.
  induction l as [|id l IH]; intros st G Pl; [reflexivity|].
  assert (Pl' : in_plane st drop l) by (intros i h H I; exact (Pl i h H (or_intror I))). cbn [merge_all merge_checked]. destruct (place id st) as [[i k]|] eqn:Pc; [|exact (IH st G Pl')].
  pose proof G as (M & Ev & Nm). pose proof (mo_once st M) as O. change (once st) in O. destruct (place_some _ _ _ _ Pc) as (e & At & Ie). subst id. rewrite (deref_at _ _ _ _ O At). cbn [rbind].
  destruct (c_partner (pd e)) as [d|] eqn:Pe; [|exact (IH st G Pl')].
  destruct (at_half_in st i k e At) as (p & e' & P & E1 & E2 & Ha & Ha'). destruct (mo_partner st M i _ d Ha' Pe) as (j & g & Gg & Ig & Pg & _). pose proof Gg as (o & m & Q & Hb).
  pose proof Hb as (f & f' & F1 & F2 & Fg). assert (Atf : at_ st j m f) by (exists o; auto). assert (Idf : eid f = d) by (rewrite Fg in Ig; exact Ig).
  pose proof (mo_back st M i _ Ha') as B1. pose proof (mo_back st M j g Gg) as B2. rewrite Fg in B2. cbn [half_of f_poly] in B1, B2. rewrite (index_of_at _ _ _ _ O At B1). cbn [rbind]. rewrite <- Idf, (index_of_at _ _ _ _ O Atf B2). cbn [rbind fst snd].
  set (nz := ((if (comp (ld (pl e)) ((drop + 1) mod 3) =? 0)%Z then drop + 2 else drop + 1) mod 3)%nat).
  assert (Dz : comp (f_dir (half_of e e')) nz <> 0%Z). { unfold nz, half_of. cbn [f_dir]. pose proof (Pl i _ Ha' (or_introl eq_refl)) as X. cbn [half_of f_dir] in X. destruct (Z.eqb_spec (comp (ld (pl e)) ((drop + 1) mod 3)) 0) as [Y|Y]; [|exact Y]. destruct X as [X|X]; [contradiction|exact X]. }
  assert (Nz : (nz < 3)%nat) by (apply Nat.mod_upper_bound; lia).
  assert (Pa : f_partner (half_of e e') = Some (f_id g)) by (cbn [half_of f_partner]; congruence).
  destruct (merge_polygon_ok dbg st nz i j (half_of e e') g p o k m G P Q Ha Hb Pa Nz Dz) as (st1 & b & R1 & R2 & R3 & _). rewrite R1. cbn [rbind fst]. rewrite (assert_valid_ok dbg st1 all (proj1 R2)). cbn [rbind].
  exact (IH st1 R2 (kept_in_plane _ _ _ _ R3 Pl')).
Qed.
(** ** What the test finds *)
Lemma poly_vertex st i p k e : polys_ok st -> nth_error st i = Some p -> nth_error (pedges p) k = Some e ->
  denotes (pv e) (hp_point (pv e)) /\ exists e', nth_error (pedges p) (S k mod length (pedges p)) = Some e' /\ pvertex p ((k + 1) mod pcount p) = Ok (pv e') /\ denotes (pv e') (hp_point (pv e')).
Proof.
  intros M P E. pose proof (nth_lt _ _ _ E) as K. assert (H : poly_ok p (pts p)) by (destruct (ps_convex st M i p P) as [Z|H]; [rewrite Z in E; destruct k; discriminate|exact H]).
  assert (V : forall x, In x (pedges p) -> denotes (pv x) (hp_point (pv x))).
  { intros x I. apply In_nth_error in I as (l & L). pose proof (nth_lt _ _ _ L) as Ll. destruct (ok_edge_mod p (pts p) l H) as (f & F & (W & _) & _). rewrite Nat.mod_small in F by exact Ll. assert (f = x) by congruence. subst f. exact (TriTileProofs.hp_point_denotes _ W). }
  split; [exact (V e (nth_error_In _ _ E))|]. destruct (nth_error (pedges p) (S k mod length (pedges p))) as [e'|] eqn:E'; [|apply nth_error_None in E'; pose proof (Nat.mod_upper_bound (S k) (length (pedges p))); lia].
  exists e'. split; [reflexivity|]. split; [|exact (V e' (nth_error_In _ _ E'))]. unfold pvertex, pedge_at. rewrite Nat.add_1_r. unfold pcount. rewrite E'. reflexivity.
Qed.
Lemma valid_edge_fits st i h : polys_ok st -> half_in st i h -> valid_edge st (f_id h) = Ok true -> partner_fits st h.
Proof.
  intros M H V d D. pose proof (ps_once st M) as O. change (once st) in O. pose proof H as (p & k & P & Ha). pose proof Ha as (e & e' & E1 & E2 & Eh). assert (At : at_ st i k e) by (exists p; auto). pose proof (ps_back st M i h H) as B1.
  rewrite Eh in V, B1, D. cbn [f_id f_poly f_partner] in V, B1, D. change (c_id (pd e)) with (eid e) in V. unfold valid_edge in V. rewrite (place_at _ _ _ _ O At), (deref_at _ _ _ _ O At) in V. cbn [rbind] in V. unfold poly_at at 1 in V. rewrite B1, P in V. cbn [rbind] in V.
  destruct (pcount p <? 3)%nat; [discriminate|]. rewrite D in V. destruct (deref st d) as [f0| | |] eqn:Fd; try discriminate. cbn [rbind] in V. unfold poly_at in V. destruct (nth_error st (c_poly (pd f0))) as [o|] eqn:Q; try discriminate. cbn [rbind] in V. destruct (pcount o <? 3)%nat; [discriminate|].
  unfold index_of at 1 in V. destruct (place d st) as [[j m]|] eqn:Pd; [|discriminate]. rewrite Fd in V. cbn [rbind] in V. destruct (c_poly (pd f0) =? j)%nat eqn:Cj; [|discriminate]. apply Nat.eqb_eq in Cj. cbn [rbind snd] in V. rewrite Cj in Q.
  destruct (place_some _ _ _ _ Pd) as (f & Atf & If). pose proof Atf as (o' & Q' & F1). assert (o' = o) by congruence. subst o'. unfold pedge_at at 1 in V. rewrite F1 in V. cbn [rbind] in V.
  destruct (poly_vertex st i p k e M P E1) as (De & x & X1 & X2 & Dx). destruct (poly_vertex st j o m f M Q' F1) as (Df & y & Y1 & Y2 & Dy). rewrite Y2 in V. cbn [rbind] in V.
  destruct (pl_eq (pl e) (pl_neg (pl f))); [cbn [negb] in V|discriminate]. destruct (hp_eq (pv e) (pv y)) eqn:G1; [cbn [negb] in V|discriminate]. rewrite (index_of_at _ _ _ _ O At B1) in V. cbn [rbind snd] in V. rewrite X2 in V. cbn [rbind] in V. injection V as G2.
  exists j, (half_of f y). split; [exists o, m; split; [exact Q'|exists f, y; auto]|]. split; [exact If|]. rewrite Eh. cbn [half_of f_from f_to]. assert (x = e') by congruence. subst x.
  split; [exact (proj1 (hp_eq_spec _ _ _ _ De Dy) G1)|]. pose proof (proj1 (hp_eq_spec _ _ _ _ Df Dx) G2) as (A & B & C). repeat split; symmetry; assumption.
Qed.
Lemma valid_state_each st l : valid_state st l = Ok true -> forall id, In id l -> valid_edge st id = Ok true.
Proof. induction l as [|x l IH]; intros V id I; [destruct I|]. cbn [valid_state] in V. destruct (valid_edge st x) as [[]| | |] eqn:E; cbn [rbind] in V; try discriminate. destruct I as [<-|I]; [exact E|exact (IH V id I)]. Qed.
