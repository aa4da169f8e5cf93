(** Merging all polygons along a list of edges; walking around a vertex. *)
From Coq Require Import List Bool Arith ZArith QArith Lqa Lia ZifyBool Morphisms Setoid.
From Verif Require Import BigUIntModel GeoModel GeoSpec GeoProofs GeoDirProofs CvxSpec CvxProofs CvxMergeProofs PolyModel PolySpec PolyOpsModel PolyBridgeProofs PolyInfoProofs PolyCapProofs TriSpec BspGeoProofs MergeProofs MergeTopProofs LinkModel LinkSpec LinkProofs LinkMergeProofs LinkGoodProofs LinkSpliceProofs LinkPolyProofs.
Import ListNotations.

Lemma nonempty_ok st i p : mesh_ok st -> nth_error st i = Some p -> pedges p <> [] -> poly_ok p (pts p).
Proof. intros M P N. destruct (mo_convex st M i p P) as [X|X]; [contradiction|exact X]. Qed.
Lemma normal_nonzero {A} (p : poly A) qs : poly_ok p qs -> nonzero (hn (pplane p)).
Proof.
  intros H. destruct (po_drop p qs H) as [L N]. unfold pnormal_drop in N. unfold nonzero, l3. destruct (pdrop p) as [|[|[|d]]]; cbn [comp] in N; [constructor; exact N|apply Exists_cons_tl; constructor; exact N|apply Exists_cons_tl, Exists_cons_tl; constructor; exact N|lia].
Qed.
Lemma merged_surface st st' i j p o v : mesh_ok st -> nth_error st i = Some p -> nth_error st j = Some o -> pedges p <> [] -> pedges o <> [] -> i <> j -> nonzero v -> same_direction (l3 (hn (pplane p))) (l3 (hn (pplane o))) -> merged st st' i j ->
  forall q, surface st' v q <-> surface st v q.
Proof.
  intros M P Q Np No IJ Nv Sd (Ln & Sh & Ej & Pl & Vw) q.
  pose proof (normal_nonzero p _ (nonempty_ok st i p M P Np)) as Zp. pose proof (normal_nonzero o _ (nonempty_ok st j o M Q No)) as Zo.
  assert (At : forall l, (l < length st)%nat -> exists r, nth_error st' l = Some r). { intros l L. destruct (nth_error st' l) as [r|] eqn:R; [eauto|]. apply nth_error_None in R. lia. }
  destruct (At i (nth_lt _ _ _ P)) as (p' & P'). destruct (Pl p p' P P') as (V1 & V2 & V3). unfold surface. split.
  - intros (l & n & (r' & R' & Nr & En) & Sv & S). destruct (Nat.eq_dec l i) as [->|NI]; [|destruct (Nat.eq_dec l j) as [->|NJ]].
    + assert (r' = p') by congruence. subst r'. apply Sh in S as [S|S].
      * exists i, n. split; [exists p; split; [exact P|]; split; [exact Np|congruence]|]. auto.
      * exists j, (hn (pplane o)). split; [exists o; auto|]. split; [|exact S]. apply (same_dir_trans _ (hn (pplane p))); try assumption; [apply same_dir_sym; exact Sd|]. rewrite <- V1, En. exact Sv.
    + exfalso. exact (Nr (Ej r' R')).
    + destruct (nth_error st l) as [r|] eqn:R; [|apply nth_error_None in R; pose proof (nth_lt _ _ _ R'); lia]. destruct (Vw l r r' NI NJ R R') as (W1 & W2 & W3 & W4).
      exists l, n. split; [exists r; split; [exact R|]; split; [tauto|congruence]|]. split; [exact Sv|]. destruct S as (s & S1 & S2 & S3). assert (s = r') by congruence. subst s. exists r. split; [exact R|]. split; [tauto|]. rewrite W1, W2 in S3. apply W4. exact S3.
  - intros (l & n & (r & R & Nr & En) & Sv & S). destruct (Nat.eq_dec l i) as [->|NI]; [|destruct (Nat.eq_dec l j) as [->|NJ]].
    + assert (r = p) by congruence. subst r. exists i, n. split; [exists p'; split; [exact P'|]; split; [exact V3|congruence]|]. split; [exact Sv|]. apply Sh. auto.
    + assert (r = o) by congruence. subst r. exists i, (hn (pplane p)). split; [exists p'; split; [exact P'|]; split; [exact V3|congruence]|]. split; [|apply Sh; auto]. apply (same_dir_trans _ (hn (pplane o))); try assumption. rewrite En. exact Sv.
    + destruct (At l (nth_lt _ _ _ R)) as (r' & R'). destruct (Vw l r r' NI NJ R R') as (W1 & W2 & W3 & W4). exists l, n. split; [exists r'; split; [exact R'|]; split; [tauto|congruence]|]. split; [exact Sv|]. destruct S as (s & S1 & S2 & S3). assert (s = r) by congruence. subst s. exists r'. split; [exact R'|]. split; [tauto|]. rewrite W1, W2. apply W4. exact S3.
Qed.
Lemma kept_closed st st' : kept st st' -> closed_mesh st -> closed_mesh st'.
Proof. intros K C i h H. destruct (K i h H) as (j & g & G & _ & _ & E). intros X. apply E in X. exact (C j g G X). Qed.
Lemma place_none st id : place id st = None -> forall i k e, at_ st i k e -> eid e <> id.
Proof.
  induction st as [|p st IH]; intros H i k e (q & Q & E); [destruct i; discriminate|]. cbn [place] in H. destruct (index_in id (pedges p)) as [x|] eqn:X; [discriminate|]. destruct (place id st) as [[y z]|]; [discriminate|]. destruct i as [|i].
  - injection Q as <-. clear - X E. revert k E X. induction (pedges p) as [|f l IHl]; intros [|k] E X; try discriminate; cbn [index_in] in X; destruct (Nat.eqb_spec (eid f) id) as [Y|Y]; try discriminate; destruct (index_in id l) eqn:Z; try discriminate; cbn in E; [injection E as <-; exact Y|exact (IHl k E eq_refl)].
  - apply (IH eq_refl i k e). exists q. auto.
Qed.
Definition in_plane (st : mesh) (drop : nat) (l : list nat) : Prop := forall i h, half_in st i h -> In (f_id h) l -> comp (f_dir h) ((drop + 1) mod 3) <> 0%Z \/ comp (f_dir h) ((drop + 2) mod 3) <> 0%Z.
Lemma kept_in_plane st st' drop l : kept st st' -> in_plane st drop l -> in_plane st' drop l.
Proof. intros K C i h H I. destruct (K i h H) as (j & g & G & E1 & E2 & _). rewrite <- E2. apply (C j g G). rewrite E1. exact I. Qed.
Lemma merge_all_ok dbg drop l : forall st, good st -> in_plane st drop l -> exists st', merge_all dbg drop st l = Ok st' /\ good st' /\ kept st st' /\ forall v q, nonzero v -> (surface st' v q <-> surface st v q).
Proof.
  induction l as [|id l IH]; intros st G Pl.
  { exists st. split; [reflexivity|]. split; [exact G|]. split; [apply kept_refl|]. intros; reflexivity. }
  assert (Pl' : in_plane st drop l) by (intros i h H I; exact (Pl i h H (or_intror I))). cbn [merge_all]. destruct (place id st) as [[i k]|] eqn:Pc; [|exact (IH st G Pl')].
  pose proof G as (M & Ev & Nm). pose proof (mo_once st M) as O. change (once st) in O. destruct (place_some _ _ _ _ Pc) as (e & At & Ie). subst id. rewrite (deref_at _ _ _ _ O At). cbn [rbind].
  destruct (c_partner (pd e)) as [d|] eqn:Pe; [|exact (IH st G Pl')].
  destruct (at_half_in st i k e At) as (p & e' & P & E1 & E2 & Ha & Ha'). destruct (mo_partner st M i _ d Ha' Pe) as (j & g & Gg & Ig & Pg & _). pose proof Gg as (o & m & Q & Hb).
  pose proof Hb as (f & f' & F1 & F2 & Fg). assert (Atf : at_ st j m f) by (exists o; auto). assert (Idf : eid f = d) by (rewrite Fg in Ig; exact Ig).
  pose proof (mo_back st M i _ Ha') as B1. pose proof (mo_back st M j g Gg) as B2. rewrite Fg in B2. cbn [half_of f_poly] in B1, B2. rewrite (index_of_at _ _ _ _ O At B1). cbn [rbind]. rewrite <- Idf, (index_of_at _ _ _ _ O Atf B2). cbn [rbind fst snd].
  set (nz := ((if (comp (ld (pl e)) ((drop + 1) mod 3) =? 0)%Z then drop + 2 else drop + 1) mod 3)%nat).
  assert (Dz : comp (f_dir (half_of e e')) nz <> 0%Z). { unfold nz, half_of. cbn [f_dir]. pose proof (Pl i _ Ha' (or_introl eq_refl)) as X. cbn [half_of f_dir] in X. destruct (Z.eqb_spec (comp (ld (pl e)) ((drop + 1) mod 3)) 0) as [Y|Y]; [|exact Y]. destruct X as [X|X]; [contradiction|exact X]. }
  assert (Nz : (nz < 3)%nat) by (apply Nat.mod_upper_bound; lia).
  assert (Pa : f_partner (half_of e e') = Some (f_id g)) by (cbn [half_of f_partner]; congruence).
  destruct (merge_polygon_ok dbg st nz i j (half_of e e') g p o k m G P Q Ha Hb Pa Nz Dz) as (st1 & b & R1 & R2 & R3 & R4 & R5). rewrite R1. cbn [rbind fst].
  destruct (IH st1 R2 (kept_in_plane _ _ _ _ R3 Pl')) as (st2 & S1 & S2 & S3 & S4). exists st2. split; [exact S1|]. split; [exact S2|]. split; [exact (kept_trans _ _ _ R3 S3)|]. intros v q Nv. rewrite (S4 v q Nv). destruct b; [|destruct R5 as [-> _]; reflexivity].
  destruct R5 as [R5 R6]. apply (merged_surface st st1 i j p o v M P Q); try assumption; intros Z; [rewrite Z in E1; destruct k; discriminate|rewrite Z in F1; destruct m; discriminate].
Qed.

(** ** Around a vertex *)
Section Around.
Context (st : mesh) (M : mesh_ok st) (Cl : closed_mesh st).
Definition edge_ids : list nat := concat (map ids st).
Lemma edge_ids_in i h : half_in st i h -> In (f_id h) edge_ids.
Proof using. intros (p & k & P & (e & e' & E & E' & ->)). unfold edge_ids. apply in_concat. exists (ids p). split; [apply in_map; exact (nth_error_In _ _ P)|]. unfold ids. exact (in_map (fun x => c_id (pd x)) _ _ (nth_error_In _ _ E)). Qed.
Lemma next_ok i h : half_in st i h -> exists j g, half_in st j g /\ next_around st (f_id h) = Ok (Some (f_id g)) /\ qp_eq (f_from g) (f_from h) /\
  exists g', half_in st j g' /\ f_partner g' = Some (f_id h) /\ exists o m, nth_error st j = Some o /\ half_at o m g' /\ half_at o (S m mod pcount o) g.
Proof using All.
  intros H. pose proof (mo_once st M) as O. change (once st) in O. destruct (f_partner h) as [d|] eqn:Pd; [|exfalso; exact (Cl i h H Pd)]. destruct (mo_partner st M i h d H Pd) as (j & g' & G' & Ig & Pg & E1 & E2).
  pose proof G' as (o & m & Q & Hm). destruct (half_points o m g' Hm) as (L & F1 & F2). pose proof Hm as (f & f' & U1 & U2 & U3). destruct (at_half_in st j (S m mod pcount o) f') as (o1 & f2 & Q1 & V1 & V2 & V3 & V4); [exists o; auto|]. assert (o1 = o) by congruence. subst o1.
  exists j, (half_of f' f2). split; [exact V4|]. destruct (half_in_at st i h H) as (k & e & At & Ie & _ & Pe & _). split; [|split].
  - unfold next_around. rewrite <- Ie, (deref_at _ _ _ _ O At). cbn [rbind]. rewrite Pe, Pd. assert (Atf : at_ st j m f) by (exists o; auto). assert (Idf : eid f = d) by (rewrite U3 in Ig; exact Ig). pose proof (mo_back st M j g' G') as B. rewrite U3 in B. cbn [f_poly] in B. rewrite <- Idf, (index_of_at _ _ _ _ O Atf B). cbn [rbind fst snd]. unfold poly_at, pedge_at. rewrite Q. cbn [rbind]. fold (pcount o) in U2. rewrite U2. reflexivity.
  - rewrite E1. rewrite U3. reflexivity.
  - exists g'. split; [exact G'|]. split; [exact Pg|]. exists o, m. auto.
Qed.
Lemma next_injective i h i' h' : half_in st i h -> half_in st i' h' -> next_around st (f_id h) = next_around st (f_id h') -> f_id h = f_id h'.
Proof using All.
  intros H H' E. pose proof (mo_once st M) as O. change (once st) in O. destruct (next_ok i h H) as (j & g & G & N & _ & g1 & G1 & P1 & o & m & Q & Hm & Hs). destruct (next_ok i' h' H') as (j' & g' & G' & N' & _ & g2 & G2 & P2 & o' & m' & Q' & Hm' & Hs').
  rewrite N, N' in E. injection E as E. destruct (half_unique st j j' g g' O G G' E) as [<- <-]. assert (o' = o) by congruence. subst o'.
  destruct (half_points o m g1 Hm) as (L & _). destruct (half_points o m' g2 Hm') as (L' & _).
  assert (X : (S m mod pcount o = S m' mod pcount o)%nat). { destruct Hs as (a & a' & A1 & A2 & A3). destruct Hs' as (b & b' & B1 & B2 & B3). destruct (at_unique st j (S m mod pcount o) a j (S m' mod pcount o) b O) as (_ & X & _); [exists o; auto|exists o; auto| |exact X]. rewrite A3 in B3. injection B3 as B3 _. exact B3. }
  assert (m = m') by (rewrite !succ_mod in X by assumption; destruct (Nat.eqb_spec (S m) (pcount o)), (Nat.eqb_spec (S m') (pcount o)); lia). subst m'. assert (g1 = g2) by exact (half_at_fun _ _ _ _ Hm Hm'). subst g2. congruence.
Qed.
Lemma walk_ok i h : half_in st i h -> forall n, exists j g, half_in st j g /\ walk st n (f_id h) = Ok (Some (f_id g)) /\ qp_eq (f_from g) (f_from h).
Proof using All.
  intros H n. revert i h H. induction n as [|n IH]; intros i h H; [exists i, h; split; [exact H|]; split; reflexivity|]. destruct (next_ok i h H) as (j & g & G & N & F & _). destruct (IH j g G) as (j2 & g2 & G2 & W & F2). exists j2, g2. split; [exact G2|]. split; [cbn [walk]; rewrite N; exact W|rewrite F2; exact F].
Qed.
Lemma walk_snoc n id : walk st (S n) id = (r <- walk st n id ;; match r with Some y => next_around st y | None => Ok None end).
Proof using.
  revert id. induction n as [|n IH]; intros id.
  - cbn [walk rbind]. destruct (next_around st id) as [[y|]| | |]; reflexivity.
  - change (walk st (S (S n)) id) with (r <- next_around st id ;; match r with Some y => walk st (S n) y | None => Ok None end). change (walk st (S n) id) with (r <- next_around st id ;; match r with Some y => walk st n y | None => Ok None end). destruct (next_around st id) as [[y|]| | |]; cbn [rbind]; [apply IH|reflexivity..].
Qed.
Lemma walk_back i h a d : half_in st i h -> walk st a (f_id h) = walk st (a + d) (f_id h) -> walk st d (f_id h) = Ok (Some (f_id h)).
Proof using All.
  intros H. revert d. induction a as [|a IH]; intros d E; [symmetry; exact E|]. apply IH. rewrite walk_snoc in E. change (S a + d)%nat with (S (a + d)) in E. rewrite walk_snoc in E.
  destruct (walk_ok i h H a) as (j1 & g1 & G1 & W1 & _). destruct (walk_ok i h H (a + d)) as (j2 & g2 & G2 & W2 & _). rewrite W1, W2 in E. cbn [rbind] in E. rewrite W1, W2. do 2 f_equal. exact (next_injective _ _ _ _ G1 G2 E).
Qed.
Definition walk_id (n id : nat) : nat := match walk st n id with Ok (Some y) => y | _ => 0 end.
Lemma walk_returns i h : half_in st i h -> exists n, (0 < n)%nat /\ walk st n (f_id h) = Ok (Some (f_id h)).
Proof using All.
  intros H. set (N := length edge_ids). destruct (existsb (fun n => walk_id n (f_id h) =? f_id h)%nat (seq 1 N)) eqn:Ex.
  - apply existsb_exists in Ex. destruct Ex as (n & I & E). apply in_seq in I. exists n. split; [lia|]. destruct (walk_ok i h H n) as (j & g & G & W & _). unfold walk_id in E. rewrite W in E. apply Nat.eqb_eq in E. rewrite W, E. reflexivity.
  - exfalso. assert (Nd : NoDup (map (fun n => walk_id n (f_id h)) (seq 0 (S N)))).
    { assert (Inj : forall a d, (0 < d)%nat -> (a + d <= N)%nat -> walk_id a (f_id h) <> walk_id (a + d) (f_id h)).
      { intros a d D L E. assert (X : walk st d (f_id h) = Ok (Some (f_id h))). { apply (walk_back i h a d H). destruct (walk_ok i h H a) as (j1 & g1 & G1 & W1 & _). destruct (walk_ok i h H (a + d)) as (j2 & g2 & G2 & W2 & _). unfold walk_id in E. rewrite W1, W2 in E. rewrite W1, W2, E. reflexivity. }
        assert (T : existsb (fun n => walk_id n (f_id h) =? f_id h)%nat (seq 1 N) = true). { apply existsb_exists. exists d. split; [apply in_seq; lia|]. unfold walk_id. rewrite X. apply Nat.eqb_refl. } congruence. }
      assert (Gen : forall c s, (s + c <= S N)%nat -> NoDup (map (fun n => walk_id n (f_id h)) (seq s c))).
      { induction c as [|c IHc]; intros s L; [constructor|]. cbn [seq map]. constructor; [|apply IHc; lia]. intros I. apply in_map_iff in I. destruct I as (n & E & I). apply in_seq in I. apply (Inj s (n - s)%nat); [lia|lia|]. replace (s + (n - s))%nat with n by lia. symmetry. exact E. }
      apply Gen. lia. }
    assert (Inc : incl (map (fun n => walk_id n (f_id h)) (seq 0 (S N))) edge_ids). { intros x I. apply in_map_iff in I. destruct I as (n & <- & _). destruct (walk_ok i h H n) as (j & g & G & W & _). unfold walk_id. rewrite W. exact (edge_ids_in j g G). }
    pose proof (NoDup_incl_length Nd Inc) as X. rewrite map_length, seq_length in X. fold N in X. lia.
Qed.
End Around.

(** ** Two polygons with partner edges *)
Lemma partners_common st i j ha hb p o k m nz : mesh_ok st -> nth_error st i = Some p -> nth_error st j = Some o -> half_at p k ha -> half_at o m hb -> f_partner ha = Some (f_id hb) -> (nz < 3)%nat -> comp (f_dir ha) nz <> 0%Z ->
  MergeSpec.common_edge p (pts p) k o (pts o) m nz.
Proof.
  intros M P Q Ha Hb Pa Nz Dz. pose proof (mo_once st M) as O. change (once st) in O. assert (Ha' : half_in st i ha) by (exists p, k; auto). assert (Hb' : half_in st j hb) by (exists o, m; auto).
  destruct (half_points p k ha Ha) as (K & Fa & Ta). destruct (half_points o m hb Hb) as (Mm & Fb & Tb).
  destruct (mo_partner st M i ha _ Ha' Pa) as (j1 & g & Gg & Ig & Pg & E1 & E2). destruct (half_unique st j1 j g hb O Gg Hb' Ig) as [-> ->].
  assert (H : poly_ok p (pts p)) by (apply (nonempty_ok st i p M P); intros X; unfold pcount in K; rewrite X in K; cbn in K; lia). assert (Ho : poly_ok o (pts o)) by (apply (nonempty_ok st j o M Q); intros X; unfold pcount in Mm; rewrite X in Mm; cbn in Mm; lia).
  split; try assumption; [rewrite <- Tb, <- Fa; symmetry; exact E1|rewrite <- Fb, <- Ta; symmetry; exact E2|].
  destruct Ha as (e & e' & A1 & A2 & Eh). destruct (ok_edge_mod p _ k H) as (f & F & _ & _ & c & C & Ld). rewrite Nat.mod_small in F by exact K. assert (f = e) by congruence. subst f. pose proof (comp_scale _ _ _ nz Ld) as Y. rewrite qcomp_sub in Y. intros X. rewrite X in Y. apply Dz. rewrite Eh. cbn [f_dir]. apply (inject_sgn (comp (ld (pl e)) nz) (inject_Z (comp (ld (pl e)) nz)) (Qeq_refl _)). rewrite Y. ring.
Qed.

(** ** A test of a mesh *)
Definition halves (p : poly cdata) : list hedge :=
  flat_map (fun k => match nth_error (pedges p) k, nth_error (pedges p) (S k mod length (pedges p)) with Some e, Some e' => [half_of e e'] | _, _ => [] end) (seq 0 (length (pedges p))).
Lemma halves_in p k h : half_at p k h -> In h (halves p).
Proof. intros (e & e' & E & E' & ->). unfold halves. apply in_flat_map. exists k. split; [apply in_seq; pose proof (nth_lt _ _ _ E); lia|]. rewrite E, E'. left. reflexivity. Qed.
Lemma halves_at p h : In h (halves p) -> exists k, half_at p k h.
Proof. unfold halves. rewrite in_flat_map. intros (k & I & H). exists k. destruct (nth_error (pedges p) k) as [e|] eqn:E; [|destruct H]. destruct (nth_error (pedges p) (S k mod length (pedges p))) as [e'|] eqn:E'; [|destruct H]. destruct H as [<-|[]]. exists e, e'. auto. Qed.
Definition all_halves (st : mesh) : list (nat * hedge) := concat (map (fun ip => map (pair (fst ip)) (halves (snd ip))) (combine (seq 0 (length st)) st)).
Lemma nth_combine {B} (l : list B) : forall s i x, nth_error (combine (seq s (length l)) l) i = Some x <-> fst x = (s + i)%nat /\ nth_error l i = Some (snd x).
Proof.
  induction l as [|y l IH]; intros s i [a b]; cbn [length seq combine fst snd].
  - destruct i; cbn; split; [discriminate|intros [_ ?]; discriminate|discriminate|intros [_ ?]; discriminate].
  - destruct i as [|i]; cbn [nth_error]; [split; [intros E; injection E as <- <-; split; [lia|reflexivity]|intros [-> E]; injection E as <-; do 2 f_equal; lia]|]. rewrite (IH (S s) i (a, b)). cbn [fst snd]. split; intros [? ?]; split; auto; lia.
Qed.
Lemma all_halves_in st i h : half_in st i h <-> In (i, h) (all_halves st).
Proof.
  unfold all_halves. rewrite in_concat. split.
  - intros (p & k & P & H). exists (map (pair i) (halves p)). split; [|apply in_map; exact (halves_in p k h H)]. apply in_map_iff. exists (i, p). split; [reflexivity|]. apply (nth_error_In _ i). apply nth_combine. auto.
  - intros (l & L & I). apply in_map_iff in L. destruct L as ((a & p) & <- & L). apply in_map_iff in I. destruct I as (h' & E & I). cbn [fst snd] in *. injection E as -> ->. apply In_nth_error in L. destruct L as (n & L). apply nth_combine in L. destruct L as [L1 L2]. cbn [fst snd] in *. subst i. destruct (halves_at p h I) as (k & K). exists p, k. auto.
Qed.
Definition qp_eqb (a b : qpoint) : bool := Qeq_bool (qx a) (qx b) && Qeq_bool (qy a) (qy b) && Qeq_bool (qz a) (qz b).
Lemma qp_eqb_eq a b : qp_eqb a b = true -> qp_eq a b.
Proof. unfold qp_eqb. intros H. apply andb_prop in H as [H Z]. apply andb_prop in H as [X Y]. apply Qeq_bool_iff in X, Y, Z. repeat split; assumption. Qed.
Definition option_eqb (a b : option nat) : bool := match a, b with Some x, Some y => x =? y | None, None => true | _, _ => false end.
Fixpoint nodup_test (l : list nat) : bool := match l with [] => true | x :: l => negb (existsb (Nat.eqb x) l) && nodup_test l end.
Lemma nodup_test_ok l : nodup_test l = true -> NoDup l.
Proof. induction l as [|x l IH]; [constructor|]. cbn [nodup_test]. intros H. apply andb_prop in H as [N H]. constructor; [|exact (IH H)]. intros I. assert (T : existsb (Nat.eqb x) l = true) by (apply existsb_exists; exists x; split; [exact I|apply Nat.eqb_refl]). rewrite T in N. discriminate. Qed.
Definition links_test (st : mesh) : bool :=
  nodup_test (concat (map ids st)) &&
  forallb (fun x => (f_poly (snd x) =? fst x) && match f_partner (snd x) with
    | None => true
    | Some d => existsb (fun y => (f_id (snd y) =? d) && option_eqb (f_partner (snd y)) (Some (f_id (snd x))) && qp_eqb (f_from (snd x)) (f_to (snd y)) && qp_eqb (f_to (snd x)) (f_from (snd y))) (all_halves st) end) (all_halves st).
Lemma NoDup_app_parts {B} (l r : list B) : NoDup (l ++ r) -> NoDup l /\ NoDup r /\ forall x, In x l -> ~ In x r.
Proof.
  induction l as [|y l IH]; cbn [app]; intros H; [split; [constructor|split; [exact H|intros x []]]|]. apply NoDup_cons_iff in H. destruct H as [N H]. destruct (IH H) as (A & B' & C). rewrite in_app_iff in N. split; [constructor; tauto|]. split; [exact B'|]. intros x [<-|I]; [tauto|exact (C x I)].
Qed.
Lemma once_concat st : NoDup (concat (map ids st)) -> once st.
Proof.
  induction st as [|p st IH]; cbn [map concat]; intros H; [split; [intros [|i] q X; discriminate|intros [|i] j q r x _ X; discriminate]|].
  destruct (NoDup_app_parts _ _ H) as (A & B & C). destruct (IH B) as (D & E). assert (In_rest : forall i q x, nth_error st i = Some q -> In x (ids q) -> In x (concat (map ids st))) by (intros i q x Q I; apply in_concat; exists (ids q); split; [apply in_map; exact (nth_error_In _ _ Q)|exact I]).
  split.
  - intros [|i] q Q; [injection Q as <-; exact A|exact (D i q Q)].
  - intros [|i] [|j] q r x N Q R I; cbn [nth_error] in Q, R; [contradiction|injection Q as <-; intros J; exact (C x I (In_rest j r x R J))|injection R as <-; intros J; exact (C x J (In_rest i q x Q I))|exact (E i j q r x (fun e => N (f_equal S e)) Q R I)].
Qed.
Lemma links_test_ok st : links_test st = true -> (forall p, In p st -> pedges p = [] \/ poly_ok p (pts p)) -> mesh_ok st.
Proof.
  intros T C. apply andb_prop in T as [N T]. rewrite forallb_forall in T. split; [intros i p P; apply C; exact (nth_error_In _ _ P)|exact (once_concat st (nodup_test_ok _ N))| |].
  - intros i h H. apply all_halves_in in H. specialize (T _ H). apply andb_prop in T as [T _]. cbn [fst snd] in T. apply Nat.eqb_eq. exact T.
  - intros i h d H Pd. apply all_halves_in in H. specialize (T _ H). apply andb_prop in T as [_ T]. cbn [fst snd] in T. rewrite Pd in T. apply existsb_exists in T. destruct T as ((j & g) & G & T). cbn [fst snd] in T. apply andb_prop in T as [T T4]. apply andb_prop in T as [T T3]. apply andb_prop in T as [T1 T2]. exists j, g. split; [apply all_halves_in; exact G|]. split; [apply Nat.eqb_eq; exact T1|]. split; [destruct (f_partner g) as [z|]; cbn in T2; [|discriminate]; apply Nat.eqb_eq in T2; congruence|]. split; apply qp_eqb_eq; assumption.
Qed.
Lemma merged_shows st st' i j p o : nth_error st i = Some p -> nth_error st j = Some o -> i <> j -> merged st st' i j ->
  length st' = length st /\ (exists p', nth_error st' i = Some p' /\ pplane p' = pplane p /\ pdrop p' = pdrop p) /\ (exists o', nth_error st' j = Some o' /\ pedges o' = []) /\
  forall l q, shows st' l q <-> if (l =? j)%nat then False else if (l =? i)%nat then shows st i q \/ shows st j q else shows st l q.
Proof.
  intros P Q IJ (Ln & Sh & Ej & Pl & Vw).
  assert (At : forall l, (l < length st)%nat -> exists r, nth_error st' l = Some r). { intros l L. destruct (nth_error st' l) as [r|] eqn:R; [eauto|]. apply nth_error_None in R. lia. }
  destruct (At i (nth_lt _ _ _ P)) as (p' & P'). destruct (At j (nth_lt _ _ _ Q)) as (o' & Q'). destruct (Pl p p' P P') as (V1 & V2 & V3).
  split; [exact Ln|]. split; [exists p'; auto|]. split; [exists o'; auto|]. intros l q. destruct (Nat.eqb_spec l j) as [->|NJ].
  - split; [|intros []]. intros (r & R & N & _). exact (N (Ej r R)).
  - destruct (Nat.eqb_spec l i) as [->|NI]; [apply Sh|]. split.
    + intros (r' & R' & N & S3). destruct (nth_error st l) as [r|] eqn:R; [|apply nth_error_None in R; pose proof (nth_lt _ _ _ R'); lia]. destruct (Vw l r r' NI NJ R R') as (W1 & W2 & W3 & W4). exists r. split; [exact R|]. split; [tauto|]. rewrite W1, W2 in S3. apply W4. exact S3.
    + intros (r & R & N & S3). destruct (At l (nth_lt _ _ _ R)) as (r' & R'). destruct (Vw l r r' NI NJ R R') as (W1 & W2 & W3 & W4). exists r'. split; [exact R'|]. split; [tauto|]. rewrite W1, W2. apply W4. exact S3.
Qed.
Lemma nonzero_iff v : v <> V3 0 0 0 -> nonzero v.
Proof. destruct v as [x y z]. unfold nonzero, l3. cbn [vx vy vz]. intros N. destruct (Z.eq_dec x 0) as [->|X]; [|constructor; exact X]. apply Exists_cons_tl. destruct (Z.eq_dec y 0) as [->|Y]; [|constructor; exact Y]. apply Exists_cons_tl. constructor. congruence. Qed.
