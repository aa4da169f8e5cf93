(** Proofs about what ConnectingVisitor keeps. *)
From Coq Require Import List Bool Arith ZArith QArith Lqa Lia ZifyBool Permutation.
From Verif Require Import BigUIntModel GeoModel GeoSpec GeoProofs AabbSpec CvxSpec PolyModel PolySpec PolyBridgeProofs RTransModel FilterModel FilterSpec FactoryProofs PolyInfoProofs BspModel BspSpec BspHistSpec BspGeoProofs BspPolyProofs BspTreeProofs BspHistProofs PartModel PartSpec PartProofs TravModel TravSpec TravProofs TravPointProofs TravCollProofs KdCutProofs ConnVisModel ConnVisSpec.
Import ListNotations.
Local Open Scope nat_scope.
(** ** Maps *)
Definition snds (tw : list (bool * split_side)) : path := map snd tw.
Definition opens (tw : list (bool * split_side)) (o : list (hspace3 * vnode)) : Prop := Forall2 (fun s x => fst x = ss_split (snd s) /\ vn_temp (snd x) = fst s) (rev tw) o.
Fixpoint depth_map (r : list split_side) : list (option hspace3 * nat) := match r with [] => [(None, 0)] | s :: r => (Some (ss_split s), S (length r)) :: depth_map r end.
Definition entry_log := list (hspace3 * vhandle).
Definition pick (log : entry_log) (k : hspace3) : list vhandle := map snd (List.filter (fun x => hs_eqb (fst x) k) log).
Definition gain (log : entry_log) (o : list (hspace3 * vnode)) : list (hspace3 * vnode) := map (fun x => (fst x, VN (vn_temp (snd x)) (vn_edges (snd x) ++ pick log (fst x)))) o.
Lemma pick_app a b k : pick (a ++ b) k = pick a k ++ pick b k.
Proof. unfold pick. rewrite filter_app, map_app. reflexivity. Qed.
Lemma gain_nil o : gain [] o = o.
Proof. unfold gain. rewrite <- (map_id o) at 2. apply map_ext. intros [k [t l]]. cbn. rewrite app_nil_r. reflexivity. Qed.
Lemma gain_app a b o : gain (a ++ b) o = gain b (gain a o).
Proof. unfold gain. rewrite map_map. apply map_ext. intros [k [t l]]. cbn [fst snd vn_temp vn_edges]. rewrite pick_app, app_assoc. reflexivity. Qed.
Lemma hs_eqb_sym a b : hs_eqb a b = hs_eqb b a.
Proof. destruct (hs_eqb a b) eqn:E; [apply hs_eqb_eq in E as ->; symmetry; apply hs_eqb_refl|]. destruct (hs_eqb b a) eqn:F; [apply hs_eqb_eq in F as ->; rewrite hs_eqb_refl in E; discriminate|reflexivity]. Qed.
Lemma add_gain h e o : v_add h e o = gain [(h, e)] o.
Proof. unfold v_add, gain. apply map_ext. intros [k [t l]]. cbn [fst snd vn_temp vn_edges]. unfold pick. cbn [List.filter fst]. rewrite (hs_eqb_sym h k). destruct (hs_eqb k h); cbn [map snd]; [reflexivity|rewrite app_nil_r; reflexivity]. Qed.
Lemma opens_gain tw log o : opens tw o -> opens tw (gain log o).
Proof. unfold opens. intros F. induction F as [|s [k [t l]] r o [E T] F IH]; [constructor|]. cbn [gain map]. constructor; [split; [exact E|exact T]|exact IH]. Qed.
Lemma opens_length tw o : opens tw o -> length o = length tw.
Proof. unfold opens. intros F. rewrite <- (rev_length tw). induction F; cbn [length]; congruence. Qed.
Lemma opens_find tw o a s : opens tw o -> path_ok (snds tw) -> In (a, s) tw -> exists n, v_find o (ss_split s) = Some n /\ exists a', In (a', s) tw /\ vn_temp n = a'.
Proof.
  intros F P I. assert (G : forall x, In x (rev tw) -> ss_split (snd x) = ss_split s -> In x tw /\ snd x = s). { intros x J E. apply in_rev in J. split; [exact J|]. apply (path_value (snds tw)); [exact P|apply in_map; exact J|change s with (snd (a, s)); apply in_map; exact I|exact E]. }
  apply in_rev in I. unfold opens in F. unfold v_find. induction F as [|y x r o [E T] F IH]; [destruct I|]. cbn [find]. destruct (hs_eqb (fst x) (ss_split s)) eqn:H.
  - apply hs_eqb_eq in H. exists (snd x). split; [reflexivity|]. exists (fst y). destruct (G y (or_introl eq_refl) ltac:(congruence)) as [J Es]. split; [rewrite <- Es, <- surjective_pairing; exact J|exact T].
  - destruct I as [->|I]; [cbn [snd] in E; rewrite E, hs_eqb_refl in H; discriminate|]. apply IH; [exact I|]. intros z J. apply G. right. exact J.
Qed.
Lemma opens_none tw o h : opens tw o -> (forall s, In s (snds tw) -> ss_split s <> h) -> v_find o h = None.
Proof.
  intros F N. assert (N' : forall x, In x (rev tw) -> ss_split (snd x) <> h) by (intros x I; apply N; unfold snds; apply in_map, in_rev, I). unfold opens in F. unfold v_find. induction F as [|y x r o [E _] F IH]; [reflexivity|]. cbn [find]. destruct (hs_eqb (fst x) h) eqn:H.
  - apply hs_eqb_eq in H. exfalso. apply (N' y (or_introl eq_refl)). congruence.
  - apply IH. intros z I. apply N'. right. exact I.
Qed.
Lemma opens_rest tw o h : opens tw o -> (forall s, In s (snds tw) -> ss_split s <> h) -> List.filter (fun x => negb (hs_eqb (fst x) h)) o = o.
Proof.
  intros F N. assert (N' : forall x, In x (rev tw) -> ss_split (snd x) <> h) by (intros x I; apply N; unfold snds; apply in_map, in_rev, I). unfold opens in F. induction F as [|y x r o [E _] F IH]; [reflexivity|]. cbn [List.filter]. destruct (hs_eqb (fst x) h) eqn:H.
  - apply hs_eqb_eq in H. exfalso. apply (N' y (or_introl eq_refl)). congruence.
  - cbn [negb]. f_equal. apply IH. intros z I. apply N'. right. exact I.
Qed.
Lemma depth_null r : d_find (depth_map r) None = Some 0.
Proof. unfold d_find. induction r as [|s r IH]; cbn [depth_map find fst key_eqb]; [reflexivity|exact IH]. Qed.
Lemma depth_some r s : (forall x, In x r -> ss_split x = ss_split s -> x = s) -> In s r -> exists l1 l2, r = l1 ++ s :: l2 /\ d_find (depth_map r) (Some (ss_split s)) = Some (S (length l2)).
Proof.
  intros U I. unfold d_find. induction r as [|x r IH]; [destruct I|]. cbn [depth_map find fst key_eqb]. destruct (hs_eqb (ss_split x) (ss_split s)) eqn:E.
  - apply hs_eqb_eq in E. rewrite (U x (or_introl eq_refl) E). exists [], r. split; reflexivity.
  - destruct I as [->|I]; [rewrite hs_eqb_refl in E; discriminate|]. destruct (IH (fun y J => U y (or_intror J)) I) as (l1 & l2 & -> & D). exists (x :: l1), l2. split; [reflexivity|exact D].
Qed.
Lemma depth_none r h : (forall x, In x r -> ss_split x <> h) -> d_find (depth_map r) (Some h) = None.
Proof.
  intros U. unfold d_find. induction r as [|x r IH]; [reflexivity|]. cbn [depth_map find fst key_eqb]. destruct (hs_eqb (ss_split x) h) eqn:E; [apply hs_eqb_eq in E; destruct (U x (or_introl eq_refl) E)|]. apply IH. intros y J. apply U. right. exact J.
Qed.
Lemma depth_rest r h : (forall x, In x r -> ss_split x <> h) -> List.filter (fun x => negb (key_eqb (fst x) (Some h))) (depth_map r) = depth_map r.
Proof.
  intros U. induction r as [|x r IH]; [reflexivity|]. cbn [depth_map List.filter fst key_eqb]. destruct (hs_eqb (ss_split x) h) eqn:E; [apply hs_eqb_eq in E; destruct (U x (or_introl eq_refl) E)|]. cbn [negb]. f_equal. apply IH. intros y J. apply U. right. exact J.
Qed.
Lemma depth_born w c : path_ok w -> (forall s, created_by c = Some s -> In s w) -> exists k, d_find (depth_map (rev w)) (option_map ss_split (created_by c)) = Some k /\ born w k c.
Proof.
  intros P I. unfold born. destruct (created_by c) as [s|]; cbn [option_map]; [|exists 0; split; [apply depth_null|reflexivity]]. specialize (I s eq_refl).
  destruct (depth_some (rev w) s) as (l1 & l2 & E & D); [intros x J Ex; apply (path_value w); [exact P|apply in_rev; exact J|exact I|exact Ex]|apply in_rev in I; exact I|].
  eexists. split; [exact D|]. exists (rev l2), (rev l1). rewrite rev_length. split; [|reflexivity]. rewrite <- (rev_involutive w), E, rev_app_distr. cbn [rev]. rewrite <- app_assoc. reflexivity.
Qed.
(** ** Edges of a polygon in a leaf *)
Lemma first_before P (w1 w' : path) s s0 : first_in P (w1 ++ w') (Some s) -> In s0 w1 -> P s0 -> In s w1.
Proof.
  intros (l & r & E & Ps & F) I P0. revert l E F. induction w1 as [|x w1 IH]; intros l E F; [destruct I|]. destruct l as [|y l]; cbn [app] in E; injection E as -> E; [left; reflexivity|]. right. inversion F; subst. destruct I as [->|I]; [contradiction|]. exact (IH I l E ltac:(assumption)).
Qed.
Lemma first_some P (w : path) o s0 : first_in P w o -> In s0 w -> P s0 -> exists s, o = Some s.
Proof. intros F I P0. destruct o as [s|]; [eexists; reflexivity|]. cbn in F. rewrite Forall_forall in F. destruct (F s0 I P0). Qed.
Lemma last_some P (w : path) o s0 : last_in P w o -> In s0 w -> P s0 -> exists s, o = Some s /\ In s w.
Proof. intros F I P0. destruct o as [s|]; [exists s; split; [reflexivity|exact (last_mem _ _ _ F)]|]. cbn in F. rewrite Forall_forall in F. destruct (F s0 I P0). Qed.
Lemma edge_ends b i u v d : has_edge (bp_poly b) i u v d -> bp_point b u /\ bp_point b v.
Proof. intros (qs & e & H & _ & _ & A & B). split; apply (vertex_bp b qs); try exact H; [exact (nth_error_In _ _ A)|exact (nth_error_In _ _ B)]. Qed.
Lemma edge_known w0 u b s0 i x y d : stored (w0 ++ u) b -> bp_on b = Some s0 -> In s0 w0 -> has_edge (bp_poly b) i x y d ->
  (exists s, first_co d = Some s /\ In s w0) /\ (exists s, vertex_co d = Some s /\ In s (w0 ++ u)) /\ (exists s, edge_co d = Some s /\ In s (w0 ++ u)).
Proof.
  intros S On I H. assert (L : lies_on s0 b) by (destruct (st_on _ _ S) as [F _]; rewrite On in F; destruct F as (l & r & _ & L & _); exact L). destruct (edge_ends _ _ _ _ _ H) as [Bx By]. assert (J : In s0 (w0 ++ u)) by (apply in_or_app; left; exact I).
  destruct (st_edges _ _ S i x y d H) as [F La V _]. split; [|split].
  - destruct (first_some _ _ _ s0 F J (conj (L _ Bx) (L _ By))) as (s & E). exists s. split; [exact E|]. rewrite E in F. exact (first_before _ _ _ s s0 F I (conj (L _ Bx) (L _ By))).
  - exact (last_some _ _ _ s0 V J (L _ Bx)).
  - exact (last_some _ _ _ s0 La J (conj (L _ Bx) (L _ By))).
Qed.
(** ** Accept *)
Definition tagged (tw : list (bool * split_side)) (w0 : path) : Prop := forall s, In s (snds tw) -> In (false, s) tw /\ ~ In (true, s) tw /\ In s w0 \/ In (true, s) tw /\ ~ In (false, s) tw /\ ~ In s w0.
Lemma found_ok dbg tw w0 o s : tagged tw w0 -> opens tw o -> path_ok (snds tw) -> In s (snds tw) -> exists n, found dbg (v_node o (Some s)) = Ok n /\ still w0 (Some s) (reset n (Some s)) /\ (In s w0 -> vn_temp n = false).
Proof.
  intros G F P I. assert (X : exists a, In (a, s) tw) by (unfold snds in I; apply in_map_iff in I as ([a x] & E & J); cbn in E; subst x; exists a; exact J). destruct X as (a & Ia). destruct (opens_find tw o a s F P Ia) as (n & E & a' & J & T). exists n. unfold found. cbn [v_node]. rewrite E, check_true. cbn [rbind].
  split; [reflexivity|]. unfold reset, still. destruct (G s I) as [(A & B & C)|(A & B & C)]; destruct a'; rewrite T; try contradiction; split; auto; intros; try contradiction.
Qed.
Lemma edge_run dbg tw w0 i j o d u v x y b s0 : tagged tw w0 -> opens tw o -> path_ok (snds tw) -> snds tw = w0 ++ u -> stored (w0 ++ u) b -> bp_on b = Some s0 -> In s0 w0 -> has_edge (bp_poly b) v x y d ->
  exists s c d', first_co d = Some s /\ In s w0 /\ born (w0 ++ u) c d /\ v_edge dbg i j o (depth_map (rev (snds tw))) d = Ok (gain [(ss_split s, (c, (i, j)))] o, depth_map (rev (snds tw)), d') /\
    created_by d' = created_by d /\ first_co d' = first_co d /\ still w0 (vertex_co d) (vertex_co d') /\ still w0 (edge_co d) (edge_co d').
Proof.
  intros G F P E S On I H. destruct (edge_known w0 u b s0 v x y d S On I H) as ((s & E1 & I1) & (s1 & E2 & I2) & (s2 & E3 & I3)). rewrite E in *. assert (I1' : In s (w0 ++ u)) by (apply in_or_app; left; exact I1).
  destruct (depth_born (w0 ++ u) d P) as (c & D & Bo); [intros s' Ec; exact (proj1 (ee_created _ _ _ _ (st_edges _ _ S _ _ _ _ H) s' Ec))|].
  rewrite <- E in P. destruct (found_ok dbg tw w0 o s G F P ltac:(rewrite E; exact I1')) as (n & N1 & _ & N3). pose proof (opens_gain tw [(ss_split s, (c, (i, j)))] o F) as F'.
  destruct (found_ok dbg tw w0 _ s1 G F' P ltac:(rewrite E; exact I2)) as (n1 & M1 & M2 & _). destruct (found_ok dbg tw w0 _ s2 G F' P ltac:(rewrite E; exact I3)) as (n2 & L1 & L2 & _).
  exists s, c, (BD (created_by d) (first_co d) (reset n1 (vertex_co d)) (reset n2 (edge_co d))). split; [exact E1|]. split; [exact I1|]. split; [exact Bo|]. split; [|cbn; rewrite E2, E3; auto].
  unfold v_edge. rewrite E1, N1. cbn [rbind]. rewrite D, check_true. cbn [rbind]. rewrite add_gain. rewrite E2, E3. unfold entry_log, vhandle in *. rewrite M1. cbn [rbind]. rewrite L1. cbn [rbind]. unfold reset at 1. rewrite (N3 I1). reflexivity.
Qed.
(** The handle of an edge with first_co s of a polygon of all in a leaf below w. *)
Definition entry (A : path -> Prop) (w : path) (all : list bpoly) (s : split_side) (e : vhandle) : Prop :=
  exists b x w' u, A w' /\ nth_error all (fst (snd e)) = Some b /\ nth_error (pedges (bp_poly b)) (snd (snd e)) = Some x /\ first_co (pd x) = Some s /\ path_ok (w ++ w' ++ u) /\ stored (w ++ w' ++ u) b /\ born (w ++ w' ++ u) (fst e) (pd x).
Lemma accept_run dbg tw w0 u b s0 v pre : tagged tw w0 -> opens tw (v_open v) -> v_depth v = depth_map (rev (snds tw)) -> path_ok (snds tw) -> snds tw = w0 ++ u -> stored (w0 ++ u) b -> bp_on b = Some s0 -> In s0 w0 -> length pre = length (v_polys v) ->
  exists log x, v_accept dbg b v = Ok (VS (gain log (v_open v)) (v_depth v) (v_polys v ++ [x]) (v_calls v)) /\ tidied w0 b x /\ map (fun e => snd (snd e)) log = edges_from (length pre) [b] /\
    Forall (fun e => exists s, In s w0 /\ fst e = ss_split s /\ entry (fun w => w = []) w0 (pre ++ [b]) s (snd e)) log.
Proof.
  intros G F D P E S On I Lp. destruct (st_ok _ _ S) as (qs & Hq). set (i := length (v_polys v)).
  assert (X : forall es k o, opens tw o -> (forall j e, nth_error es j = Some e -> nth_error (pedges (bp_poly b)) (k + j) = Some e) -> exists log es', v_edges dbg i k o (depth_map (rev (snds tw))) es = Ok (gain log o, depth_map (rev (snds tw)), es') /\
    Forall2 (fun e e' => pv e' = pv e /\ pl e' = pl e /\ created_by (pd e') = created_by (pd e) /\ first_co (pd e') = first_co (pd e) /\ (exists s, first_co (pd e) = Some s /\ In s w0) /\ still w0 (vertex_co (pd e)) (vertex_co (pd e')) /\ still w0 (edge_co (pd e)) (edge_co (pd e'))) es es' /\
    map (fun e => snd (snd e)) log = map (pair i) (seq k (length es)) /\ Forall (fun e => exists s, In s w0 /\ fst e = ss_split s /\ entry (fun w => w = []) w0 (pre ++ [b]) s (snd e)) log).
  { induction es as [|e es IH]; intros k o Fo Ne; [exists [], []; rewrite gain_nil; repeat split; constructor|]. pose proof (Ne 0 e eq_refl) as N0. rewrite Nat.add_0_r in N0.
    destruct (edge_run dbg tw w0 i k o (pd e) u k _ _ b s0 G Fo P E S On I (has_edge_at (bp_poly b) qs k e Hq N0)) as (s & c & d' & E1 & I1 & Bo & R & T1 & T2 & T3 & T4).
    destruct (IH (Datatypes.S k) (gain [(ss_split s, (c, (i, k)))] o) (opens_gain _ _ _ Fo)) as (log & es' & R' & F2 & Pm & Fe); [intros j x Nx; replace (Datatypes.S k + j) with (k + Datatypes.S j) by lia; apply Ne; exact Nx|].
    exists ((ss_split s, (c, (i, k))) :: log), (PE (pv e) (pl e) d' :: es'). split; [|split; [|split]].
    - cbn [v_edges]. rewrite R. cbn [rbind fst snd]. rewrite R'. cbn [rbind fst snd]. rewrite <- gain_app. reflexivity.
    - constructor; [|exact F2]. cbn [pv pl pd]. split; [reflexivity|]. split; [reflexivity|]. split; [exact T1|]. split; [exact T2|]. split; [exists s; auto|]. split; assumption.
    - cbn [map snd length seq]. f_equal. exact Pm.
    - constructor; [|exact Fe]. exists s. split; [exact I1|]. split; [reflexivity|]. exists b, e, [], u. cbn [fst snd app]. unfold i. rewrite <- Lp, nth_error_app2, Nat.sub_diag by lia. rewrite E in P. split; [reflexivity|]. split; [reflexivity|]. split; [exact N0|]. split; [exact E1|]. split; [exact P|]. split; [exact S|exact Bo]. }
  destruct (X (pedges (bp_poly b)) 0 (v_open v) F (fun j e N => N)) as (log & es' & R & F2 & Pm & Fe). exists log. eexists. split; [unfold v_accept; rewrite D; fold i; rewrite R; cbn [rbind fst snd]; reflexivity|]. split; [split; [cbn; auto|exact F2]|]. split; [|exact Fe].
  rewrite Pm, Lp. cbn [edges_from]. rewrite app_nil_r. reflexivity.
Qed.
(** ** Parts of the calls *)
Definition call_ok (c : vcall) : Prop := exists k, vc_drop c = Some k /\ (k < 3)%nat /\ comp (hn (vc_plane c)) k <> 0%Z.
Definition handles (calls : list vcall) : list (nat * nat) := concat (map (fun c => map snd (vc_edges c)) calls).
Record seg (dbg : bool) (A : path -> Prop) (w : path) (K : split_side -> Prop) (pre : list bpoly) (evs : list tevent) (v v' : vstate) (log : entry_log) (calls : list vcall) : Prop := Seg {
  sg_run : v_run dbg evs v = Ok v';
  sg_open : v_open v' = gain log (v_open v);
  sg_depth : v_depth v' = v_depth v;
  sg_calls : v_calls v' = v_calls v ++ calls;
  sg_polys : exists ps, v_polys v' = v_polys v ++ ps /\ Forall2 (fun b x => exists w', A w' /\ tidied (w ++ w') b x) (shown evs) ps;
  sg_all : Permutation (map (fun e => snd (snd e)) log ++ handles calls) (edges_from (length pre) (shown evs));
  sg_log : Forall (fun x => exists s, K s /\ fst x = ss_split s /\ entry A w (pre ++ shown evs) s (snd x)) log;
  sg_in : Forall (fun c => call_ok c /\ Forall (fun e => exists s, vc_plane c = ss_split s /\ ~ In s w /\ entry A w (pre ++ shown evs) s e) (vc_edges c)) calls }.
Lemma v_run_app dbg a b : forall v, v_run dbg (a ++ b) v = (v <- v_run dbg a v ;; v_run dbg b v).
Proof. induction a as [|e a IH]; intros c; [reflexivity|]. cbn [app v_run]. destruct (v_step dbg c e); cbn [rbind]; [apply IH|reflexivity|reflexivity|reflexivity]. Qed.
Lemma edges_from_app a b : forall n, edges_from n (a ++ b) = edges_from n a ++ edges_from (n + length a) b.
Proof. induction a as [|x a IH]; intros n; cbn [app edges_from length]; [rewrite Nat.add_0_r; reflexivity|]. rewrite IH, app_assoc. do 2 f_equal. lia. Qed.
Lemma handles_app a b : handles (a ++ b) = handles a ++ handles b.
Proof. unfold handles. rewrite map_app, concat_app. reflexivity. Qed.
Lemma entry_more (A : path -> Prop) w all more s e : entry A w all s e -> entry A w (all ++ more) s e.
Proof. intros (b & x & w' & u & H1 & H2 & H3). exists b, x, w', u. split; [exact H1|]. split; [|exact H3]. rewrite nth_error_app1; [exact H2|]. apply nth_error_Some. congruence. Qed.
Lemma entry_up (A B : path -> Prop) w z all s e : (forall w', A w' -> B (z ++ w')) -> entry A (w ++ z) all s e -> entry B w all s e.
Proof. intros G (b & x & w' & u & H1 & H2 & H3 & H4 & H5 & H6 & H7). exists b, x, (z ++ w'), u. rewrite <- !app_assoc in *. split; [exact (G _ H1)|]. tauto. Qed.
Lemma seg_length dbg A w K pre evs v v' log calls : seg dbg A w K pre evs v v' log calls -> length pre = length (v_polys v) -> length (pre ++ shown evs) = length (v_polys v').
Proof. intros H E. destruct (sg_polys _ _ _ _ _ _ _ _ _ _ H) as (ps & -> & F). rewrite !app_length, E. f_equal. clear - F. induction F; cbn [length]; congruence. Qed.
Lemma seg_nil dbg A w K pre v : seg dbg A w K pre [] v v [] [].
Proof. split; [reflexivity|rewrite gain_nil; reflexivity|reflexivity|rewrite app_nil_r; reflexivity|exists []; rewrite app_nil_r; split; [reflexivity|constructor]|constructor|constructor|constructor]. Qed.
Lemma seg_app dbg A w K pre a b v v1 v2 l1 l2 c1 c2 : seg dbg A w K pre a v v1 l1 c1 -> seg dbg A w K (pre ++ shown a) b v1 v2 l2 c2 -> seg dbg A w K pre (a ++ b) v v2 (l1 ++ l2) (c1 ++ c2).
Proof.
  intros [A1 A2 A3 A4 (ps1 & A5 & A6) A7 A8 A9] [B1 B2 B3 B4 (ps2 & B5 & B6) B7 B8 B9]. split.
  - rewrite v_run_app, A1. exact B1.
  - rewrite gain_app, B2, A2. reflexivity.
  - congruence.
  - rewrite B4, A4, app_assoc. reflexivity.
  - exists (ps1 ++ ps2). rewrite B5, A5, app_assoc, shown_app. split; [reflexivity|apply Forall2_app; assumption].
  - rewrite shown_app, edges_from_app, map_app, handles_app. rewrite app_length in B7. rewrite <- A7, <- B7. rewrite <- !app_assoc. apply Permutation_app_head. rewrite !app_assoc. apply Permutation_app_tail, Permutation_app_comm.
  - rewrite shown_app, app_assoc. apply Forall_app. split; [|exact B8]. revert A8. apply Forall_impl. intros x (s & I & E & H). exists s. split; [exact I|]. split; [exact E|apply entry_more; exact H].
  - rewrite shown_app, app_assoc. apply Forall_app. split; [|exact B9]. revert A9. apply Forall_impl. intros c [Oc H]. split; [exact Oc|]. revert H. apply Forall_impl. intros e (s & E & N & H). exists s. split; [exact E|]. split; [exact N|apply entry_more; exact H].
Qed.
(** ** Nodes *)
Lemma opens_snoc tw o temp h b : opens tw o -> opens (tw ++ [(temp, SS h b)]) ((h, VN temp []) :: o).
Proof. intros F. unfold opens. rewrite rev_unit. constructor; [split; reflexivity|exact F]. Qed.
Lemma depth_snoc tw temp h b : depth_map (rev (snds (tw ++ [(temp, SS h b)]))) = (Some h, S (length tw)) :: depth_map (rev (snds tw)).
Proof. unfold snds. rewrite map_app, rev_app_distr. cbn [map snd rev app depth_map ss_split]. rewrite rev_length, map_length. reflexivity. Qed.
Lemma fresh_ne w h s : fresh_plane w h -> In s w -> ss_split s <> h.
Proof. intros [_ N] I E. apply (N s I). rewrite E. intros x. reflexivity. Qed.
Lemma enter_run dbg temp h tw v : opens tw (v_open v) -> v_depth v = depth_map (rev (snds tw)) -> fresh_plane (snds tw) h ->
  v_enter dbg temp h v = Ok (VS ((h, VN temp []) :: v_open v) ((Some h, S (length tw)) :: v_depth v) (v_polys v) (v_calls v)).
Proof.
  intros F D Fr. unfold v_enter. rewrite (opens_none tw _ h F) by (intros s I; exact (fresh_ne _ _ _ Fr I)). rewrite D, depth_none by (intros s I; apply (fresh_ne _ _ _ Fr); apply in_rev; exact I). rewrite check_true. cbn [rbind]. rewrite (opens_length _ _ F). reflexivity.
Qed.
Lemma leave_run dbg temp h tw v v2 log c : opens tw (v_open v) -> v_depth v = depth_map (rev (snds tw)) -> fresh_plane (snds tw) h -> v_open v2 = gain log ((h, VN temp []) :: v_open v) -> v_depth v2 = (Some h, c) :: v_depth v ->
  v_leave dbg h v2 = Ok (VS (gain log (v_open v)) (v_depth v) (v_polys v2) (v_calls v2 ++ [VC h (first_nonzero (hn h)) (pick log h)])).
Proof.
  intros F D Fr Eo Ed. unfold v_leave. rewrite Eo, Ed. cbn [gain map fst snd vn_temp vn_edges app]. unfold v_find. cbn [find fst List.filter key_eqb]. rewrite hs_eqb_refl. cbn [option_map snd found negb]. unfold found. rewrite check_true. cbn [rbind vn_edges]. fold (gain log (v_open v)).
  rewrite (opens_rest tw _ h (opens_gain tw log _ F)) by (intros s I; exact (fresh_ne _ _ _ Fr I)). rewrite D, depth_rest by (intros s I; apply (fresh_ne _ _ _ Fr); apply in_rev; exact I). reflexivity.
Qed.
Lemma drop_ok h l : hs_valid h = true -> call_ok (VC h (first_nonzero (hn h)) l).
Proof.
  intros V. unfold call_ok. cbn [vc_drop vc_plane]. destruct (first_nonzero (hn h)) as [k|] eqn:E; [exists k; split; [reflexivity|exact (first_nonzero_ok _ _ E)]|]. exfalso. apply first_nonzero_none in E. unfold hs_valid in V. rewrite E in V. discriminate.
Qed.
Lemma pick_in log k e : In e (pick log k) <-> In (k, e) log.
Proof.
  unfold pick. rewrite in_map_iff. split.
  - intros ([k' e'] & E & I). cbn in E. subst e'. apply filter_In in I as [I H]. cbn in H. apply hs_eqb_eq in H as ->. exact I.
  - intros I. exists (k, e). split; [reflexivity|]. apply filter_In. split; [exact I|apply hs_eqb_refl].
Qed.
(** ** Tours *)
Definition quiet (calls : list vcall) : Prop := Forall (fun c => vc_edges c = []) calls.
Lemma quiet_handles calls : quiet calls -> handles calls = [].
Proof. unfold handles. intros F. induction F as [|c l E F IH]; [reflexivity|]. cbn [map concat]. rewrite E, IH. reflexivity. Qed.
Lemma tagged_snoc tw w0 h b : tagged tw w0 -> fresh_plane (snds tw) h -> (forall s, In s w0 -> In s (snds tw)) -> tagged (tw ++ [(true, SS h b)]) w0.
Proof.
  intros G Fr Sub s I. unfold snds in I. rewrite map_app in I. apply in_app_or in I as [I|[<-|[]]].
  - fold (snds tw) in I. pose proof (fresh_ne _ _ _ Fr I) as Ne. destruct (G s I) as [(X & Y & W)|(X & Y & W)]; [left|right]; (split; [apply in_or_app; left; exact X|]); (split; [|exact W]); intros J; apply in_app_or in J as [J|[J|[]]]; try contradiction; injection J; intros; subst s; apply Ne; reflexivity.
  - right. cbn [snd]. split; [apply in_or_app; right; left; reflexivity|]. split; [|intros J; exact (fresh_ne _ _ _ Fr (Sub _ J) eq_refl)]. intros J. apply in_app_or in J as [J|[J|[]]]; [|discriminate]. apply (in_map snd) in J. exact (fresh_ne _ _ _ Fr J eq_refl).
Qed.
Lemma tour_seg dbg w evs : tour w evs -> forall tw w0 u v pre s0, w = w0 ++ u -> snds tw = w -> tagged tw w0 -> path_ok w -> Forall (fun b => bp_on b = Some s0) (accepted evs) -> In s0 w0 -> opens tw (v_open v) -> v_depth v = depth_map (rev (snds tw)) -> length pre = length (v_polys v) ->
  exists v' log calls, seg dbg (fun w => w = []) w0 (fun s => In s w0) pre (map TPart evs) v v' log calls /\ quiet calls.
Proof.
  intros T. induction T as [w|w l F|w h n p Fr Tn IHn Tp IHp]; intros tw w0 u v pre s0 -> Ew G P On I0 Op De Lp.
  - exists v, [], []. split; [apply seg_nil|constructor].
  - assert (X : forall l v pre, Forall (stored (w0 ++ u)) l -> Forall (fun b => bp_on b = Some s0) l -> opens tw (v_open v) -> v_depth v = depth_map (rev (snds tw)) -> length pre = length (v_polys v) -> exists v' log, seg dbg (fun w => w = []) w0 (fun s => In s w0) pre (map TPart (map EAccept l)) v v' log []).
    { clear F On Op De Lp. induction l0 as [|b l0 IH]; intros v0 pre0 F On Op De Lp; [exists v0, []; apply seg_nil|]. inversion F as [|? ? Sb F']; subst. inversion On as [|? ? Ob On']; subst. rewrite <- Ew in P.
      destruct (accept_run dbg tw w0 u b s0 v0 pre0 G Op De P Ew Sb Ob I0 Lp) as (log & x & R & Ti & Pm & Fe). set (v1 := VS (gain log (v_open v0)) (v_depth v0) (v_polys v0 ++ [x]) (v_calls v0)).
      assert (S1 : seg dbg (fun w => w = []) w0 (fun s => In s w0) pre0 [TPart (EAccept b)] v0 v1 log []).
      { split; [cbn [v_run v_step]; rewrite R; reflexivity|reflexivity|reflexivity|cbn; rewrite app_nil_r; reflexivity| | |exact Fe|constructor].
        - exists [x]. split; [reflexivity|]. constructor; [|constructor]. exists []. rewrite app_nil_r. split; [reflexivity|exact Ti].
        - cbn [shown handles map concat]. rewrite app_nil_r, Pm. apply Permutation_refl. }
      destruct (IH v1 (pre0 ++ [b]) F' On' (opens_gain _ _ _ Op) De) as (v2 & log2 & S2); [cbn [v_polys v1]; rewrite !app_length, Lp; reflexivity|]. exists v2, (log ++ log2). cbn [map]. change (TPart (EAccept b) :: map TPart (map EAccept l0)) with ([TPart (EAccept b)] ++ map TPart (map EAccept l0)). change (@nil vcall) with (@nil vcall ++ []). exact (seg_app _ _ _ _ _ _ _ _ _ _ _ _ _ _ S1 S2). }
    assert (Al : accepted (ELeaf :: map EAccept l) = l) by (cbn [accepted]; clear; induction l as [|b l IH]; cbn [map accepted]; congruence). rewrite Al in On.
    destruct (X l v pre F On Op De Lp) as (v' & log & [A1 A2 A3 A4 A5 A6 A7 A8]). exists v', log, []. split; [|constructor]. cbn [map]. split; assumption.
  - assert (Fr' : fresh_plane (snds tw) h) by (rewrite Ew; exact Fr). set (v1 := VS ((h, VN true []) :: v_open v) ((Some h, S (length tw)) :: v_depth v) (v_polys v) (v_calls v)). assert (An : accepted (EEnter h :: n ++ p ++ [ELeave h]) = accepted n ++ accepted p).
    { cbn [accepted]. rewrite <- !shown_map, !map_app, !shown_app. cbn [map shown]. rewrite app_nil_r. reflexivity. }
    rewrite An in On. apply Forall_app in On as [On1 On2]. assert (Sub : forall s, In s w0 -> In s (snds tw)) by (intros s J; rewrite Ew; apply in_or_app; left; exact J).
    assert (Es : forall b, snds (tw ++ [(true, SS h b)]) = (w0 ++ u) ++ [SS h b]) by (intros b; unfold snds; rewrite map_app; cbn [map snd]; fold (snds tw); rewrite Ew; reflexivity).
    assert (Ds : forall b, v_depth v1 = depth_map (rev (snds (tw ++ [(true, SS h b)])))) by (intros b; rewrite depth_snoc; cbn [v1 v_depth]; rewrite De; reflexivity).
    destruct (IHn (tw ++ [(true, SS h false)]) w0 (u ++ [SS h false]) v1 pre s0 ltac:(rewrite app_assoc; reflexivity) (Es false) (tagged_snoc _ _ _ _ G Fr' Sub) (path_snoc _ (SS h false) P Fr) On1 I0 (opens_snoc _ _ _ _ _ Op) (Ds false) Lp) as (v2 & l1 & c1 & S1 & Q1).
    destruct (IHp (tw ++ [(true, SS h true)]) w0 (u ++ [SS h true]) v2 (pre ++ shown (map TPart n)) s0 ltac:(rewrite app_assoc; reflexivity) (Es true) (tagged_snoc _ _ _ _ G Fr' Sub) (path_snoc _ (SS h true) P Fr) On2 I0) as (v3 & l2 & c2 & S2 & Q2).
    { rewrite (sg_open _ _ _ _ _ _ _ _ _ _ S1). apply opens_gain, opens_snoc, Op. } { rewrite (sg_depth _ _ _ _ _ _ _ _ _ _ S1). apply Ds. } { exact (seg_length _ _ _ _ _ _ _ _ _ _ S1 Lp). }
    pose proof (seg_app _ _ _ _ _ _ _ _ _ _ _ _ _ _ S1 S2) as [B1 B2 B3 B4 B5 B6 B7 B8]. pose proof (leave_run dbg true h tw v v3 (l1 ++ l2) (S (length tw)) Op De Fr' B2 B3) as Lv.
    assert (Pk : pick (l1 ++ l2) h = []). { destruct (pick (l1 ++ l2) h) as [|e r] eqn:Ep; [reflexivity|]. exfalso. assert (J : In e (pick (l1 ++ l2) h)) by (rewrite Ep; left; reflexivity). apply pick_in in J. rewrite Forall_forall in B7. destruct (B7 _ J) as (s & Js & Ee & _). cbn [fst] in Ee. exact (fresh_ne _ _ _ Fr' (Sub _ Js) (eq_sym Ee)). }
    rewrite Pk in Lv. eexists _, (l1 ++ l2), ((c1 ++ c2) ++ [VC h (first_nonzero (hn h)) []]). assert (Sh : shown (map TPart (EEnter h :: n ++ p ++ [ELeave h])) = shown (map TPart n ++ map TPart p)) by (cbn [map shown]; rewrite !map_app, !shown_app; cbn [map shown]; rewrite app_nil_r; reflexivity).
    split; [split|].
    + cbn [map v_run v_step]. rewrite (enter_run dbg true h tw v Op De Fr'). cbn [rbind]. fold v1. rewrite !map_app, app_assoc. cbn [map]. rewrite v_run_app, B1. cbn [rbind v_run v_step]. rewrite Lv. reflexivity.
    + reflexivity.
    + reflexivity.
    + cbn [v_calls]. rewrite B4. unfold v1. cbn [v_calls]. rewrite <- !app_assoc. reflexivity.
    + rewrite Sh. exact B5.
    + rewrite Sh, handles_app. unfold handles at 2. cbn [map concat vc_edges app]. rewrite app_nil_r. exact B6.
    + rewrite Sh. exact B7.
    + rewrite Sh. apply Forall_app. split; [exact B8|]. constructor; [|constructor]. split; [apply drop_ok; exact (proj1 Fr)|constructor].
    + apply Forall_app. split; [apply Forall_app; split; assumption|]. constructor; [reflexivity|constructor].
Qed.
(** ** Walks *)
Lemma seg_mono dbg (A B : path -> Prop) w z (K L : split_side -> Prop) pre evs v v' log calls : (forall w', A w' -> B (z ++ w')) -> (forall s, K s -> L s) -> seg dbg A (w ++ z) K pre evs v v' log calls -> seg dbg B w L pre evs v v' log calls.
Proof.
  intros G H [A1 A2 A3 A4 (ps & A5 & A6) A7 A8 A9]. split; try assumption.
  - exists ps. split; [exact A5|]. revert A6. apply Forall2_weaken. intros b x (w' & I & T). exists (z ++ w'). rewrite <- app_assoc in T. split; [apply G; exact I|exact T].
  - revert A8. apply Forall_impl. intros x (s & I & E & N). exists s. split; [apply H; exact I|]. split; [exact E|exact (entry_up A B w z _ _ _ G N)].
  - revert A9. apply Forall_impl. intros c [O F]. split; [exact O|]. revert F. apply Forall_impl. intros e (s & E & N & X). exists s. split; [exact E|]. split; [intros I; apply N, in_or_app; left; exact I|exact (entry_up A B w z _ _ _ G X)].
Qed.
Definition grouped (all : list bpoly) (calls : list vcall) : Prop := forall c1 c2 e1 e2, In c1 calls -> In c2 calls -> In e1 (vc_edges c1) -> In e2 (vc_edges c2) -> overlap all (snd e1) (snd e2) -> exists c, In c calls /\ In e1 (vc_edges c) /\ In e2 (vc_edges c).
Lemma edge_less all more x u v d b : nth_error all (fst x) = Some b -> edge_of (all ++ more) x u v d -> edge_of all x u v d.
Proof. intros N (b' & N' & H). rewrite nth_error_app1 in N' by (apply nth_error_Some; congruence). exists b'. split; assumption. Qed.
Lemma overlap_less A1 A2 w1 w2 s1 s2 all more e1 e2 : entry A1 w1 all s1 e1 -> entry A2 w2 all s2 e2 -> overlap (all ++ more) (snd e1) (snd e2) -> overlap all (snd e1) (snd e2).
Proof.
  intros (b1 & _ & _ & _ & _ & N1 & _) (b2 & _ & _ & _ & _ & N2 & _) (u & v & d & u' & v' & d' & q & r & X & Y & R). exists u, v, d, u', v', d', q, r. split; [exact (edge_less _ _ _ _ _ _ _ N1 X)|]. split; [exact (edge_less _ _ _ _ _ _ _ N2 Y)|exact R].
Qed.
Lemma overlap_sym all x y : overlap all x y -> overlap all y x.
Proof. intros (u & v & d & u' & v' & d' & q & r & X & Y & R1 & R2 & R3 & R4 & R5). exists u', v', d', u, v, d, q, r. tauto. Qed.
Lemma seg_line u v q : on_segment u v q -> on_line u v q.
Proof. intros (t & _ & E). exists t. exact E. Qed.
Lemma side_segment h u v q t : qp_eq q (qadd u (qscale t (qsub v u))) -> (side h q == side h u + t * (side h v - side h u))%Q.
Proof. intros E. rewrite (PolyInfoProofs.side_eq h _ _ E). unfold side, qdot, qadd, qscale, qsub, qpt. cbn [qx qy qz]. ring. Qed.
(** The edge of an entry, given by its ends. *)
Lemma entry_edge A w all s e u v d : entry A w all s e -> edge_of all (snd e) u v d -> first_co d = Some s /\ exists w', path_ok (w ++ w') /\ (forall q, on_segment u v q -> in_cell w q) /\ edge_exact (w ++ w') u v d.
Proof.
  intros (b & x & w' & z & Aw & N & Nx & E1 & P & S & Bo) (b' & N' & H). assert (b' = b) by congruence. subst b'. assert (Ed : first_co d = Some s) by (destruct H as (qs & e' & _ & Ne & <- & _); congruence). split; [exact Ed|]. exists (w' ++ z). split; [exact P|]. split; [|exact (st_edges _ _ S _ _ _ _ H)].
  destruct (edge_ends _ _ _ _ _ H) as [Bu Bv]. pose proof (st_cell _ _ S u Bu) as Cu. pose proof (st_cell _ _ S v Bv) as Cv. unfold in_cell in *. apply Forall_app in Cu as [Cu _]. apply Forall_app in Cv as [Cv _]. intros q (t & [T0 T1] & Eq). rewrite Forall_forall in *. intros c I. specialize (Cu c I). specialize (Cv c I). unfold on_side in *. pose proof (side_segment (ss_split c) _ _ _ _ Eq) as Es. revert Cu Cv Es. generalize (side (ss_split c) u) (side (ss_split c) v) (side (ss_split c) q). intros a b' x' Cu Cv Es.
  assert (T1' : (0 <= 1 - t)%Q) by lra. destruct (ss_pos c).
  - pose proof (Qmult_le_0_compat _ _ T1' Cu). pose proof (Qmult_le_0_compat _ _ T0 Cv). lra.
  - assert (Na : (0 <= - a)%Q) by lra. assert (Nb : (0 <= - b')%Q) by lra. pose proof (Qmult_le_0_compat _ _ T1' Na). pose proof (Qmult_le_0_compat _ _ T0 Nb). lra.
Qed.
(** An edge that lies on a plane of the path up to w is registered with a plane up to
    there. *)
Lemma entry_before A w all s e u v d c : entry A w all s e -> edge_of all (snd e) u v d -> In c w -> on_split c u -> on_split c v -> In s w.
Proof. intros X H I Cu Cv. destruct (entry_edge _ _ _ _ _ _ _ _ X H) as (E & w' & _ & _ & Ex). pose proof (ee_first _ _ _ _ Ex) as F. rewrite E in F. exact (first_before _ w w' s c F I (conj Cu Cv)). Qed.
Lemma entry_on A w all s e u v d : entry A w all s e -> edge_of all (snd e) u v d -> on_split s u /\ on_split s v.
Proof. intros X H. destruct (entry_edge _ _ _ _ _ _ _ _ X H) as (E & w' & _ & _ & Ex). pose proof (ee_first _ _ _ _ Ex) as F. rewrite E in F. destruct F as (l & r & _ & Q & _). exact Q. Qed.
(** If one of two overlapping edges lies on a plane, so does the other. *)
Lemma line_on h u v q r : ~ qp_eq q r -> on_segment u v q -> on_segment u v r -> (side h q == 0)%Q -> (side h r == 0)%Q -> (side h u == 0 /\ side h v == 0)%Q.
Proof. intros N Q R Hq Hr. destruct (segment_refl u v) as [U V]. split; apply (side_line h u v q r); auto using seg_line. Qed.
Lemma on_points h u v q : (side h u == 0)%Q -> (side h v == 0)%Q -> on_segment u v q -> (side h q == 0)%Q.
Proof. intros U V (t & _ & E). rewrite (side_segment _ _ _ _ _ E), U, V. ring. Qed.
Definition leaf_at (x : bnode) (w : path) : Prop := exists y, at_node x w y /\ leaf y.
Lemma tagged_pairs w : tagged (map (pair false) w) w.
Proof.
  intros s I. left. unfold snds in I. rewrite map_map in I. cbn [snd] in I. rewrite map_id in I. split; [apply in_map; exact I|]. split; [|exact I]. intros J. apply in_map_iff in J as (y & E & _). discriminate.
Qed.
Lemma snds_pairs w : snds (map (pair false) w) = w.
Proof. unfold snds. rewrite map_map. cbn [snd]. apply map_id. Qed.
Lemma leaf_seg dbg f w x gs ls v pre : Forall2 (group_told f w (n_infos x)) gs ls -> path_ok w -> opens (map (pair false) w) (v_open v) -> v_depth v = depth_map (rev w) -> length pre = length (v_polys v) ->
  exists v' log calls, seg dbg (fun w' => w' = []) w (fun s => In s w) pre (map TPart (concat ls)) v v' log calls /\ quiet calls.
Proof.
  intros F2 P. revert v pre. induction F2 as [|g l gs ls T F2 IH]; intros v pre Op De Lp; cbn [concat map]; [exists v, [], []; split; [apply seg_nil|constructor]|].
  assert (X : exists s0, In s0 w /\ Forall (fun b => bp_on b = Some s0) (accepted l)).
  { destruct (gt_peel _ _ _ _ _ T) as (b0 & g' & s & -> & F & _). exists s. split.
    - inversion F as [|? ? [S0 O0] _]; subst. destruct (st_on _ _ S0) as [Fi _]. rewrite O0 in Fi. exact (first_mem _ _ _ Fi).
    - pose proof (gt_parts _ _ _ _ _ T) as Pa. rewrite Forall_forall in F. revert Pa. apply Forall_impl. intros y (b & Ib & Pb). rewrite (pa_on _ _ Pb). exact (proj2 (F b Ib)). }
  destruct X as (s0 & I0 & On). assert (De' : v_depth v = depth_map (rev (snds (map (pair false) w)))) by (rewrite snds_pairs; exact De).
  destruct (tour_seg dbg w l (gt_tour _ _ _ _ _ T) (map (pair false) w) w [] v pre s0 ltac:(rewrite app_nil_r; reflexivity) (snds_pairs w) (tagged_pairs w) P On I0 Op De' Lp) as (v1 & l1 & c1 & S1 & Q1).
  destruct (IH v1 (pre ++ shown (map TPart l))) as (v2 & l2 & c2 & S2 & Q2); [rewrite (sg_open _ _ _ _ _ _ _ _ _ _ S1); apply opens_gain; exact Op|rewrite (sg_depth _ _ _ _ _ _ _ _ _ _ S1); exact De|exact (seg_length _ _ _ _ _ _ _ _ _ _ S1 Lp)|].
  exists v2, (l1 ++ l2), (c1 ++ c2). rewrite map_app. split; [exact (seg_app _ _ _ _ _ _ _ _ _ _ _ _ _ _ S1 S2)|apply Forall_app; split; assumption].
Qed.
Lemma gain_rest tw o h log : opens tw o -> (forall s, In s (snds tw) -> ss_split s <> h) -> gain (List.filter (fun x => negb (hs_eqb (fst x) h)) log) o = gain log o.
Proof.
  intros F N. assert (N' : forall x, In x (rev tw) -> ss_split (snd x) <> h) by (intros x I; apply N; unfold snds; apply in_map, in_rev, I). unfold opens in F. induction F as [|y x r o [E _] F IH]; [reflexivity|]. cbn [gain map]. f_equal; [|apply IH; intros z I; apply N'; right; exact I].
  do 3 f_equal. assert (Ne : fst x <> h) by (rewrite E; apply N'; left; reflexivity). unfold pick. f_equal. clear - Ne. induction log as [|e log IH]; [reflexivity|]. cbn [List.filter]. destruct (hs_eqb (fst e) h) eqn:H; cbn [negb List.filter].
  - apply hs_eqb_eq in H. destruct (hs_eqb (fst e) (fst x)) eqn:H'; [apply hs_eqb_eq in H'; congruence|exact IH].
  - destruct (hs_eqb (fst e) (fst x)); [f_equal|]; exact IH.
Qed.
Lemma split_log (log : entry_log) h : Permutation (map (fun e => snd (snd e)) (List.filter (fun x => negb (hs_eqb (fst x) h)) log) ++ map snd (pick log h)) (map (fun e => snd (snd e)) log).
Proof.
  unfold pick. rewrite map_map. induction log as [|e log IH]; [constructor|]. cbn [List.filter]. destruct (hs_eqb (fst e) h); cbn [negb map app].
  - rewrite <- Permutation_middle. constructor. exact IH.
  - constructor. exact IH.
Qed.
Lemma emits_seg dbg f w x evs : emits f w x evs -> path_ok w -> sub_ok w x -> forall v pre, opens (map (pair false) w) (v_open v) -> v_depth v = depth_map (rev w) -> length pre = length (v_polys v) ->
  exists v' log calls, seg dbg (leaf_at x) w (fun s => In s w) pre evs v v' log calls /\ grouped (pre ++ shown evs) calls.
Proof.
  intros E. induction E as [w x C E|w x gs ls Lf Nc G F2|w h infos n p en ep V En IHn Ep IHp]; intros P H v pre Op De Lp.
  - exists v, [], []. split; [apply seg_nil|]. intros c1 c2 e1 e2 [].
  - destruct (leaf_seg dbg f w x gs ls v pre F2 P Op De Lp) as (v' & log & calls & S & Q). exists v', log, calls. split.
    + apply (seg_mono dbg (fun w' => w' = []) (leaf_at x) w [] (fun s => In s w) (fun s => In s w)); [|auto|rewrite app_nil_r; exact S]. intros w' ->. exists x. split; [apply at_root; exact (proj1 H)|exact Lf].
    + intros c1 c2 e1 e2 I1 _ J1. unfold quiet in Q. rewrite Forall_forall in Q. rewrite (Q _ I1) in J1. destruct J1.
  - destruct (no_split _ _ (sub_root w _ H)) as [(Lf & _)|(Fr & _ & _ & Nn & Np)]; [unfold leaf in Lf; cbn in Lf; congruence|]. cbn [n_split n_neg n_pos] in *.
    set (tw := map (pair false) w) in *. assert (Et : snds tw = w) by apply snds_pairs. assert (Fr' : fresh_plane (snds tw) h) by (rewrite Et; exact Fr). assert (De' : v_depth v = depth_map (rev (snds tw))) by (rewrite Et; exact De).
    set (v1 := VS ((h, VN false []) :: v_open v) ((Some h, S (length tw)) :: v_depth v) (v_polys v) (v_calls v)).
    assert (Om : forall b, opens (map (pair false) (w ++ [SS h b])) (v_open v1)) by (intros b; rewrite map_app; apply opens_snoc; exact Op).
    assert (Dm : forall b, v_depth v1 = depth_map (rev (w ++ [SS h b]))) by (intros b; replace (w ++ [SS h b]) with (snds (tw ++ [(false, SS h b)])) by (unfold snds in *; rewrite map_app, Et; reflexivity); rewrite depth_snoc; unfold v1; cbn [v_depth]; rewrite De'; reflexivity).
    destruct (IHn (path_snoc w (SS h false) P Fr) (sub_neg w _ H Nn) v1 pre (Om false) (Dm false) Lp) as (v2 & l1 & c1 & S1 & G1).
    destruct (IHp (path_snoc w (SS h true) P Fr) (sub_pos w _ H Np) v2 (pre ++ shown en)) as (v3 & l2 & c2 & S2 & G2).
    { rewrite (sg_open _ _ _ _ _ _ _ _ _ _ S1). apply opens_gain, Om. } { rewrite (sg_depth _ _ _ _ _ _ _ _ _ _ S1). apply Dm. } { exact (seg_length _ _ _ _ _ _ _ _ _ _ S1 Lp). }
    set (T := BNode h [] [] infos n p) in *. set (K := fun s => In s w \/ ss_split s = h).
    assert (S1' : seg dbg (leaf_at T) w K pre en v1 v2 l1 c1). { apply (seg_mono dbg (leaf_at n) (leaf_at T) w [SS h false] (fun s => In s (w ++ [SS h false])) K); [| |exact S1]; [intros w' (y & A & L); exists y; split; [apply at_neg; exact A|exact L]|]. intros s I. apply in_app_or in I as [I|[<-|[]]]; [left; exact I|right; reflexivity]. }
    assert (S2' : seg dbg (leaf_at T) w K (pre ++ shown en) ep v2 v3 l2 c2). { apply (seg_mono dbg (leaf_at p) (leaf_at T) w [SS h true] (fun s => In s (w ++ [SS h true])) K); [| |exact S2]; [intros w' (y & A & L); exists y; split; [apply at_pos; exact A|exact L]|]. intros s I. apply in_app_or in I as [I|[<-|[]]]; [left; exact I|right; reflexivity]. }
    pose proof (seg_app _ _ _ _ _ _ _ _ _ _ _ _ _ _ S1' S2') as [B1 B2 B3 B4 B5 B6 B7 B8]. set (log := l1 ++ l2) in *. pose proof (leave_run dbg false h tw v v3 log (S (length tw)) Op De' Fr' B2 B3) as Lv.
    assert (Sh : shown (TEnter h :: en ++ ep ++ [TLeave h]) = shown (en ++ ep)) by (cbn [shown]; rewrite !shown_app; cbn [shown]; rewrite app_nil_r; reflexivity).
    set (all := pre ++ shown (en ++ ep)) in *. set (ch := VC h (first_nonzero (hn h)) (pick log h)).
    assert (Nh : forall s, ss_split s = h -> ~ In s w) by (intros s Es I; exact (fresh_ne _ _ _ Fr I Es)).
    assert (Eh : forall e, In e (pick log h) -> exists s, ss_split s = h /\ entry (leaf_at T) w all s e). { intros e I. apply pick_in in I. rewrite Forall_forall in B7. destruct (B7 _ I) as (s & _ & Es & X). exists s. split; [symmetry; exact Es|exact X]. }
    eexists _, (List.filter (fun x => negb (hs_eqb (fst x) h)) log), ((c1 ++ c2) ++ [ch]). split; [split|].
    + cbn [v_run v_step]. rewrite (enter_run dbg false h tw v Op De' Fr'). cbn [rbind]. fold v1. rewrite app_assoc, v_run_app, B1. cbn [rbind v_run v_step]. rewrite Lv. reflexivity.
    + cbn [v_open]. rewrite (gain_rest tw _ h log Op); [reflexivity|]. intros s I. exact (fresh_ne _ _ _ Fr' I).
    + reflexivity.
    + cbn [v_calls]. rewrite B4. unfold v1. cbn [v_calls]. rewrite <- !app_assoc. reflexivity.
    + rewrite Sh. exact B5.
    + rewrite Sh, <- B6, handles_app. unfold handles at 2. cbn [map concat vc_edges ch]. rewrite app_nil_r. rewrite (Permutation_app_comm (handles (c1 ++ c2))), app_assoc. apply Permutation_app_tail, split_log.
    + rewrite Sh. fold all. apply Forall_forall. intros e I. apply filter_In in I as [I N]. rewrite Forall_forall in B7. destruct (B7 e I) as (s & Ks & Es & X). exists s. split; [|split; assumption]. destruct Ks as [Ks|Ks]; [exact Ks|]. rewrite Es, Ks, hs_eqb_refl in N. discriminate.
    + rewrite Sh. fold all. apply Forall_app. split; [exact B8|]. constructor; [|constructor]. split; [apply drop_ok; exact V|]. apply Forall_forall. intros e I. destruct (Eh e I) as (s & Es & X). exists s. split; [symmetry; exact Es|]. split; [apply Nh; exact Es|exact X].
    + rewrite Sh. fold all. assert (Ea : all = (pre ++ shown en) ++ shown ep) by (unfold all; rewrite shown_app, app_assoc; reflexivity).
      pose proof (sg_in _ _ _ _ _ _ _ _ _ _ S1) as I1. pose proof (sg_in _ _ _ _ _ _ _ _ _ _ S2) as I2. rewrite <- Ea in I2. rewrite Forall_forall in I1, I2.
      assert (J1 : forall c e, In c c1 -> In e (vc_edges c) -> exists s, ~ In s (w ++ [SS h false]) /\ entry (leaf_at n) (w ++ [SS h false]) (pre ++ shown en) s e). { intros c e Ic Ie. destruct (I1 c Ic) as [_ F]. rewrite Forall_forall in F. destruct (F e Ie) as (s & _ & N & X). exists s. split; assumption. }
      assert (J2 : forall c e, In c c2 -> In e (vc_edges c) -> exists s, ~ In s (w ++ [SS h true]) /\ entry (leaf_at p) (w ++ [SS h true]) all s e). { intros c e Ic Ie. destruct (I2 c Ic) as [_ F]. rewrite Forall_forall in F. destruct (F e Ie) as (s & _ & N & X). exists s. split; assumption. }
      (* an edge that was handed over on one side of h does not lie on h *)
      assert (Off : forall A b s e u v d, ~ In s (w ++ [SS h b]) -> entry A (w ++ [SS h b]) all s e -> edge_of all (snd e) u v d -> ~ (side h u == 0 /\ side h v == 0)%Q). { intros A b s e u y d N X Ed [Hu Hv]. apply N. apply (entry_before A _ all s e u y d (SS h b) X Ed); [apply in_or_app; right; left; reflexivity|exact Hu|exact Hv]. }
      assert (Up1 : forall s e, entry (leaf_at n) (w ++ [SS h false]) (pre ++ shown en) s e -> entry (leaf_at n) (w ++ [SS h false]) all s e) by (intros s e X; rewrite Ea; apply entry_more; exact X).
      assert (Cr : forall A b s e e', ~ In s (w ++ [SS h b]) -> entry A (w ++ [SS h b]) all s e -> In e' (pick log h) -> ~ overlap all (snd e) (snd e')).
      { intros A b s e e' N X I' (u & y & d & u' & y' & d' & q & r & X1 & X2 & Ne & O1 & O2 & O3 & O4). destruct (Eh e' I') as (s' & Es' & X'). destruct (entry_on _ _ _ _ _ _ _ _ X' X2) as [Hu Hv]. unfold on_split in Hu, Hv. rewrite Es' in Hu, Hv. apply (Off A b s e u y d N X X1). apply (line_on h u y q r Ne O1 O2); [exact (on_points _ _ _ _ Hu Hv O3)|exact (on_points _ _ _ _ Hu Hv O4)]. }
      assert (Cs : forall c c' e e', In c c1 -> In c' c2 -> In e (vc_edges c) -> In e' (vc_edges c') -> ~ overlap all (snd e) (snd e')).
      { intros c c' e e' Ic Ic' Ie Ie' (u & y & d & u' & y' & d' & q & r & X1 & X2 & Ne & O1 & O2 & O3 & O4). destruct (J1 c e Ic Ie) as (s & N & X). apply Up1 in X. destruct (J2 c' e' Ic' Ie') as (s' & N' & X').
        destruct (entry_edge _ _ _ _ _ _ _ _ X X1) as (_ & _ & _ & Cn & _). destruct (entry_edge _ _ _ _ _ _ _ _ X' X2) as (_ & _ & _ & Cp & _).
        assert (Z : forall z, on_segment u y z -> on_segment u' y' z -> (side h z == 0)%Q). { intros z Oz Oz'. pose proof (Cn z Oz) as Y1. pose proof (Cp z Oz') as Y2. unfold in_cell in Y1, Y2. apply Forall_app in Y1 as [_ Y1]. apply Forall_app in Y2 as [_ Y2]. pose proof (Forall_inv Y1) as Y3. pose proof (Forall_inv Y2) as Y4. unfold on_side in Y3, Y4. cbn [ss_pos ss_split] in Y3, Y4. lra. }
        apply (Off (leaf_at n) false s e u y d N X X1). apply (line_on h u y q r Ne O1 O2); [exact (Z q O1 O3)|exact (Z r O2 O4)]. }
      intros a1 a2 e1 e2 A1 A2 M1 M2 O. apply in_app_or in A1 as [A1|[<-|[]]]; apply in_app_or in A2 as [A2|[<-|[]]].
      * apply in_app_or in A1 as [A1|A1]; apply in_app_or in A2 as [A2|A2].
        -- destruct (J1 _ _ A1 M1) as (s1 & _ & X1). destruct (J1 _ _ A2 M2) as (s2 & _ & X2). rewrite Ea in O. destruct (G1 a1 a2 e1 e2 A1 A2 M1 M2 (overlap_less _ _ _ _ _ _ _ _ _ _ X1 X2 O)) as (c & Ic & Ie). exists c. split; [apply in_or_app; left; apply in_or_app; left; exact Ic|exact Ie].
        -- destruct (Cs a1 a2 e1 e2 A1 A2 M1 M2 O).
        -- destruct (Cs a2 a1 e2 e1 A2 A1 M2 M1 (overlap_sym _ _ _ O)).
        -- rewrite Ea in O. destruct (G2 a1 a2 e1 e2 A1 A2 M1 M2 O) as (c & Ic & Ie). exists c. split; [apply in_or_app; left; apply in_or_app; right; exact Ic|exact Ie].
      * exfalso. cbn [vc_edges ch] in M2. apply in_app_or in A1 as [A1|A1].
        -- destruct (J1 _ _ A1 M1) as (s1 & N1 & X1). exact (Cr _ _ _ _ _ N1 (Up1 _ _ X1) M2 O).
        -- destruct (J2 _ _ A1 M1) as (s1 & N1 & X1). exact (Cr _ _ _ _ _ N1 X1 M2 O).
      * exfalso. cbn [vc_edges ch] in M1. apply overlap_sym in O. apply in_app_or in A2 as [A2|A2].
        -- destruct (J1 _ _ A2 M2) as (s1 & N1 & X1). exact (Cr _ _ _ _ _ N1 (Up1 _ _ X1) M1 O).
        -- destruct (J2 _ _ A2 M2) as (s1 & N1 & X1). exact (Cr _ _ _ _ _ N1 X1 M1 O).
      * exists ch. split; [apply in_or_app; right; left; reflexivity|split; assumption].
Qed.
