(** Proofs about GetNodeBorderNoBoundWalls. *)
From Coq Require Import List Bool Arith ZArith QArith Lqa Lia ZifyBool Permutation.
From Verif Require Import BigUIntModel GeoModel GeoSpec GeoProofs AabbModel AabbSpec CvxSpec PolyModel PolySpec PolyBridgeProofs PolyInfoProofs CvxProofs CvxCapProofs PolyCapProofs PolyChildProofs RTransModel FilterModel BspModel BspSpec BspHistSpec BspGeoProofs BspPolyProofs BspTreeProofs BspHistProofs PartGeoProofs TravSpec TravPointProofs AabbPlaneModel PropAabbPlane NodeBorderModel NodeBorderSpec.
From Verif Require MergeTopProofs.
Import ListNotations.
Open Scope Q_scope.
(** ** Closed polygons *)
Lemma lin_neg A B : A < 0 -> exists e, 0 < e /\ forall t, 0 < t -> t < e -> (1 - t) * A + t * B < 0.
Proof.
  intros N. destruct (Qlt_le_dec 0 (B - A)) as [P|P].
  - exists (- A / (B - A)). split; [apply Qlt_shift_div_l; lra|]. intros t T1 T2. assert (X : t * (B - A) < - A). { apply (Qmult_lt_r _ _ (B - A) P) in T2. assert (E : - A / (B - A) * (B - A) == - A) by (field; lra). rewrite E in T2. exact T2. } lra.
  - exists 1. split; [lra|]. intros t T1 T2. assert (X : 0 <= t * (A - B)) by (apply Qmult_le_0_compat; lra). lra.
Qed.
Lemma near_out y q q0 : okb y -> side (pplane (bp_poly y)) q == 0 -> ~ bp_point y q -> exists e, 0 < e /\ forall t, 0 < t -> t < e -> ~ bp_point y (between q q0 t).
Proof.
  intros (qs & H) Z N. pose proof (ok_n _ _ H) as Nn. pose proof (ok_length _ _ H) as Ln. pose proof (point_at _ _ H) as Pa.
  set (f := fun x i => inject_Z (pnormal_drop (bp_poly y)) * turn (qdrop (pdrop (bp_poly y)) (cyc o3 qs i)) (qdrop (pdrop (bp_poly y)) (cyc o3 qs (S i))) (qdrop (pdrop (bp_poly y)) x)).
  destruct (all_below (fun i => 0 <= f q i) ltac:(intros i; cbv beta; destruct (Qlt_le_dec (f q i) 0) as [L|L]; [right; apply Qlt_not_le; exact L|left; exact L]) (length qs)) as [A|(i & A)].
  - exfalso. apply N. apply (point_iff _ _ _ H). apply Pa. split; [exact Z|]. intros i. specialize (A (i mod length qs)%nat ltac:(apply Nat.mod_upper_bound; lia)). unfold f in A. rewrite cyc_mod, MergeTopProofs.cyc_succ_mod in A by lia. exact A.
  - apply Qnot_le_lt in A. destruct (lin_neg _ (f q0 i) A) as (e & E & L). exists e. split; [exact E|]. intros t T1 T2 Q. apply (point_iff _ _ _ H) in Q. apply Pa in Q as [_ Q]. specialize (Q i). rewrite turn_between in Q. specialize (L t T1 T2). unfold f in L. 
    set (s := inject_Z _) in *. set (a := turn _ _ (qdrop _ q)) in *. set (b := turn _ _ (qdrop _ q0)) in *. assert (X : s * ((1 - t) * a + t * b) == (1 - t) * (s * a) + t * (s * b)) by ring. rewrite X in Q. lra.
Qed.
Lemma all_near_out (P : bpoly -> Prop) ys q q0 : (forall y, In y ys -> P y \/ ~ P y) -> (forall y, In y ys -> P y -> okb y /\ side (pplane (bp_poly y)) q == 0 /\ ~ bp_point y q) ->
  exists e, 0 < e /\ forall y t, In y ys -> P y -> 0 < t -> t < e -> ~ bp_point y (between q q0 t).
Proof.
  induction ys as [|y ys IH]; intros D H; [exists 1; split; [lra|intros y t []]|]. destruct IH as (e & E & L); [intros z I; apply D; right; exact I|intros z I; apply H; right; exact I|].
  destruct (D y (or_introl eq_refl)) as [Py|Py].
  - destruct (H y (or_introl eq_refl) Py) as (O & Z & N). destruct (near_out y q q0 O Z N) as (e' & E' & L'). destruct (Qlt_le_dec e e') as [X|X].
    + exists e. split; [exact E|]. intros z t [<-|I] Pz T1 T2; [apply L'; lra|exact (L z t I Pz T1 T2)].
    + exists e'. split; [exact E'|]. intros z t [<-|I] Pz T1 T2; [apply L'; lra|apply (L z t I Pz T1); lra].
  - exists e. split; [exact E|]. intros z t [<-|I] Pz T1 T2; [contradiction|exact (L z t I Pz T1 T2)].
Qed.
(** ** Following a polygon down the path *)
Lemma outward_side s q : side (outward s) q == 0 <-> on_split s q.
Proof. unfold outward, on_split. destruct (ss_pos s); [rewrite side_hs_neg|]; split; intros E; lra. Qed.
Lemma outward_valid s : hs_valid (ss_split s) = true -> hs_valid (outward s) = true.
Proof. unfold outward. destruct (ss_pos s); [|auto]. unfold hs_valid, v3_is_zero, hs_neg, v3_neg. cbn [hn vx vy vz]. intros H. destruct (hn (ss_split s)) as [x y z]. cbn [vx vy vz] in *. lia. Qed.
Lemma not_inward h d : hs_valid h = true -> ~ faces_out (SS h (negb d)) (outward (SS h d)).
Proof.
  intros V (k & K & E1 & E2 & E3). unfold outward in *. cbn [ss_pos ss_split] in *. destruct h as [[x y z] c]. unfold hs_valid, v3_is_zero in V. unfold hs_neg, v3_neg, qpt, qscale in *. cbn [hn vx vy vz qx qy qz] in *.
  assert (A : forall u, (inject_Z (if d then - u else u) == (if negb d then - k else k) * inject_Z u) -> u = 0%Z).
  { intros u E. assert (X : (1 + k) * inject_Z u == 0). { destruct d; cbn [negb] in E; [rewrite inject_Z_opp in E|]; lra. }
    apply Qmult_integral in X as [X|X]; [lra|]. change 0 with (inject_Z 0) in X. apply (proj1 (inject_Z_injective u 0)). exact X. }
  assert (x = 0%Z) by (apply A; destruct d; exact E1). assert (y = 0%Z) by (apply A; destruct d; exact E2). assert (z = 0%Z) by (apply A; destruct d; exact E3). subst. discriminate V.
Qed.
Lemma leaf_stored w x y : sub_ok w x -> leaf x -> In y (all_polys x) -> stored w y.
Proof.
  intros H L I. pose proof (sub_root w x H) as [Fc Fb _ [(_ & En & Ep)|(Fr & _)]]; [|unfold leaf in L; destruct Fr; congruence]. destruct x as [|s cs bs infos n p]; [destruct I|]. cbn [all_polys n_contents n_border n_neg n_pos] in *. subst n p. cbn [all_polys app] in I. rewrite app_nil_r in I. rewrite Forall_forall in Fc, Fb. apply in_app_or in I as [I|I]; [apply (Fc y I)|apply (Fb y I)].
Qed.
Definition follows (s : split_side) (y : bpoly) (q : qpoint) : Prop := strictly [s] q \/ on_split s q /\ pplane (bp_poly y) = outward s.
Lemma kids boxed w h m m' : split_result boxed w h m m' -> fresh_plane w h -> sub_ok (w ++ [SS h false]) (n_neg m') /\ sub_ok (w ++ [SS h true]) (n_pos m') /\ all_polys m' = all_polys (n_neg m') ++ all_polys (n_pos m').
Proof.
  intros [[S1 _ _ _ _] E _ _ _] Fr. pose proof (sub_root w m' S1) as [_ _ _ [(L & _)|(_ & C & B & N & Q)]]; [unfold leaf in L; rewrite E in L; destruct Fr; congruence|].
  rewrite <- E. split; [exact (sub_neg w m' S1 N)|]. split; [exact (sub_pos w m' S1 Q)|]. destruct m'; [destruct (proj1 S1); reflexivity|]. cbn [n_contents n_border n_neg n_pos all_polys] in *. subst. reflexivity.
Qed.
Lemma keeps boxed w h m m' d y q : fresh_plane w h -> split_result boxed w h m m' -> In y (all_polys m) -> bp_point y q -> follows (SS h d) y q ->
  exists z, In z (all_polys (nb_child d (n_neg m') (n_pos m'))) /\ bp_point z q /\ pplane (bp_poly z) = pplane (bp_poly y).
Proof.
  intros Fr R I Q F. destruct (kids boxed w h m m' R Fr) as (Kn & Kp & Ea). pose proof (sp_cut _ _ _ _ (sr_step _ _ _ _ _ R)) as Cu. destruct (sr_leaves _ _ _ _ _ R) as [Ln Lp].
  destruct (cut_to _ _ y Cu I) as (l & Pc & Sub). apply (pi_union _ _ Pc) in Q as (z & Iz & Qz). destruct (pieces_same y l z Pc Iz) as (_ & Ep & _). apply Sub in Iz. rewrite Ea in Iz.
  assert (Wrong : forall x, sub_ok (w ++ [SS h (negb d)]) x -> leaf x -> ~ In z (all_polys x)).
  { intros x Sx Lx Ix. pose proof (leaf_stored _ x z Sx Lx Ix) as St. destruct F as [F|(On & Eo)].
    - pose proof (st_cell _ _ St q Qz) as C. unfold in_cell in C. apply Forall_app in C as [_ C]. apply Forall_inv in C.
      unfold strictly in F. apply Forall_inv in F.
      unfold on_side in C. cbn [ss_pos ss_split] in C, F.
      clear - C F. destruct d; cbn [negb] in C; lra.
    - assert (Lo : lies_on (SS h (negb d)) z). { intros x' X'. apply bp_plane in X'. rewrite Ep, Eo in X'. exact (proj1 (outward_side (SS h d) x') X'). }
      assert (E0 : bp_on z = Some (SS h (negb d))).
      { pose proof (proj2 (st_on _ _ St)) as La. unfold last_in in La. destruct (bp_on z) as [s0|]; [|apply Forall_app in La as [_ La]; apply Forall_inv in La; contradiction].
        destruct La as (l1 & r1 & E & _ & G). destruct (exists_last (l := s0 :: r1) ltac:(discriminate)) as (r2 & x2 & Er). rewrite Er, app_assoc in E. apply app_inj_tail in E as [_ <-].
        destruct r2 as [|s2 r2]; cbn [app] in Er; injection Er as -> Er; [reflexivity|]. exfalso. rewrite Er in G. apply Forall_app in G as [_ G]. apply Forall_inv in G. contradiction. }
      pose proof (st_faces _ _ St _ E0) as Fo. rewrite Ep, Eo in Fo. exact (not_inward h d (proj1 Fr) Fo). }
  exists z. split; [|split; [exact Qz|exact Ep]]. apply in_app_or in Iz as [Iz|Iz]; destruct d; cbn [nb_child negb] in *; try assumption; exfalso; [exact (Wrong _ Kn Ln Iz)|exact (Wrong _ Kp Lp Iz)].
Qed.
(** ** The second loop *)
Record down (w w' : path) (m m' : bnode) : Prop := Down {
  dn_sub : sub_ok (w ++ w') m'; dn_leaf : leaf m'; dn_cut : exists rest, cut_up (all_polys m) (all_polys m' ++ rest);
  dn_keeps : forall y q, In y (all_polys m) -> bp_point y q -> Forall (fun s => follows s y q) w' -> exists z, In z (all_polys m') /\ bp_point z q /\ pplane (bp_poly z) = pplane (bp_poly y) }.
Lemma nb_split_eq dbg d ds s cs bs infos n p m : nb_split dbg (d :: ds) (BNode s cs bs infos n p) m = (m <- bn_split dbg s m ;; match m with BNil => UB | BNode _ _ _ _ mn mp => nb_split dbg ds (nb_child d n p) (nb_child d mn mp) end).
Proof. reflexivity. Qed.
Lemma nb_step boxed dbg w d w' s t' m : path_ok (w ++ SS s d :: w') -> sub_ok w m -> leaf m -> boxes boxed (all_polys m) ->
  (forall w m, path_ok (w ++ w') -> sub_ok w m -> leaf m -> boxes boxed (all_polys m) -> good boxed (nb_split dbg (map ss_pos w') t' m) (down w w' m)) ->
  good boxed (m <- bn_split dbg s m ;; match m with BNil => UB | BNode _ _ _ _ mn mp => nb_split dbg (map ss_pos w') t' (nb_child d mn mp) end) (down w (SS s d :: w') m).
Proof.
  intros P H L Bx IH. pose proof (P w (SS s d) w' eq_refl) as Fr. cbn [ss_split] in Fr.
  assert (Pw : path_ok w) by (intros l x r ->; apply (P l x (r ++ SS s d :: w')); rewrite <- app_assoc; reflexivity).
  apply (good_bind boxed _ _ _ _ (split_ok boxed dbg w m s Pw H L Fr Bx)). intros m1 R. destruct (kids boxed w s m m1 R Fr) as (Kn & Kp & Ea). pose proof (sr_leaves _ _ _ _ _ R) as [Ln Lp]. pose proof (sp_box _ _ _ _ (sr_step _ _ _ _ _ R)) as B1. rewrite Ea in B1. apply boxes_app in B1 as [Bn Bp]. pose proof (sp_cut _ _ _ _ (sr_step _ _ _ _ _ R)) as Cu. rewrite Ea in Cu.
  pose proof (fun y q => keeps boxed w s m m1 d y q Fr R) as Ke.
  destruct m1 as [|s1 cs1 bs1 i1 mn mp]; [destruct (proj1 (sp_ok _ _ _ _ (sr_step _ _ _ _ _ R))); reflexivity|]. cbn [n_neg n_pos] in *.
  assert (P1 : path_ok ((w ++ [SS s d]) ++ w')) by (rewrite <- app_assoc; exact P).
  assert (K : sub_ok (w ++ [SS s d]) (nb_child d mn mp) /\ leaf (nb_child d mn mp) /\ boxes boxed (all_polys (nb_child d mn mp)) /\ exists rest, Forall okb rest /\ cut_up (all_polys m) (all_polys (nb_child d mn mp) ++ rest)).
  { destruct d; cbn [nb_child]; (split; [assumption|]; split; [assumption|]; split; [assumption|]); [exists (all_polys mn); split; [exact (sub_okb _ _ Kn)|apply (cut_up_perm _ _ _ Cu), Permutation_app_comm]|exists (all_polys mp); split; [exact (sub_okb _ _ Kp)|exact Cu]]. }
  destruct K as (K1 & K2 & K3 & rest & Or & Cr). apply (good_mono boxed _ (down (w ++ [SS s d]) w' (nb_child d mn mp))); [|exact (IH _ _ P1 K1 K2 K3)].
  intros m' [D1 D2 (rest' & D3) D4]. split; [rewrite <- app_assoc in D1; exact D1|exact D2| |].
  - exists (rest' ++ rest). apply (cut_up_trans _ _ _ Cr). rewrite app_assoc. apply cut_up_app; [exact D3|apply cut_up_refl; exact Or].
  - intros y q I Q F. pose proof (Forall_inv F) as F1. apply Forall_inv_tail in F. destruct (Ke y q I Q F1) as (z & Iz & Qz & Ez). destruct (D4 z q Iz Qz) as (z' & I' & Q' & E'); [|exists z'; split; [exact I'|split; [exact Q'|congruence]]].
    apply Forall_forall. intros s0 I0. rewrite Forall_forall in F. destruct (F s0 I0) as [A|[A B]]; [left; exact A|right; split; [exact A|congruence]].
Qed.
Lemma nb_split_ok boxed dbg t w' x : at_node t w' x -> forall w m, path_ok (w ++ w') -> sub_ok w m -> leaf m -> boxes boxed (all_polys m) -> good boxed (nb_split dbg (map ss_pos w') t m) (down w w' m).
Proof.
  intros A. induction A as [t N|s cs bs infos n p w' x A IH|s cs bs infos n p w' x A IH]; intros w m P H L Bx; cbn [map ss_pos].
  - cbn [nb_split good]. split; [rewrite app_nil_r; exact H|exact L|exists []; rewrite app_nil_r; apply cut_up_refl; exact (sub_okb m w H)|]. intros y q I Q _. exists y. split; [exact I|split; [exact Q|reflexivity]].
  - rewrite nb_split_eq. apply nb_step; assumption.
  - rewrite nb_split_eq. apply nb_step; assumption.
Qed.
(** ** The first loop *)
Lemma crossing dbg b s : thick b -> hs_valid (ss_split s) = true -> crosses b s -> exists p, bx_intersect_plane dbg b (nb_plane (ss_pos s) (ss_split s)) = Ok (Some p) /\ cross_section (outward s) b p.
Proof.
  intros [D T] V C. destruct (C57_thick_box dbg b (outward s) D (outward_valid s V) T) as ([p|] & E & R); [|contradiction]. exists p. split; assumption.
Qed.
Lemma nb_add_ok boxed dbg b t w x : at_node t w x -> thick b -> Forall (fun s => hs_valid (ss_split s) = true) w -> Forall (crosses b) w -> forall m, pre_ok [] m ->
  good boxed (nb_add dbg boxed b (map ss_pos w) t m) (fun m' => exists ps, Forall2 (fun s p => cross_section (outward s) b p) w ps /\ grown boxed 0 ps m m').
Proof.
  intros A Tk. assert (Step : forall s d ds t' w' m, hs_valid s = true -> crosses b (SS s d) -> pre_ok [] m ->
    (forall m, pre_ok [] m -> good boxed (nb_add dbg boxed b ds t' m) (fun m' => exists ps, Forall2 (fun s p => cross_section (outward s) b p) w' ps /\ grown boxed 0 ps m m')) ->
    good boxed (o <- bx_intersect_plane dbg b (nb_plane d s) ;; let x := match o with Some x => x | None => poly_empty end in m <- add_root_content boxed 0 x m ;; _ <- check dbg (0 <? pcount x)%nat ;; nb_add dbg boxed b ds t' m)
      (fun m' => exists ps, Forall2 (fun s p => cross_section (outward s) b p) (SS s d :: w') ps /\ grown boxed 0 ps m m')).
  { intros s d ds t' w' m V C P IH. destruct (crossing dbg b (SS s d) Tk V C) as (p & E & R). cbn [ss_pos ss_split] in E. rewrite E. cbn [rbind]. cbv zeta. destruct R as (qs & H & R). apply (good_bind boxed _ _ _ _ (add_root_ok boxed 0 p qs m P H)). intros m1 G.
    pose proof (ok_n _ _ H) as N. assert (Ck : (0 <? pcount p)%nat = true) by (apply Nat.ltb_lt; exact N). rewrite Ck. rewrite BspTreeProofs.check_true. cbn [rbind].
    eapply good_mono; [|exact (IH m1 (gr_pre _ _ _ _ _ G))]. intros m' (ps & F & G'). exists (p :: ps). split; [constructor; [exists qs; auto|exact F]|exact (grown_trans boxed 0 [p] ps m m1 m' G G')]. }
  induction A as [t N|s cs bs infos n p w x A IH|s cs bs infos n p w x A IH]; intros Vs Cs m P; cbn [map ss_pos].
  - cbn [nb_add good]. exists []. split; [constructor|apply grown_refl; exact P].
  - cbn [nb_add nb_child]. apply (Step s false (map ss_pos w) n w m); [exact (Forall_inv Vs)|exact (Forall_inv Cs)|exact P|]. apply IH; [exact (Forall_inv_tail Vs)|exact (Forall_inv_tail Cs)].
  - cbn [nb_add nb_child]. apply (Step s true (map ss_pos w) p w m); [exact (Forall_inv Vs)|exact (Forall_inv Cs)|exact P|]. apply IH; [exact (Forall_inv_tail Vs)|exact (Forall_inv_tail Cs)].
Qed.
(** ** The whole function *)
Lemma fresh_point p qs q : poly_ok p qs -> bp_point (fresh_poly 0 p) q <-> polygon_point (pplane p) (pdrop p) qs q.
Proof.
  intros H. pose proof (fresh_okb 0 p qs H) as H'. unfold bp_point. rewrite (point_iff _ _ _ H'). reflexivity.
Qed.
Lemma section_point s b p q : cross_section (outward s) b p -> bp_point (fresh_poly 0 p) q <-> on_split s q /\ in_box b q.
Proof. intros (qs & H & E & G). rewrite (fresh_point p qs q H), E, G, outward_side. reflexivity. Qed.
Lemma section_plane s b p : cross_section (outward s) b p -> pplane (bp_poly (fresh_poly 0 p)) = outward s.
Proof. intros (qs & _ & E & _). exact E. Qed.
Lemma sections_in b w ps p : Forall2 (fun s p => cross_section (outward s) b p) w ps -> In p ps -> exists s, In s w /\ cross_section (outward s) b p.
Proof. intros F. induction F as [|s p' w ps C F IH]; intros I; [destruct I|]. destruct I as [<-|I]; [exists s; split; [left; reflexivity|exact C]|]. destruct (IH I) as (s0 & I0 & C0). exists s0. split; [right; exact I0|exact C0]. Qed.
Lemma sections_of b w ps s : Forall2 (fun s p => cross_section (outward s) b p) w ps -> In s w -> exists p, In p ps /\ cross_section (outward s) b p.
Proof. intros F. induction F as [|s' p w ps C F IH]; intros I; [destruct I|]. destruct I as [<-|I]; [exists p; split; [left; reflexivity|exact C]|]. destruct (IH I) as (p0 & I0 & C0). exists p0. split; [right; exact I0|exact C0]. Qed.
Lemma strictly_one w q : strictly w q <-> forall s, In s w -> strictly [s] q.
Proof.
  unfold strictly. rewrite Forall_forall. split; intros H s I; [constructor; [exact (H s I)|constructor]|exact (Forall_inv (H s I))].
Qed.
Lemma strictly_between w q q0 t : in_cell w q -> strictly w q0 -> 0 < t -> t <= 1 -> strictly w (between q q0 t).
Proof.
  intros C S0 T1 T2. apply Forall_forall. intros s I. unfold in_cell, strictly in *. rewrite Forall_forall in C, S0. specialize (C s I). specialize (S0 s I). unfold on_side in C. cbn beta in *.
  assert (X : side (ss_split s) (between q q0 t) == (1 - t) * side (ss_split s) q + t * side (ss_split s) q0) by (rewrite PolyInfoProofs.side_between; ring).
  destruct (ss_pos s).
  - rewrite X. assert (Y1 : 0 <= (1 - t) * side (ss_split s) q) by (apply Qmult_le_0_compat; lra). assert (Y2 : 0 < t * side (ss_split s) q0) by (apply Qmult_lt_0_compat; assumption). lra.
  - rewrite X. assert (Y1 : 0 <= (1 - t) * - side (ss_split s) q) by (apply Qmult_le_0_compat; lra). assert (Y2 : 0 < t * - side (ss_split s) q0) by (apply Qmult_lt_0_compat; lra). lra.
Qed.
Lemma box_between b q q0 t : in_box b q -> in_box b q0 -> 0 < t -> t <= 1 -> in_box b (between q q0 t).
Proof.
  intros B B0 T1 T2 i I. specialize (B i I). specialize (B0 i I). assert (X : qcomp (between q q0 t) i == (1 - t) * qcomp q i + t * qcomp q0 i) by (unfold between, qadd, qscale, qsub; destruct i as [|[|i]]; cbn [qcomp qx qy qz]; ring). rewrite X.
  assert (Y1 : 0 <= (1 - t) * (qcomp q i - box_lo b i)) by (apply Qmult_le_0_compat; lra). assert (Y2 : 0 <= t * (qcomp q0 i - box_lo b i)) by (apply Qmult_le_0_compat; lra).
  assert (Y3 : 0 <= (1 - t) * (box_hi b i - qcomp q i)) by (apply Qmult_le_0_compat; lra). assert (Y4 : 0 <= t * (box_hi b i - qcomp q0 i)) by (apply Qmult_le_0_compat; lra). lra.
Qed.
Lemma hs_dec (a b : hspace3) : a = b \/ a <> b.
Proof. destruct a as [[a1 a2 a3] a4], b as [[b1 b2 b3] b4]. destruct (Z.eq_dec a1 b1), (Z.eq_dec a2 b2), (Z.eq_dec a3 b3), (Z.eq_dec a4 b4); subst; try (left; reflexivity); right; congruence. Qed.
Lemma new_tree : tree_ok bn_new.
Proof.
  split; [discriminate|]. intros w x A. inversion A; subst; try (match goal with H : at_node BNil _ _ |- _ => inversion H; subst; congruence end).
  split; [constructor|constructor| |left; repeat split].
  split; cbn [n_infos bn_new n_contents n_border all_polys app]; intros.
  - unfold info_for. destruct id; split; reflexivity.
  - split; [destruct id; intros X; destruct X; reflexivity|intros (b & [] & _)].
  - split; [destruct id; intros X; destruct X; reflexivity|intros (b & [] & _)].
Qed.
Theorem border_ok boxed dbg b t w x : thick b -> tree_ok t -> at_node t w x -> Forall (crosses b) w -> good boxed (node_border dbg boxed b (map ss_pos w) t) (border_of b w).
Proof.
  intros Tk T A Cs. apply tree_ok_sub in T. pose proof (sub_path [] t w x path_ok_nil T A) as P. cbn [app] in P.
  assert (Vs : Forall (fun s => hs_valid (ss_split s) = true) w) by (apply Forall_forall; intros s I; exact (path_valid w s P I)).
  unfold node_border. pose proof (sub_pre [] bn_new (proj1 (tree_ok_sub _) new_tree)) as P0. apply (good_bind boxed _ _ _ _ (nb_add_ok boxed dbg b t w x A Tk Vs Cs bn_new P0)). intros m (ps & F & [G1 (new & G2 & G3 & _ & G5) G6 G7 G8 G9 _]). cbn [bn_new n_contents n_border n_split n_neg n_pos app] in *.
  assert (Lm : leaf m) by (unfold leaf; rewrite G7; reflexivity). assert (Ea : all_polys m = new) by (destruct m; cbn [n_contents n_border n_neg n_pos all_polys] in *; [congruence|subst; cbn; apply app_nil_r]).
  pose proof (pre_sub [] m G1 (or_introl Lm)) as Sm. rewrite <- Ea in G3, G5.
  apply (good_bind boxed _ _ _ _ (nb_split_ok boxed dbg t w x A [] m P Sm Lm G5)). intros m' [D1 D2 (rest & D3) D4]. cbn [app] in D1.
  assert (Em : match m' with BNil => UB | BNode _ cs bs _ _ _ => Ok (bs ++ cs) end = Ok (n_border m' ++ n_contents m')) by (destruct m'; [destruct (proj1 D1); reflexivity|reflexivity]). rewrite Em. cbn [good]. clear Em.
  assert (Pm : Permutation (all_polys m') (n_border m' ++ n_contents m')).
  { pose proof (no_split _ _ (sub_root w m' D1)) as [(_ & En & Ep)|(Fr & _)]; [|unfold leaf in D2; destruct Fr; congruence]. destruct m' as [|s' cs' bs' i' n' p']; [constructor|]. cbn [all_polys n_border n_contents n_neg n_pos] in *. subst n' p'. cbn [all_polys app]. rewrite app_nil_r. apply Permutation_app_comm. }
  set (ys := n_border m' ++ n_contents m') in *.
  assert (Inm : forall y, In y ys <-> In y (all_polys m')) by (intros y; split; apply Permutation_in; [apply Permutation_sym|]; exact Pm).
  pose proof (cut_up_trans _ _ _ G3 D3) as Cu.
  assert (Facet : forall l s r q, w = l ++ s :: r -> facet_point l s r q -> in_box b q -> exists y, In y ys /\ bp_point y q /\ pplane (bp_poly y) = outward s).
  { intros l s r q E (On & Sl & Sr) B. destruct (sections_of b w ps s F) as (p & Ip & Cp); [rewrite E; apply in_elt|]. assert (Q : bp_point (fresh_poly 0 p) q) by (apply (section_point s b p q Cp); split; assumption).
    destruct (cut_to _ _ (fresh_poly 0 p) G3 (in_map _ _ _ Ip)) as (l0 & Pc & Sub). destruct (proj1 (pi_union _ _ Pc q) Q) as (y & Iy & Qy). destruct (pieces_same _ _ y Pc Iy) as (_ & Ey & _). rewrite (section_plane s b p Cp) in Ey. apply Sub in Iy.
    destruct (D4 y q Iy Qy) as (z & Iz & Qz & Ez); [|exists z; split; [apply Inm; exact Iz|split; [exact Qz|congruence]]].
    rewrite E. apply Forall_app. split; [|constructor; [right; split; assumption|]]; apply Forall_forall; intros s0 I0; left; [exact (proj1 (strictly_one l q) Sl s0 I0)|exact (proj1 (strictly_one r q) Sr s0 I0)]. }
  split.
  - exists ps, rest. split; [exact F|]. apply (cut_up_perm _ _ _ Cu). apply Permutation_app_tail. exact Pm.
  - intros y q Iy Q. apply Inm in Iy. split; [exact (st_cell _ _ (leaf_stored w m' y D1 D2 Iy) q Q)|].
    destruct (cut_from _ _ y Cu (in_or_app _ _ _ (or_introl Iy))) as (b0 & l0 & I0 & Pc & Iy0). apply in_map_iff in I0 as (p & <- & Ip). destruct (sections_in b w ps p F Ip) as (s & Is & Cp). destruct (pieces_same _ _ y Pc Iy0) as (_ & Ey & _). rewrite (section_plane s b p Cp) in Ey.
    assert (Q0 : bp_point (fresh_poly 0 p) q) by (apply (pi_union _ _ Pc); exists y; split; assumption). apply (section_point s b p q Cp) in Q0 as [On Bq]. split; [exact Bq|]. exists s. split; [exact Is|split; assumption].
  - intros l s r q0 q E (On0 & Sl & Sr) B0 On C B.
    assert (D : (exists y, In y ys /\ bp_point y q /\ pplane (bp_poly y) = outward s) \/ ~ (exists y, In y ys /\ bp_point y q /\ pplane (bp_poly y) = outward s)).
    { assert (Ok : Forall okb ys) by (apply Forall_forall; intros y Iy; apply Inm in Iy; pose proof (sub_okb m' w D1) as O; rewrite Forall_forall in O; exact (O y Iy)). clear - Ok. induction ys as [|y l IH]; [right; intros (y & [] & _)|]. pose proof (Forall_inv Ok) as O. apply Forall_inv_tail in Ok. destruct (IH Ok) as [(z & I & Z)|N]; [left; exists z; split; [right; exact I|exact Z]|].
      destruct (point_dec y q O) as [Py|Py]; [destruct (hs_dec (pplane (bp_poly y)) (outward s)) as [Ey|Ey]|]; [left; exists y; split; [left; reflexivity|split; assumption]| |]; right; intros (z & [<-|I] & Z1 & Z2); try contradiction; apply N; exists z; auto. }
    destruct D as [D|D]; [exact D|exfalso].
    destruct (all_near_out (fun y => pplane (bp_poly y) = outward s) ys q q0) as (e & Ep & L).
    + intros y _. apply hs_dec.
    + intros y Iy Ey. split; [|split].
      * apply Inm in Iy. pose proof (sub_okb m' w D1) as O. rewrite Forall_forall in O. exact (O y Iy).
      * rewrite Ey. apply outward_side. exact On.
      * intros Q. apply D. exists y. auto.
    + assert (T' : exists t', 0 < t' /\ t' < e /\ t' <= 1) by (destruct (Qlt_le_dec 1 e); [exists 1|exists (e / 2)]; (split; [|split]); try lra; unfold Qdiv; assert (E2 : / 2 == 1 # 2) by reflexivity; rewrite E2; lra).
      destruct T' as (t' & T1 & T2 & T3). rewrite E in C. apply Forall_app in C as [Cl Cr]. apply Forall_inv_tail in Cr.
      destruct (Facet l s r (between q q0 t') E) as (y & Iy & Qy & Ey).
      * split; [|split; [exact (strictly_between l q q0 t' Cl Sl T1 T3)|exact (strictly_between r q q0 t' Cr Sr T1 T3)]]. unfold on_split in *. rewrite PolyInfoProofs.side_between, On, On0. ring.
      * exact (box_between b q q0 t' B B0 T1 T3).
      * exact (L y t' Iy Ey T1 T2 Qy).
Qed.
(** ** A plane that does not cross the box *)
Lemma nb_add_miss boxed b t w x : at_node t w x -> thick b -> Forall (fun s => hs_valid (ss_split s) = true) w -> (exists s, In s w /\ at_most_line (outward s) b) -> forall m, pre_ok [] m ->
  nb_add true boxed b (map ss_pos w) t m = AssertFail \/ boxed = true /\ nb_add true boxed b (map ss_pos w) t m = UB.
Proof.
  intros A Tk. assert (Step : forall s d w' ds t' m, hs_valid s = true -> (exists s0, In s0 (SS s d :: w') /\ at_most_line (outward s0) b) -> pre_ok [] m ->
    ((exists s0, In s0 w' /\ at_most_line (outward s0) b) -> forall m, pre_ok [] m -> nb_add true boxed b ds t' m = AssertFail \/ boxed = true /\ nb_add true boxed b ds t' m = UB) ->
    let r := (o <- bx_intersect_plane true b (nb_plane d s) ;; let x := match o with Some x => x | None => poly_empty end in m <- add_root_content boxed 0 x m ;; _ <- check true (0 <? pcount x)%nat ;; nb_add true boxed b ds t' m) in
    r = AssertFail \/ boxed = true /\ r = UB).
  { intros s d w' ds t' m V Ex P IH. cbv zeta. destruct Tk as [D T]. destruct (C57_thick_box true b (outward (SS s d)) D (outward_valid (SS s d) V) T) as (r & E & R). change (outward (SS s d)) with (nb_plane d s) in E. rewrite E. cbn [rbind]. destruct r as [p|].
    - assert (Ex' : exists s0, In s0 w' /\ at_most_line (outward s0) b) by (destruct Ex as (s0 & [<-|I] & M); [destruct (C57_exclusive _ _ _ R M)|exists s0; split; assumption]).
      destruct R as (qs & H & R). pose proof (add_root_ok boxed 0 p qs m P H) as G. destruct (add_root_content boxed 0 p m) as [m1| | |]; cbn [good rbind] in *; try contradiction; [|right; split; [exact G|reflexivity]].
      pose proof (ok_n _ _ H) as N. rewrite (proj2 (Nat.ltb_lt _ _) N). cbn [check rbind]. apply (IH Ex' m1). exact (gr_pre _ _ _ _ _ G).
    - left. destruct m as [|s1 cs bs infos n q]; [destruct (pr_some _ _ P); reflexivity|]. cbn [add_root_content poly_empty]. unfold bp_new, poly_empty. cbn [pplane pdrop pedges map pcount length].
      assert (Et : exists o, (if boxed then t <- track [] ;; Ok (Some t) else Ok None) = Ok o) by (destruct boxed; eexists; reflexivity). destruct Et as (o & ->). cbn [rbind].
      destruct infos as [|i infos]; cbn; reflexivity. }
  induction A as [t N|s cs bs infos n p w x A IH|s cs bs infos n p w x A IH]; intros Vs Ex m P.
  - destruct Ex as (s & [] & _).
  - cbn [map ss_pos nb_add nb_child]. apply (Step s false w); [exact (Forall_inv Vs)|exact Ex|exact P|]. intros Ex' m1 P1. apply IH; [exact (Forall_inv_tail Vs)|exact Ex'|exact P1].
  - cbn [map ss_pos nb_add nb_child]. apply (Step s true w); [exact (Forall_inv Vs)|exact Ex|exact P|]. intros Ex' m1 P1. apply IH; [exact (Forall_inv_tail Vs)|exact Ex'|exact P1].
Qed.
Theorem border_miss boxed b t w x : thick b -> tree_ok t -> at_node t w x -> (exists s, In s w /\ at_most_line (outward s) b) ->
  node_border true boxed b (map ss_pos w) t = AssertFail \/ boxed = true /\ node_border true boxed b (map ss_pos w) t = UB.
Proof.
  intros Tk T A Ex. apply tree_ok_sub in T. pose proof (sub_path [] t w x path_ok_nil T A) as P. cbn [app] in P.
  assert (Vs : Forall (fun s => hs_valid (ss_split s) = true) w) by (apply Forall_forall; intros s I; exact (path_valid w s P I)).
  pose proof (sub_pre [] bn_new (proj1 (tree_ok_sub _) new_tree)) as P0. unfold node_border. destruct (nb_add_miss boxed b t w x A Tk Vs Ex bn_new P0) as [->|[Eb ->]]; [left; reflexivity|right; split; [exact Eb|reflexivity]].
Qed.
