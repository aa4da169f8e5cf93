(** Proofs about BSPTraverser: what is shown at a point of a plane. *)
From Coq Require Import List Bool Arith ZArith QArith Lqa Lia ZifyBool Permutation.
From Verif Require Import BigUIntModel GeoModel GeoSpec GeoProofs GeoBridge CvxSpec PolyModel PolySpec PolyBridgeProofs PolyInfoProofs CvxProofs CvxCapProofs CvxMergeProofs PolyCapProofs RTransModel FilterModel FilterSpec FilterProofs BspModel BspSpec BspHistSpec BspGeoProofs BspPolyProofs BspTreeProofs BspHistProofs PartModel PartSpec PartGeoProofs PartProofs TravModel TravSpec TravProofs.
From Verif Require MergeTopProofs.
Import ListNotations.
Open Scope Q_scope.
(** ** Choosing polygons *)
Section Picked.
Context (P : bpoly -> Prop).
Lemma picked_app l m r : picked P (l ++ m) r -> exists r1 r2, r = r1 ++ r2 /\ picked P l r1 /\ picked P m r2.
Proof.
  revert r. induction l as [|b l IH]; intros r H; [exists [], r; split; [reflexivity|split; [constructor|exact H]]|]. cbn [app] in H. inversion H as [|? ? r' Pb Hr|? ? ? Pb Hr]; subst; destruct (IH _ Hr) as (r1 & r2 & -> & H1 & H2).
  - exists (b :: r1), r2. split; [reflexivity|]. split; [constructor; assumption|exact H2].
  - exists r1, r2. split; [reflexivity|]. split; [apply pk_out; assumption|exact H2].
Qed.
Lemma picked_in l r b : picked P l r -> In b r <-> In b l /\ P b.
Proof.
  intros H. induction H as [|x l r Px H IH|x l r Px H IH]; [cbn; tauto| |]; cbn [In].
  - rewrite IH. split; [intros [<-|[I Q]]; [split; [left; reflexivity|exact Px]|split; [right; exact I|exact Q]]|intros [[->|I] Q]; [left; reflexivity|right; split; assumption]].
  - rewrite IH. split; [intros [I Q]; split; [right; exact I|exact Q]|intros [[->|I] Q]; [contradiction|split; assumption]].
Qed.
Lemma picked_none l : (forall b, In b l -> ~ P b) -> forall r, picked P l r -> r = [].
Proof. intros N r H. destruct r as [|b r]; [reflexivity|]. exfalso. destruct (proj1 (picked_in l (b :: r) b H) (or_introl eq_refl)) as [I Q]. exact (N b I Q). Qed.
Lemma picked_perm l l' : Permutation l l' -> forall r, picked P l r -> exists r', picked P l' r' /\ Permutation r r'.
Proof.
  intros Pm. induction Pm as [|b l l' Pm IH|a b l|l m k P1 IH1 P2 IH2]; intros r H.
  - inversion H; subst. exists []. split; constructor.
  - inversion H as [|? ? r0 Pb Hr|? ? ? Pb Hr]; subst; destruct (IH _ Hr) as (r1 & H1 & E1); [exists (b :: r1); split; constructor; assumption|exists r1; split; [apply pk_out; assumption|exact E1]].
  - inversion H as [|? ? r0 Pb Hr|? ? ? Pb Hr]; subst; inversion Hr as [|? ? r1 Pa Hq|? ? ? Pa Hq]; subst.
    + exists (a :: b :: r1). split; [apply pk_in; [assumption|apply pk_in; assumption]|constructor].
    + exists (b :: r0). split; [apply pk_out; [assumption|apply pk_in; assumption]|reflexivity].
    + exists (a :: r1). split; [apply pk_in; [assumption|apply pk_out; assumption]|reflexivity].
    + exists r. split; [apply pk_out; [assumption|apply pk_out; assumption]|reflexivity].
  - destruct (IH1 r H) as (r1 & H1 & E1). destruct (IH2 r1 H1) as (r2 & H2 & E2). exists r2. split; [exact H2|exact (perm_trans E1 E2)].
Qed.
End Picked.
Lemma picked_at h q l r : (forall b, In b l -> bp_point b q -> facing h q b) -> picked (facing h q) l r -> at_point q l r.
Proof.
  intros G H. induction H as [|b l r Pb H IH|b l r Pb H IH]; [constructor|apply ap_in; [apply Pb|apply IH; intros x I; apply G; right; exact I]|apply ap_out; [intros Q; apply Pb, G; [left; reflexivity|exact Q]|apply IH; intros x I; apply G; right; exact I]].
Qed.
Lemma at_point_unique q l r : at_point q l r -> forall r', at_point q l r' -> r = r'.
Proof. intros A. induction A as [|b l r Q A IH|b l r Q A IH]; intros r' A'; inversion A'; subst; try contradiction; [reflexivity|f_equal; apply IH; assumption|apply IH; assumption]. Qed.
Lemma less_ext w l m : (forall id, count_id id l = count_id id m) -> forall id, less w l id = less w m id.
Proof. intros E id. unfold less. rewrite E. reflexivity. Qed.
(** ** The back of a plane *)
Definition nd (s h : hspace3) : Q := qdot (qpt (hn s)) (qpt (hn h)).
Lemma side_behind s h q e : side s (behind h q e) == side s q - e * nd s h.
Proof. unfold side, behind, nd, qdot, qsub, qscale. cbn [qx qy qz]. ring. Qed.
Definition backs (h : hspace3) (q : qpoint) (s : split_side) : Prop :=
  if ss_pos s then 0 < side (ss_split s) q \/ side (ss_split s) q == 0 /\ nd (ss_split s) h < 0 else side (ss_split s) q < 0 \/ side (ss_split s) q == 0 /\ 0 < nd (ss_split s) h.
Lemma step_down a b : 0 < a -> exists e0, 0 < e0 /\ forall e, 0 < e -> e < e0 -> 0 < a - e * b.
Proof.
  intros A. destruct (Qlt_le_dec 0 b) as [B|B]; [|exists 1; split; [lra|intros; nra]]. exists (a / b). split; [apply Qlt_shift_div_l; lra|]. intros e E0 E1. assert (X : a / b * b == a) by (field; lra). nra.
Qed.
Lemma backs_step h q s : backs h q s -> exists e0, 0 < e0 /\ forall e, 0 < e -> e < e0 -> if ss_pos s then 0 < side (ss_split s) (behind h q e) else side (ss_split s) (behind h q e) < 0.
Proof.
  unfold backs. destruct (ss_pos s); intros [A|[A B]].
  - destruct (step_down _ (nd (ss_split s) h) A) as (e0 & E0 & G). exists e0. split; [exact E0|]. intros e E1 E2. rewrite side_behind. exact (G e E1 E2).
  - exists 1. split; [lra|]. intros e E1 E2. rewrite side_behind. nra.
  - destruct (step_down (- side (ss_split s) q) (- nd (ss_split s) h) ltac:(lra)) as (e0 & E0 & G). exists e0. split; [exact E0|]. intros e E1 E2. rewrite side_behind. specialize (G e E1 E2). lra.
  - exists 1. split; [lra|]. intros e E1 E2. rewrite side_behind. nra.
Qed.
Lemma backs_all h q w : Forall (backs h q) w -> exists e0, 0 < e0 /\ forall e, 0 < e -> e < e0 -> strictly w (behind h q e).
Proof.
  intros F. induction F as [|s w B F (e1 & E1 & G1)]; [exists 1; split; [lra|intros; constructor]|]. destruct (backs_step h q s B) as (e2 & E2 & G2).
  destruct (Qlt_le_dec e1 e2) as [L|L]; [exists e1|exists e2]; (split; [assumption|intros e A0 A1; constructor; [apply G2; lra|apply G1; lra]]).
Qed.
Lemma valid_square h : hs_valid h = true -> 0 < nd h h.
Proof.
  intros V. destruct (valid_comp h V) as (d & L & N). unfold nd, qdot, qpt. cbn [qx qy qz]. rewrite <- !inject_Z_mult, <- !inject_Z_plus. change 0 with (inject_Z 0). rewrite <- Zlt_Qlt.
  destruct d as [|[|[|d]]]; cbn [comp] in N; nia.
Qed.
Lemma same_plane_nd s h q : hs_valid s = true -> side s q == 0 -> side h q == 0 -> same_plane s h -> ~ nd s h == 0.
Proof.
  intros V Es Eh Sm Z. set (q' := qadd q (qpt (hn s))). assert (A : side s q' == nd s s) by (transitivity (side s q + nd s s); [unfold side, q', nd, qdot, qadd; cbn [qx qy qz]; ring|rewrite Es; ring]). assert (B : side h q' == 0). { transitivity (side h q + nd s h); [unfold side, q', nd, qdot, qadd; cbn [qx qy qz]; ring|rewrite Eh, Z; ring]. }
  apply Sm in B. pose proof (valid_square s V). lra.
Qed.
Lemma back_either h q h0 : hs_valid h0 = true -> side h q == 0 -> (side h0 q == 0 -> same_plane h0 h) -> backs h q (SS h0 false) \/ backs h q (SS h0 true).
Proof.
  intros V E G. unfold backs. cbn [ss_pos ss_split]. destruct (Q_dec (side h0 q) 0) as [[L|L]|L]; [left; left; exact L|right; left; exact L|]. pose proof (same_plane_nd h0 h q V L E (G L)) as N. destruct (Q_dec (nd h0 h) 0) as [[M|M]|M]; [right; right; split; assumption|left; right; split; assumption|contradiction].
Qed.
Lemma back_not_both h q h0 : backs h q (SS h0 false) -> backs h q (SS h0 true) -> False.
Proof. unfold backs. cbn [ss_pos ss_split]. intros [A|[A B]] [C|[C D]]; lra. Qed.
Lemma bp_plane b q : bp_point b q -> side (pplane (bp_poly b)) q == 0.
Proof. intros (qs & _ & E & _). exact E. Qed.
Lemma stored_key w b s : path_ok w -> stored w b -> In s w -> same_plane (ss_split s) (pplane (bp_poly b)) -> bp_on b = Some s.
Proof.
  intros P S I Sm. destruct (st_ok _ _ S) as (qs & H). assert (L : lies_on s b) by (apply (lies_on_iff b qs s H (path_valid w s P I)); exact Sm). destruct (st_on _ _ S) as [F _]. destruct (bp_on b) as [s'|].
  - destruct F as (l & r & E & L' & _). assert (I' : In s' w) by (rewrite E; apply in_or_app; right; left; reflexivity). apply (lies_on_iff b qs s' H (path_valid w s' P I')) in L'. f_equal. apply (path_distinct w s' s P I' I). intros x. rewrite (L' x), (Sm x). tauto.
  - exfalso. cbn in F. rewrite Forall_forall in F. exact (F s I L).
Qed.
Lemma key_in w b s : stored w b -> bp_on b = Some s -> In s w /\ lies_on s b.
Proof. intros S E. destruct (st_on _ _ S) as [F _]. rewrite E in F. destruct F as (l & r & -> & L & _). split; [apply in_or_app; right; left; reflexivity|exact L]. Qed.
Lemma facing_back w b h q : path_ok w -> stored w b -> facing h q b -> (forall s, In s w -> side (ss_split s) q == 0 -> same_plane (ss_split s) h) -> (side (pplane (bp_poly b)) q == 0 -> same_plane (pplane (bp_poly b)) h) -> Forall (backs h q) w.
Proof.
  intros P S [Q (k' & K' & N')] G Gb. apply Forall_forall. intros s I. pose proof (st_cell _ _ S q Q) as C. unfold in_cell in C. rewrite Forall_forall in C. specialize (C s I). specialize (Gb (bp_plane b q Q)).
  assert (D : side (ss_split s) q == 0 -> if ss_pos s then nd (ss_split s) h < 0 else 0 < nd (ss_split s) h).
  { intros Z. specialize (G s I Z). assert (E : bp_on b = Some s) by (apply (stored_key w b s P S I); intros x; rewrite (G x), (Gb x); tauto). destruct (st_faces _ _ S s E) as (k & K & N).
    pose proof (valid_square _ (path_valid w s P I)) as Sq.
    assert (X : k' * nd (ss_split s) h == (if ss_pos s then - k else k) * nd (ss_split s) (ss_split s)).
    { destruct N as (N1 & N2 & N3), N' as (M1 & M2 & M3). unfold nd, qdot. unfold qscale in *. cbn [qx qy qz] in *. rewrite N1 in M1. rewrite N2 in M2. rewrite N3 in M3. set (n := qpt (hn (ss_split s))) in *.
      transitivity (qx n * (k' * qx (qpt (hn h))) + qy n * (k' * qy (qpt (hn h))) + qz n * (k' * qz (qpt (hn h)))); [ring|]. rewrite <- M1, <- M2, <- M3. ring. }
    clear - X Sq K K'. set (a := nd (ss_split s) h) in *. set (b := nd (ss_split s) (ss_split s)) in *. clearbody a b. destruct (ss_pos s); nra. }
  unfold on_side in C. unfold backs. destruct (ss_pos s); apply Qle_lteq in C as [C|C]; [left; exact C|right; symmetry in C; split; [exact C|exact (D C)]|left; exact C|right; split; [exact C|exact (D C)]].
Qed.
(** ** The polygons of a tree *)
Lemma sub_stored t : forall w b, path_ok w -> sub_ok w t -> In b (all_polys t) -> exists w', path_ok (w ++ w') /\ stored (w ++ w') b /\ exists x, at_node t w' x.
Proof.
  induction t as [|s cs bs infos n IHn p IHp]; intros w b P H I; [destruct I|]. cbn [all_polys] in I. pose proof (sub_root w _ H) as [Fc Fb _ D]. cbn [n_contents n_border n_split n_neg n_pos] in *. rewrite Forall_forall in Fc, Fb. apply in_app_or in I as [I|I]; [|apply in_app_or in I as [I|I]; [|apply in_app_or in I as [I|I]]].
  - exists []. rewrite app_nil_r. split; [exact P|]. split; [apply (Fc b I)|]. eexists. apply at_root. discriminate.
  - exists []. rewrite app_nil_r. split; [exact P|]. split; [apply (Fb b I)|]. eexists. apply at_root. discriminate.
  - assert (N : n <> BNil) by (intros ->; destruct I). destruct D as [(_ & E & _)|(Fr & _)]; [contradiction|]. destruct (IHn _ b (path_snoc w (SS s false) P Fr) (sub_neg w _ H N) I) as (w' & P' & S' & x & A). exists (SS s false :: w'). rewrite <- app_assoc in *. split; [exact P'|]. split; [exact S'|]. exists x. apply at_neg. exact A.
  - assert (N : p <> BNil) by (intros ->; destruct I). destruct D as [(_ & _ & E)|(Fr & _)]; [contradiction|]. destruct (IHp _ b (path_snoc w (SS s true) P Fr) (sub_pos w _ H N) I) as (w' & P' & S' & x & A). exists (SS s true :: w'). rewrite <- app_assoc in *. split; [exact P'|]. split; [exact S'|]. exists x. apply at_pos. exact A.
Qed.
Lemma node_splits t w x : at_node t w x -> forall s, In s w -> exists w' y, at_node t w' y /\ n_split y = ss_split s /\ (n_neg y <> BNil \/ n_pos y <> BNil).
Proof.
  intros A. induction A as [t N|h cs bs infos n p w x A IH|h cs bs infos n p w x A IH]; intros s I; [destruct I| |]; (destruct I as [<-|I]; [exists [], (BNode h cs bs infos n p); split; [apply at_root; discriminate|split; [reflexivity|]]|]).
  - left. cbn. intros ->. inversion A; congruence.
  - destruct (IH s I) as (w' & y & Ay & E & F). exists (SS h false :: w'), y. split; [apply at_neg; exact Ay|split; assumption].
  - right. cbn. intros ->. inversion A; congruence.
  - destruct (IH s I) as (w' & y & Ay & E & F). exists (SS h true :: w'), y. split; [apply at_pos; exact Ay|split; assumption].
Qed.
(** What [generic] says about a part of the tree. *)
Record gen (w : path) (t : bnode) (h : hspace3) (q : qpoint) : Prop := Gen {
  ge_on : side h q == 0; ge_path : forall s, In s w -> side (ss_split s) q == 0 -> same_plane (ss_split s) h;
  ge_nodes : forall w' x, at_node t w' x -> ~ leaf x -> side (n_split x) q == 0 -> same_plane (n_split x) h;
  ge_polys : forall b, In b (all_polys t) -> side (pplane (bp_poly b)) q == 0 -> same_plane (pplane (bp_poly b)) h; ge_lines : off_lines q (all_polys t) }.
Lemma sub_inner w x : sub_ok w x -> n_neg x <> BNil \/ n_pos x <> BNil -> ~ leaf x.
Proof. intros H N L. destruct (no_split _ _ (sub_root w x H)) as [(_ & E1 & E2)|(F & _)]; [tauto|unfold leaf in L; destruct F; congruence]. Qed.
Lemma sub_at w t w' x : sub_ok w t -> at_node t w' x -> sub_ok (w ++ w') x.
Proof.
  intros H A. revert w H. induction A as [t N|s cs bs infos n p w' x A IH|s cs bs infos n p w' x A IH]; intros w H.
  - rewrite app_nil_r. exact H.
  - assert (M : n <> BNil) by (intros ->; inversion A; congruence). change (SS s false :: w') with ([SS s false] ++ w'). rewrite app_assoc. apply IH. exact (sub_neg w _ H M).
  - assert (M : p <> BNil) by (intros ->; inversion A; congruence). change (SS s true :: w') with ([SS s true] ++ w'). rewrite app_assoc. apply IH. exact (sub_pos w _ H M).
Qed.
Lemma facing_path w t h q b : path_ok w -> sub_ok w t -> gen w t h q -> In b (all_polys t) -> facing h q b -> Forall (backs h q) w /\ exists w', path_ok (w ++ w') /\ stored (w ++ w') b /\ forall s, In s (w ++ w') -> side (ss_split s) q == 0 -> same_plane (ss_split s) h.
Proof.
  intros P H G I Fc. destruct (sub_stored t w b P H I) as (w' & P' & S' & x & A). assert (Gw : forall s, In s (w ++ w') -> side (ss_split s) q == 0 -> same_plane (ss_split s) h).
  { intros s Is Z. apply in_app_or in Is as [Is|Is]; [exact (ge_path _ _ _ _ G s Is Z)|]. destruct (node_splits t w' x A s Is) as (w1 & y & Ay & E & N). rewrite <- E. apply (ge_nodes _ _ _ _ G w1 y Ay); [exact (sub_inner _ _ (sub_at w t w1 y H Ay) N)|rewrite E; exact Z]. }
  pose proof (facing_back (w ++ w') b h q P' S' Fc Gw (ge_polys _ _ _ _ G b I)) as B. apply Forall_app in B as [B _]. split; [exact B|]. exists w'. split; [exact P'|split; assumption].
Qed.
Lemma gen_kid w s cs bs infos n p h q c t : gen w (BNode s cs bs infos n p) h q -> (c = false /\ t = n \/ c = true /\ t = p) -> hs_valid s = true -> gen (w ++ [SS s c]) t h q.
Proof.
  intros [G1 G2 G3 G4 G5] D V. split; [exact G1| | | |].
  - intros s' I Z. apply in_app_or in I as [I|[<-|[]]]; [exact (G2 s' I Z)|]. cbn [ss_split] in *. apply (G3 [] (BNode s cs bs infos n p)); [apply at_root; discriminate|unfold leaf; cbn; congruence|exact Z].
  - intros w' x A. destruct D as [(_ & ->)|(_ & ->)]; [apply (G3 (SS s false :: w') x); apply at_neg; exact A|apply (G3 (SS s true :: w') x); apply at_pos; exact A].
  - intros b I. apply G4. cbn [all_polys]. apply in_or_app; right; apply in_or_app; right; apply in_or_app. destruct D as [(_ & ->)|(_ & ->)]; [left; exact I|right; exact I].
  - intros b i u v e I. apply G5. cbn [all_polys]. apply in_or_app; right; apply in_or_app; right; apply in_or_app. destruct D as [(_ & ->)|(_ & ->)]; [left; exact I|right; exact I].
Qed.
Lemma accepted_concat ls : accepted (concat ls) = concat (map accepted ls).
Proof. induction ls as [|l ls IH]; [reflexivity|]. cbn [concat map]. rewrite accepted_app, IH. reflexivity. Qed.
Lemma facing_part h q y b : part_of y b -> facing h q y -> facing h q b.
Proof. intros Pa [Q N]. split; [exact (pa_points _ _ Pa q Q)|]. rewrite <- (proj1 (pa_plane _ _ Pa)). exact N. Qed.
Lemma emits_parts f w x evs : emits f w x evs -> sub_ok w x -> forall y, In y (shown evs) -> exists b, In b (all_polys x) /\ part_of y b.
Proof.
  intros E. induction E as [w x C E|w x gs ls Lf Nc (Pm & _) F|w h infos n p en ep V En IHn Ep IHp]; intros H y I; [destruct I| |].
  - rewrite shown_map, accepted_concat in I. apply in_concat in I as (l & Il & Iy). apply in_map_iff in Il as (l0 & <- & Il). assert (X : exists g, In g gs /\ group_told f w (n_infos x) g l0) by (clear - F Il; induction F as [|g l gs ls T F IH]; [destruct Il|destruct Il as [<-|Il]; [exists g; split; [left; reflexivity|exact T]|destruct (IH Il) as (g' & I' & T'); exists g'; split; [right; exact I'|exact T']]]).
    destruct X as (g & Ig & T). pose proof (gt_parts _ _ _ _ _ T) as Pa. rewrite Forall_forall in Pa. destruct (Pa y Iy) as (b & Ib & Pb). exists b. split; [|exact Pb]. destruct x as [|s cs bs infos n p]; [destruct H; contradiction|]. cbn [all_polys]. apply in_or_app. right. apply in_or_app. left. apply (Permutation_in _ Pm). apply in_concat. exists g. split; assumption.
  - assert (H0 := H). destruct (no_split _ _ (sub_root w _ H0)) as [(Lf & _)|(_ & _ & _ & Nn & Np)]; [unfold leaf in Lf; cbn in Lf; congruence|]. cbn [n_neg n_pos] in *. change (TEnter h :: en ++ ep ++ [TLeave h]) with ([TEnter h] ++ en ++ ep ++ [TLeave h]) in I. rewrite !shown_app in I. cbn [shown app] in I. rewrite app_nil_r in I. cbn [all_polys app]. apply in_app_or in I as [I|I].
    + destruct (IHn (sub_neg w _ H0 Nn) y I) as (b & Ib & Pb). exists b. split; [apply in_or_app; left; exact Ib|exact Pb].
    + destruct (IHp (sub_pos w _ H0 Np) y I) as (b & Ib & Pb). exists b. split; [apply in_or_app; right; exact Ib|exact Pb].
Qed.
(** ** What is shown at a point *)
Definition told (f : filter) (W : winding) (F got : list bpoly) : Prop := (Nat.Even (length got) <-> (inside f W <-> inside f (less W F))) /\
  (monotone f -> (length got <= 1)%nat /\ (got <> [] <-> inside f W /\ ~ inside f (less W F))).
Lemma told_none f W F : (inside f W <-> inside f (less W F)) -> told f W F [].
Proof. intros E. split; [split; [intros _; exact E|intros _; exists 0%nat; reflexivity]|]. intros _. split; [cbn; lia|]. split; [congruence|tauto]. Qed.
Lemma less_nil W id : less W [] id = W id.
Proof. unfold less. cbn. lia. Qed.
Lemma told_ext f W W' F F' got : (forall id, W id = W' id) -> (forall id, count_id id F = count_id id F') -> told f W F got -> told f W' F' got.
Proof.
  intros E1 E2 [A B]. pose proof (inside_ext f _ _ E1) as I1. assert (E3 : forall id, less W F id = less W' F' id) by (intros id; unfold less; rewrite E1, E2; reflexivity). pose proof (inside_ext f _ _ E3) as I2. split; [rewrite A; tauto|]. intros M. destruct (B M) as [B1 B2]. split; [exact B1|]. rewrite B2. tauto.
Qed.
Lemma after_less d pos l : Forall (fun b => crossing_step d pos b = (-1)%Z) l -> forall w id, after d pos w l id = less w l id.
Proof.
  intros F. induction F as [|b l E F IH]; intros w id; [rewrite less_nil; reflexivity|]. cbn [after fold_left]. fold (after d pos (crossed d pos w b) l). rewrite IH. unfold less, crossed, count_id. rewrite E. cbn [List.filter]. rewrite (Nat.eqb_sym id). destruct (bp_id b =? id)%nat; cbn [length]; lia.
Qed.
Lemma told_flips f d pos W F sel got : Forall (fun b => crossing_step d pos b = (-1)%Z) F -> flips f d pos W F sel -> length got = length sel -> told f W F got.
Proof.
  intros St Fl Le. pose proof (inside_ext f _ _ (after_less d pos F St W)) as Ia. split; [rewrite Le, (flips_parity f d pos F W sel Fl); tauto|]. intros M. destruct (flips_monotone f d pos F M St W sel Fl) as [L1 L2]. split; [lia|]. rewrite <- Ia, <- L2. destruct got, sel; cbn in Le; try discriminate; split; intros; congruence.
Qed.
Lemma group_steps w b0 g s : path_ok w -> Forall (fun b => stored w b /\ bp_on b = Some s) (b0 :: g) -> Forall (fun b => crossing_step (pdrop (bp_poly b0)) (pos_of b0) b = (-1)%Z) (b0 :: g).
Proof.
  intros P F. inversion F as [|? ? [S0 O0] _]; subst. destruct (stored_st w b0 P S0) as (qs & H0). destruct (po_drop _ _ (s_ok _ _ _ H0)) as [Ld Np]. set (d := pdrop (bp_poly b0)) in *.
  assert (Cd : forall b, In b (b0 :: g) -> exists k, 0 < k /\ inject_Z (comp (hn (pplane (bp_poly b))) d) == (if ss_pos s then - k else k) * inject_Z (comp (hn (ss_split s)) d)).
  { intros b Ib. rewrite Forall_forall in F. destruct (F b Ib) as [Sb Ob]. destruct (st_faces _ _ Sb s Ob) as (k & K & Ek). exists k. split; [exact K|exact (faces_comp s b d k K Ek Ld)]. }
  apply Forall_forall. intros b Ib. destruct (Cd b Ib) as (k & K & Ek), (Cd b0 (or_introl eq_refl)) as (k0 & K0 & Ek0). unfold crossing_step, pos_of. fold d. set (z := comp (hn (pplane (bp_poly b))) d) in *. change (comp (hn (pplane (bp_poly b0))) d) with (pnormal_drop (bp_poly b0)) in *. set (z0 := pnormal_drop (bp_poly b0)) in *. set (c := inject_Z (comp (hn (ss_split s)) d)) in *.
  assert (Sg : (0 < z)%Z <-> (0 < z0)%Z). { rewrite !Zlt_Qlt. change (inject_Z 0) with 0. rewrite Ek, Ek0. clearbody c. clear - K K0. destruct (ss_pos s); split; intros X; nra. }
  destruct (Z.ltb_spec 0 z), (Z.ltb_spec z0 0); cbn [Bool.eqb]; try reflexivity; exfalso; lia.
Qed.
Lemma faces_same s b b1 h q : faces_out s (pplane (bp_poly b)) -> faces_out s (pplane (bp_poly b1)) -> facing h q b1 -> bp_point b q -> facing h q b.
Proof.
  intros (k & K & N1 & N2 & N3) (k1 & K1 & M1 & M2 & M3) [_ (k' & K' & L1 & L2 & L3)] Q. split; [exact Q|]. unfold qscale in *. cbn [qx qy qz] in *.
  exists (k / k1 * k'). split; [apply Qmult_lt_0_compat; [apply Qlt_shift_div_l; lra|exact K']|]. split; [|split]; cbn [qx qy qz].
  - rewrite N1. rewrite <- Qmult_assoc, <- L1, M1. destruct (ss_pos s); field; lra.
  - rewrite N2. rewrite <- Qmult_assoc, <- L2, M2. destruct (ss_pos s); field; lra.
  - rewrite N3. rewrite <- Qmult_assoc, <- L3, M3. destruct (ss_pos s); field; lra.
Qed.
Lemma group_at f w infos g l h q F got : path_ok w -> group_told f w infos g l -> off_lines q g -> picked (facing h q) g F -> picked (facing h q) (accepted l) got -> F <> [] -> told f (winding_of infos) F got.
Proof.
  intros P [_ Pa (b0 & g' & s & Eg & Fg & Pe)] Off Pk Pg Ne. destruct F as [|b1 F]; [contradiction|]. destruct (proj1 (picked_in _ _ _ b1 Pk) (or_introl eq_refl)) as [I1 Q1]. rewrite Forall_forall in Fg, Pa. destruct (Fg b1 I1) as [S1 O1].
  assert (All : forall b, In b g -> bp_point b q -> facing h q b) by (intros b Ib Q; destruct (Fg b Ib) as [Sb Ob]; exact (faces_same s b b1 h q (st_faces _ _ Sb s Ob) (st_faces _ _ S1 s O1) Q1 Q)).
  pose proof (picked_at h q g _ All Pk) as Ap. destruct (Pe q (proj2 (key_in w b1 s S1 O1) q (proj1 Q1)) Off _ Ap) as (sel & got' & Fl & Ag & F2).
  assert (Ag' : at_point q (accepted l) got). { apply (picked_at h q); [|exact Pg]. intros y Iy Q. destruct (Pa y Iy) as (b & Ib & Pb). split; [exact Q|]. rewrite (proj1 (pa_plane _ _ Pb)). apply (All b Ib). exact (pa_points _ _ Pb q Q). }
  rewrite (at_point_unique q _ _ Ag' _ Ag). apply (told_flips f (pdrop (bp_poly b0)) (pos_of b0) _ _ sel got'); [|exact Fl|exact (Forall2_len _ _ _ F2)].
  apply Forall_forall. intros b Ib. destruct (at_point_in q _ _ b Ap Ib) as [Ib' _]. subst g. assert (Fg' : Forall (fun b => stored w b /\ bp_on b = Some s) (b0 :: g')) by (apply Forall_forall; exact Fg). pose proof (group_steps w b0 g' s P Fg') as St. rewrite Forall_forall in St. exact (St b Ib').
Qed.
Lemma key_same w h q b1 b2 s1 s2 : path_ok w -> (forall s, In s w -> side (ss_split s) q == 0 -> same_plane (ss_split s) h) -> stored w b1 -> stored w b2 -> bp_on b1 = Some s1 -> bp_on b2 = Some s2 -> bp_point b1 q -> bp_point b2 q -> s1 = s2.
Proof.
  intros P G S1 S2 O1 O2 Q1 Q2. destruct (key_in w b1 s1 S1 O1) as [I1 L1]. destruct (key_in w b2 s2 S2 O2) as [I2 L2]. pose proof (G s1 I1 (L1 q Q1)) as E1. pose proof (G s2 I2 (L2 q Q2)) as E2. apply (path_distinct w s1 s2 P I1 I2). intros x. rewrite (E1 x), (E2 x). tauto.
Qed.
Lemma groups_at f w infos h q gs ls : path_ok w -> (forall s, In s w -> side (ss_split s) q == 0 -> same_plane (ss_split s) h) -> Forall2 (group_told f w infos) gs ls ->
  ForallOrdPairs (fun g g' => forall a b, In a g -> In b g' -> same_split (bp_on a) (bp_on b) = false) gs -> off_lines q (concat gs) -> forall F got, picked (facing h q) (concat gs) F -> picked (facing h q) (accepted (concat ls)) got -> told f (winding_of infos) F got.
Proof.
  intros P G F2. induction F2 as [|g l gs ls T F2 IH]; intros D Off F got Pk Pg; cbn [concat] in *.
  - inversion Pk; subst. inversion Pg; subst. apply told_none. apply inside_ext. intros id. symmetry. apply less_nil.
  - rewrite accepted_app in Pg. apply picked_app in Pk as (F1 & F' & -> & Pk1 & Pk2). apply picked_app in Pg as (G1 & G' & -> & Pg1 & Pg2). inversion D as [|? ? D1 D2]; subst.
    assert (Off1 : off_lines q g) by (intros b i u v e I; apply Off; apply in_or_app; left; exact I). assert (Off2 : off_lines q (concat gs)) by (intros b i u v e I; apply Off; apply in_or_app; right; exact I).
    assert (Par : forall y, In y (accepted l) -> exists b, In b g /\ part_of y b) by (pose proof (gt_parts _ _ _ _ _ T) as Pa; rewrite Forall_forall in Pa; exact Pa).
    destruct F1 as [|b1 F1].
    + assert (E : G1 = []). { apply (picked_none (facing h q) (accepted l)); [|exact Pg1]. intros y Iy Fy. destruct (Par y Iy) as (b & Ib & Pb). apply (proj2 (picked_in _ _ _ b Pk1)). split; [exact Ib|exact (facing_part h q y b Pb Fy)]. }
      subst G1. cbn [app]. apply IH; assumption.
    + assert (Key : forall g0, In g0 gs -> forall b, In b g0 -> ~ facing h q b).
      { intros g0 I0 b Ib Fb. rewrite Forall_forall in D1. destruct (proj1 (picked_in _ _ _ b1 Pk1) (or_introl eq_refl)) as [I1 Q1]. pose proof (D1 g0 I0 b1 b I1 Ib) as Df. destruct (gt_peel _ _ _ _ _ T) as (_ & _ & s1 & _ & Fg1 & _). rewrite Forall_forall in Fg1. destruct (Fg1 b1 I1) as [S1 O1].
        assert (X : exists s2, stored w b /\ bp_on b = Some s2). { clear - F2 I0 Ib. induction F2 as [|g l gs ls T F2 IH]; [destruct I0|]. destruct I0 as [->|I0]; [|exact (IH I0)]. destruct (gt_peel _ _ _ _ _ T) as (_ & _ & s2 & _ & Fg2 & _). rewrite Forall_forall in Fg2. exists s2. exact (Fg2 b Ib). }
        destruct X as (s2 & S2 & O2). rewrite O1, O2 in Df. rewrite (key_same w h q b1 b s1 s2 P G S1 S2 O1 O2 (proj1 Q1) (proj1 Fb)) in Df. cbn [same_split] in Df. rewrite hs_eqb_refl in Df. discriminate. }
      assert (E : F' = []) by (apply (picked_none (facing h q) (concat gs)); [intros b Ib; apply in_concat in Ib as (g0 & I0 & Ib); exact (Key g0 I0 b Ib)|exact Pk2]).
      assert (E' : G' = []). { apply (picked_none (facing h q) (accepted (concat ls))); [|exact Pg2]. intros y Iy Fy. rewrite accepted_concat in Iy. apply in_concat in Iy as (l0 & Il & Iy). apply in_map_iff in Il as (l1 & <- & Il).
        assert (X : exists g0, In g0 gs /\ group_told f w infos g0 l1) by (clear - F2 Il; induction F2 as [|g l gs ls T F IH]; [destruct Il|destruct Il as [<-|Il]; [exists g; split; [left; reflexivity|exact T]|destruct (IH Il) as (g' & I' & T'); exists g'; split; [right; exact I'|exact T']]]).
        destruct X as (g0 & I0 & T0). pose proof (gt_parts _ _ _ _ _ T0) as Pa. rewrite Forall_forall in Pa. destruct (Pa y Iy) as (b & Ib & Pb). exact (Key g0 I0 b Ib (facing_part h q y b Pb Fy)). }
      subst F' G'. rewrite !app_nil_r. apply (group_at f w infos g l h q); try assumption. discriminate.
Qed.
Lemma on_or_off w w' b : path_ok (w ++ w') -> stored (w ++ w') b -> (forall s, In s w -> ~ lies_on s b) \/ exists s, In s w /\ lies_on s b.
Proof.
  intros P S. destruct (st_ok _ _ S) as (qs & H). destruct (bp_on b) as [s0|] eqn:E.
  - destruct (key_in _ b s0 S E) as [I L]. apply in_app_or in I as [I|I]; [right; exists s0; split; assumption|]. left. intros s Is Ls. assert (Iw : In s (w ++ w')) by (apply in_or_app; left; exact Is). apply (lies_on_iff b qs s H (path_valid _ s P Iw)) in Ls. pose proof (stored_key _ b s P S Iw Ls) as E'. assert (s = s0) by congruence. subst s0.
    apply in_split in I as (l1 & l2 & ->). specialize (P (w ++ l1) s l2 ltac:(rewrite <- app_assoc; reflexivity)). destruct P as [_ P]. apply (P s); [apply in_or_app; left; exact Is|]. intros x. reflexivity.
  - left. intros s Is Ls. destruct (st_on _ _ S) as [F _]. rewrite E in F. cbn in F. rewrite Forall_forall in F. apply (F s); [apply in_or_app; left; exact Is|exact Ls].
Qed.
Lemma no_polys w x id : path_ok w -> sub_ok w x -> ~ may_move (n_infos x) id -> forall b, In b (all_polys x) -> bp_id b <> id.
Proof.
  intros P H M b I E. destruct (no_counted _ _ (sub_root w x H)) as [_ C1 C2]. destruct (sub_stored x w b P H I) as (w' & P' & S' & _). apply M. destruct (on_or_off w w' b P' S') as [O|O]; [left; apply C1; exists b; split; [exact I|split; [exact E|exact O]]|right; apply C2; exists b; split; [exact I|split; [exact E|exact O]]].
Qed.
Theorem emits_at f wind h q w x evs : emits f w x evs -> path_ok w -> sub_ok w x -> (forall w' y, at_node x w' y -> table_right wind (w ++ w') y) -> gen w x h q -> Forall (backs h q) w ->
  forall F got, picked (facing h q) (all_polys x) F -> picked (facing h q) (shown evs) got -> exists e0, 0 < e0 /\ forall e, 0 < e -> e < e0 -> told f (wind (behind h q e)) F got.
Proof.
  intros E. induction E as [w x C E|w x gs ls Lf Nc (Pm & _ & D) F2|w h0 infos n p en ep V En IHn Ep IHp]; intros P H T G B F got Pk Pg.
  - cbn [shown] in Pg. inversion Pg; subst. destruct (backs_all h q w B) as (e0 & E0 & St). exists e0. split; [exact E0|]. intros e E1 E2. specialize (St e E1 E2). set (W := wind (behind h q e)). apply told_none.
    pose proof (T [] x (at_root x (proj1 H))) as Tr. rewrite app_nil_r in Tr.
    assert (Bl : below (n_infos x) W) by (intros id M; apply (Tr id _); [destruct (interior (info_for (n_infos x) id)) eqn:Ei; [reflexivity|exfalso; apply M; left; change (interior (info_for (n_infos x) id) <> 0%nat); rewrite Ei; discriminate]|exact St]).
    assert (Bl' : below (n_infos x) (less W F)). { intros id M. rewrite <- (Bl id M). unfold less. assert (Z : count_id id F = 0%nat); [|rewrite Z; lia]. destruct (count_id id F) eqn:Ec; [reflexivity|exfalso]. assert (Nz : count_id id F <> 0%nat) by lia. apply count_in in Nz as (b & Ib & Eb). apply (picked_in _ _ _ b Pk) in Ib as [Ib _]. exact (no_polys w x id P H M b Ib Eb). }
    pose proof (right_stable _ _ _ W (eval_right f (n_infos x) C) E Bl). pose proof (right_stable _ _ _ _ (eval_right f (n_infos x) C) E Bl'). tauto.
  - destruct (backs_all h q w B) as (e0 & E0 & St). exists e0. split; [exact E0|]. intros e E1 E2. specialize (St e E1 E2). pose proof (T [] x (at_root x (proj1 H))) as Tr. rewrite app_nil_r in Tr. pose proof (sub_root w x H) as [_ _ Ct Sp]. destruct Sp as [(_ & Z1 & Z2)|(Fr & _)]; [|exfalso; unfold leaf in Lf; destruct Fr; congruence].
    assert (Ea : all_polys x = n_border x) by (destruct x as [|s cs bs infos n p]; [reflexivity|]; cbn [all_polys n_contents n_border n_neg n_pos] in *; subst cs n p; cbn; apply app_nil_r). destruct G as [G1 G2 G3 G4 G5]. rewrite Ea in *.
    destruct (picked_perm _ _ _ (Permutation_sym Pm) F Pk) as (F' & Pk' & PF). rewrite shown_map in Pg.
    assert (Off : off_lines q (concat gs)) by (intros b i u v d I; apply G5; exact (Permutation_in _ Pm I)).
    apply (told_ext f (winding_of (n_infos x)) _ F' F); [|intros id; symmetry; apply count_perm; exact PF|exact (groups_at f w (n_infos x) h q gs ls P G2 F2 D Off F' got Pk' Pg)].
    intros id. symmetry. apply (Tr id _); [|exact St]. rewrite (proj1 (ct_leaf _ _ Ct Lf id)), Nc. reflexivity.
  - destruct (no_split _ _ (sub_root w _ H)) as [(Lf & _)|(Fr & _ & _ & Nn & Np)]; [unfold leaf in Lf; cbn in Lf; congruence|]. cbn [n_split n_neg n_pos] in *. pose proof (sub_neg w _ H Nn) as Sn. pose proof (sub_pos w _ H Np) as Sp. cbn [n_split n_neg n_pos] in *.
    change (TEnter h0 :: en ++ ep ++ [TLeave h0]) with ([TEnter h0] ++ en ++ ep ++ [TLeave h0]) in Pg. rewrite !shown_app in Pg. cbn [shown app] in Pg. rewrite app_nil_r in Pg. cbn [all_polys app] in Pk. apply picked_app in Pk as (F1 & F' & -> & Pk1 & Pk2). apply picked_app in Pg as (G1 & G' & -> & Pg1 & Pg2).
    pose proof (gen_kid w h0 [] [] infos n p h q false n G (or_introl (conj eq_refl eq_refl)) V) as Gn. pose proof (gen_kid w h0 [] [] infos n p h q true p G (or_intror (conj eq_refl eq_refl)) V) as Gp. pose proof (path_snoc w (SS h0 false) P Fr) as Pn. pose proof (path_snoc w (SS h0 true) P Fr) as Pp.
    assert (Nof : forall c t evs F0 G0, path_ok (w ++ [SS h0 c]) -> sub_ok (w ++ [SS h0 c]) t -> gen (w ++ [SS h0 c]) t h q -> emits f (w ++ [SS h0 c]) t evs -> ~ backs h q (SS h0 c) -> picked (facing h q) (all_polys t) F0 -> picked (facing h q) (shown evs) G0 -> F0 = [] /\ G0 = []).
    { intros c t evs F0 G0 Pc Sc Gc Ec Nb K1 K2. assert (No : forall b, In b (all_polys t) -> ~ facing h q b). { intros b Ib Fb. destruct (facing_path _ t h q b Pc Sc Gc Ib Fb) as [Bk _]. apply Forall_app in Bk as [_ Bk]. inversion Bk; subst. contradiction. }
      split; [exact (picked_none _ _ No F0 K1)|]. apply (picked_none (facing h q) (shown evs)); [|exact K2]. intros y Iy Fy. destruct (emits_parts f _ t evs Ec Sc y Iy) as (b & Ib & Pb). exact (No b Ib (facing_part h q y b Pb Fy)). }
    destruct (back_either h q h0 V (ge_on _ _ _ _ G)) as [Bk|Bk].
    + intros Z. apply (ge_nodes _ _ _ _ G [] (BNode h0 [] [] infos n p)); [apply at_root; discriminate|unfold leaf; cbn; congruence|exact Z].
    + destruct (Nof true p ep F' G' Pp Sp Gp Ep (fun Bk' => back_not_both h q h0 Bk Bk') Pk2 Pg2) as [-> ->]. rewrite !app_nil_r. apply IHn; try assumption; [intros w' y A; rewrite <- app_assoc; apply T; apply at_neg; exact A|apply Forall_app; split; [exact B|constructor; [exact Bk|constructor]]].
    + destruct (Nof false n en F1 G1 Pn Sn Gn En (fun Bk' => back_not_both h q h0 Bk' Bk) Pk1 Pg1) as [-> ->]. cbn [app]. apply IHp; try assumption; [intros w' y A; rewrite <- app_assoc; apply T; apply at_pos; exact A|apply Forall_app; split; [exact B|constructor; [exact Bk|constructor]]].
Qed.
(** ** Pieces *)
Lemma off_inner {A} (p : poly A) qs q : poly_ok p qs -> polygon_point (pplane p) (pdrop p) qs q -> (forall i u v e, has_edge p i u v e -> ~ on_line u v q) -> inner (pplane p) (poly_point p) q.
Proof.
  intros H Q Off. split; [apply (point_iff p qs q H); exact Q|]. intros x X. pose proof (ok_length p qs H) as Ln. pose proof (ok_n p qs H) as N. destruct (proj1 (point_at p qs H q) Q) as [E I]. set (s := inject_Z (pnormal_drop p)) in *.
  set (tr := fun y i => turn (qdrop (pdrop p) (cyc o3 qs i)) (qdrop (pdrop p) (cyc o3 qs (S i))) (qdrop (pdrop p) y)).
  assert (Po : forall i, (i < length qs)%nat -> 0 < s * tr q i).
  { intros i L. specialize (I i). fold (tr q i) in I. apply Qle_lteq in I as [I|I]; [exact I|exfalso]. assert (Z : tr q i == 0) by (destruct (Qmult_integral s (tr q i) ltac:(symmetry; exact I)) as [Z|Z]; [exfalso; exact (s_nonzero p qs H Z)|exact Z]).
    assert (Ie : exists e, nth_error (pedges p) i = Some e) by (destruct (nth_error (pedges p) i) eqn:En; [eexists; reflexivity|apply nth_error_None in En; unfold pcount in Ln; lia]). destruct Ie as (e & Ee). apply (Off i _ _ _ (has_edge_at p qs i e H Ee)). apply (turn_on_line p qs H); [apply (on_pp p qs H)|apply (on_pp p qs H)|exact E|apply (edge_distinct p qs H)|exact Z]. }
  destruct (small_step (length qs) (fun i => s * tr q i) (fun i => s * tr x i - s * tr q i) Po) as (t & T & G). exists t. split; [exact T|]. apply (point_iff p qs _ H). apply (point_at p qs H). split.
  - transitivity ((1 + t) * side (pplane p) q - t * side (pplane p) x); [unfold side, between, qdot, qadd, qscale, qsub; cbn [qx qy qz]; ring|rewrite E, X; ring].
  - intros i. rewrite turn_between. assert (Lm : (i mod length qs < length qs)%nat) by (apply Nat.mod_upper_bound; lia). specialize (G (i mod length qs)%nat t Lm ltac:(lra) ltac:(lra)). cbn beta in G.
    assert (Em : forall y, tr y (i mod length qs)%nat = turn (qdrop (pdrop p) (cyc o3 qs i)) (qdrop (pdrop p) (cyc o3 qs (S i))) (qdrop (pdrop p) y)). { intros y. unfold tr, cyc. rewrite Nat.mod_mod by lia. f_equal. f_equal. rewrite mod_succ by lia. reflexivity. }
    rewrite (Em q), (Em x) in G. set (a := turn _ _ (qdrop _ q)) in *. set (b := turn _ _ (qdrop _ x)) in *. fold s. apply Qlt_le_weak. eapply Qlt_le_trans; [exact G|]. apply Qle_lteq. right. ring.
Qed.
Lemma count_cons id b l : count_id id (b :: l) = ((if (bp_id b =? id)%nat then 1 else 0) + count_id id l)%nat.
Proof. unfold count_id. cbn [List.filter]. destruct (_ =? _)%nat; reflexivity. Qed.
Lemma piece_count h q b m F' : pieces b m -> Forall okb m -> off_lines q m -> picked (facing h q) m F' -> (facing h q b -> forall id, count_id id F' = count_id id [b]) /\ (~ facing h q b -> F' = []).
Proof.
  intros Pc Ok Off Pk. assert (Up : forall x, In x m -> facing h q x -> facing h q b) by (intros x I [Q N]; split; [apply (pi_union _ _ Pc); exists x; split; assumption|destruct (pieces_same b m x Pc I) as (_ & <- & _); exact N]).
  split; [|intros N; apply (picked_none (facing h q) m); [intros x I Fx; exact (N (Up x I Fx))|exact Pk]]. intros [Q N]. apply (pi_union _ _ Pc) in Q as (x & Ix & Qx).
  assert (In1 : forall y, In y m -> bp_point y q -> inner (pplane (bp_poly b)) (bp_point y) q). { intros y Iy Qy. destruct (pieces_same b m y Pc Iy) as (_ & <- & _). rewrite Forall_forall in Ok. destruct (Ok y Iy) as (qs & H). apply (off_inner (bp_poly y) qs q H); [apply (point_iff _ _ _ H); exact Qy|intros i u v e He; exact (Off y i u v e Iy He)]. }
  assert (Fx : facing h q x) by (split; [exact Qx|destruct (pieces_same b m x Pc Ix) as (_ & -> & _); exact N]). pose proof (pi_disjoint _ _ Pc) as Dj. pose proof (fun y (I : In y m) => proj1 (pieces_same b m y Pc I)) as Id.
  assert (Gen : forall l r, (forall y, In y l -> In y m) -> ForallOrdPairs (fun x y => forall q, ~ (inner (pplane (bp_poly b)) (bp_point x) q /\ inner (pplane (bp_poly b)) (bp_point y) q)) l -> picked (facing h q) l r -> In x r -> exists y, r = [y] /\ In y m).
  { clear - In1. induction l as [|y l IH]; intros r Sub D K I; inversion K as [|? ? r' Fy K'|? ? ? Fy K']; subst; [destruct I| |]; inversion D as [|? ? D1 D2]; subst.
    - exists y. split; [|apply Sub; left; reflexivity]. f_equal. apply (picked_none (facing h q) l); [|exact K']. intros z Iz Fz. rewrite Forall_forall in D1. apply (D1 z Iz q). split; apply In1; [apply Sub; left; reflexivity|apply Fy|apply Sub; right; exact Iz|apply Fz].
    - apply (IH r); [intros z Iz; apply Sub; right; exact Iz|exact D2|exact K'|exact I]. }
  destruct (Gen m F' (fun y I => I) Dj Pk (proj2 (picked_in _ _ _ x Pk) (conj Ix Fx))) as (y & -> & Iy). intros id. rewrite !count_cons, (Id y Iy). reflexivity.
Qed.
Theorem cut_count h q l l' F F' : cut_up l l' -> Forall okb l' -> off_lines q l' -> picked (facing h q) l F -> picked (facing h q) l' F' -> forall id, count_id id F = count_id id F'.
Proof.
  intros (ls & F2 & Pm) Ok Off Pk Pk'. destruct (picked_perm _ _ _ Pm F' Pk') as (G & Pg & PF). intros id. rewrite (count_perm id _ _ PF). assert (Ok' : Forall okb (concat ls)) by exact (Permutation_Forall Pm Ok). assert (Off' : off_lines q (concat ls)) by (intros b i u v e I; apply Off; exact (Permutation_in _ (Permutation_sym Pm) I)). clear Pm Ok Off Pk' PF F'.
  revert F G Pk Pg Ok' Off'. induction F2 as [|b m l ls Pc F2 IH]; intros F G Pk Pg Ok Off; cbn [concat] in *; [inversion Pk; inversion Pg; subst; reflexivity|].
  apply Forall_app in Ok as [Ok1 Ok2]. apply picked_app in Pg as (G1 & G2 & -> & Pg1 & Pg2). rewrite count_app.
  assert (Off1 : off_lines q m) by (intros y i u v e I; apply Off; apply in_or_app; left; exact I). assert (Off2 : off_lines q (concat ls)) by (intros y i u v e I; apply Off; apply in_or_app; right; exact I). destruct (piece_count h q b m G1 Pc Ok1 Off1 Pg1) as [A1 A2].
  inversion Pk as [|? ? r Fb Kr|? ? ? Fb Kr]; subst.
  - rewrite (A1 Fb id), !count_cons, (IH r G2 Kr Pg2 Ok2 Off2). cbn. lia.
  - rewrite (A2 Fb), (IH F G2 Kr Pg2 Ok2 Off2). reflexivity.
Qed.
(** Whether q is in a polygon can be decided. *)
Lemma all_below (P : nat -> Prop) : (forall i, P i \/ ~ P i) -> forall n, (forall i, (i < n)%nat -> P i) \/ exists i, ~ P i.
Proof. intros D n. induction n as [|n [IH|(i & N)]]; [left; intros; lia| |right; exists i; exact N]. destruct (D n) as [Pn|Pn]; [left; intros i L; destruct (Nat.eq_dec i n) as [->|Ne]; [exact Pn|apply IH; lia]|right; exists n; exact Pn]. Qed.
Lemma point_dec b q : okb b -> bp_point b q \/ ~ bp_point b q.
Proof.
  intros (qs & H). pose proof (ok_n _ _ H) as N. pose proof (ok_length _ _ H) as Ln. pose proof (point_iff _ _ q H) as Pi. pose proof (point_at _ _ H q) as Pa. unfold bp_point. rewrite Pi, Pa. destruct (Qeq_dec (side (pplane (bp_poly b)) q) 0) as [E|E]; [|tauto].
  destruct (all_below (fun i => 0 <= inject_Z (pnormal_drop (bp_poly b)) * turn (qdrop (pdrop (bp_poly b)) (cyc o3 qs i)) (qdrop (pdrop (bp_poly b)) (cyc o3 qs (S i))) (qdrop (pdrop (bp_poly b)) q)) ltac:(intros i; cbv beta; match goal with |- ?x <= ?y \/ _ => destruct (Qlt_le_dec y x) as [L|L] end; [right; apply Qlt_not_le; exact L|left; exact L]) (length qs)) as [A|(i & A)].
  - left. split; [exact E|]. intros i. specialize (A (i mod length qs)%nat ltac:(apply Nat.mod_upper_bound; lia)). cbv beta in A. rewrite cyc_mod, MergeTopProofs.cyc_succ_mod in A by lia. exact A.
  - right. intros [_ X]. exact (A (X i)).
Qed.
Lemma picked_exists P l : (forall b, In b l -> P b \/ ~ P b) -> exists r, picked P l r.
Proof.
  induction l as [|b l IH]; intros D; [exists []; constructor|]. destruct IH as (r & H); [intros x I; apply D; right; exact I|]. destruct (D b (or_introl eq_refl)) as [Y|N]; [exists (b :: r); apply pk_in|exists r; apply pk_out]; assumption.
Qed.
Lemma cut_picked h q l l' F : cut_up l l' -> Forall okb l' -> picked (facing h q) l F -> exists F', picked (facing h q) l' F'.
Proof.
  intros Cu Ok Pk. apply picked_exists. intros x Ix. rewrite Forall_forall in Ok. destruct (point_dec x q (Ok x Ix)) as [Q|Q]; [|right; intros [Y _]; exact (Q Y)]. destruct (cut_from _ _ x Cu Ix) as (b & m & Ib & Pc & Im). destruct (pieces_same b m x Pc Im) as (_ & E & _).
  assert (Qb : bp_point b q) by (apply (pi_union _ _ Pc); exists x; split; assumption). assert (X : facing h q x <-> facing h q b) by (unfold facing; rewrite E; tauto). rewrite X. clear - Pk Ib. induction Pk as [|y l r Py H IH|y l r Py H IH]; [destruct Ib| |]; destruct Ib as [->|I]; auto.
Qed.
