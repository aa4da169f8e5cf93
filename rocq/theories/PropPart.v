(** C39: what PlanePartitioner tells a visitor about the polygons on one plane of
    the border of a leaf. *)
From Coq Require Import List Bool Arith ZArith QArith Lqa Lia ZifyBool.
From Verif Require Import BigUIntModel GeoModel GeoSpec GeoBridge CvxSpec PolyModel PolySpec RTransModel FilterModel FilterSpec BspModel BspSpec BspHistSpec BspGeoProofs BspPolyProofs BspTreeProofs BspHistProofs BspAutoProofs PartModel PartSpec PartProofs PolyCapProofs PolyTopProofs PropPoly PropMerge PropBsp.
Import ListNotations.
Open Scope Q_scope.
Lemma leaf_facts dbg boxed ops t w x s l : legal_ops dbg boxed ops bn_new -> run_ops dbg boxed ops bn_new = Ok t -> at_node t w x -> leaf x -> n_contents x = [] -> incl l (n_border x) -> Forall (fun b => bp_on b = Some s) l ->
  path_ok w /\ (forall id, interior (info_for (n_infos x) id) = 0%nat) /\ Forall (fun b => stored w b /\ bp_on b = Some s /\ border (info_for (n_infos x) (bp_id b)) <> 0%nat) l /\ boxes boxed l.
Proof.
  intros L E A Lf Nc Il On. pose proof (run_ok boxed dbg ops bn_new new_ok ltac:(intros _; constructor) L) as R. rewrite E in R. destruct R as (T & _ & Bx & _). pose proof (proj2 T w x A) as [_ Bo Ct _]. pose proof T as Ts. apply tree_ok_sub in Ts. pose proof (sub_path [] t w x path_ok_nil Ts A) as Pw. cbn [app] in Pw.
  split; [exact Pw|]. destruct (ct_leaf _ _ Ct Lf 0%nat) as [_ _]. pose proof (fun id => proj1 (ct_leaf _ _ Ct Lf id)) as Ci. rewrite Nc in Ci. split; [exact Ci|]. rewrite Forall_forall in Bo, On. split.
  - apply Forall_forall. intros b I. specialize (Il b I). split; [apply (Bo b Il)|]. split; [apply On; exact I|]. rewrite (proj2 (ct_leaf _ _ Ct Lf (bp_id b))). unfold count_id. intros Z. apply length_zero_iff_nil in Z. assert (J : In b (List.filter (fun b' => (bp_id b' =? bp_id b)%nat) (n_border x))) by (apply filter_In; split; [exact Il|apply Nat.eqb_refl]). rewrite Z in J. destruct J.
  - intros Eb. pose proof (node_boxes boxed t w x A Bx Eb) as Bn. rewrite Forall_forall in Bn. apply Forall_forall. intros b I. apply Bn. destruct x as [|sx cs bs infos n p]; [destruct (Il b I)|]. cbn [all_polys]. apply in_or_app. right. apply in_or_app. left. apply (Il b I).
Qed.
(** At a point of the plane that is on no edge line, the polygons that are accepted
    are parts of those of the given polygons at which the filter's answer changes
    while all the polygons that contain the point are crossed one after the other,
    starting with the winding numbers of the leaf.  The call ends after at most one
    level of recursion per edge. *)
Theorem C39_peel : forall dbg boxed ops t, legal_ops dbg boxed ops bn_new -> run_ops dbg boxed ops bn_new = Ok t ->
  forall w x s l, at_node t w x -> leaf x -> n_contents x = [] -> incl l (n_border x) -> Forall (fun b => bp_on b = Some s) l ->
  forall f d pos fuel, (d < 3)%nat -> comp (hn (ss_split s)) d <> 0%Z -> covered f (length (n_infos x)) -> (list_sum (map (fun b => length (pedges (bp_poly b))) l) <= fuel)%nat ->
  match part_run fuel dbg (eval f) d pos (n_infos x) l with
  | Ok evs => forall q, on_split s q -> off_lines q l -> forall stack, at_point q l stack ->
      exists sel got, flips f d pos (winding_of (n_infos x)) stack sel /\ at_point q (accepted evs) got /\ Forall2 part_of got sel
  | UB => boxed = true
  | _ => False
  end.
Proof.
  intros dbg boxed ops t L E w x s l A Lf Nc Il On f d pos fuel Ld Nd C Fu. destruct (leaf_facts dbg boxed ops t w x s l L E A Lf Nc Il On) as (P & I0 & F & Bx).
  pose proof (leaf_run boxed dbg f d pos w (n_infos x) s l fuel P Ld Nd C I0 F Bx Fu) as G. destruct (part_run fuel dbg (eval f) d pos (n_infos x) l); cbn [good] in G; try exact G. apply G.
Qed.
Print Assumptions C39_peel.
(** The visitor is led through a partition of the leaf's cell: planes are announced
    and withdrawn like brackets, and what an accepted polygon says about the planes
    that are announced, and about those of the tree, is exact.  An accepted polygon
    is a part of a given one. *)
Theorem C39_tour : forall dbg boxed ops t, legal_ops dbg boxed ops bn_new -> run_ops dbg boxed ops bn_new = Ok t ->
  forall w x s l, at_node t w x -> leaf x -> n_contents x = [] -> incl l (n_border x) -> Forall (fun b => bp_on b = Some s) l ->
  forall f d pos fuel evs, (d < 3)%nat -> comp (hn (ss_split s)) d <> 0%Z -> covered f (length (n_infos x)) -> (list_sum (map (fun b => length (pedges (bp_poly b))) l) <= fuel)%nat ->
  part_run fuel dbg (eval f) d pos (n_infos x) l = Ok evs -> tour w evs /\ Forall (fun y => exists b, In b l /\ part_of y b) (accepted evs).
Proof.
  intros dbg boxed ops t L E w x s l A Lf Nc Il On f d pos fuel evs Ld Nd C Fu Er. destruct (leaf_facts dbg boxed ops t w x s l L E A Lf Nc Il On) as (P & I0 & F & Bx).
  pose proof (leaf_run boxed dbg f d pos w (n_infos x) s l fuel P Ld Nd C I0 F Bx Fu) as G. rewrite Er in G. cbn [good] in G. split; apply G.
Qed.
Print Assumptions C39_tour.
(** The number of changes is even exactly if the answer is the same before and after
    all polygons have been crossed. *)
Theorem C39_parity : forall f d pos w stack sel, flips f d pos w stack sel -> Nat.Even (length sel) <-> (inside f w <-> inside f (after d pos w stack)).
Proof. intros f d pos w stack sel. apply flips_parity. Qed.
Print Assumptions C39_parity.
(** As BSPTraverser calls it, the polygons face out of the cell and are crossed that
    way.  Then, with a filter without OddPolygonFilter and XORFilter, at most one
    polygon is accepted at a point, and one is exactly if the leaf is inside of the
    result and what is beyond all the polygons is not. *)
Theorem C39_single : forall dbg boxed ops t, legal_ops dbg boxed ops bn_new -> run_ops dbg boxed ops bn_new = Ok t ->
  forall w x s b0 l, at_node t w x -> leaf x -> n_contents x = [] -> incl (b0 :: l) (n_border x) -> Forall (fun b => bp_on b = Some s) (b0 :: l) ->
  forall f fuel evs, covered f (length (n_infos x)) -> monotone f -> (list_sum (map (fun b => length (pedges (bp_poly b))) (b0 :: l)) <= fuel)%nat ->
  let d := pdrop (bp_poly b0) in let pos := (comp (hn (pplane (bp_poly b0))) d <? 0)%Z in
  part_run fuel dbg (eval f) d pos (n_infos x) (b0 :: l) = Ok evs ->
  forall q, on_split s q -> off_lines q (b0 :: l) -> forall stack, at_point q (b0 :: l) stack ->
  exists got, at_point q (accepted evs) got /\ (length got <= 1)%nat /\
    (got <> [] <-> inside f (winding_of (n_infos x)) /\ ~ inside f (after d pos (winding_of (n_infos x)) stack)).
Proof.
  intros dbg boxed ops t L E w x s b0 l A Lf Nc Il On f fuel evs C M Fu d pos Er q Oq Off stack Ap. destruct (leaf_facts dbg boxed ops t w x s (b0 :: l) L E A Lf Nc Il On) as (P & I0 & F & Bx).
  inversion F as [|? ? (S0 & O0 & _) _]; subst. destruct (stored_st w b0 P S0) as (qs & H0). destruct (po_drop _ _ (s_ok _ _ _ H0)) as [Ld Np]. fold d in Ld.
  assert (Fo : forall b, In b (b0 :: l) -> exists k, 0 < k /\ qp_eq (qpt (hn (pplane (bp_poly b)))) (qscale (if ss_pos s then - k else k) (qpt (hn (ss_split s))))) by (intros b Ib; rewrite Forall_forall in F; destruct (F b Ib) as (Sb & Ob & _); exact (st_faces _ _ Sb s Ob)).
  assert (Cd : forall b, In b (b0 :: l) -> exists k, 0 < k /\ inject_Z (comp (hn (pplane (bp_poly b))) d) == (if ss_pos s then - k else k) * inject_Z (comp (hn (ss_split s)) d)).
  { intros b Ib. destruct (Fo b Ib) as (k & K & (E1 & E2 & E3)). exists k. split; [exact K|]. unfold qpt, qscale in *. cbn [qx qy qz] in *. destruct d as [|[|d']]; assumption. }
  assert (Nd : comp (hn (ss_split s)) d <> 0%Z). { intros Z. destruct (Cd b0 (or_introl eq_refl)) as (k & K & Ek). rewrite Z in Ek. assert (Ez : inject_Z (comp (hn (pplane (bp_poly b0))) d) == inject_Z 0) by (rewrite Ek; change (inject_Z 0) with 0; ring). rewrite inject_Z_injective in Ez. exact (Np Ez). }
  pose proof (leaf_run boxed dbg f d pos w (n_infos x) s (b0 :: l) fuel P Ld Nd C I0 F Bx Fu) as G. rewrite Er in G. cbn [good] in G. destruct G as (_ & _ & G). destruct (G q Oq Off stack Ap) as (sel & got & Fl & Ag & Fg).
  assert (St : Forall (fun b => crossing_step d pos b = (-1)%Z) stack).
  { apply Forall_forall. intros b Ib. destruct (at_point_in q _ _ b Ap Ib) as [Ib' _]. destruct (Cd b Ib') as (k & K & Ek), (Cd b0 (or_introl eq_refl)) as (k0 & K0 & Ek0). unfold crossing_step, pos. fold d in Np. set (z := comp (hn (pplane (bp_poly b))) d) in *. change (comp (hn (pplane (bp_poly b0))) d) with (pnormal_drop (bp_poly b0)) in *. set (z0 := pnormal_drop (bp_poly b0)) in *. change (z0 <> 0%Z) in Np. set (c := inject_Z (comp (hn (ss_split s)) d)) in *.
    assert (Sg : (0 < z)%Z <-> (0 < z0)%Z). { rewrite !Zlt_Qlt. change (inject_Z 0) with 0. rewrite Ek, Ek0. clearbody c. clear - K K0. destruct (ss_pos s); split; intros X; nra. }
    destruct (Z.ltb_spec 0 z), (Z.ltb_spec z0 0); cbn [Bool.eqb]; try reflexivity; exfalso; lia. }
  destruct (flips_monotone f d pos stack M St _ _ Fl) as [L1 L2]. exists got. split; [exact Ag|]. pose proof (Forall2_len _ _ _ Fg) as Le. split; [lia|]. rewrite <- L2. destruct got, sel; cbn in Le; try discriminate; split; intros; congruence.
Qed.
Print Assumptions C39_single.

(** Two overlapping squares with different ids are added, and the root is split by
    their plane. *)
Definition shifted : list vec3 := [V3 1 1 0; V3 3 1 0; V3 3 3 0; V3 1 3 0].
Definition part_ops (p o : poly unit) : list bop := [OAdd 0 [p]; OAdd 1 [o]; OSplit [] up].
Lemma shifted_case : exists p, poly_of_points tt up 2 shifted = Ok p /\ poly_ok p (rotate 3 (map qpt shifted)).
Proof. apply (C47_from_points unit tt up 2); [lia|discriminate|unfold shifted; repeat (apply Forall_cons; [vm_compute; reflexivity|]); apply Forall_nil|apply convex_test; vm_compute; reflexivity]. Qed.
Example part_case : exists p o, legal_ops true false (part_ops p o) bn_new /\ exists t x b0 b1, run_ops true false (part_ops p o) bn_new = Ok t /\ at_node t [SS up false] x /\ leaf x /\ n_contents x = [] /\
  n_border x = [b0; b1] /\ Forall (fun b => bp_on b = Some (SS up false)) [b0; b1] /\ list_sum (map (fun b => length (pedges (bp_poly b))) [b0; b1]) = 8%nat /\
  let f := FUnion (FInv 0) (FInv 1) in covered f (length (n_infos x)) /\ monotone f /\ pdrop (bp_poly b0) = 2%nat /\
  exists evs b, part_run 8 true (eval f) 2 (comp (hn (pplane (bp_poly b0))) 2 <? 0)%Z (n_infos x) [b0; b1] = Ok evs /\ length evs = 16%nat /\ accepted evs = [b] /\
    map (fun e => pv e) (pedges (bp_poly b)) = [HP (V3 4 8 0) 4; HP (V3 1 1 0) 1; HP (V3 (-8) (-4) 0) (-4); HP (V3 (-8) (-8) 0) (-4)].
Proof.
  destruct (square_case 0) as (p & Ep & P); [auto|]. destruct shifted_case as (o & Eo & O). exists p, o.
  assert (X := Ep). assert (Y := Eo). vm_compute in X, Y. injection X as X. injection Y as Y. split.
  - assert (Fp : Forall (fun p => exists qs, poly_ok p qs) [p]) by (constructor; [eexists; exact P|constructor]). assert (Fo : Forall (fun p => exists qs, poly_ok p qs) [o]) by (constructor; [eexists; exact O|constructor]).
    cbn [legal_ops part_ops]. split; [split; [exact Fp|left; reflexivity]|]. intros t1 E1. rewrite <- X in E1. vm_compute in E1. injection E1 as <-.
    split; [split; [exact Fo|left; reflexivity]|]. intros t2 E2. rewrite <- Y in E2. vm_compute in E2. injection E2 as <-.
    split; [|intros; exact I]. eexists [], _. split; [split; [apply at_root; discriminate|reflexivity]|]. split; [reflexivity|]. split; [reflexivity|]. intros s [].
  - rewrite <- X, <- Y. eexists _, _, _, _. split; [vm_compute; reflexivity|]. split; [apply at_neg, at_root; discriminate|]. split; [reflexivity|]. split; [reflexivity|]. split; [vm_compute; reflexivity|].
    split; [repeat constructor|]. split; [reflexivity|]. split; [cbn; lia|]. split; [cbn; auto|]. split; [reflexivity|]. eexists _, _. split; [vm_compute; reflexivity|]. split; [reflexivity|]. split; reflexivity.
Qed.
(** With OddPolygonFilter, two equal polygons that face the same way are both
    accepted, although nothing changes across the pair. *)
Theorem C39_odd_refuted : exists p t x b0 b1, legal_ops true false [OAdd 0 [p; p]; OSplit [] up] bn_new /\ run_ops true false [OAdd 0 [p; p]; OSplit [] up] bn_new = Ok t /\ at_node t [SS up false] x /\ leaf x /\ n_contents x = [] /\ n_border x = [b0; b1] /\
  pplane (bp_poly b0) = up /\ pplane (bp_poly b1) = up /\ (forall q, bp_point b0 q <-> bp_point b1 q) /\
  let d := pdrop (bp_poly b0) in let pos := (comp (hn (pplane (bp_poly b0))) d <? 0)%Z in let f := FOdd 0 in
  (inside f (winding_of (n_infos x)) <-> inside f (after d pos (winding_of (n_infos x)) [b0; b1])) /\
  exists evs, part_run 8 true (eval f) d pos (n_infos x) [b0; b1] = Ok evs /\ map pplane (map bp_poly (accepted evs)) = [up; up].
Proof.
  destruct (square_case 0) as (p & Ep & P); [auto|]. exists p. assert (X := Ep). vm_compute in X. injection X as X. eexists _, _, _, _. split.
  - assert (Fp : Forall (fun p => exists qs, poly_ok p qs) [p; p]) by (constructor; [eexists; exact P|constructor; [eexists; exact P|constructor]]).
    cbn [legal_ops]. split; [split; [exact Fp|left; reflexivity]|]. intros t1 E1. rewrite <- X in E1. vm_compute in E1. injection E1 as <-.
    split; [|intros; exact I]. eexists [], _. split; [split; [apply at_root; discriminate|reflexivity]|]. split; [reflexivity|]. split; [reflexivity|]. intros s [].
  - rewrite <- X. split; [vm_compute; reflexivity|]. split; [apply at_neg, at_root; discriminate|]. split; [reflexivity|]. split; [reflexivity|]. split; [vm_compute; reflexivity|]. split; [reflexivity|]. split; [reflexivity|]. split; [intros q; reflexivity|].
    split; [cbn [inside]; split; intros K; apply Z.odd_spec in K; vm_compute in K; discriminate|]. eexists. split; vm_compute; reflexivity.
Qed.
Print Assumptions C39_odd_refuted.
