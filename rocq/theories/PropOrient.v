(** Property C60: OrientingMonotoneDecomposer. *)
From Coq Require Import List Bool Arith ZArith QArith Lqa Lia ZifyBool.
From Verif Require Import BigUIntModel GeoModel GeoSpec CvxSpec GeoProofs GeoPluckerProofs TriModel TriSpec TriProofs TriGeoProofs TriTileProofs MonoRangeModel MonoRangeSpec
  DecModel DecSpec DecProofs DecTopProofs DecTestProofs OrientModel OrientSpec OrientProofs OrientTopProofs.
Import ListNotations.
Open Scope Q_scope.

(** ** Whatever the chains are *)
(** The emitted polygons together have the boundary of the cycle along the first
    chain and back along the second one, or a single polygon with orientation 0
    is emitted, which is that cycle in the other direction. *)
Theorem C60_boundary_point3 : forall dbg drop mono chain1 chain2 out, same_ends chain1 chain2 -> od_build dbg kind_point3 drop mono chain1 chain2 = Ok out ->
  same_boundary (map snd out) [loop_of chain1 chain2] \/ exists l, out = [(0%Z, l)] /\ rotation l (rev (loop_of chain1 chain2)).
Proof.
  intros dbg drop mono c1 c2 out SE E. pose proof (od_boundary dbg kind_point3 drop mono c1 c2 out (fun p => p) (fun _ => True)) as H.
  rewrite map_id in H. replace (map snd out) with (map (fun e : Z * list vec3 => map (fun p => p) (snd e)) out) by (apply map_ext; intros e; apply map_id).
  apply H; [|apply Forall_forall; intros; exact I|apply Forall_forall; intros; exact I|exact SE|exact E]. intros [x y z] [x' y' z'] _ _ Q. apply v3_eq_true in Q. cbn in Q. destruct Q as (-> & -> & ->). reflexivity.
Qed.
Print Assumptions C60_boundary_point3.
Theorem C60_boundary_homo3 : forall dbg drop mono chain1 chain2 out, (forall p, In p (chain1 ++ chain2) -> hw p <> 0%Z) -> same_ends chain1 chain2 -> od_build dbg kind_homo3 drop mono chain1 chain2 = Ok out ->
  same_boundary (map (fun e => map hp_reduced (snd e)) out) [map hp_reduced (loop_of chain1 chain2)] \/ exists l, out = [(0%Z, l)] /\ rotation l (rev (loop_of chain1 chain2)).
Proof.
  intros dbg drop mono c1 c2 out W SE E. apply (od_boundary dbg kind_homo3 drop mono c1 c2 out hp_reduced (fun p => hw p <> 0%Z)); [|apply Forall_forall; intros p Hp; apply W; apply in_or_app; tauto|apply Forall_forall; intros p Hp; apply W; apply in_or_app; tauto|exact SE|exact E].
  intros a b Ga Gb Q. apply (hp_eq_spec a b _ _ (hp_point_denotes a Ga) (hp_point_denotes b Gb)) in Q. destruct Q as (Q1 & Q2 & Q3). unfold hp_reduced. rewrite (Qred_complete _ _ Q1), (Qred_complete _ _ Q2), (Qred_complete _ _ Q3). reflexivity.
Qed.
Print Assumptions C60_boundary_homo3.

(** ** Chains that do not cross *)
(** If it can be told from their start which chain is the top one ([told]: in
    particular if the first edges are not on one line), then for polygons as in
    property C59 the emitted polygons are convex and counter-clockwise if the
    bottom chain is the first one, clockwise if the top chain is the first one,
    or flat. *)
Theorem C60_convex_point3_partial : forall dbg drop mono m top bottom mx (top_first : bool), (drop < 3)%nat -> (mono < 3)%nat -> mono <> drop ->
  let pos := fun p => seen drop mono (qpt p) in
  let tops := m :: top ++ [mx] in let bottoms := m :: bottom ++ [mx] in
  chains_ok (map pos tops) (map pos bottoms) -> told (map pos tops) (map pos bottoms) top_first -> (1 <= length top + length bottom)%nat ->
  all_distinct (map pos (polygon_of (m :: top) (bottom ++ [mx]))) -> straight_runs (map pos tops) -> straight_runs (map pos bottoms) -> upright_chains (map pos tops) (map pos bottoms) ->
  twists_fit kind_point3 drop (polygon_of (m :: top) (bottom ++ [mx])) ->
  exists out, od_build dbg kind_point3 drop mono (if top_first then tops else bottoms) (if top_first then bottoms else tops) = Ok out /\
    Forall (fun e => oriented (fst e) (map pos (snd e)) /\ (fst e = 0 \/ fst e = if top_first then 1 else -1)%Z) out.
Proof.
  intros dbg drop mono m top bottom mx tf H1 H2 H3 pos tops bottoms CO TD L AD VT VB W F.
  apply (od_convex _ _ _ _ _ (kind_ok_point3 drop mono H1 H2 H3) (kind_dec_point3 drop mono H1) (kind_orient_point3 drop mono H1 H2 H3) m mx top bottom dbg tf); try assumption; apply Forall_forall; intros; exact I.
Qed.
Print Assumptions C60_convex_point3_partial.
Theorem C60_convex_homo3_partial : forall s dbg drop mono m top bottom mx (top_first : bool), (drop < 3)%nat -> (mono < 3)%nat -> mono <> drop ->
  (forall p, In p (m :: top ++ bottom ++ [mx]) -> 0 < s * hw p)%Z ->
  let pos := fun p => seen drop mono (hp_point p) in
  let tops := m :: top ++ [mx] in let bottoms := m :: bottom ++ [mx] in
  chains_ok (map pos tops) (map pos bottoms) -> told (map pos tops) (map pos bottoms) top_first -> (1 <= length top + length bottom)%nat ->
  all_distinct (map pos (polygon_of (m :: top) (bottom ++ [mx]))) -> straight_runs (map pos tops) -> straight_runs (map pos bottoms) -> upright_chains (map pos tops) (map pos bottoms) ->
  twists_fit kind_homo3 drop (polygon_of (m :: top) (bottom ++ [mx])) ->
  exists out, od_build dbg kind_homo3 drop mono (if top_first then tops else bottoms) (if top_first then bottoms else tops) = Ok out /\
    Forall (fun e => oriented (fst e) (map pos (snd e)) /\ (fst e = 0 \/ fst e = if top_first then 1 else -1)%Z) out.
Proof.
  intros s dbg drop mono m top bottom mx tf H1 H2 H3 WS pos tops bottoms CO TD L AD VT VB W F.
  apply (od_convex _ _ _ _ _ (kind_ok_homo3 drop mono s H1 H2 H3) (kind_dec_homo3 drop mono s H1) (kind_orient_homo3 drop mono s H1 H2 H3) m mx top bottom dbg tf); try assumption;
    apply Forall_forall; intros x Hx; apply WS; cbn [In] in *; rewrite !in_app_iff in *; cbn [In] in *; tauto.
Qed.
Print Assumptions C60_convex_homo3_partial.

(** ** Chains that may cross *)
(** If no edge is vertical and the vertices are distinct, each emitted polygon is
    convex, counter-clockwise or clockwise as its orientation says, or flat. *)
Theorem C60_crossing_point3_partial : forall dbg drop mono m c1 c2 mx, (drop < 3)%nat -> (mono < 3)%nat -> mono <> drop ->
  let pos := fun p => seen drop mono (qpt p) in
  strictly_rightwards (map pos (m :: c1 ++ [mx])) -> strictly_rightwards (map pos (m :: c2 ++ [mx])) ->
  all_distinct (map pos (m :: c1 ++ c2 ++ [mx])) -> twists_fit kind_point3 drop (m :: c1 ++ c2 ++ [mx]) ->
  exists out, od_build dbg kind_point3 drop mono (m :: c1 ++ [mx]) (m :: c2 ++ [mx]) = Ok out /\ Forall (fun e => oriented (fst e) (map pos (snd e))) out.
Proof.
  intros dbg drop mono m c1 c2 mx H1 H2 H3 pos S1 S2 AD F.
  apply (od_crossing _ _ _ _ _ (kind_ok_point3 drop mono H1 H2 H3) (kind_dec_point3 drop mono H1) (kind_orient_point3 drop mono H1 H2 H3)); try assumption; apply Forall_forall; intros; exact I.
Qed.
Print Assumptions C60_crossing_point3_partial.
Theorem C60_crossing_homo3_partial : forall s dbg drop mono m c1 c2 mx, (drop < 3)%nat -> (mono < 3)%nat -> mono <> drop ->
  (forall p, In p (m :: c1 ++ c2 ++ [mx]) -> 0 < s * hw p)%Z ->
  let pos := fun p => seen drop mono (hp_point p) in
  strictly_rightwards (map pos (m :: c1 ++ [mx])) -> strictly_rightwards (map pos (m :: c2 ++ [mx])) ->
  all_distinct (map pos (m :: c1 ++ c2 ++ [mx])) -> twists_fit kind_homo3 drop (m :: c1 ++ c2 ++ [mx]) ->
  exists out, od_build dbg kind_homo3 drop mono (m :: c1 ++ [mx]) (m :: c2 ++ [mx]) = Ok out /\ Forall (fun e => oriented (fst e) (map pos (snd e))) out.
Proof.
  intros s dbg drop mono m c1 c2 mx H1 H2 H3 WS pos S1 S2 AD F.
  apply (od_crossing _ _ _ _ _ (kind_ok_homo3 drop mono s H1 H2 H3) (kind_dec_homo3 drop mono s H1) (kind_orient_homo3 drop mono s H1 H2 H3)); try assumption;
    apply Forall_forall; intros x Hx; apply WS; cbn [In] in *; rewrite !in_app_iff in *; cbn [In] in *; tauto.
Qed.
Print Assumptions C60_crossing_homo3_partial.

(** ** Points on one line *)
(** Without assertions, one polygon with orientation 0 is emitted (vertices may
    be repeated). *)
Theorem C60_flat_point3 : forall drop mono m c1 c2 mx, (drop < 3)%nat -> (mono < 3)%nat -> mono <> drop ->
  let pos := fun p => seen drop mono (qpt p) in
  rightwards (map pos (m :: c1 ++ [mx])) -> rightwards (map pos (m :: c2 ++ [mx])) -> ~ qp2_eq (pos m) (pos mx) -> flat (map pos (m :: c1 ++ c2 ++ [mx])) ->
  od_build false kind_point3 drop mono (m :: c1 ++ [mx]) (m :: c2 ++ [mx]) = Ok [(0%Z, rev (m :: c1) ++ c2 ++ [mx])].
Proof.
  intros drop mono m c1 c2 mx H1 H2 H3 pos R1 R2 N F.
  apply (od_flat _ _ _ _ _ (kind_dec_point3 drop mono H1) (kind_orient_point3 drop mono H1 H2 H3)); try assumption; apply Forall_forall; intros; exact I.
Qed.
Print Assumptions C60_flat_point3.
Theorem C60_flat_homo3 : forall s drop mono m c1 c2 mx, (drop < 3)%nat -> (mono < 3)%nat -> mono <> drop -> (forall p, In p (m :: c1 ++ c2 ++ [mx]) -> 0 < s * hw p)%Z ->
  let pos := fun p => seen drop mono (hp_point p) in
  rightwards (map pos (m :: c1 ++ [mx])) -> rightwards (map pos (m :: c2 ++ [mx])) -> ~ qp2_eq (pos m) (pos mx) -> flat (map pos (m :: c1 ++ c2 ++ [mx])) ->
  od_build false kind_homo3 drop mono (m :: c1 ++ [mx]) (m :: c2 ++ [mx]) = Ok [(0%Z, rev (m :: c1) ++ c2 ++ [mx])].
Proof.
  intros s drop mono m c1 c2 mx H1 H2 H3 WS pos R1 R2 N F.
  apply (od_flat _ _ _ _ _ (kind_dec_homo3 drop mono s H1) (kind_orient_homo3 drop mono s H1 H2 H3)); try assumption;
    apply Forall_forall; intros x Hx; apply WS; cbn [In] in *; rewrite !in_app_iff in *; cbn [In] in *; tauto.
Qed.
Print Assumptions C60_flat_homo3.

(** ** Repeated vertices *)
(** Copies of the minimum at the start of the chains make no difference to
    which chain is taken to be the top one. *)
Theorem C60_repeated_min : forall dbg drop mono m n1 n2 f1 r1 f2 r2, f1 <> m -> f2 <> m ->
  od_detect dbg kind_point3 drop mono (m :: repeat m n1 ++ f1 :: r1) (m :: repeat m n2 ++ f2 :: r2) = od_detect dbg kind_point3 drop mono (m :: f1 :: r1) (m :: f2 :: r2).
Proof. exact detect_repeated. Qed.
Print Assumptions C60_repeated_min.
(** A first chain that consists of copies of the minimum: one flat polygon. *)
Theorem C60_constant : forall dbg drop mono m n c2, od_build dbg kind_point3 drop mono (m :: repeat m (S n)) (m :: c2 ++ [m]) = Ok [(0%Z, rev (m :: repeat m n) ++ c2 ++ [m])].
Proof.
  intros dbg drop mono m n c2. unfold od_build. rewrite detect_constant. cbn [rbind tl]. do 5 f_equal. change (m :: repeat m (S n)) with (repeat m (S (S n))). replace (repeat m (S (S n))) with ((m :: repeat m n) ++ [m]); [apply removelast_last|].
  cbn [app]. rewrite <- repeat_cons. reflexivity.
Qed.
Print Assumptions C60_constant.
Example C60_case_constant : od_build true kind_point3 2 0 [V3 0 0 0; V3 0 0 0] [V3 0 0 0; V3 0 3 0; V3 0 0 0] = Ok [(0%Z, [V3 0 0 0; V3 0 3 0; V3 0 0 0])].
Proof. exact (C60_constant true 2 0 (V3 0 0 0) 0 [V3 0 3 0]). Qed.

(** ** Where it goes wrong *)
(** If the chains leave the first vertex straight up and down, and going to the
    right a vertex of the first chain comes first (or is not the second one),
    then the chains are taken for each other: the decomposer of property C59 gets
    the bottom chain as its top chain. *)
Theorem C60_upright_refuted : forall dbg drop mono m top bottom mx (top_first : bool), (drop < 3)%nat -> (mono < 3)%nat -> mono <> drop ->
  let pos := fun p => seen drop mono (qpt p) in
  let tops := m :: top ++ [mx] in let bottoms := m :: bottom ++ [mx] in
  rightwards (map pos tops) -> rightwards (map pos bottoms) -> upright_start (map pos tops) (map pos bottoms) ->
  (if top_first then first_right (map pos tops) (map pos bottoms) false else first_right (map pos bottoms) (map pos tops) false) ->
  od_build dbg kind_point3 drop mono (if top_first then tops else bottoms) (if top_first then bottoms else tops) =
  rbind (md_build dbg kind_point3 drop mono (m :: bottom) (top ++ [mx])) (fun out => Ok (if top_first then out else map (fun e => ((- fst e)%Z, rev (snd e))) out)).
Proof.
  intros dbg drop mono m top bottom mx tf H1 H2 H3 pos tops bottoms RT RB US FR.
  assert (G : forall l : list vec3, Forall (fun _ => True) l) by (intros l; apply Forall_forall; intros; exact I).
  pose proof (detect_wrong _ _ _ _ _ (kind_dec_point3 drop mono H1) (kind_orient_point3 drop mono H1 H2 H3) m mx top bottom dbg tf (G _) (G _) RT RB US FR) as D.
  unfold tops, bottoms. rewrite (build_of_detect _ _ _ m mx top bottom dbg tf (negb tf) D). destruct tf; reflexivity.
Qed.
Print Assumptions C60_upright_refuted.
(** For example: a simple polygon with a notch at (1, 1) and three vertices on
    its left side.  A counter-clockwise triangle outside of the polygon is emitted,
    among clockwise polygons. *)
Definition notch_top : list vec3 := [V3 0 4 0; V3 1 1 0; V3 2 4 0].
Definition notch_bottom : list vec3 := [V3 0 (-4) 0; V3 5 (-4) 0].
Definition px (p : vec3) : qpoint2 := seen 2 0 (qpt p).
Theorem C60_notch_refuted : let tops := V3 0 0 0 :: notch_top ++ [V3 6 0 0] in let bottoms := V3 0 0 0 :: notch_bottom ++ [V3 6 0 0] in
  chains_ok (map px tops) (map px bottoms) /\ all_distinct (map px (polygon_of (V3 0 0 0 :: notch_top) (notch_bottom ++ [V3 6 0 0]))) /\ straight_runs (map px tops) /\ straight_runs (map px bottoms) /\
  upright_chains (map px tops) (map px bottoms) /\
  exists out, od_build true kind_point3 2 0 tops bottoms = Ok out /\ In ((-1)%Z, [V3 0 4 0; V3 1 1 0; V3 2 4 0]) out /\ map fst out = [0; -1; 1; 1]%Z.
Proof.
  split; [apply chains_test; vm_compute; reflexivity|]. split; [apply distinct_test; vm_compute; reflexivity|]. split; [apply runs_test; vm_compute; reflexivity|]. split; [apply runs_test; vm_compute; reflexivity|].
  split; [apply upright_test; vm_compute; reflexivity|]. eexists. split; [vm_compute; reflexivity|]. split; [right; left; reflexivity|reflexivity].
Qed.
Print Assumptions C60_notch_refuted.
(** With the vertices in this order (the second chain has a vertex on the first
    one, and its last edge is vertical), the triangle is taken to be flat; with
    assertions the program stops. *)
Theorem C60_max_refuted : let c1 := [V3 0 0 0; V3 2 0 0] in let c2 := [V3 0 0 0; V3 1 0 0; V3 2 1 0; V3 2 0 0] in
  od_build true kind_point3 2 0 c1 c2 = AssertFail /\
  exists l, od_build false kind_point3 2 0 c1 c2 = Ok [(0%Z, l)] /\ ~ flat (map px l).
Proof.
  split; [reflexivity|]. eexists. split; [reflexivity|]. intros F. specialize (F (px (V3 0 0 0)) (px (V3 1 0 0)) (px (V3 2 1 0))).
  assert (H : turn (px (V3 0 0 0)) (px (V3 1 0 0)) (px (V3 2 1 0)) == 0) by (apply F; vm_compute; tauto). vm_compute in H. discriminate.
Qed.
Print Assumptions C60_max_refuted.
(** Vertices on one vertical line: the assertion that only the maximum is left
    fails. *)
Theorem C60_vertical_refuted : od_build true kind_point3 2 0 [V3 0 0 0; V3 0 2 0] [V3 0 0 0; V3 0 1 0; V3 0 2 0] = AssertFail.
Proof. reflexivity. Qed.
Print Assumptions C60_vertical_refuted.
(** If the minimum and the maximum are equal, the end of the second chain is
    read; also if a chain has only one vertex. *)
Theorem C60_end_refuted : od_build false kind_point3 2 0 [V3 0 0 0; V3 0 1 0; V3 0 0 0] [V3 0 0 0; V3 0 0 0] = UB /\ od_build false kind_point3 2 0 [V3 0 0 0] [V3 0 0 0] = UB.
Proof. split; reflexivity. Qed.
Print Assumptions C60_end_refuted.
(** Chains that start on one line, with the top chain below it later: the
    top chain is taken for the bottom one.  (Here the bottom chain is first, so
    polygons should be counter-clockwise.) *)
Theorem C60_overlap_refuted : let tops := [V3 0 0 0; V3 2 0 0; V3 3 (-2) 0; V3 4 (-1) 0; V3 8 0 0] in let bottoms := [V3 0 0 0; V3 1 0 0; V3 5 (-10) 0; V3 8 0 0] in
  chains_ok (map px tops) (map px bottoms) /\ exists out, od_build true kind_point3 2 0 bottoms tops = Ok out /\ In 1%Z (map fst out).
Proof.
  split; [apply chains_test; vm_compute; reflexivity|]. eexists. split; [vm_compute; reflexivity|]. cbn. tauto.
Qed.
Print Assumptions C60_overlap_refuted.

(** ** Cases *)
(** The polygon of C59_case: the chains leave straight up and down, and the first
    vertex to the right is in the bottom chain. *)
Definition ex_m : vec3 := V3 0 3 0.
Definition ex_mx : vec3 := V3 1 3 9.
Definition ex_top : list vec3 := [V3 2 3 0; V3 4 3 0; V3 1 3 2; V3 2 3 5; V3 3 3 5; V3 4 3 9].
Definition ex_bottom : list vec3 := [V3 (-1) 3 0; V3 (-3) 3 1; V3 0 3 2; V3 0 3 4; V3 (-4) 3 5; V3 (-1) 3 9].
Definition ex_pos (p : vec3) : qpoint2 := seen 1 2 (qpt p).
Example C60_case_upright : told (map ex_pos (ex_m :: ex_top ++ [ex_mx])) (map ex_pos (ex_m :: ex_bottom ++ [ex_mx])) true.
Proof.
  right. right. split.
  - exists (ex_pos ex_m), (ex_pos (V3 2 3 0)), (ex_pos (V3 (-1) 3 0)). split; [eexists; eexists; split; reflexivity|]. vm_compute. repeat split; discriminate.
  - exists (ex_pos ex_m), (ex_pos (V3 (-3) 3 1)). split; [reflexivity|]. split; [right; right; left; reflexivity|]. split; [reflexivity|]. intros p Hp. cbn in Hp.
    repeat (destruct Hp as [<-|Hp]; [vm_compute; intros; first [reflexivity|discriminate]|]). destruct Hp.
Qed.
(** A polygon whose first edges are apart, and one whose first edges overlap; both
    cut into more than one piece. *)
Definition ap_top : list vec3 := [V3 1 2 0; V3 2 1 0; V3 3 2 0].
Definition ap_bottom : list vec3 := [V3 2 (-1) 0].
Example C60_case_apart : let tops := V3 0 0 0 :: ap_top ++ [V3 4 0 0] in let bottoms := V3 0 0 0 :: ap_bottom ++ [V3 4 0 0] in
  told (map px tops) (map px bottoms) true /\ chains_ok (map px tops) (map px bottoms) /\ all_distinct (map px (polygon_of (V3 0 0 0 :: ap_top) (ap_bottom ++ [V3 4 0 0]))) /\ straight_runs (map px tops) /\ straight_runs (map px bottoms) /\
  upright_chains (map px tops) (map px bottoms) /\ exists out, od_build true kind_point3 2 0 tops bottoms = Ok out /\ map fst out = [1; 1]%Z.
Proof.
  split. { left. exists (px (V3 0 0 0)), (px (V3 1 2 0)), (px (V3 2 (-1) 0)). split; [eexists; eexists; split; reflexivity|]. vm_compute. discriminate. }
  split; [apply chains_test; vm_compute; reflexivity|]. split; [apply distinct_test; vm_compute; reflexivity|]. split; [apply runs_test; vm_compute; reflexivity|]. split; [apply runs_test; vm_compute; reflexivity|].
  split; [apply upright_test; vm_compute; reflexivity|]. eexists. split; [vm_compute; reflexivity|reflexivity].
Qed.
Definition sp_top : list vec3 := [V3 2 0 0; V3 3 1 0].
Definition sp_bottom : list vec3 := [V3 1 0 0; V3 3 0 0; V3 4 (-1) 0].
Example C60_case_split : let tops := V3 0 0 0 :: sp_top ++ [V3 5 0 0] in let bottoms := V3 0 0 0 :: sp_bottom ++ [V3 5 0 0] in
  told (map px tops) (map px bottoms) false /\ chains_ok (map px tops) (map px bottoms) /\ all_distinct (map px (polygon_of (V3 0 0 0 :: sp_top) (sp_bottom ++ [V3 5 0 0]))) /\ straight_runs (map px tops) /\ straight_runs (map px bottoms) /\
  upright_chains (map px tops) (map px bottoms) /\ exists out, od_build true kind_point3 2 0 bottoms tops = Ok out /\ map fst out = [0; -1; -1]%Z.
Proof.
  split.
  { right. left. exists (px (V3 0 0 0)), (px (V3 2 0 0)), (px (V3 1 0 0)). split; [eexists; eexists; split; reflexivity|]. split; [reflexivity|]. split; [reflexivity|]. split; [reflexivity|].
    split; [intros p Hp; cbn in Hp; repeat (destruct Hp as [<-|Hp]; [vm_compute; discriminate|]); destruct Hp|]. split; [intros p Hp; cbn in Hp; repeat (destruct Hp as [<-|Hp]; [vm_compute; discriminate|]); destruct Hp|].
    exists (px (V3 3 1 0)). split; [right; right; left; reflexivity|]. split; [vm_compute; discriminate|left; reflexivity]. }
  split; [apply chains_test; vm_compute; reflexivity|]. split; [apply distinct_test; vm_compute; reflexivity|]. split; [apply runs_test; vm_compute; reflexivity|]. split; [apply runs_test; vm_compute; reflexivity|].
  split; [apply upright_test; vm_compute; reflexivity|]. eexists. split; [vm_compute; reflexivity|reflexivity].
Qed.
(** Chains that cross. *)
Example C60_case_crossing : let c1 := [V3 2 2 0; V3 4 (-2) 0; V3 6 3 0] in let c2 := [V3 1 (-1) 0; V3 3 0 0; V3 5 (-1) 0] in
  strictly_rightwards (map px (V3 0 0 0 :: c1 ++ [V3 7 0 0])) /\ strictly_rightwards (map px (V3 0 0 0 :: c2 ++ [V3 7 0 0])) /\ all_distinct (map px (V3 0 0 0 :: c1 ++ c2 ++ [V3 7 0 0])) /\
  exists out, od_build true kind_point3 2 0 (V3 0 0 0 :: c1 ++ [V3 7 0 0]) (V3 0 0 0 :: c2 ++ [V3 7 0 0]) = Ok out /\ map fst out = [1; 0; -1; 1; 1]%Z.
Proof.
  split; [apply strict_test; vm_compute; reflexivity|]. split; [apply strict_test; vm_compute; reflexivity|]. split; [apply distinct_test; vm_compute; reflexivity|].
  eexists. split; [vm_compute; reflexivity|reflexivity].
Qed.
(** The wrong case above meets the hypotheses of C60_upright_refuted. *)
Example C60_case_wrong : let tops := V3 0 0 0 :: notch_top ++ [V3 6 0 0] in let bottoms := V3 0 0 0 :: notch_bottom ++ [V3 6 0 0] in
  upright_start (map px tops) (map px bottoms) /\ first_right (map px tops) (map px bottoms) false.
Proof.
  split.
  - exists (px (V3 0 0 0)), (px (V3 0 4 0)), (px (V3 0 (-4) 0)). split; [eexists; eexists; split; reflexivity|]. vm_compute. repeat split; discriminate.
  - exists (px (V3 0 0 0)), (px (V3 1 1 0)). split; [reflexivity|]. split; [right; right; left; reflexivity|]. split; [reflexivity|]. intros p Hp. cbn in Hp.
    repeat (destruct Hp as [<-|Hp]; [vm_compute; intros; first [reflexivity|discriminate]|]). destruct Hp.
Qed.
