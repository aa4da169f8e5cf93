(** C55: what BSPTraverser shows to a visitor, and C56: what CollectorVisitor makes
    of it. *)
From Coq Require Import List Bool Arith ZArith QArith Qminmax Lqa Lia ZifyBool Permutation.
From Verif Require Import BigUIntModel GeoModel GeoSpec GeoProofs GeoBridge CvxSpec PolyModel PolySpec PolyChildProofs RTransModel FilterModel FilterSpec BspModel BspSpec BspHistSpec BspGeoProofs BspPolyProofs BspTreeProofs BspHistProofs BspAutoProofs PartModel PartSpec PartProofs TravModel TravSpec TravProofs TravPointProofs TravCollProofs PolyCapProofs PolyTopProofs PropPoly PropMerge PropBsp PropPart.
From Verif Require MergeProofs PartGeoProofs PolyBridgeProofs PolyInfoProofs.
Import ListNotations.
Open Scope Q_scope.
Lemma traverse {Sty} dbg boxed ops t f (Inv : Sty -> bnode -> Prop) split default st groups fuel evs t' : legal_ops dbg boxed ops bn_new -> run_ops dbg boxed ops bn_new = Ok t -> splitter dbg Inv split -> starts Inv default st t -> (forall l, grouping l (groups l)) -> (forall w x, at_node t w x -> covered f (length (n_infos x))) ->
  trav_run fuel dbg (eval f) split groups default st t = Ok (evs, t') -> sub_ok [] t' /\ cut_up (added_polys ops) (all_polys t') /\ emits f [] t' evs /\ trip [] evs.
Proof.
  intros L E Sp In Gr C R. pose proof (run_ok boxed dbg ops bn_new new_ok ltac:(intros _; constructor) L) as T. rewrite E in T. destruct T as (T & Cu & Bx & _). destruct (trav_run_ok boxed dbg f Inv split groups default Sp Gr fuel [] st t evs t' path_ok_nil (proj1 (tree_ok_sub t) T) In Bx C R) as (St & Em & Tr). split; [exact (sp_ok _ _ _ _ St)|]. split; [exact (cut_up_trans _ _ _ Cu (sp_cut _ _ _ _ St))|split; assumption].
Qed.
(** The traverser leaves a properly built tree with the same polygons, in pieces.
    It enters and leaves every node and every local plane like brackets, and shows
    the polygons of a cell with exact data.  Everything shown is a part of a polygon
    that has been added. *)
Theorem C55_walk : forall dbg boxed ops t, legal_ops dbg boxed ops bn_new -> run_ops dbg boxed ops bn_new = Ok t ->
  forall f (Sty : Type) (Inv : Sty -> bnode -> Prop) split default st groups fuel evs t', splitter dbg Inv split -> starts Inv default st t -> (forall l, grouping l (groups l)) -> (forall w x, at_node t w x -> covered f (length (n_infos x))) -> trav_run fuel dbg (eval f) split groups default st t = Ok (evs, t') ->
  tree_ok t' /\ cut_up (added_polys ops) (all_polys t') /\ trip [] evs /\
  forall y, In y (shown evs) -> exists b, In b (added_polys ops) /\ bp_id y = bp_id b /\ pplane (bp_poly y) = pplane (bp_poly b) /\ forall q, bp_point y q -> bp_point b q.
Proof.
  intros dbg boxed ops t L E f Sty Inv split default st groups fuel evs t' Sp In Gr C R. destruct (traverse dbg boxed ops t f Inv split default st groups fuel evs t' L E Sp In Gr C R) as (H & Cu & Em & Tr). split; [apply tree_ok_sub; exact H|]. split; [exact Cu|]. split; [exact Tr|].
  intros y I. destruct (emits_parts f [] t' evs Em H y I) as (x & Ix & [P1 [P2 _] _ P4]). destruct (cut_from _ _ x Cu Ix) as (b & m & Ib & Pc & Im). destruct (pieces_same b m x Pc Im) as (Q1 & Q2 & _). exists b. split; [exact Ib|]. split; [congruence|]. split; [congruence|]. intros q Q. apply (pi_union _ _ Pc). exists x. split; [exact Im|exact (P4 q Q)].
Qed.
Print Assumptions C55_walk.
(** With Split() and polygons without boxes, the traverser comes to an end if no
    leaf has more than 40 polygons that are not on its border. *)
Theorem C55_ends : forall dbg gcd nth ops t, gcd_ok gcd -> nth_ok nth -> legal_ops dbg false ops bn_new -> run_ops dbg false ops bn_new = Ok t -> small_leaves t ->
  forall f groups fuel, (forall l, grouping l (groups l)) -> (forall w x, at_node t w x -> covered f (length (n_infos x))) -> (tree_height t + 40 <= fuel)%nat ->
  splitter dbg (fun _ _ => True) (plain (bn_split_auto dbg gcd nth)) /\ exists evs t', trav_run fuel dbg (eval f) (plain (bn_split_auto dbg gcd nth)) groups tt tt t = Ok (evs, t').
Proof.
  intros dbg gcd nth ops t G Nt L E Sm f groups fuel Gr C Fu. split; [exact (auto_splitter dbg gcd nth G Nt)|]. pose proof (run_ok false dbg ops bn_new new_ok ltac:(intros _; constructor) L) as T. rewrite E in T. destruct T as (T & _ & Bx & _).
  destruct (trav_run_total dbg f gcd nth groups G Nt Gr fuel [] t path_ok_nil (proj1 (tree_ok_sub t) T) Bx C Sm Fu) as ([evs t'] & ->). exists evs, t'. reflexivity.
Qed.
Print Assumptions C55_ends.
(** Let wind be winding numbers that agree with the tables of the nodes.  At a point q
    of a plane h, F being the added polygons that contain q and face like h, and got
    what is shown there facing like h: just behind the plane the winding numbers are
    W, and the number of polygons shown is even exactly if W and W without F are both
    inside or both outside of the result.  With filters without OddPolygonFilter and
    XORFilter at most one polygon is shown, and one is exactly if W is inside and W
    without F is not. *)
Theorem C55_shown : forall dbg boxed ops t, legal_ops dbg boxed ops bn_new -> run_ops dbg boxed ops bn_new = Ok t ->
  forall f (Sty : Type) (Inv : Sty -> bnode -> Prop) split default st groups fuel evs t', splitter dbg Inv split -> starts Inv default st t -> (forall l, grouping l (groups l)) -> (forall w x, at_node t w x -> covered f (length (n_infos x))) -> trav_run fuel dbg (eval f) split groups default st t = Ok (evs, t') ->
  forall wind h q F got, (forall w x, at_node t' w x -> table_right wind w x) -> generic t' h q -> picked (facing h q) (added_polys ops) F -> picked (facing h q) (shown evs) got ->
  exists e0, 0 < e0 /\ forall e, 0 < e -> e < e0 -> let W := wind (behind h q e) in
    (Nat.Even (length got) <-> (inside f W <-> inside f (less W F))) /\
    (monotone f -> (length got <= 1)%nat /\ (got <> [] <-> inside f W /\ ~ inside f (less W F))).
Proof.
  intros dbg boxed ops t L E f Sty Inv split default st groups fuel evs t' Sp In Gr C R wind h q F got T (G1 & G2 & G3 & G4) Pk Pg. destruct (traverse dbg boxed ops t f Inv split default st groups fuel evs t' L E Sp In Gr C R) as (H & Cu & Em & _).
  assert (Ok : Forall okb (all_polys t')) by exact (sub_okb t' [] H). destruct (cut_picked h q _ _ F Cu Ok Pk) as (F' & Pk').
  destruct (emits_at f wind h q [] t' evs Em path_ok_nil H T (Gen [] t' h q G1 ltac:(intros s []) G2 G3 G4) (Forall_nil _) F' got Pk' Pg) as (e0 & P0 & X). exists e0. split; [exact P0|]. intros e E1 E2 W.
  apply (told_ext f W W F' F got (fun _ => eq_refl)); [|exact (X e E1 E2)]. intros id. symmetry. exact (cut_count h q _ _ F F' Cu Ok G4 Pk Pk' id).
Qed.
Print Assumptions C55_shown.
Lemma generic_neg t h q : generic t h q -> generic t (hs_neg h) q.
Proof.
  assert (S : forall s, same_plane s h -> same_plane s (hs_neg h)) by (intros s E x; rewrite (E x), side_hs_neg; split; intros; lra).
  intros (G1 & G2 & G3 & G4). split; [rewrite side_hs_neg, G1; reflexivity|]. split; [intros w x A L Z; apply S; exact (G2 w x A L Z)|]. split; [intros b I Z; apply S; exact (G3 b I Z)|exact G4].
Qed.
Lemma less_le W F id : (less W F id <= W id)%Z.
Proof. unfold less. lia. Qed.
(** Both sides of the plane together, if crossing it changes the winding numbers by
    the polygons there: F are those that face like h, G those that face the other way.
    The number of polygons shown, counting both orientations, is odd exactly if one
    side is inside of the result and the other is not.  Without OddPolygonFilter and
    XORFilter, a border of the result is shown once and facing outside; where both
    sides are outside nothing is shown; and where both sides are inside, nothing, or
    two polygons that face each other. *)
Theorem C55_boundary : forall dbg boxed ops t, legal_ops dbg boxed ops bn_new -> run_ops dbg boxed ops bn_new = Ok t ->
  forall f (Sty : Type) (Inv : Sty -> bnode -> Prop) split default st groups fuel evs t', splitter dbg Inv split -> starts Inv default st t -> (forall l, grouping l (groups l)) -> (forall w x, at_node t w x -> covered f (length (n_infos x))) -> trav_run fuel dbg (eval f) split groups default st t = Ok (evs, t') ->
  forall wind h q F G got opp, (forall w x, at_node t' w x -> table_right wind w x) -> generic t' h q ->
  picked (facing h q) (added_polys ops) F -> picked (facing (hs_neg h) q) (added_polys ops) G -> picked (facing h q) (shown evs) got -> picked (facing (hs_neg h) q) (shown evs) opp ->
  (exists e1, 0 < e1 /\ forall e id, 0 < e -> e < e1 -> (wind (behind (hs_neg h) q e) id = wind (behind h q e) id - Z.of_nat (count_id id F) + Z.of_nat (count_id id G))%Z) ->
  exists e0, 0 < e0 /\ forall e, 0 < e -> e < e0 -> let back := inside f (wind (behind h q e)) in let front := inside f (wind (behind (hs_neg h) q e)) in
    (Nat.Even (length got + length opp) <-> (back <-> front)) /\
    (monotone f -> (back -> ~ front -> length got = 1%nat /\ opp = []) /\ (front -> ~ back -> length opp = 1%nat /\ got = []) /\ (~ back -> ~ front -> got = [] /\ opp = []) /\
      (back -> front -> (got = [] /\ opp = []) \/ (length got = 1%nat /\ length opp = 1%nat))).
Proof.
  intros dbg boxed ops t L E f Sty Inv split default st groups fuel evs t' Sp In Gr C R wind h q F G got opp T Ge PF PG Pg Po (e1 & E1 & J).
  destruct (C55_shown dbg boxed ops t L E f Sty Inv split default st groups fuel evs t' Sp In Gr C R wind h q F got T Ge PF Pg) as (e2 & E2 & A).
  destruct (C55_shown dbg boxed ops t L E f Sty Inv split default st groups fuel evs t' Sp In Gr C R wind (hs_neg h) q G opp T (generic_neg _ _ _ Ge) PG Po) as (e3 & E3 & B).
  exists (Qmin e1 (Qmin e2 e3)). split; [apply Q.min_glb_lt; [exact E1|apply Q.min_glb_lt; assumption]|]. intros e L0 L1 back front. apply Q.min_glb_lt_iff in L1 as [L1 L2]. apply Q.min_glb_lt_iff in L2 as [L2 L3]. specialize (A e L0 L2). specialize (B e L0 L3). cbv zeta in A, B. fold back in A. fold front in B.
  assert (M : inside f (less (wind (behind (hs_neg h) q e)) G) <-> inside f (less (wind (behind h q e)) F)) by (apply inside_ext; intros id; unfold less; rewrite (J e id L0 L1); lia). rewrite M in B. set (m := inside f (less (wind (behind h q e)) F)) in *. destruct A as [A1 A2], B as [B1 B2].
  assert (D : forall w, inside f w \/ ~ inside f w) by (intros w; apply eval_dec). pose proof (D (wind (behind h q e))) as D1. pose proof (D (wind (behind (hs_neg h) q e))) as D2. pose proof (D (less (wind (behind h q e)) F)) as D3. fold back in D1. fold front in D2. fold m in D3. assert (Mb : monotone f -> m -> back) by (intros Mo; apply (inside_mono f _ _ Mo); intros id; apply less_le). assert (Mf : monotone f -> m -> front) by (intros Mo X; apply M in X; revert X; apply (inside_mono f _ _ Mo); intros id; apply less_le). clearbody back front. split.
  - rewrite <- !Nat.even_spec in *. rewrite Nat.even_add. clear - A1 B1 D1 D2 D3. destruct (Nat.even (length got)), (Nat.even (length opp)); cbn [Bool.eqb]; intuition discriminate.
  - intros Mo. destruct (A2 Mo) as [A3 A4], (B2 Mo) as [B3 B4]. specialize (Mb Mo). specialize (Mf Mo).  assert (X : forall l : list bpoly, (length l <= 1)%nat -> (l = [] \/ l <> []) /\ (l <> [] -> length l = 1%nat)) by (intros [|x [|y l]] Y; cbn [length] in *; [split; [left; reflexivity|congruence]|split; [right; discriminate|reflexivity]|lia]). destruct (X got A3) as [X1 X2], (X opp B3) as [X3 X4]. clear - A4 B4 Mb Mf D1 D2 D3 X1 X2 X3 X4. tauto.
Qed.
Print Assumptions C55_boundary.

(** ** A tetrahedron *)
(** An order of the groups that an unordered_multimap may have. *)
Fixpoint put (b : bpoly) (gs : list (list bpoly)) : list (list bpoly) :=
  match gs with (a :: g) :: gs => if same_split (bp_on a) (bp_on b) then (b :: a :: g) :: gs else (a :: g) :: put b gs | _ => [b] :: gs end.
Definition group_by (l : list bpoly) : list (list bpoly) := fold_right put [] l.
Lemma same_split_eq a b : same_split a b = true <-> option_map ss_split a = option_map ss_split b.
Proof. destruct a as [a|], b as [b|]; cbn; split; try congruence; [intros E; f_equal; exact (hs_eqb_eq _ _ E)|intros E; injection E as ->; apply hs_eqb_refl]. Qed.
Lemma same_split_ne a b : same_split a b = false <-> option_map ss_split a <> option_map ss_split b.
Proof. rewrite <- same_split_eq. destruct (same_split a b); split; congruence. Qed.
Example group_by_ok : forall l, grouping l (group_by l).
Proof.
  intros l. induction l as [|b l IH]; [split; [constructor|split; constructor]|]. change (group_by (b :: l)) with (put b (group_by l)). destruct IH as (P & F & O). set (k := fun a => option_map ss_split (bp_on a)).
  assert (X : forall gs, Forall (fun g => g <> [] /\ forall a b, In a g -> In b g -> k a = k b) gs -> ForallOrdPairs (fun g g' => forall a b, In a g -> In b g' -> k a <> k b) gs ->
    Permutation (concat (put b gs)) (b :: concat gs) /\ Forall (fun g => g <> [] /\ forall a b, In a g -> In b g -> k a = k b) (put b gs) /\ ForallOrdPairs (fun g g' => forall a b, In a g -> In b g' -> k a <> k b) (put b gs)).
  { clear. induction gs as [|g gs IH]; intros F O; [cbn; split; [apply Permutation_refl|]; split; [constructor; [split; [discriminate|intros x y [<-|[]] [<-|[]]; reflexivity]|constructor]|constructor; constructor]|].
    inversion F as [|? ? [N K] F']; subst. inversion O as [|? ? O1 O2]; subst. destruct g as [|a g]; [congruence|]. cbn [put]. destruct (same_split (bp_on a) (bp_on b)) eqn:E.
    - apply same_split_eq in E. assert (Kb : forall x, In x (a :: g) -> k b = k x) by (intros x I; unfold k at 1; rewrite <- E; exact (K a x (or_introl eq_refl) I)). split; [apply Permutation_refl|]. split; constructor; [split; [discriminate|]|exact F'| |exact O2].
      + intros x y [<-|I] [<-|J]; [reflexivity|exact (Kb y J)|symmetry; exact (Kb x I)|exact (K x y I J)].
      + rewrite Forall_forall in *. intros g' I x y [<-|J] Iy; [rewrite (Kb a (or_introl eq_refl)); exact (O1 g' I a y (or_introl eq_refl) Iy)|exact (O1 g' I x y J Iy)].
    - apply same_split_ne in E. destruct (IH F' O2) as (P1 & P2 & P3). split; [cbn [concat]; rewrite P1; apply Permutation_sym, Permutation_middle|]. split; constructor; [split; [exact N|exact K]|exact P2| |exact P3].
      apply Forall_forall. intros g' I x y Ix Iy. assert (Iy' : In y (concat (put b gs))) by (apply in_concat; exists g'; split; assumption). apply (Permutation_in _ P1) in Iy'. destruct Iy' as [<-|Iy']; [rewrite (K x a Ix (or_introl eq_refl)); exact E|]. apply in_concat in Iy' as (g2 & I2 & J2). rewrite Forall_forall in O1. exact (O1 g2 I2 x y Ix J2). }
  destruct (X (group_by l)) as (P1 & P2 & P3).
  - eapply Forall_impl; [|exact F]. intros g [N K]. split; [exact N|]. intros a c I J. apply same_split_eq, (K a c I J).
  - clear - O. induction O as [|g gs H O IH]; constructor; [|exact IH]. eapply Forall_impl; [|exact H]. intros g' K a c I J. apply same_split_ne, (K a c I J).
  - split; [rewrite P1, P; apply Permutation_refl|]. split.
    + eapply Forall_impl; [|exact P2]. intros g [N K]. split; [exact N|]. intros a c I J. apply same_split_eq, (K a c I J).
    + clear - P3. induction P3 as [|g gs H O IH]; constructor; [|exact IH]. eapply Forall_impl; [|exact H]. intros g' K a c I J. apply same_split_ne, (K a c I J).
Qed.
Definition face := (hspace3 * nat * list vec3)%type.
Definition f_plane (f : face) : hspace3 := fst (fst f).
Definition f_drop (f : face) : nat := snd (fst f).
Definition slanted : face := (HS (V3 1 1 1) 3, 2%nat, [V3 3 0 0; V3 0 3 0; V3 0 0 3]).
Definition flat_faces : list face := [(HS (V3 0 0 (-1)) 0, 2%nat, [V3 0 0 0; V3 0 3 0; V3 3 0 0]); (HS (V3 0 (-1) 0) 0, 1%nat, [V3 0 0 0; V3 3 0 0; V3 0 0 3]); (HS (V3 (-1) 0 0) 0, 0%nat, [V3 0 0 0; V3 0 0 3; V3 0 3 0])].
Definition tet_faces : list face := flat_faces ++ [slanted].
Definition tet_poly (f : face) : poly unit := match poly_of_points tt (f_plane f) (f_drop f) (snd f) with Ok p => p | _ => Poly up 0 [] end.
Definition tet_ops : list bop := [OAdd 0 (map tet_poly tet_faces)].
Definition tet_tree : bnode := match run_ops true false tet_ops bn_new with Ok t => t | _ => BNil end.
Definition tet_result : list tevent * bnode := match trav_run 41 true (eval (FPoly 0)) (plain (bn_split_auto true zgcd rat_sort)) group_by tt tt tet_tree with Ok r => r | _ => ([], BNil) end.
(** The winding number: 1 inside, 0 outside. *)
Definition tet_wind (q : qpoint) (id : nat) : Z := match id with O => if forallb (fun f => negb (Qle_bool 0 (side (f_plane f) q))) tet_faces then 1%Z else 0%Z | _ => 0%Z end.
Lemma tet_poly_ok f : In f tet_faces -> poly_of_points tt (f_plane f) (f_drop f) (snd f) = Ok (tet_poly f) /\ poly_ok (tet_poly f) (rotate 2 (map qpt (snd f))).
Proof.
  intros I. assert (X : exists p, poly_of_points tt (f_plane f) (f_drop f) (snd f) = Ok p /\ poly_ok p (rotate (length (snd f) - 1) (map qpt (snd f)))).
  { apply (C47_from_points unit tt).
    - destruct I as [<-|[<-|[<-|[<-|[]]]]]; cbn; lia.
    - destruct I as [<-|[<-|[<-|[<-|[]]]]]; discriminate.
    - destruct I as [<-|[<-|[<-|[<-|[]]]]]; (repeat (apply Forall_cons; [vm_compute; reflexivity|]); apply Forall_nil).
    - destruct I as [<-|[<-|[<-|[<-|[]]]]]; apply convex_test; vm_compute; reflexivity. }
  destruct X as (p & E & P). unfold tet_poly. rewrite E. split; [reflexivity|]. replace 2%nat with (length (snd f) - 1)%nat; [exact P|]. destruct I as [<-|[<-|[<-|[<-|[]]]]]; reflexivity.
Qed.
Definition looks (b : bpoly) := (pplane (bp_poly b), pdrop (bp_poly b), map MergeProofs.shape (pedges (bp_poly b))).
Definition looks_f (f : face) := (f_plane f, f_drop f, map MergeProofs.shape (pedges (tet_poly f))).
Lemma tet_looks f b : In f tet_faces -> looks b = looks_f f -> poly_ok (bp_poly b) (rotate 2 (map qpt (snd f))) /\ pplane (bp_poly b) = f_plane f.
Proof.
  intros I E. unfold looks, looks_f in E. injection E as E1 E2 E3. destruct (tet_poly_ok f I) as [_ H]. split; [|exact E1]. assert (Pp : pplane (tet_poly f) = f_plane f /\ pdrop (tet_poly f) = f_drop f) by (destruct I as [<-|[<-|[<-|[<-|[]]]]]; split; vm_compute; reflexivity). pose proof (MergeProofs.poly_ok_shape (tet_poly f) _ (pedges (bp_poly b)) H E3) as Y. destruct Pp as [P1 P2]. rewrite P1, P2, <- E1, <- E2 in Y. destruct (bp_poly b); exact Y.
Qed.
Lemma looks_in l fs : map looks l = map looks_f fs -> incl fs tet_faces -> forall b, In b l -> exists f, In f tet_faces /\ looks b = looks_f f.
Proof. intros E Il b I. assert (J : In (looks b) (map looks_f fs)) by (rewrite <- E; apply in_map; exact I). apply in_map_iff in J as (f & E' & J). exists f. split; [exact (Il f J)|symmetry; exact E']. Qed.
Definition mid : qpoint := QP 1 1 1.
Lemma slanted_facing b : looks b = looks_f slanted -> facing (f_plane slanted) mid b.
Proof.
  intros E. assert (I : In slanted tet_faces) by (right; right; right; left; reflexivity). destruct (tet_looks slanted b I E) as [H P]. split.
  - eexists. split; [exact H|]. injection E as _ E2 _. rewrite P, E2. split; [vm_compute; reflexivity|]. intros i x y. destruct i as [|[|[|i]]]; cbn [length map]; intros Ex Ey; [| | |destruct i; discriminate]; injection Ex as <-; injection Ey as <-; vm_compute; discriminate.
  - rewrite P. exists 1. split; [lra|]. split; [|split]; vm_compute; reflexivity.
Qed.
Lemma flat_not_facing f b : In f flat_faces -> looks b = looks_f f -> ~ facing (f_plane slanted) mid b /\ ~ facing (hs_neg (f_plane slanted)) mid b.
Proof.
  intros I E. injection E as E1 _ _. split; intros [_ (k & K & (X & Y & Z))]; rewrite E1 in X, Y, Z; destruct I as [<-|[<-|[<-|[]]]]; cbv [f_plane slanted fst snd hs_neg v3_neg hn vx vy vz qpt qscale qx qy qz] in X, Y, Z; change (inject_Z 0) with 0 in *; change (inject_Z 1) with 1 in *; change (inject_Z (- (1))) with (-1 # 1) in *; change (inject_Z (-1)) with (-1 # 1) in *; lra.
Qed.
Lemma slanted_not b : looks b = looks_f slanted -> ~ facing (hs_neg (f_plane slanted)) mid b.
Proof.
  intros E. injection E as E1 _ _. intros [_ (k & K & (X & Y & Z))]; rewrite E1 in X, Y, Z; cbv [f_plane slanted fst snd hs_neg v3_neg hn vx vy vz qpt qscale qx qy qz] in X, Y, Z; change (inject_Z 1) with 1 in *; change (inject_Z (- (1))) with (-1 # 1) in *; change (inject_Z (-1)) with (-1 # 1) in *; lra.
Qed.
Lemma tet_legal : legal_ops true false tet_ops bn_new.
Proof. cbn [legal_ops tet_ops]. split; [split; [|left; reflexivity]|intros; exact I]. apply Forall_forall. intros p J. apply in_map_iff in J as (f & <- & J). eexists. exact (proj2 (tet_poly_ok f J)). Qed.
Lemma tet_built : run_ops true false tet_ops bn_new = Ok tet_tree.
Proof. vm_compute. reflexivity. Qed.
Lemma tet_ran : trav_run 41 true (eval (FPoly 0)) (plain (bn_split_auto true zgcd rat_sort)) group_by tt tt tet_tree = Ok tet_result.
Proof. vm_compute. reflexivity. Qed.
Definition tet_order : list face := match tet_faces with [a; b; c; d] => [c; b; d; a] | l => l end.
Lemma tet_added_looks : map looks (added_polys tet_ops) = map looks_f tet_faces.
Proof. vm_compute. reflexivity. Qed.
Lemma tet_tree_looks : map looks (all_polys (snd tet_result)) = map looks_f (rev tet_order).
Proof. vm_compute. reflexivity. Qed.
Lemma tet_shown_looks : map looks (shown (fst tet_result)) = map looks_f tet_order.
Proof. vm_compute. reflexivity. Qed.
Fixpoint tree_nodes (t : bnode) : list (path * bnode) := match t with BNil => [] | BNode s _ _ _ n p => ([], t) :: map (fun x => (SS s false :: fst x, snd x)) (tree_nodes n) ++ map (fun x => (SS s true :: fst x, snd x)) (tree_nodes p) end.
Lemma tree_nodes_all t w x : at_node t w x -> In (w, x) (tree_nodes t).
Proof.
  intros A. induction A as [t N|s cs bs infos n p w x A IH|s cs bs infos n p w x A IH]; [destruct t; [congruence|left; reflexivity]| |]; cbn [tree_nodes]; right; apply in_or_app; [left|right]; apply in_map_iff; exists (w, x); split; try reflexivity; exact IH.
Qed.
Definition node_looks (x : path * bnode) := (fst x, n_split (snd x), n_infos (snd x)).
Definition tet_nodes : list (path * hspace3 * list cinfo) :=
  let x := HS (V3 (-1) 0 0) 0 in let y := HS (V3 0 (-1) 0) 0 in let d := HS (V3 1 1 1) 3 in let z := HS (V3 0 0 (-1)) 0 in let none := HS (V3 0 0 0) 0 in
  [([], x, [CI 4 0 0]); ([SS x false], y, [CI 3 1 0]); ([SS x false; SS y false], d, [CI 2 2 0]); ([SS x false; SS y false; SS d false], z, [CI 1 3 1]);
   ([SS x false; SS y false; SS d false; SS z false], none, [CI 0 4 1]); ([SS x false; SS y false; SS d false; SS z true], none, [CI 0 0 0]);
   ([SS x false; SS y false; SS d true], none, [CI 0 0 0]); ([SS x false; SS y true], none, [CI 0 0 0]); ([SS x true], none, [CI 0 0 0])].
Lemma tet_nodes_ok : map node_looks (tree_nodes (snd tet_result)) = tet_nodes.
Proof. vm_compute. reflexivity. Qed.
Lemma tet_node w x : at_node (snd tet_result) w x -> In (w, n_split x, n_infos x) tet_nodes.
Proof. intros A. rewrite <- tet_nodes_ok. change (w, n_split x, n_infos x) with (node_looks (w, x)). apply in_map, tree_nodes_all, A. Qed.
Lemma tet_table w x : at_node (snd tet_result) w x -> table_right tet_wind w x.
Proof.
  intros A. apply tet_node in A. assert (Out : forall f q, In f tet_faces -> 0 < side (f_plane f) q -> tet_wind q 0 = 0%Z).
  { intros f q I L. unfold tet_wind. destruct (forallb _ _) eqn:E; [|reflexivity]. exfalso. rewrite forallb_forall in E. specialize (E f I). apply negb_true_iff in E. assert (X : Qle_bool 0 (side (f_plane f) q) = true) by (apply Qle_bool_iff; lra). congruence. }
  assert (Ins : forall q, (forall f, In f tet_faces -> side (f_plane f) q < 0) -> tet_wind q 0 = 1%Z).
  { intros q S. unfold tet_wind. destruct (forallb _ _) eqn:E; [reflexivity|]. exfalso. assert (X : forallb (fun f => negb (Qle_bool 0 (side (f_plane f) q))) tet_faces = true) by (apply forallb_forall; intros f I; apply negb_true_iff; destruct (Qle_bool 0 (side (f_plane f) q)) eqn:Y; [apply Qle_bool_iff in Y; specialize (S f I); lra|reflexivity]). congruence. }
  assert (I0 : In (nth 0 tet_faces slanted) tet_faces) by (left; reflexivity). assert (I1 : In (nth 1 tet_faces slanted) tet_faces) by (right; left; reflexivity). assert (I2 : In (nth 2 tet_faces slanted) tet_faces) by (right; right; left; reflexivity). assert (I3 : In slanted tet_faces) by (right; right; right; left; reflexivity).
  intros id q In0 St. destruct id as [|id]; [|assert (Z : pwn (info_for (n_infos x) (S id)) = 0%Z) by (clear - A; destruct A as [E|[E|[E|[E|[E|[E|[E|[E|[E|[]]]]]]]]]]; injection E as _ _ E; rewrite <- E; destruct id; reflexivity); rewrite Z; reflexivity].
  destruct A as [E|[E|[E|[E|[E|[E|[E|[E|[E|[]]]]]]]]]]; injection E as Ew _ E; rewrite <- E in *; try discriminate In0; subst w; unfold strictly in St;
    repeat match goal with H : Forall _ (_ :: _) |- _ => apply Forall_cons_iff in H as [? H] end; cbn [ss_pos ss_split] in *; cbn [info_for nth pwn].
  - apply Ins. intros f [<-|[<-|[<-|[<-|[]]]]]; assumption.
  - apply (Out _ q I0); assumption.
  - apply (Out _ q I3); assumption.
  - apply (Out _ q I1); assumption.
  - apply (Out _ q I2); assumption.
Qed.
Lemma tet_flat_off f : In f flat_faces -> ~ side (f_plane f) mid == 0.
Proof. intros [<-|[<-|[<-|[]]]]; vm_compute; discriminate. Qed.
Lemma tet_generic : generic (snd tet_result) (f_plane slanted) mid.
Proof.
  assert (Sm : forall h, h = f_plane slanted -> same_plane h (f_plane slanted)) by (intros h -> q; reflexivity). pose proof (looks_in _ _ tet_tree_looks ltac:(intros f I; apply in_rev in I; cbn in *; tauto)) as Lk.
  assert (Cs : forall f, In f tet_faces -> In f flat_faces \/ f = slanted) by (intros f I; apply in_app_or in I as [I|[<-|[]]]; [left; exact I|right; reflexivity]).
  split; [vm_compute; reflexivity|]. split; [|split].
  - intros w x A Nl Z. apply tet_node in A. apply Sm. destruct A as [E|[E|[E|[E|[E|[E|[E|[E|[E|[]]]]]]]]]]; injection E as _ E _; rewrite <- E in Z; try (vm_compute in Z; discriminate Z); try (symmetry; exact E); exfalso; apply Nl; unfold leaf; rewrite <- E; reflexivity.
  - intros b I Z. destruct (Lk b I) as (f & If & E). destruct (tet_looks f b If E) as [_ P]. rewrite P in *. destruct (Cs f If) as [J| ->]; [exfalso; exact (tet_flat_off f J Z)|apply Sm; reflexivity].
  - intros b i u v e I He On. destruct (Lk b I) as (f & If & E). destruct (tet_looks f b If E) as [H P]. destruct (edge_iff _ _ _ _ _ _ H He) as (e' & Ee & _ & Eu & Ev). destruct (Cs f If) as [J| ->].
    + apply (tet_flat_off f J). rewrite <- P. apply (PartGeoProofs.side_on_line _ u v mid On); [rewrite (PolyInfoProofs.side_eq _ _ _ Eu)|rewrite (PolyInfoProofs.side_eq _ _ _ Ev)]; apply (PolyInfoProofs.ok_on_plane _ _ H).
    + assert (Li : (i < 3)%nat). { assert (X : nth_error (pedges (bp_poly b)) i <> None) by (rewrite Ee; discriminate). apply nth_error_Some in X. injection E as _ _ E3. assert (Y : length (map MergeProofs.shape (pedges (bp_poly b))) = 3%nat) by (rewrite E3; vm_compute; reflexivity). rewrite map_length in Y. lia. }
      assert (G : exists f, In f flat_faces /\ side (f_plane f) (cyc o3 (rotate 2 (map qpt (snd slanted))) i) == 0 /\ side (f_plane f) (cyc o3 (rotate 2 (map qpt (snd slanted))) (S i)) == 0).
      { destruct i as [|[|[|i]]]; [exists (nth 1 flat_faces slanted)|exists (nth 0 flat_faces slanted)|exists (nth 2 flat_faces slanted)|lia]; (split; [cbn; tauto|split; vm_compute; reflexivity]). }
      destruct G as (g & Ig & G1 & G2). apply (tet_flat_off g Ig). apply (PartGeoProofs.side_on_line _ u v mid On); [rewrite (PolyInfoProofs.side_eq _ _ _ Eu)|rewrite (PolyInfoProofs.side_eq _ _ _ Ev)]; assumption.
Qed.
Lemma tet_picked l fs : map looks l = map looks_f fs -> incl fs tet_faces -> length (List.filter (fun f => hs_eqb (f_plane f) (f_plane slanted)) fs) = 1%nat -> picked (facing (hs_neg (f_plane slanted)) mid) l [] /\ exists b, In b l /\ picked (facing (f_plane slanted) mid) l [b] /\ looks b = looks_f slanted.
Proof.
  assert (Cs : forall f, In f tet_faces -> (In f flat_faces /\ hs_eqb (f_plane f) (f_plane slanted) = false) \/ f = slanted) by (intros f I; apply in_app_or in I as [I|[<-|[]]]; [left; split; [exact I|destruct I as [<-|[<-|[<-|[]]]]; reflexivity]|right; reflexivity]).
  assert (N0 : forall fs l, map looks l = map looks_f fs -> incl fs tet_faces -> picked (facing (hs_neg (f_plane slanted)) mid) l []).
  { clear fs l. induction fs as [|f fs IH]; intros [|b l] E Il; cbn [map] in E; try discriminate; [constructor|]. assert (Eb : looks b = looks_f f) by exact (f_equal (fun l => List.hd (looks b) l) E). apply (f_equal (@tl _)) in E; cbn [tl] in E. apply pk_out; [|apply (IH l E); intros y I; apply Il; right; exact I]. destruct (Cs f (Il f (or_introl eq_refl))) as [[J _]| ->]; [exact (proj2 (flat_not_facing f b J Eb))|exact (slanted_not b Eb)]. }
  assert (N1 : forall fs l, map looks l = map looks_f fs -> incl fs tet_faces -> length (List.filter (fun f => hs_eqb (f_plane f) (f_plane slanted)) fs) = 0%nat -> picked (facing (f_plane slanted) mid) l []).
  { clear fs l. induction fs as [|f fs IH]; intros [|b l] E Il C; cbn [map] in E; try discriminate; [constructor|]. assert (Eb : looks b = looks_f f) by exact (f_equal (fun l => List.hd (looks b) l) E). apply (f_equal (@tl _)) in E; cbn [tl] in E. cbn [List.filter] in C. destruct (Cs f (Il f (or_introl eq_refl))) as [[J F]| ->]; [|rewrite hs_eqb_refl in C; discriminate]. rewrite F in C. apply pk_out; [exact (proj1 (flat_not_facing f b J Eb))|apply (IH l E); [intros y I; apply Il; right; exact I|exact C]]. }
  intros E Il C. split; [exact (N0 fs l E Il)|]. revert l E C. induction fs as [|f fs IH]; intros [|b l] E C; cbn [map] in E; try discriminate. assert (Eb : looks b = looks_f f) by exact (f_equal (fun l => List.hd (looks b) l) E). apply (f_equal (@tl _)) in E; cbn [tl] in E. assert (Il' : incl fs tet_faces) by (intros y I; apply Il; right; exact I). cbn [List.filter] in C. destruct (Cs f (Il f (or_introl eq_refl))) as [[J F]| ->].
  - rewrite F in C. destruct (IH Il' l E C) as (b' & I' & P' & L'). exists b'. split; [right; exact I'|]. split; [|exact L']. apply pk_out; [exact (proj1 (flat_not_facing f b J Eb))|exact P'].
  - rewrite hs_eqb_refl in C. cbn [length] in C. injection C as C. exists b. split; [left; reflexivity|]. split; [|exact Eb]. apply pk_in; [exact (slanted_facing b Eb)|exact (N1 fs l E Il' C)].
Qed.
(** All hypotheses of the theorems hold at the middle of the slanted face of the
    tetrahedron, and the face is shown. *)
Example tet_case : gcd_ok zgcd /\ nth_ok rat_sort /\ (forall l, grouping l (group_by l)) /\ legal_ops true false tet_ops bn_new /\ run_ops true false tet_ops bn_new = Ok tet_tree /\ small_leaves tet_tree /\ (tree_height tet_tree + 40 <= 41)%nat /\ monotone (FPoly 0) /\ (forall w x, at_node tet_tree w x -> covered (FPoly 0) (length (n_infos x))) /\
  exists evs t', trav_run 41 true (eval (FPoly 0)) (plain (bn_split_auto true zgcd rat_sort)) group_by tt tt tet_tree = Ok (evs, t') /\ length evs = 16%nat /\
    let h := f_plane slanted in (forall w x, at_node t' w x -> table_right tet_wind w x) /\ generic t' h mid /\
    exists b y, picked (facing h mid) (added_polys tet_ops) [b] /\ picked (facing (hs_neg h) mid) (added_polys tet_ops) [] /\ picked (facing h mid) (shown evs) [y] /\ picked (facing (hs_neg h) mid) (shown evs) [] /\
      forall e id, 0 < e -> e < 1 -> (tet_wind (behind (hs_neg h) mid e) id = tet_wind (behind h mid e) id - Z.of_nat (count_id id [b]) + Z.of_nat (count_id id []))%Z.
Proof.
  split; [exact zgcd_ok|]. split; [exact rat_sort_ok|]. split; [exact group_by_ok|]. split; [exact tet_legal|]. split; [exact tet_built|].
  assert (Rt : forall w x, at_node tet_tree w x -> (length (n_contents x) <= 40)%nat). { intros w x A. apply tree_nodes_all in A. assert (X : map (fun x => length (n_contents (snd x))) (tree_nodes tet_tree) = [4%nat]) by (vm_compute; reflexivity). assert (Y : In (length (n_contents x)) [4%nat]) by (rewrite <- X; apply (in_map (fun x => length (n_contents (snd x))) _ (w, x)); exact A). destruct Y as [<-|[]]. lia. }
  split; [intros w x A _; exact (Rt w x A)|]. split; [apply Nat.leb_le; vm_compute; reflexivity|]. split; [exact I|]. split; [intros; exact I|]. exists (fst tet_result), (snd tet_result). split; [rewrite tet_ran; destruct tet_result; reflexivity|]. split; [vm_compute; reflexivity|]. intros h. split; [exact tet_table|]. split; [exact tet_generic|].
  destruct (tet_picked _ _ tet_added_looks ltac:(intros f X; exact X) eq_refl) as (P1 & b & Ib & P2 & Lb). destruct (tet_picked _ _ tet_shown_looks ltac:(intros f X; cbn in *; tauto) eq_refl) as (P3 & y & _ & P4 & _). exists b, y. split; [exact P2|]. split; [exact P1|]. split; [exact P4|]. split; [exact P3|].
  intros e id L0 L1. assert (Id : bp_id b = 0%nat). { assert (X : map bp_id (added_polys tet_ops) = [0; 0; 0; 0]%nat) by (vm_compute; reflexivity). assert (Y : In (bp_id b) [0; 0; 0; 0]%nat) by (rewrite <- X; apply in_map; exact Ib). cbn in Y. lia. }
  unfold count_id. cbn [List.filter length]. rewrite Id. destruct id as [|id]; [|reflexivity]. cbn [Nat.eqb length Z.of_nat].
  assert (W0 : tet_wind (behind h mid e) 0 = 1%Z).
  { unfold tet_wind. replace (forallb _ _) with true; [reflexivity|]. symmetry. apply forallb_forall. intros f I. apply negb_true_iff. apply not_true_iff_false. rewrite Qle_bool_iff. apply Qlt_not_le. destruct I as [<-|[<-|[<-|[<-|[]]]]]; cbv [f_plane slanted h fst snd mid behind side qdot qpt qsub qscale hn hd vx vy vz qx qy qz]; change (inject_Z 0) with 0; change (inject_Z 1) with 1; change (inject_Z 3) with 3; change (inject_Z (-1)) with (-1 # 1); lra. }
  assert (W1 : tet_wind (behind (hs_neg h) mid e) 0 = 0%Z).
  { unfold tet_wind. replace (forallb _ _) with false; [reflexivity|]. symmetry. apply not_true_iff_false. rewrite forallb_forall. intros X. specialize (X slanted ltac:(right; right; right; left; reflexivity)). apply negb_true_iff in X. apply not_true_iff_false in X. apply X. apply Qle_bool_iff. cbv [f_plane slanted h fst snd mid behind side qdot qpt qsub qscale hs_neg v3_neg hn hd vx vy vz qx qy qz]. change (inject_Z 1) with 1. change (inject_Z 3) with 3. change (inject_Z (- (1))) with (-1 # 1). lra. }
  rewrite W0, W1. reflexivity.
Qed.
(** Solids that touch: the union of two tetrahedra with a common face shows that face
    twice, once facing each way, although both sides are inside. *)
Definition twin_faces : list face := [(HS (V3 0 0 (-1)) 0, 2%nat, [V3 0 0 0; V3 (-3) 0 0; V3 0 3 0]); (HS (V3 0 (-1) 0) 0, 1%nat, [V3 0 0 0; V3 0 0 3; V3 (-3) 0 0]); (HS (V3 1 0 0) 0, 0%nat, [V3 0 0 0; V3 0 3 0; V3 0 0 3]); (HS (V3 (-1) 1 1) 3, 2%nat, [V3 (-3) 0 0; V3 0 0 3; V3 0 3 0])].
Definition twin_ops : list bop := [OAdd 0 (map tet_poly tet_faces); OAdd 1 (map tet_poly twin_faces)].
Lemma twin_poly_ok f : In f twin_faces -> exists qs, poly_ok (tet_poly f) qs.
Proof.
  intros I. assert (X : exists p, poly_of_points tt (f_plane f) (f_drop f) (snd f) = Ok p /\ poly_ok p (rotate (length (snd f) - 1) (map qpt (snd f)))).
  { apply (C47_from_points unit tt).
    - destruct I as [<-|[<-|[<-|[<-|[]]]]]; cbn; lia.
    - destruct I as [<-|[<-|[<-|[<-|[]]]]]; discriminate.
    - destruct I as [<-|[<-|[<-|[<-|[]]]]]; (repeat (apply Forall_cons; [vm_compute; reflexivity|]); apply Forall_nil).
    - destruct I as [<-|[<-|[<-|[<-|[]]]]]; apply convex_test; vm_compute; reflexivity. }
  destruct X as (p & E & P). unfold tet_poly. rewrite E. eexists. exact P.
Qed.
Theorem C55_touching_refuted : legal_ops true false twin_ops bn_new /\ exists t evs t' b b', run_ops true false twin_ops bn_new = Ok t /\
  trav_run 41 true (eval (FUnion (FPoly 0) (FPoly 1))) (plain (bn_split_auto true zgcd rat_sort)) group_by tt tt t = Ok (evs, t') /\ nth_error (shown evs) 6 = Some b /\ nth_error (shown evs) 2 = Some b' /\
  pplane (bp_poly b') = hs_neg (pplane (bp_poly b)) /\ map pv (pedges (bp_poly b)) = [HP (V3 0 3 0) 1; HP (V3 0 0 0) 1; HP (V3 0 0 3) 1] /\ map pv (pedges (bp_poly b')) = [HP (V3 0 0 3) 1; HP (V3 0 0 0) 1; HP (V3 0 3 0) 1].
Proof.
  split.
  - cbn [legal_ops twin_ops]. split; [split; [|left; reflexivity]|].
    + apply Forall_forall. intros p J. apply in_map_iff in J as (f & <- & J). eexists. exact (proj2 (tet_poly_ok f J)).
    + intros t E. vm_compute in E. injection E as <-. split; [split; [|left; reflexivity]|intros; exact I]. apply Forall_forall. intros p J. apply in_map_iff in J as (f & <- & J). exact (twin_poly_ok f J).
  - eexists _, _, _, _, _. split; [vm_compute; reflexivity|]. split; [vm_compute; reflexivity|].
    split; [vm_compute; reflexivity|]. split; [vm_compute; reflexivity|]. split; [reflexivity|]. split; reflexivity.
Qed.
Print Assumptions C55_touching_refuted.

(** ** C56 *)
(** CollectorVisitor keeps what it is shown, in this order, with all assertions
    satisfied, and in the end no plane is left in its map.  What the edges of a kept
    polygon say about the planes that they lie on is unchanged and refers to planes
    that exist after the traversal: planes of the tree, or copies that the visitor
    owns. *)
Theorem C56_collect : forall dbg boxed ops t, legal_ops dbg boxed ops bn_new -> run_ops dbg boxed ops bn_new = Ok t ->
  forall f (Sty : Type) (Inv : Sty -> bnode -> Prop) split default st groups fuel evs t', splitter dbg Inv split -> starts Inv default st t -> (forall l, grouping l (groups l)) -> (forall w x, at_node t w x -> covered f (length (n_infos x))) -> trav_run fuel dbg (eval f) split groups default st t = Ok (evs, t') ->
  exists c, c_run dbg evs coll_new = Ok c /\ c_map c = [] /\ Forall2 (fun b x => fst x = b /\ exists w y, at_node t' w y /\ kept w (c_planes c) b (snd x)) (shown evs) (c_polys c).
Proof.
  intros dbg boxed ops t L E f Sty Inv split default st groups fuel evs t' Sp In Gr C R. destruct (traverse dbg boxed ops t f Inv split default st groups fuel evs t' L E Sp In Gr C R) as (H & _ & Em & _). destruct (emits_collect dbg f [] t' evs Em path_ok_nil H coll_new eq_refl) as (c & [A1 A2 _ (ps & A4 & A5)]). exists c. split; [exact A1|]. split; [exact A2|]. rewrite A4. cbn [coll_new c_polys app]. exact A5.
Qed.
Print Assumptions C56_collect.
(** That does not hold of the plane that created an edge: it may be a local plane of
    PlanePartitioner that is gone. *)
Theorem C56_created_refuted : exists p o t evs t' c, legal_ops true false (part_ops p o) bn_new /\ run_ops true false (part_ops p o) bn_new = Ok t /\
  trav_run 41 true (eval (FUnion (FInv 0) (FInv 1))) (plain (bn_split_auto true zgcd rat_sort)) group_by tt tt t = Ok (evs, t') /\ c_run true evs coll_new = Ok c /\ length (c_planes c) = 7%nat /\
  exists b es e h pos, In (b, es) (c_polys c) /\ In e es /\ ce_created e = Some (CRaw h, pos) /\ forall w x, at_node t' w x -> n_split x <> h.
Proof.
  destruct (square_case 0) as (p & Ep & P); [auto|]. destruct shifted_case as (o & Eo & O). exists p, o. assert (X := Ep). assert (Y := Eo). vm_compute in X, Y. injection X as X. injection Y as Y. eexists _, _, _, _. split.
  - assert (Fp : Forall (fun p => exists qs, poly_ok p qs) [p]) by (constructor; [eexists; exact P|constructor]). assert (Fo : Forall (fun p => exists qs, poly_ok p qs) [o]) by (constructor; [eexists; exact O|constructor]).
    cbn [legal_ops part_ops]. split; [split; [exact Fp|left; reflexivity]|]. intros t1 E1. rewrite <- X in E1. vm_compute in E1. injection E1 as <-.
    split; [split; [exact Fo|left; reflexivity]|]. intros t2 E2. rewrite <- Y in E2. vm_compute in E2. injection E2 as <-.
    split; [|intros; exact I]. eexists [], _. split; [split; [apply at_root; discriminate|reflexivity]|]. split; [reflexivity|]. split; [reflexivity|]. intros s [].
  - rewrite <- X, <- Y. split; [vm_compute; reflexivity|]. split; [vm_compute; reflexivity|]. split; [vm_compute; reflexivity|]. split; [reflexivity|]. eexists _, _, _, (HS (V3 0 (-2) 0) (-4)), true. split; [left; reflexivity|]. split; [right; right; right; left; reflexivity|]. split; [reflexivity|].
    intros w x A. apply tree_nodes_all in A. apply (in_map (fun y => n_split (snd y))) in A. change (n_split (snd (w, x))) with (n_split x) in A. set (z := n_split x) in *. clearbody z. vm_compute in A. destruct A as [<-|[<-|[<-|[]]]]; discriminate.
Qed.
Print Assumptions C56_created_refuted.
