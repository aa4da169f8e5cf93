(** Property C68: how BSPTraverser splits the leaves that it meets. *)
From Coq Require Import List Bool Arith ZArith QArith Lia Lqa Permutation ZifyBool.
From Verif Require Import BigUIntModel GeoModel GeoSpec GeoProofs GeoBridge CvxSpec PolyModel PolySpec RTransModel FilterModel FilterSpec BspModel BspSpec BspPolyProofs BspHistSpec BspHistProofs BspAutoProofs PropBsp EvtModel EvtSpec KdModel KdSpec PropKd PolyCapProofs PolyTopProofs PartModel PartSpec PropPoly PropMerge TravModel TravSpec TravProofs PropTrav StratModel StratSpec StratProofs.
Import ListNotations.
Open Scope Q_scope.

(** SplitStrategy::Split does to a leaf what Split(half_space) does, with a plane that
    is not one of the ancestors', but for the order of the polygons.  The strategies
    that it returns fit the children. *)
Theorem C68_split : forall dbg wide gcd nth heap merge w x st x' s1 s2, gcd_ok gcd -> nth_ok nth -> (forall l s r, w = l ++ s :: r -> fresh_plane l (ss_split s)) -> node_ok w x -> leaf x -> n_contents x <> [] ->
  strategy_ok wide st x -> strat_split dbg wide (bn_split_auto dbg gcd nth) heap merge st x = Ok (x', (s1, s2)) ->
  exists h x1, fresh_plane w h /\ bn_split dbg h x = Ok x1 /\ reordered x1 x' /\ strategy_ok wide s1 (n_neg x') /\ strategy_ok wide s2 (n_pos x').
Proof.
  intros dbg wide gcd nth heap merge w x st x' s1 s2 G Nt P H L N IV E. apply (strat_splitter dbg wide (bn_split_auto dbg gcd nth) heap merge) with (s := st); try assumption.
  intros w0 y y' P0 H0 L0 N0 E0. exact (auto_leaf dbg gcd nth w0 y y' G Nt P0 H0 L0 N0 E0).
Qed.
Print Assumptions C68_split.
(** No assertion fails and nothing is undefined, except in Split() itself: the call
    either ends in Split(), or where Split(half_space) with a plane that is not one
    of the ancestors' has a result, it has one too.  NoFuel: the choices of the
    heaps are not possible ones. *)
Theorem C68_runs : forall dbg wide auto heap merge w x st, (forall l s r, w = l ++ s :: r -> fresh_plane l (ss_split s)) -> node_ok w x -> leaf x -> n_contents x <> [] -> strategy_ok wide st x ->
  let r := strat_split dbg wide auto heap merge st x in
  r = NoFuel \/ r = (x' <- auto x ;; Ok (x', (new_strategy None, new_strategy None))) \/
  exists h, fresh_plane w h /\ ((dbg = true -> no_min (l4 h)) -> forall x1, bn_split dbg h x = Ok x1 -> r = NoFuel \/ exists y, r = Ok y).
Proof. intros dbg wide auto heap merge w x st P H L N IV. exact (strat_runs dbg wide auto heap merge w x st P H L N IV). Qed.
Print Assumptions C68_runs.

(** So what holds of a traversal holds with this strategy, if each leaf has at most as
    many polygons as the bounds allow for Split(), or polygons with boxes whose planes
    are not perpendicular to an axis. *)
Definition leaves_ok (wide : bool) (bound : option nat) (t : bnode) : Prop := forall w x, at_node t w x -> leaf x ->
  ((length (n_contents x) <= 6)%nat /\ forall b, bound = Some b -> (length (n_contents x) <= b)%nat) \/ boxed (n_contents x) /\ Forall tilted (n_contents x) /\ few wide (n_contents x).
Lemma strat_starts wide bound t : leaves_ok wide bound t -> starts (strategy_ok wide) (new_strategy (Some 6%nat)) (new_strategy bound) t.
Proof.
  intros H w x A L. destruct (H w x A L) as [[B1 B2]|(B1 & B2 & B3)]; unfold strategy_ok; cbn [st_bound st_events new_strategy]; destruct bound as [b|].
  - split; left; [exact B1|exact (B2 b eq_refl)].
  - split; [left; exact B1|exact I].
  - split; right; repeat split; auto; apply B3.
  - split; [right; repeat split; auto; apply B3|exact I].
Qed.
Lemma strat_splits dbg wide gcd nth heap merge : gcd_ok gcd -> nth_ok nth -> splitter dbg (strategy_ok wide) (strat_split dbg wide (bn_split_auto dbg gcd nth) heap merge).
Proof. intros G Nt w x s x' s1 s2 P H L N IV E. exact (C68_split dbg wide gcd nth heap merge w x s x' s1 s2 G Nt P H L N IV E). Qed.
Theorem C68_run : forall dbg wide gcd nth heap merge bound ops t, gcd_ok gcd -> nth_ok nth -> legal_ops dbg true ops bn_new -> run_ops dbg true ops bn_new = Ok t -> leaves_ok wide bound t ->
  forall f groups fuel evs t', (forall l, grouping l (groups l)) -> (forall w x, at_node t w x -> covered f (length (n_infos x))) ->
  trav_run fuel dbg (eval f) (strat_split dbg wide (bn_split_auto dbg gcd nth) heap merge) groups (new_strategy (Some 6%nat)) (new_strategy bound) t = Ok (evs, t') ->
  (tree_ok t' /\ cut_up (added_polys ops) (all_polys t') /\ trip [] evs /\
   forall y, In y (shown evs) -> exists b, In b (added_polys ops) /\ bp_id y = bp_id b /\ pplane (bp_poly y) = pplane (bp_poly b) /\ forall q, bp_point y q -> bp_point b q) /\
  (forall wind h q F got, (forall w x, at_node t' w x -> table_right wind w x) -> generic t' h q -> picked (facing h q) (added_polys ops) F -> picked (facing h q) (shown evs) got ->
   exists e0, 0 < e0 /\ forall e, 0 < e -> e < e0 -> let W := wind (behind h q e) in
    (Nat.Even (length got) <-> (inside f W <-> inside f (less W F))) /\
    (monotone f -> (length got <= 1)%nat /\ (got <> [] <-> inside f W /\ ~ inside f (less W F)))).
Proof.
  intros dbg wide gcd nth heap merge bound ops t G Nt L E LO f groups fuel evs t' Gr C R. pose proof (strat_splits dbg wide gcd nth heap merge G Nt) as SP. pose proof (strat_starts wide bound t LO) as SS.
  split; [exact (C55_walk dbg true ops t L E f strategy (strategy_ok wide) _ _ _ groups fuel evs t' SP SS Gr C R)|exact (C55_shown dbg true ops t L E f strategy (strategy_ok wide) _ _ _ groups fuel evs t' SP SS Gr C R)].
Qed.
Print Assumptions C68_run.

(** Seven triangles, all next to each other. *)
Definition far : list bop := [OAdd 0 (map tri_poly [0; 3; 6; 9; 12; 15; 18]%Z)].
Definition far_tree : bnode := match run_ops true true far bn_new with Ok t => t | _ => BNil end.
Definition far_heap : bnode -> nat -> nat -> nat := fun _ d k => match d with O => k / 2 | 1 => 0 | _ => if Nat.even k then k / 2 else 0 end%nat.
Definition far_merge : bnode -> nat -> nat -> nat := fun _ _ _ => 0%nat.
Definition far_split := strat_split true true (bn_split_auto true zgcd rat_sort) far_heap far_merge.
Lemma far_tri k : In k [0; 3; 6; 9; 12; 15; 18]%Z -> exists p, poly_of_points tt PropKd.slanted 2 (tri k) = Ok p /\ poly_ok p (rotate 2 (map qpt (tri k))).
Proof. intros [<-|[<-|[<-|[<-|[<-|[<-|[<-|[]]]]]]]]; (apply (C47_from_points unit tt PropKd.slanted 2); [lia|discriminate|repeat constructor|apply convex_test; vm_compute; reflexivity]). Qed.
Lemma far_legal : legal_ops true true far bn_new.
Proof.
  cbn [legal_ops far]. split; [|intros; exact I]. split; [|left; reflexivity]. apply Forall_forall. intros p J. apply in_map_iff in J as (k & <- & J). unfold tri_poly. destruct (far_tri k J) as (p & -> & P). eexists. exact P.
Qed.
Lemma far_run : run_ops true true far bn_new = Ok far_tree.
Proof. unfold far_tree. vm_compute. reflexivity. Qed.
Lemma far_contents : boxed (n_contents far_tree) /\ Forall tilted (n_contents far_tree) /\ length (n_contents far_tree) = 7%nat.
Proof.
  split; [vm_compute; repeat (constructor; [discriminate|]); constructor|]. split; [|vm_compute; reflexivity].
  assert (E : Forall (fun b => hn (pplane (bp_poly b)) = V3 1 1 1) (n_contents far_tree)) by (vm_compute; repeat (constructor; [reflexivity|]); constructor). eapply Forall_impl; [|exact E]. intros b Hb d Hd. rewrite Hb. destruct d as [|d]; [exists 1%nat|exists 0%nat]; (split; [lia|split; [lia|discriminate]]).
Qed.
Lemma only_node t w x : n_neg t = BNil -> n_pos t = BNil -> at_node t w x -> x = t.
Proof. intros N P A. destruct A as [|? ? ? ? ? ? ? ? A|? ? ? ? ? ? ? ? A]; [reflexivity|cbn in N; subst; inversion A; congruence|cbn in P; subst; inversion A; congruence]. Qed.
Lemma far_leaves bound : leaves_ok true bound far_tree.
Proof.
  intros w x A L. destruct far_contents as (B1 & B2 & B3). assert (X : x = far_tree) by (apply (only_node far_tree w); [vm_compute; reflexivity|vm_compute; reflexivity|exact A]).
  subst x. right. split; [exact B1|]. split; [exact B2|]. split; [rewrite B3; reflexivity|left; reflexivity].
Qed.
(** They are split at the plane x = 5, with event points left for the children; the
    first child has two polygons and the second one five. *)
Example far_case : gcd_ok zgcd /\ nth_ok rat_sort /\ legal_ops true true far bn_new /\ run_ops true true far bn_new = Ok far_tree /\ leaves_ok true (Some 6%nat) far_tree /\
  (node_ok [] far_tree /\ leaf far_tree /\ n_contents far_tree <> [] /\ strategy_ok true (new_strategy (Some 6%nat)) far_tree) /\
  (exists x' s1 s2, far_split (new_strategy (Some 6%nat)) far_tree = Ok (x', (s1, s2)) /\ n_split x' = HS (V3 1 0 0) 5 /\ length (n_contents (n_neg x')) = 2%nat /\ length (n_contents (n_pos x')) = 5%nat /\
    st_events s1 0%nat = [Ev true true 1; Ev true false 0; Ev true true 3; Ev true false 1]%nat /\ st_events s1 1%nat = [Ev true true 2; Ev false true 3; Ev true false 1; Ev false false 0]%nat) /\
  exists evs t', trav_run 60 true (eval (FOdd 0)) far_split group_by (new_strategy (Some 6%nat)) (new_strategy (Some 6%nat)) far_tree = Ok (evs, t') /\ length (shown evs) = 7%nat.
Proof.
  split; [exact zgcd_ok|]. split; [exact rat_sort_ok|]. split; [exact far_legal|]. split; [exact far_run|]. split; [apply far_leaves|]. split.
  { split; [apply (proj2 (built true true far far_tree far_legal far_run)); apply at_root; vm_compute; discriminate|]. split; [vm_compute; reflexivity|]. split; [vm_compute; discriminate|]. apply (strat_starts true (Some 6%nat) far_tree (far_leaves _) [] far_tree); [apply at_root; vm_compute; discriminate|vm_compute; reflexivity]. }
  split.
  - eexists _, _, _. split; [vm_compute; reflexivity|]. repeat (split; [vm_compute; reflexivity|]). vm_compute; reflexivity.
  - eexists _, _. split; [vm_compute; reflexivity|]. vm_compute. reflexivity.
Qed.

(** The documentation says that the bound -1 disables the splits with event points.
    It does that only if the root is a leaf: the bound is not passed on to the
    children of a node. *)
Definition far_ops : list bop := far ++ [OSplit [] (HS (V3 1 0 0) (-1))].
Theorem C68_bound_refuted : exists t evs t' off t'', run_ops true true far_ops bn_new = Ok t /\
  trav_run 60 true (eval (FPoly 0)) far_split group_by (new_strategy (Some 6%nat)) (new_strategy None) t = Ok (evs, t') /\
  trav_run 60 true (eval (FPoly 0)) (plain (bn_split_auto true zgcd rat_sort)) group_by tt tt t = Ok (off, t'') /\
  In (TEnter (HS (V3 1 0 0) 5)) evs /\ ~ In (TEnter (HS (V3 1 0 0) 5)) off.
Proof.
  eexists _, _, _, _, _. split; [vm_compute; reflexivity|]. split; [vm_compute; reflexivity|]. split; [vm_compute; reflexivity|]. split.
  - cbn [In]. auto 20.
  - cbn [In]. intros H. repeat destruct H as [H|H]; try discriminate; exact H.
Qed.
Print Assumptions C68_bound_refuted.

(** The hypothesis on the planes of the polygons cannot be left out.  The union of two
    tetrahedra, the second one with two faces perpendicular to an axis, each polygon with
    a box, with the default bound: the first split leaves wrong event points for its negative
    child (C66_flat_refuted), and the next one fails an assertion or, without
    assertions, reads an entry that does not exist.  With BSPNode::Split() alone there is a
    result. *)
Definition face_plane (a b c : vec3) : hspace3 := let n := v3_cross (v3_sub b a) (v3_sub c a) in HS n (v3_dot n a).
Definition face_drop (h : hspace3) : nat := if (vx (hn h) =? 0)%Z then if (vy (hn h) =? 0)%Z then 2 else 1 else 0.
Definition face_poly (x : vec3 * vec3 * vec3) : poly unit :=
  let '(a, b, c) := x in let h := face_plane a b c in match poly_of_points tt h (face_drop h) [a; b; c] with Ok p => p | _ => Poly h 0 [] end.
Definition tetra_faces (a b c d : vec3) : list (vec3 * vec3 * vec3) := [(a, b, c); (a, d, b); (b, d, c); (c, d, a)].
Definition tet1 := tetra_faces (V3 4 1 1) (V3 4 4 4) (V3 1 2 4) (V3 2 2 2).
Definition tet2 := tetra_faces (V3 3 0 2) (V3 2 2 0) (V3 2 3 1) (V3 2 0 2).
Definition tets : list bop := [OAdd 0 (map face_poly tet1); OAdd 1 (map face_poly tet2)].
Definition tets_tree : bnode := match run_ops true true tets bn_new with Ok t => t | _ => BNil end.
Definition table (l : list (Z * Z * nat)) (d k : nat) : nat :=
  match find (fun x => (fst (fst x) =? Z.of_nat d)%Z && (snd (fst x) =? Z.of_nat k)%Z) l with Some x => snd x | None => 0%nat end.
Definition tets_heap : bnode -> nat -> nat -> nat := fun _ => table
  [(0, 9, 1%nat); (0, 8, 2%nat); (0, 7, 4%nat); (0, 6, 4%nat); (0, 5, 4%nat); (0, 3, 3%nat); (1, 12, 1%nat); (1, 11, 2%nat); (1, 10, 2%nat); (1, 9, 4%nat); (1, 4, 3%nat); (2, 11, 6%nat); (2, 3, 3%nat)]%Z.
Definition tets_merge : bnode -> nat -> nat -> nat := fun _ => table
  [(0, 1240, 1%nat); (0, 1233, 2%nat); (0, 1222, 1%nat); (0, 1210, 2%nat); (0, 1205, 2%nat); (1, 1220, 1%nat); (1, 1219, 2%nat); (1, 1208, 1%nat); (1, 1207, 1%nat); (1, 1199, 1%nat); (1, 1198, 1%nat)]%Z.
Lemma faces_ok x : In x (tet1 ++ tet2) -> exists qs, poly_ok (face_poly x) qs.
Proof.
  assert (K : forall x, In x (tet1 ++ tet2) -> exists p, poly_of_points tt (face_plane (fst (fst x)) (snd (fst x)) (snd x)) (face_drop (face_plane (fst (fst x)) (snd (fst x)) (snd x))) [fst (fst x); snd (fst x); snd x] = Ok p /\ exists qs, poly_ok p qs).
  { intros y J. repeat destruct J as [<-|J]; [..|destruct J]; (edestruct (C47_from_points unit tt) as (p & E & P); [| | |apply convex_test|exists p; split; [exact E|eexists; exact P]]; [vm_compute; lia|vm_compute; discriminate|repeat constructor|vm_compute; reflexivity]). }
  intros J. destruct (K x J) as (p & E & P). destruct x as [[a b] c]. cbn [face_poly]. cbn [fst snd] in E. rewrite E. exact P.
Qed.
Lemma tets_legal dbg : legal_ops dbg true tets bn_new.
Proof.
  cbn [legal_ops tets]. split.
  - split; [|left; reflexivity]. apply Forall_forall. intros p J. apply in_map_iff in J as (x & <- & J). apply faces_ok. apply in_or_app. left. exact J.
  - intros t E. split; [|intros; exact I]. split.
    + apply Forall_forall. intros p J. apply in_map_iff in J as (x & <- & J). apply faces_ok. apply in_or_app. right. exact J.
    + left. destruct dbg; vm_compute in E; injection E as <-; reflexivity.
Qed.
Theorem C68_flat_refuted : (forall dbg, legal_ops dbg true tets bn_new /\ run_ops dbg true tets bn_new = Ok tets_tree) /\ length (n_contents tets_tree) = 8%nat /\ boxed (n_contents tets_tree) /\
  trav_run 60 true (eval (FUnion (FPoly 0) (FPoly 1))) (strat_split true true (bn_split_auto true zgcd rat_sort) tets_heap tets_merge) group_by (new_strategy (Some 6%nat)) (new_strategy (Some 6%nat)) tets_tree = AssertFail /\
  trav_run 60 false (eval (FUnion (FPoly 0) (FPoly 1))) (strat_split false true (bn_split_auto false zgcd rat_sort) tets_heap tets_merge) group_by (new_strategy (Some 6%nat)) (new_strategy (Some 6%nat)) tets_tree = UB /\
  exists evs t', trav_run 60 true (eval (FUnion (FPoly 0) (FPoly 1))) (plain (bn_split_auto true zgcd rat_sort)) group_by tt tt tets_tree = Ok (evs, t').
Proof.
  split; [intros dbg; split; [apply tets_legal|destruct dbg; vm_compute; reflexivity]|]. split; [vm_compute; reflexivity|]. split; [vm_compute; repeat (constructor; [discriminate|]); constructor|].
  split; [vm_compute; reflexivity|]. split; [vm_compute; reflexivity|]. eexists _, _. vm_compute. reflexivity.
Qed.
Print Assumptions C68_flat_refuted.
