(** C69: how ConnectingVisitor groups the edges of the polygons that a traversal shows
    to it. *)
From Coq Require Import List Bool Arith ZArith QArith Lqa Lia ZifyBool Permutation.
From Verif Require Import BigUIntModel GeoModel GeoSpec GeoBridge AabbSpec CvxSpec PolyModel PolySpec PolyChildProofs RTransModel FilterModel FilterSpec BspModel BspSpec BspHistSpec BspGeoProofs BspPolyProofs BspTreeProofs BspHistProofs BspAutoProofs PartModel PartSpec PartProofs TravModel TravSpec TravProofs ConnVisModel ConnVisSpec ConnVisProofs PropPoly PropMerge PropBsp PropPart PropTrav.
Import ListNotations.
Open Scope Q_scope.
Lemma visit {Sty} dbg' dbg boxed ops t f (Inv : Sty -> bnode -> Prop) split default st groups fuel evs t' : legal_ops dbg boxed ops bn_new -> run_ops dbg boxed ops bn_new = Ok t -> splitter dbg Inv split -> starts Inv default st t -> (forall l, grouping l (groups l)) -> (forall w x, at_node t w x -> covered f (length (n_infos x))) -> trav_run fuel dbg (eval f) split groups default st t = Ok (evs, t') ->
  exists v, seg dbg' (leaf_at t') [] (fun s => In s []) [] evs v_new v [] (v_calls v) /\ grouped (shown evs) (v_calls v).
Proof.
  intros L E Sp In Gr C R. destruct (traverse dbg boxed ops t f Inv split default st groups fuel evs t' L E Sp In Gr C R) as (H & _ & Em & _). destruct (emits_seg dbg' f [] t' evs Em path_ok_nil H v_new [] ltac:(constructor) eq_refl eq_refl) as (v & log & calls & S & G).
  assert (log = []) by (destruct log as [|e log]; [reflexivity|]; pose proof (Forall_inv (sg_log _ _ _ _ _ _ _ _ _ _ S)) as (s & [] & _)). subst log. pose proof (sg_calls _ _ _ _ _ _ _ _ _ _ S) as Ec. cbn [v_new v_calls app] in Ec. subst calls. exists v. split; assumption.
Qed.
(** All assertions of the visitor are satisfied, and in the end its maps are as in the
    beginning.  Every edge of every polygon shown is handed over to the connector
    exactly once.  The edges handed over together lie in one plane, whose drop
    dimension is a nonzero component of the normal.  Edges with more than one point in
    common are handed over together. *)
Theorem C69_groups : forall dbg boxed ops t, legal_ops dbg boxed ops bn_new -> run_ops dbg boxed ops bn_new = Ok t ->
  forall f (Sty : Type) (Inv : Sty -> bnode -> Prop) split default st groups fuel evs t', splitter dbg Inv split -> starts Inv default st t -> (forall l, grouping l (groups l)) -> (forall w x, at_node t w x -> covered f (length (n_infos x))) -> trav_run fuel dbg (eval f) split groups default st t = Ok (evs, t') ->
  forall dbg', exists v, v_run dbg' evs v_new = Ok v /\ v_open v = [] /\ v_depth v = [(None, 0%nat)] /\
    Permutation (concat (map (fun c => map snd (vc_edges c)) (v_calls v))) (edges_from 0 (shown evs)) /\
    (forall c, In c (v_calls v) -> (exists k, vc_drop c = Some k /\ (k < 3)%nat /\ comp (hn (vc_plane c)) k <> 0%Z) /\
      forall k x a b d, In (k, x) (vc_edges c) -> edge_of (shown evs) x a b d -> side (vc_plane c) a == 0 /\ side (vc_plane c) b == 0) /\
    (forall c c' e e', In c (v_calls v) -> In c' (v_calls v) -> In e (vc_edges c) -> In e' (vc_edges c') -> overlap (shown evs) (snd e) (snd e') -> exists c'', In c'' (v_calls v) /\ In e (vc_edges c'') /\ In e' (vc_edges c'')).
Proof.
  intros dbg boxed ops t L E f Sty Inv split default st groups fuel evs t' Sp In Gr C R dbg'. destruct (visit dbg' dbg boxed ops t f Inv split default st groups fuel evs t' L E Sp In Gr C R) as (v & [A1 A2 A3 A4 _ A6 _ A8] & G). exists v. split; [exact A1|]. split; [exact A2|]. split; [exact A3|]. split; [exact A6|]. split; [|exact G].
  intros c I. rewrite Forall_forall in A8. destruct (A8 c I) as [Oc F]. split; [exact Oc|]. intros k x a b d J Ed. rewrite Forall_forall in F. destruct (F _ J) as (s & Es & _ & X). rewrite Es. exact (entry_on _ _ _ _ _ _ _ _ X Ed).
Qed.
Print Assumptions C69_groups.
(** The polygons kept are those shown, in this order.  Their pointers to planes that
    the edges lie on are to planes of the tree; the others are reset. *)
Theorem C69_polygons : forall dbg boxed ops t, legal_ops dbg boxed ops bn_new -> run_ops dbg boxed ops bn_new = Ok t ->
  forall f (Sty : Type) (Inv : Sty -> bnode -> Prop) split default st groups fuel evs t', splitter dbg Inv split -> starts Inv default st t -> (forall l, grouping l (groups l)) -> (forall w x, at_node t w x -> covered f (length (n_infos x))) -> trav_run fuel dbg (eval f) split groups default st t = Ok (evs, t') ->
  forall dbg', exists v, v_run dbg' evs v_new = Ok v /\ Forall2 (fun b x => exists w y, at_node t' w y /\ leaf y /\ tidied w b x) (shown evs) (v_polys v).
Proof.
  intros dbg boxed ops t L E f Sty Inv split default st groups fuel evs t' Sp In Gr C R dbg'. destruct (visit dbg' dbg boxed ops t f Inv split default st groups fuel evs t' L E Sp In Gr C R) as (v & [A1 _ _ _ (ps & A5 & A6) _ _ _] & _). exists v. split; [exact A1|]. rewrite A5. cbn [v_new v_polys app]. revert A6. apply TravCollProofs.Forall2_weaken. intros b x (w & (y & Ay & Ly) & T). exists w, y. split; [exact Ay|]. split; [exact Ly|exact T].
Qed.
Print Assumptions C69_polygons.
(** The depth recorded for an edge is that of the plane that created it: its place in
    the path to the leaf, continued by the planes of PlanePartitioner, in which the
    polygon was shown. *)
Theorem C69_depths : forall dbg boxed ops t, legal_ops dbg boxed ops bn_new -> run_ops dbg boxed ops bn_new = Ok t ->
  forall f (Sty : Type) (Inv : Sty -> bnode -> Prop) split default st groups fuel evs t', splitter dbg Inv split -> starts Inv default st t -> (forall l, grouping l (groups l)) -> (forall w x, at_node t w x -> covered f (length (n_infos x))) -> trav_run fuel dbg (eval f) split groups default st t = Ok (evs, t') ->
  forall dbg', exists v, v_run dbg' evs v_new = Ok v /\ forall c k i j, In c (v_calls v) -> In (k, (i, j)) (vc_edges c) ->
    exists b e w y u, nth_error (shown evs) i = Some b /\ nth_error (pedges (bp_poly b)) j = Some e /\ at_node t' w y /\ leaf y /\ stored (w ++ u) b /\ born (w ++ u) k (pd e).
Proof.
  intros dbg boxed ops t L E f Sty Inv split default st groups fuel evs t' Sp In Gr C R dbg'. destruct (visit dbg' dbg boxed ops t f Inv split default st groups fuel evs t' L E Sp In Gr C R) as (v & [A1 _ _ _ _ _ _ A8] & _). exists v. split; [exact A1|]. intros c k i j I J. rewrite Forall_forall in A8. destruct (A8 c I) as [_ F]. rewrite Forall_forall in F. destruct (F _ J) as (s & _ & _ & (b & e & w & u & (y & Ay & Ly) & N1 & N2 & _ & _ & S & B)). exists b, e, w, y, u. cbn [app fst snd] in *. repeat (split; [assumption|]). exact B.
Qed.
Print Assumptions C69_depths.
(** *** Hypotheses met: the tetrahedron of C55.  The six edges of the tetrahedron are
    handed over in three groups; the first plane has none. *)
Example tet_groups : legal_ops true false tet_ops bn_new /\ run_ops true false tet_ops bn_new = Ok tet_tree /\ splitter true (fun (_ : unit) (_ : bnode) => True) (plain (bn_split_auto true zgcd rat_sort)) /\ starts (fun (_ : unit) (_ : bnode) => True) tt tt tet_tree /\ (forall l, grouping l (group_by l)) /\
  trav_run 41 true (eval (FPoly 0)) (plain (bn_split_auto true zgcd rat_sort)) group_by tt tt tet_tree = Ok tet_result /\
  exists v, v_run true (fst tet_result) v_new = Ok v /\ map (fun c => map snd (vc_edges c)) (v_calls v) =
    [[]; [(2, 1); (3, 2)]; [(1, 1); (1, 2); (2, 0); (3, 0)]; [(0, 0); (0, 1); (0, 2); (1, 0); (2, 2); (3, 1)]]%nat.
Proof.
  split; [exact tet_legal|]. split; [exact tet_built|]. split; [apply auto_splitter; apply tet_case|]. split; [intros w x _ _; split; exact I|]. split; [exact group_by_ok|]. split; [exact tet_ran|]. eexists. split; vm_compute; reflexivity.
Qed.
(** edge_created_by is not reset: it may point to a local plane of PlanePartitioner
    that is gone, as with CollectorVisitor (C56). *)
Theorem C69_created_refuted : exists p o t evs t' v, legal_ops true false (part_ops p o) bn_new /\ run_ops true false (part_ops p o) bn_new = Ok t /\
  trav_run 41 true (eval (FUnion (FInv 0) (FInv 1))) (plain (bn_split_auto true zgcd rat_sort)) group_by tt tt t = Ok (evs, t') /\ v_run true evs v_new = Ok v /\
  exists b e h pos, In b (v_polys v) /\ In e (pedges (bp_poly b)) /\ created_by (pd e) = Some (SS h pos) /\ forall w x, at_node t' w x -> n_split x <> h.
Proof.
  destruct (square_case 0) as (p & Ep & P); [auto|]. destruct shifted_case as (o & Eo & O). exists p, o. assert (X := Ep). assert (Y := Eo). vm_compute in X, Y. injection X as X. injection Y as Y. eexists _, _, _, _. split.
  - assert (Fp : Forall (fun p => exists qs, poly_ok p qs) [p]) by (constructor; [eexists; exact P|constructor]). assert (Fo : Forall (fun p => exists qs, poly_ok p qs) [o]) by (constructor; [eexists; exact O|constructor]).
    cbn [legal_ops part_ops]. split; [split; [exact Fp|left; reflexivity]|]. intros t1 E1. rewrite <- X in E1. vm_compute in E1. injection E1 as <-.
    split; [split; [exact Fo|left; reflexivity]|]. intros t2 E2. rewrite <- Y in E2. vm_compute in E2. injection E2 as <-.
    split; [|intros; exact I]. eexists [], _. split; [split; [apply at_root; discriminate|reflexivity]|]. split; [reflexivity|]. split; [reflexivity|]. intros s [].
  - rewrite <- X, <- Y. split; [vm_compute; reflexivity|]. split; [vm_compute; reflexivity|]. split; [vm_compute; reflexivity|]. eexists _, _, (HS (V3 0 (-2) 0) (-4)), true. split; [left; reflexivity|]. split; [right; right; right; left; reflexivity|]. split; [reflexivity|].
    intros w x A. apply tree_nodes_all in A. apply (in_map (fun y => n_split (snd y))) in A. change (n_split (snd (w, x))) with (n_split x) in A. set (z := n_split x) in *. clearbody z. vm_compute in A. destruct A as [<-|[<-|[<-|[]]]]; discriminate.
Qed.
Print Assumptions C69_created_refuted.
