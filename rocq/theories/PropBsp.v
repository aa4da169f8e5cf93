(** C37, C38, C52, C53, C54: BSP trees built by AddContents and Split. *)
From Coq Require Import List ZArith QArith Permutation Bool Lia.
From Verif Require Import BigUIntModel GeoModel GeoSpec AabbSpec CvxSpec PolyModel PolySpec RTransModel FilterModel GeoBridge BspModel BspSpec BspHistSpec BspPolyProofs BspTreeProofs BspHistProofs BspAutoProofs PropPoly PropMerge.
Import ListNotations.
Local Arguments Z.of_nat : simpl never.

Lemma new_ok : tree_ok bn_new.
Proof.
  split; [discriminate|]. intros w x A. inversion A; subst; try (match goal with H : at_node BNil _ _ |- _ => inversion H; subst; congruence end).
  split; [constructor|constructor| |left; repeat split].
  split; cbn [n_infos bn_new n_contents n_border all_polys app]; intros.
  - unfold info_for. destruct id; split; reflexivity.
  - split; [destruct id; intros X; destruct X; reflexivity|intros (b & [] & _)].
  - split; [destruct id; intros X; destruct X; reflexivity|intros (b & [] & _)].
Qed.
(** C37: whatever is done to a new tree by adding convex polygons and by splitting
    leaves with new planes, every operation returns, with all assertions satisfied,
    and the polygons in the tree are the polygons added, each of them as one or
    more pieces: none is lost and none is stored twice. *)
Theorem C37_partition : forall dbg ops, legal_ops dbg false ops bn_new ->
  exists t, run_ops dbg false ops bn_new = Ok t /\ cut_up (added_polys ops) (all_polys t).
Proof.
  intros dbg ops L. pose proof (run_ok false dbg ops bn_new new_ok ltac:(intros _; constructor) L) as G. destruct (run_ops dbg false ops bn_new) as [t| | |]; cbn [good] in G; try contradiction; [|discriminate]. exists t. split; [reflexivity|apply G].
Qed.
Print Assumptions C37_partition.
(** The same for polygons with bounding boxes, of which the only other outcome is
    undefined behaviour when a bounding box is computed. *)
Theorem C37_partition_boxed : forall dbg ops, legal_ops dbg true ops bn_new ->
  match run_ops dbg true ops bn_new with Ok t => cut_up (added_polys ops) (all_polys t) | UB => True | _ => False end.
Proof.
  intros dbg ops L. pose proof (run_ok true dbg ops bn_new new_ok ltac:(discriminate) L) as G. destruct (run_ops dbg true ops bn_new) as [t| | |]; cbn [good] in G; try contradiction; [apply G|exact I].
Qed.
Print Assumptions C37_partition_boxed.
Lemma built dbg boxed ops t : legal_ops dbg boxed ops bn_new -> run_ops dbg boxed ops bn_new = Ok t -> tree_ok t.
Proof. intros L E. pose proof (run_ok boxed dbg ops bn_new new_ok ltac:(intros _; constructor) L) as G. rewrite E in G. apply G. Qed.
(** Each polygon is in a leaf, inside the cell of the leaf. *)
Theorem C37_leaves : forall dbg boxed ops t, legal_ops dbg boxed ops bn_new -> run_ops dbg boxed ops bn_new = Ok t ->
  forall w x b, at_node t w x -> In b (n_contents x ++ n_border x) -> leaf x /\ forall q, bp_point b q -> in_cell w q.
Proof.
  intros dbg boxed ops t L E w x b A I. destruct (built dbg boxed ops t L E) as [_ T]. destruct (T w x A) as [C B _ S]. split.
  - destruct S as [(Lf & _)|(_ & Z1 & Z2 & _)]; [exact Lf|]. rewrite Z1, Z2 in I. destruct I.
  - apply in_app_or in I as [I|I]; [apply (proj1 (Forall_forall _ _) C b) in I|apply (proj1 (Forall_forall _ _) B b) in I]; destruct I as [St _]; exact (st_cell _ _ St).
Qed.
Print Assumptions C37_leaves.
(** It is in the border list exactly if it lies on the plane of an ancestor; it is
    then on the side of that plane that its back faces. *)
Theorem C37_border : forall dbg boxed ops t, legal_ops dbg boxed ops bn_new -> run_ops dbg boxed ops bn_new = Ok t ->
  forall w x b, at_node t w x ->
  (In b (n_contents x) -> forall s, In s w -> ~ lies_on s b) /\
  (In b (n_border x) -> exists s, bp_on b = Some s /\ In s w /\ lies_on s b /\ faces_out s (pplane (bp_poly b))).
Proof.
  intros dbg boxed ops t L E w x b A. destruct (built dbg boxed ops t L E) as [_ T]. destruct (T w x A) as [C B _ _]. split; intros I.
  - apply (proj1 (Forall_forall _ _) C b) in I as [St N]. destruct (st_on _ _ St) as [X _]. rewrite N in X. intros s Is. exact (proj1 (Forall_forall _ _) X s Is).
  - apply (proj1 (Forall_forall _ _) B b) in I as [St N]. destruct (st_on _ _ St) as [X _]. destruct (bp_on b) as [s|] eqn:Eo; [|contradiction N; reflexivity]. exists s. destruct X as (l & r & Ew & Ls & F1). split; [reflexivity|]. split; [rewrite Ew; apply in_or_app; right; left; reflexivity|]. split; [exact Ls|exact (st_faces _ _ St s Eo)].
Qed.
Print Assumptions C37_border.

(** C38: adding polygons is safe at any time for an id for which the tree has
    room: an id passed to AddContents before the first split, or a smaller one
    than such an id.  An id for which there is room keeps it. *)
Theorem C38_known : forall dbg boxed ops t, legal_ops dbg boxed ops bn_new -> run_ops dbg boxed ops bn_new = Ok t ->
  forall id ps, Forall (fun p => exists qs, poly_ok p qs) ps -> (leaf t \/ knows t id) ->
  match add_contents dbg boxed id ps t with
  | Ok t' => cut_up (all_polys t ++ map (fresh_poly id) ps) (all_polys t') /\ forall j, knows t j -> knows t' j
  | UB => boxed = true
  | _ => False
  end.
Proof.
  intros dbg boxed ops t L E id ps F K. pose proof (run_ok boxed dbg ops bn_new new_ok ltac:(intros _; constructor) L) as G. rewrite E in G. destruct G as (T & _ & Bx & _).
  pose proof (run_ok boxed dbg [OAdd id ps] t T Bx) as R. cbn [legal_ops legal run_ops rfold do_op] in R. unfold run_ops in R. cbn [rfold do_op added_polys flat_map] in R. rewrite app_nil_r in R. specialize (R ltac:(split; [split; assumption|intros; exact I])).
  destruct (add_contents dbg boxed id ps t) as [t'| | |]; cbn [rbind good] in R; try contradiction; [|exact R]. split; apply R.
Qed.
Print Assumptions C38_known.
Theorem C38_room : forall dbg boxed ops t, legal_ops dbg boxed ops bn_new -> run_ops dbg boxed ops bn_new = Ok t -> leaf t ->
  forall id p ps t', add_contents dbg boxed id (p :: ps) t = Ok t' -> forall j, (j <= id)%nat -> knows t' j.
Proof. intros dbg boxed ops t L E Lf id p ps t'. exact (room_for dbg boxed id p ps t t' (built dbg boxed ops t L E) Lf). Qed.
Print Assumptions C38_room.
(** It is not safe for other ids: once the tree has been split, a polygon with an
    id for which the children of the root have no room is stored out of bounds. *)
Theorem C38_new_id_refuted : forall dbg ops t, legal_ops dbg false ops bn_new -> run_ops dbg false ops bn_new = Ok t -> ~ leaf t ->
  forall id p ps, (length (n_infos (n_neg t)) <= id)%nat -> (length (n_infos (n_pos t)) <= id)%nat -> Forall (fun p => exists qs, poly_ok p qs) (p :: ps) ->
  add_contents dbg false id (p :: ps) t = UB.
Proof.
  intros dbg ops t L E Lf id p ps R1 R2 F. pose proof (run_ok false dbg ops bn_new new_ok ltac:(intros _; constructor) L) as G. rewrite E in G. destruct G as (T & _ & Bx & _). exact (no_room dbg id p ps t T Lf F Bx R1 R2).
Qed.
Print Assumptions C38_new_id_refuted.

(** C52: what the edges and the vertices of a polygon say about the planes of the
    ancestors is right: the first and the last plane that contains the edge, the
    last one that contains the first vertex of the edge, and for an edge made by a
    cut the plane of the cut.  An edge that no cut has made is a part of an edge
    of the polygon that was added. *)
Theorem C52_edges : forall dbg boxed ops t, legal_ops dbg boxed ops bn_new -> run_ops dbg boxed ops bn_new = Ok t ->
  forall w x b i u v d, at_node t w x -> In b (n_contents x ++ n_border x) -> has_edge (bp_poly b) i u v d -> edge_exact w u v d.
Proof.
  intros dbg boxed ops t L E w x b i u v d A I. destruct (built dbg boxed ops t L E) as [_ T]. destruct (T w x A) as [C B _ _]. apply in_app_or in I as [I|I]; [apply (proj1 (Forall_forall _ _) C b) in I|apply (proj1 (Forall_forall _ _) B b) in I]; destruct I as [St _]; apply (st_edges _ _ St).
Qed.
Print Assumptions C52_edges.
(** The bounding box of a polygon that has one is the smallest one. *)
Theorem C52_boxes : forall dbg ops t, legal_ops dbg true ops bn_new -> run_ops dbg true ops bn_new = Ok t ->
  forall w x b k, at_node t w x -> In b (n_contents x ++ n_border x) -> bp_box b = Some k -> tracks k (map pv (pedges (bp_poly b))).
Proof.
  intros dbg ops t L E w x b k A I. destruct (built dbg true ops t L E) as [_ T]. destruct (T w x A) as [C B _ _]. apply in_app_or in I as [I|I]; [apply (proj1 (Forall_forall _ _) C b) in I|apply (proj1 (Forall_forall _ _) B b) in I]; destruct I as [St _]; apply (st_box _ _ St).
Qed.
Print Assumptions C52_boxes.

(** C53: the counters of a leaf are the numbers of polygons of the id in its two
    lists; those of any node are 0 exactly if no polygon of the id below it is in
    the inside of its cell, or on its border. *)
Theorem C53_leaf : forall dbg boxed ops t, legal_ops dbg boxed ops bn_new -> run_ops dbg boxed ops bn_new = Ok t ->
  forall w x id, at_node t w x -> leaf x ->
  interior (info_for (n_infos x) id) = count_id id (n_contents x) /\ border (info_for (n_infos x) id) = count_id id (n_border x).
Proof. intros dbg boxed ops t L E w x id A Lf. destruct (built dbg boxed ops t L E) as [_ T]. exact (ct_leaf _ _ (no_counted _ _ (T w x A)) Lf id). Qed.
Print Assumptions C53_leaf.
Theorem C53_any_node : forall dbg boxed ops t, legal_ops dbg boxed ops bn_new -> run_ops dbg boxed ops bn_new = Ok t ->
  forall w x id, at_node t w x ->
  (interior (info_for (n_infos x) id) <> 0%nat <-> exists b, In b (all_polys x) /\ bp_id b = id /\ forall s, In s w -> ~ lies_on s b) /\
  (border (info_for (n_infos x) id) <> 0%nat <-> exists b, In b (all_polys x) /\ bp_id b = id /\ exists s, In s w /\ lies_on s b).
Proof. intros dbg boxed ops t L E w x id A. destruct (built dbg boxed ops t L E) as [_ T]. split; [exact (ct_interior _ _ (no_counted _ _ (T w x A)) id)|exact (ct_border _ _ (no_counted _ _ (T w x A)) id)]. Qed.
Print Assumptions C53_any_node.
(** GetCostExclude names the id with the largest interior counter, the smallest
    such id, unless at most one id has one that is not 0. *)
Theorem C53_exclude : forall infos,
  let full := List.filter (fun c => negb (interior c =? 0)%nat) infos in
  match cost_exclude infos with
  | None => (length full <= 1)%nat
  | Some (id, n) => (2 <= length full)%nat /\ exists c, nth_error infos id = Some c /\ interior c = n /\
      (forall j c', nth_error infos j = Some c' -> (interior c' <= n)%nat) /\ forall j c', (j < id)%nat -> nth_error infos j = Some c' -> (interior c' < n)%nat
  end.
Proof. exact cost_exclude_ok. Qed.
Print Assumptions C53_exclude.
Example exclude_case : cost_exclude [CI 0 3 1; CI 2 0 0; CI 5 1 0; CI 5 0 0] = Some (2, 5)%nat /\ cost_exclude [CI 0 3 1; CI 2 0 0] = None.
Proof. split; reflexivity. Qed.

(** C54: Split() of a leaf with contents chooses a plane that is allowed, and with
    at most 40 polygons both children have fewer. *)
Theorem C54_split : forall dbg gcd nth ops t, gcd_ok gcd -> nth_ok nth -> legal_ops dbg false ops bn_new -> run_ops dbg false ops bn_new = Ok t ->
  forall w x, at_node t w x -> leaf x -> n_contents x <> [] -> (length (n_contents x) <= 40)%nat ->
  exists x', bn_split_auto dbg gcd nth x = Ok x' /\ bn_split dbg (n_split x') x = Ok x' /\ fresh_plane w (n_split x') /\
    (length (n_contents (n_neg x')) < length (n_contents x))%nat /\ (length (n_contents (n_pos x')) < length (n_contents x))%nat.
Proof.
  intros dbg gcd nth ops t G N L E w x A Lf Ne Sm. pose proof (run_ok false dbg ops bn_new new_ok ltac:(intros _; constructor) L) as R. rewrite E in R. destruct R as (T & _ & Bx & _). apply tree_ok_sub in T. pose proof (node_sub t w x T A) as Hx. pose proof (sub_path [] t w x path_ok_nil T A) as Pw. cbn [app] in Pw.
  destruct (auto_small dbg gcd nth w x Pw G N Hx Lf Ne (node_boxes false t w x A Bx) Sm) as (x' & Ex & _ & K). exists x'. split; [exact Ex|]. pose proof (auto_ok false dbg gcd nth w x Pw G N Hx Lf Ne (node_boxes false t w x A Bx)) as Q. rewrite Ex in Q. destruct Q as (h & Fr & _ & Es & R). rewrite (sr_plane _ _ _ _ _ R). split; [exact Es|]. split; [exact Fr|exact K].
Qed.
Print Assumptions C54_split.
(** The plane is allowed for any number of polygons, if Split() returns. *)
Theorem C54_fresh : forall dbg boxed gcd nth ops t, gcd_ok gcd -> nth_ok nth -> legal_ops dbg boxed ops bn_new -> run_ops dbg boxed ops bn_new = Ok t ->
  forall w x x', at_node t w x -> leaf x -> n_contents x <> [] -> bn_split_auto dbg gcd nth x = Ok x' -> fresh_plane w (n_split x') /\ bn_split dbg (n_split x') x = Ok x'.
Proof.
  intros dbg boxed gcd nth ops t G N L E w x x' A Lf Ne Ex. pose proof (run_ok boxed dbg ops bn_new new_ok ltac:(intros _; constructor) L) as R. rewrite E in R. destruct R as (T & _ & Bx & _). apply tree_ok_sub in T. pose proof (node_sub t w x T A) as Hx. pose proof (sub_path [] t w x path_ok_nil T A) as Pw. cbn [app] in Pw.
  pose proof (auto_ok boxed dbg gcd nth w x Pw G N Hx Lf Ne (node_boxes boxed t w x A Bx)) as Q. rewrite Ex in Q. destruct Q as (h & Fr & _ & Es & R). rewrite (sr_plane _ _ _ _ _ R). split; [exact Fr|exact Es].
Qed.
Print Assumptions C54_fresh.
(** Splitting leaves with Split() ends: there can be no more splits than the sum of
    2^n - 1 over the leaves with n polygons each, if none has more than 40. *)
Theorem C54_ends : forall dbg gcd nth ops t k t', gcd_ok gcd -> nth_ok nth -> legal_ops dbg false ops bn_new -> run_ops dbg false ops bn_new = Ok t -> small_leaves t ->
  auto_steps dbg gcd nth k t t' -> (k + budget t' <= budget t)%nat /\ cut_up (all_polys t) (all_polys t').
Proof.
  intros dbg gcd nth ops t k t' G N L E Sm St. pose proof (run_ok false dbg ops bn_new new_ok ltac:(intros _; constructor) L) as R. rewrite E in R. destruct R as (T & _ & Bx & _). destruct (auto_steps_ok dbg gcd nth k t t' G N St T Bx Sm) as (_ & A & B). split; assumption.
Qed.
Print Assumptions C54_ends.

(** A square is added, the root is split so that the square is cut, a child is
    split by the plane of the square, which moves a half into the border list of a
    grandchild, and another square is added.  Adding with a new id instead is
    undefined. *)
Ltac nodes A := inversion A; subst; clear A; try (match goal with A' : at_node _ _ _ |- _ => nodes A' end).
Definition across : hspace3 := HS (V3 1 0 0) 1.
Definition ops_case (p o : poly unit) : list bop := [OAdd 0 [p]; OSplit [] across; OSplit [false] up; OAdd 0 [o]].
Example bsp_case : exists p o, poly_of_points tt up 2 (square 0) = Ok p /\ poly_of_points tt up 2 (square 2) = Ok o /\ legal_ops true false (ops_case p o) bn_new /\
  exists t, run_ops true false (ops_case p o) bn_new = Ok t /\ map (fun b => length (pedges (bp_poly b))) (all_polys t) = [4; 4; 4]%nat /\
    length (n_border (n_neg (n_neg t))) = 1%nat /\ length (n_contents (n_pos t)) = 2%nat /\ map interior (n_infos (n_pos t)) = [2%nat] /\ map border (n_infos (n_neg (n_neg t))) = [1%nat] /\
    ~ leaf t /\ (length (n_infos (n_neg t)) <= 1)%nat /\ (length (n_infos (n_pos t)) <= 1)%nat /\ add_contents true false 1 [o] t = UB.
Proof.
  destruct (square_case 0) as (p & Ep & P); [auto|]. destruct (square_case 2) as (o & Eo & O); [auto|]. exists p, o. split; [exact Ep|]. split; [exact Eo|].
  assert (X := Ep). assert (Y := Eo). vm_compute in X, Y. injection X as X. injection Y as Y. split.
  - assert (Fp : Forall (fun p => exists qs, poly_ok p qs) [p]) by (constructor; [eexists; exact P|constructor]). assert (Fo : Forall (fun p => exists qs, poly_ok p qs) [o]) by (constructor; [eexists; exact O|constructor]).
    cbn [legal_ops ops_case]. split; [split; [exact Fp|left; reflexivity]|]. intros t1 E1. rewrite <- X in E1. vm_compute in E1. injection E1 as <-.
    split. { eexists [], _. split; [split; [apply at_root; discriminate|reflexivity]|]. split; [reflexivity|]. split; [reflexivity|]. intros s []. }
    intros t2 E2. vm_compute in E2. injection E2 as <-.
    split. { eexists [_], _. split; [split; [apply at_neg, at_root; discriminate|reflexivity]|]. split; [reflexivity|]. split; [reflexivity|]. intros s [<-|[]] Sm. destruct (Sm (QP 1 1 1)) as [K _]. vm_compute in K. discriminate (K eq_refl). }
    intros t3 E3. vm_compute in E3. injection E3 as <-.
    split; [split; [exact Fo|right]|intros; exact I]. intros w x A. nodes A; cbn [n_infos length]; try lia; congruence.
  - rewrite <- X, <- Y. eexists. split; [vm_compute; reflexivity|]. repeat (split; [vm_compute; first [reflexivity|discriminate|auto]|]). vm_compute. reflexivity.
Qed.
(** Split() may be used from there, with the code's gcd and with sorting for
    std::nth_element. *)
Example split_case : gcd_ok zgcd /\ nth_ok rat_sort /\ exists p t, poly_of_points tt up 2 (square 0) = Ok p /\ legal_ops true false [OAdd 0 [p]] bn_new /\ run_ops true false [OAdd 0 [p]] bn_new = Ok t /\
  at_node t [] t /\ leaf t /\ n_contents t <> [] /\ small_leaves t /\ exists t', auto_steps true zgcd rat_sort 1 t t' /\ budget t = 1%nat /\ budget t' = 0%nat.
Proof.
  split; [exact zgcd_ok|]. split; [exact rat_sort_ok|]. destruct (square_case 0) as (p & Ep & P); [auto|]. exists p. assert (X := Ep). vm_compute in X. injection X as X. eexists. split; [exact Ep|]. split.
  - cbn [legal_ops]. split; [split; [constructor; [eexists; exact P|constructor]|left; reflexivity]|]. intros; exact I.
  - rewrite <- X. split; [vm_compute; reflexivity|]. split; [apply at_root; discriminate|]. split; [reflexivity|]. split; [discriminate|]. split.
    + intros w x A _. nodes A; cbn [n_contents length]; try lia; congruence.
    + eexists. split; [eapply as_one; [eexists [], [], _; split; [split; [apply at_root; discriminate|reflexivity]|]; split; [reflexivity|]; split; [discriminate|]; vm_compute; reflexivity|apply as_none]|split; vm_compute; reflexivity].
Qed.
