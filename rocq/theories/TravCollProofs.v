(** Proofs about CollectorVisitor. *)
From Coq Require Import List Bool Arith ZArith QArith Lqa Lia ZifyBool Permutation.
From Verif Require Import BigUIntModel GeoModel GeoSpec GeoProofs CvxSpec PolyModel PolySpec PolyBridgeProofs RTransModel FilterModel FilterSpec BspModel BspSpec BspHistSpec BspGeoProofs BspPolyProofs BspTreeProofs BspHistProofs PartModel PartSpec PartProofs TravModel TravSpec TravProofs TravPointProofs.
Import ListNotations.
Lemma Forall2_weaken {A B} (R R' : A -> B -> Prop) l m : (forall x y, R x y -> R' x y) -> Forall2 R l m -> Forall2 R' l m.
Proof. intros G F. induction F; constructor; [apply G; assumption|assumption]. Qed.
Lemma c_run_app dbg a b : forall c, c_run dbg (a ++ b) c = (c <- c_run dbg a c ;; c_run dbg b c).
Proof. induction a as [|e a IH]; intros c; [reflexivity|]. cbn [app c_run]. destruct (c_step dbg c e); cbn [rbind]; [apply IH|reflexivity|reflexivity|reflexivity]. Qed.
(** The map has the planes announced, the last one first. *)
Definition maps (planes : list hspace3) (u : path) (m : list (hspace3 * nat)) : Prop := Forall2 (fun s x => fst x = ss_split s /\ nth_error planes (snd x) = Some (ss_split s)) (rev u) m.
Lemma maps_more planes more u m : maps planes u m -> maps (planes ++ more) u m.
Proof. intros F. unfold maps in *. induction F as [|s x l m [E N] F IH]; constructor; [split; [exact E|]|exact IH]. rewrite nth_error_app1; [exact N|]. apply nth_error_Some. congruence. Qed.
Lemma find_some planes u m s : maps planes u m -> In s u -> (forall s', In s' u -> ss_split s' = ss_split s -> s' = s) -> exists i, c_find m (ss_split s) = Some i /\ nth_error planes i = Some (ss_split s).
Proof.
  intros F I _. apply in_rev in I. unfold maps in F. unfold c_find. induction F as [|s' x l m [E N] F IH]; [destruct I|]. cbn [find]. destruct (hs_eqb (fst x) (ss_split s)) eqn:H.
  - apply hs_eqb_eq in H. cbn [option_map]. exists (snd x). split; [reflexivity|]. rewrite <- H, E. exact N.
  - destruct I as [->|I]; [rewrite E, hs_eqb_refl in H; discriminate|exact (IH I)].
Qed.
Lemma find_none planes u m h : maps planes u m -> (forall s, In s u -> ss_split s <> h) -> c_find m h = None.
Proof.
  intros F N. unfold c_find. assert (N' : forall s, In s (rev u) -> ss_split s <> h) by (intros s I; apply N; apply in_rev; exact I). unfold maps in F. induction F as [|s x l m [E _] F IH]; [reflexivity|]. cbn [find]. destruct (hs_eqb (fst x) h) eqn:H.
  - apply hs_eqb_eq in H. exfalso. apply (N' s (or_introl eq_refl)). congruence.
  - apply IH. intros s' I. apply N'. right. exact I.
Qed.
Lemma filter_rest planes u m h : maps planes u m -> (forall s, In s u -> ss_split s <> h) -> List.filter (fun x => negb (hs_eqb (fst x) h)) m = m.
Proof.
  intros F N. assert (N' : forall s, In s (rev u) -> ss_split s <> h) by (intros s I; apply N; apply in_rev; exact I). unfold maps in F. induction F as [|s x l m [E _] F IH]; [reflexivity|]. cbn [List.filter]. destruct (hs_eqb (fst x) h) eqn:H.
  - apply hs_eqb_eq in H. exfalso. apply (N' s (or_introl eq_refl)). congruence.
  - cbn [negb]. f_equal. apply IH. intros s' I. apply N'. right. exact I.
Qed.
Lemma alive_more w planes more o p : alive w planes o p -> alive w (planes ++ more) o p.
Proof. destruct o as [s|], p as [[[h|i] pos]|]; cbn; try tauto. intros [E N]. split; [exact E|]. rewrite nth_error_app1; [exact N|]. apply nth_error_Some. congruence. Qed.
Lemma kept_more w planes more b es : kept w planes b es -> kept w (planes ++ more) b es.
Proof. intros F. unfold kept in *. induction F as [|e c l es (A & B & C) F IH]; constructor; [repeat split; apply alive_more; assumption|exact IH]. Qed.
Lemma path_value w s s' : path_ok w -> In s w -> In s' w -> ss_split s = ss_split s' -> s = s'.
Proof. intros P I I' E. apply (path_distinct w s s' P I I'). rewrite E. intros x. reflexivity. Qed.
Lemma remap_alive w0 u planes m o : path_ok (w0 ++ u) -> maps planes u m -> (forall s, o = Some s -> In s (w0 ++ u)) -> alive w0 planes o (remap m o).
Proof.
  intros P M I. destruct o as [s|]; [|exact Logic.I]. specialize (I s eq_refl). cbn [remap alive]. destruct (in_app_or _ _ _ I) as [I0|Iu].
  - destruct (c_find m (ss_split s)) as [i|] eqn:E; [|repeat split; exact I0]. exfalso. assert (X : c_find m (ss_split s) = None); [|congruence]. apply (find_none planes u m _ M). intros s' I' E'. assert (s' = s) by (apply (path_value (w0 ++ u)); [exact P|apply in_or_app; right; exact I'|exact I|exact E']). subst s'.
    apply in_split in I' as (l1 & l2 & ->). specialize (P (w0 ++ l1) s l2 ltac:(rewrite <- app_assoc; reflexivity)). destruct P as [_ P]. apply (P s); [apply in_or_app; left; exact I0|]. intros x. reflexivity.
  - destruct (find_some planes u m s M Iu) as (i & -> & N); [|split; [reflexivity|exact N]]. intros s' I' E'. apply (path_value (w0 ++ u)); [exact P|apply in_or_app; right; exact I'|exact I|exact E'].
Qed.
Lemma first_mem P (w : path) s : first_in P w (Some s) -> In s w.
Proof. intros (l & r & -> & _). apply in_or_app. right. left. reflexivity. Qed.
Lemma last_mem P (w : path) s : last_in P w (Some s) -> In s w.
Proof. intros (l & r & -> & _). apply in_or_app. right. left. reflexivity. Qed.
Lemma collect_kept w0 u planes m b : path_ok (w0 ++ u) -> maps planes u m -> stored (w0 ++ u) b -> kept w0 planes b (map (fun e => c_edge m (pd e)) (pedges (bp_poly b))).
Proof.
  intros P M S. destruct (st_ok _ _ S) as (qs & H). assert (G : forall e, In e (pedges (bp_poly b)) -> alive w0 planes (first_co (pd e)) (ce_first (c_edge m (pd e))) /\ alive w0 planes (vertex_co (pd e)) (ce_vertex (c_edge m (pd e))) /\ alive w0 planes (edge_co (pd e)) (ce_last (c_edge m (pd e)))).
  { intros e I. apply In_nth_error in I as (i & Ei). destruct (st_edges _ _ S i _ _ _ (has_edge_at (bp_poly b) qs i e H Ei)) as [F L V _]. unfold c_edge. cbn [ce_first ce_vertex ce_last].
    split; [|split]; apply (remap_alive w0 u planes m); try assumption; intros s E; rewrite E in *; [exact (first_mem _ _ _ F)|exact (last_mem _ _ _ V)|exact (last_mem _ _ _ L)]. }
  unfold kept. clear S H. induction (pedges (bp_poly b)) as [|e l IH]; cbn [map]; constructor; [apply G; left; reflexivity|apply IH; intros x I; apply G; right; exact I].
Qed.
(** What the collector does with a part of the calls. *)
Record collected (dbg : bool) (evs : list tevent) (c c' : coll) (R : list hspace3 -> bpoly -> list cedge -> Prop) : Prop := Collected {
  cl_run : c_run dbg evs c = Ok c'; cl_map : c_map c' = c_map c; cl_planes : exists pl, c_planes c' = c_planes c ++ pl;
  cl_polys : exists ps, c_polys c' = c_polys c ++ ps /\ Forall2 (fun b x => fst x = b /\ R (c_planes c') b (snd x)) (shown evs) ps }.
Lemma collected_app dbg a b c c1 c2 (R : list hspace3 -> bpoly -> list cedge -> Prop) : (forall planes more x es, R planes x es -> R (planes ++ more) x es) -> collected dbg a c c1 R -> collected dbg b c1 c2 R -> collected dbg (a ++ b) c c2 R.
Proof.
  intros Mo [A1 A2 (pl1 & A3) (ps1 & A4 & A5)] [B1 B2 (pl2 & B3) (ps2 & B4 & B5)]. split.
  - rewrite c_run_app, A1. exact B1.
  - congruence.
  - exists (pl1 ++ pl2). rewrite B3, A3, app_assoc. reflexivity.
  - exists (ps1 ++ ps2). split; [rewrite B4, A4, app_assoc; reflexivity|]. rewrite shown_app. apply Forall2_app; [|exact B5]. rewrite B3. revert A5. apply Forall2_weaken. intros x y [E K]. split; [exact E|apply Mo; exact K].
Qed.
Lemma collected_nil dbg c R : collected dbg [] c c R.
Proof. split; [reflexivity|reflexivity|exists []; rewrite app_nil_r; reflexivity|exists []; rewrite app_nil_r; split; [reflexivity|constructor]]. Qed.
Lemma collected_quiet dbg e c R : shown [e] = [] -> c_step dbg c e = Ok c -> collected dbg [e] c c R.
Proof. intros S E. split; [cbn [c_run]; rewrite E; reflexivity|reflexivity|exists []; rewrite app_nil_r; reflexivity|exists []; rewrite app_nil_r, S; split; [reflexivity|constructor]]. Qed.
Lemma collected_more dbg evs c c' (R R' : list hspace3 -> bpoly -> list cedge -> Prop) : (forall planes b es, R planes b es -> R' planes b es) -> collected dbg evs c c' R -> collected dbg evs c c' R'.
Proof. intros G [A1 A2 A3 (ps & A4 & A5)]. split; [exact A1|exact A2|exact A3|exists ps; split; [exact A4|]]. revert A5. apply Forall2_weaken. intros x y [E K]. split; [exact E|apply G; exact K]. Qed.
Lemma tour_collect dbg w evs : tour w evs -> forall w0 u c, w = w0 ++ u -> path_ok w -> maps (c_planes c) u (c_map c) -> exists c', collected dbg (map TPart evs) c c' (kept w0).
Proof.
  intros T. induction T as [w|w l F|w h n p Fr Tn IHn Tp IHp]; intros w0 u c -> P M.
  - exists c. apply collected_nil.
  - assert (X : forall l c, Forall (stored (w0 ++ u)) l -> maps (c_planes c) u (c_map c) -> exists c', collected dbg (map TPart (map EAccept l)) c c' (kept w0)).
    { clear - P. induction l as [|b l IH]; intros c F M; [exists c; apply collected_nil|]. inversion F as [|? ? S F']; subst. set (c1 := Coll (c_polys c ++ [(b, map (fun e => c_edge (c_map c) (pd e)) (pedges (bp_poly b)))]) (c_planes c) (c_map c)).
      destruct (IH c1 F' M) as (c2 & C2). exists c2. cbn [map]. change (TPart (EAccept b) :: map TPart (map EAccept l)) with ([TPart (EAccept b)] ++ map TPart (map EAccept l)). apply (collected_app dbg _ _ c c1 c2); [intros; apply kept_more; assumption| |exact C2].
      split; [reflexivity|reflexivity|exists []; rewrite app_nil_r; reflexivity|]. eexists. split; [reflexivity|]. cbn [shown]. constructor; [split; [reflexivity|]|constructor]. exact (collect_kept w0 u _ _ b P M S). }
    destruct (X l c F M) as (c' & C). exists c'. cbn [map]. change (TPart ELeaf :: map TPart (map EAccept l)) with ([TPart ELeaf] ++ map TPart (map EAccept l)). apply (collected_app dbg _ _ c c c'); [intros; apply kept_more; assumption|apply collected_quiet; reflexivity|exact C].
  - assert (Nu : forall s, In s u -> ss_split s <> h). { intros s I E. apply (proj2 Fr s); [apply in_or_app; right; exact I|]. rewrite E. intros x. reflexivity. }
    set (c1 := Coll (c_polys c) (c_planes c ++ [h]) ((h, length (c_planes c)) :: c_map c)). pose proof (find_none _ _ _ h M Nu) as Fn.
    assert (M1 : forall b, maps (c_planes c1) (u ++ [SS h b]) (c_map c1)). { intros b. unfold maps. rewrite rev_unit. constructor; [split; [reflexivity|]|exact (maps_more _ _ _ _ M)]. cbn. rewrite nth_error_app2 by lia. rewrite Nat.sub_diag. reflexivity. }
    destruct (IHn w0 (u ++ [SS h false]) c1 ltac:(rewrite app_assoc; reflexivity) (path_snoc _ (SS h false) P Fr) (M1 false)) as (c2 & C2). assert (M2 : maps (c_planes c2) (u ++ [SS h true]) (c_map c2)) by (destruct C2 as [_ -> (pl & ->) _]; apply maps_more, M1).
    destruct (IHp w0 (u ++ [SS h true]) c2 ltac:(rewrite app_assoc; reflexivity) (path_snoc _ (SS h true) P Fr) M2) as (c3 & C3). set (c4 := Coll (c_polys c3) (c_planes c3) (c_map c)). exists c4.
    pose proof (collected_app dbg _ _ c1 c2 c3 (kept w0) (fun planes more x es => kept_more w0 planes more x es) C2 C3) as [A1 A2 (pl & A3) (ps & A4 & A5)]. cbn [map]. rewrite !map_app. cbn [map].
    assert (Lv : c_step dbg c3 (TPart (ELeave h)) = Ok c4). { cbn [c_step]. rewrite A2. unfold c1 at 1 2. cbn [c_map]. unfold c_find. cbn [find fst]. rewrite hs_eqb_refl. cbn [option_map]. rewrite check_true. cbn [rbind List.filter fst]. rewrite hs_eqb_refl. cbn [negb]. rewrite (filter_rest _ _ _ h M Nu). reflexivity. }
    split.
    + cbn [c_run c_step]. rewrite Fn, check_true. cbn [rbind]. fold c1. rewrite app_assoc, c_run_app, A1. cbn [rbind c_run]. rewrite Lv. reflexivity.
    + reflexivity.
    + exists ([h] ++ pl). unfold c4. cbn [c_planes]. rewrite A3. unfold c1. cbn [c_planes]. rewrite <- app_assoc. reflexivity.
    + exists ps. split; [exact A4|]. cbn [shown]. rewrite !shown_app in *. cbn [shown]. rewrite app_nil_r. exact A5.
Qed.
Theorem emits_collect dbg f w x evs : emits f w x evs -> path_ok w -> sub_ok w x -> forall c, c_map c = [] -> exists c', collected dbg evs c c' (fun planes b es => exists w' y, at_node x w' y /\ kept (w ++ w') planes b es).
Proof.
  intros E. induction E as [w x C E|w x gs ls Lf Nc G F2|w h infos n p en ep V En IHn Ep IHp]; intros P H c Mc.
  - exists c. apply collected_nil.
  - assert (X : exists c', collected dbg (map TPart (concat ls)) c c' (kept w)).
    { clear G. revert c Mc. induction F2 as [|g l gs ls T F2 IH]; intros c Mc; cbn [concat map]; [exists c; apply collected_nil|]. rewrite map_app. destruct (tour_collect dbg w l (gt_tour _ _ _ _ _ T) w [] c ltac:(rewrite app_nil_r; reflexivity) P ltac:(rewrite Mc; constructor)) as (c1 & C1). destruct (IH c1 ltac:(rewrite (cl_map _ _ _ _ _ C1); exact Mc)) as (c2 & C2). exists c2. apply (collected_app dbg _ _ c c1 c2); [intros; apply kept_more; assumption|exact C1|exact C2]. }
    destruct X as (c' & X). exists c'. revert X. apply collected_more. intros planes b es K. exists [], x. split; [apply at_root; exact (proj1 H)|rewrite app_nil_r; exact K].
  - destruct (no_split _ _ (sub_root w _ H)) as [(Lf & _)|(Fr & _ & _ & Nn & Np)]; [unfold leaf in Lf; cbn in Lf; congruence|]. cbn [n_split n_neg n_pos] in *. destruct (IHn (path_snoc w (SS h false) P Fr) (sub_neg w _ H Nn) c Mc) as (c1 & C1). destruct (IHp (path_snoc w (SS h true) P Fr) (sub_pos w _ H Np) c1 ltac:(rewrite (cl_map _ _ _ _ _ C1); exact Mc)) as (c2 & C2). exists c2.
    set (R := fun planes b es => exists w' y, at_node (BNode h [] [] infos n p) w' y /\ kept (w ++ w') planes b es). assert (Mo : forall planes more b es, R planes b es -> R (planes ++ more) b es) by (intros planes more b es (w' & y & A & K); exists w', y; split; [exact A|apply kept_more; exact K]).
    assert (D1 : collected dbg en c c1 R) by (revert C1; apply collected_more; intros planes b es (w' & y & A & K); exists (SS h false :: w'), y; rewrite <- app_assoc in K; split; [apply at_neg; exact A|exact K]).
    assert (D2 : collected dbg ep c1 c2 R) by (revert C2; apply collected_more; intros planes b es (w' & y & A & K); exists (SS h true :: w'), y; rewrite <- app_assoc in K; split; [apply at_pos; exact A|exact K]).
    change (TEnter h :: en ++ ep ++ [TLeave h]) with ([TEnter h] ++ en ++ ep ++ [TLeave h]). apply (collected_app dbg _ _ c c c2 R Mo); [apply collected_quiet; reflexivity|]. apply (collected_app dbg _ _ c c1 c2 R Mo D1). apply (collected_app dbg _ _ c1 c2 c2 R Mo D2). apply collected_quiet; reflexivity.
Qed.
