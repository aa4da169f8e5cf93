(** Proofs about the plane partitioner. *)
From Coq Require Import List Bool Arith ZArith QArith Lqa Lia ZifyBool Morphisms Setoid.
From Verif Require Import BigUIntModel GeoModel GeoSpec GeoProofs AabbSpec CvxSpec PolyModel PolySpec PolyBridgeProofs PolyInfoProofs MergeProofs RTransModel FilterModel FilterSpec FilterProofs BspModel BspSpec BspGeoProofs BspMarkProofs BspPolyProofs BspTreeProofs PolyTopProofs PolyCapProofs PartModel PartSpec PartGeoProofs.
Import ListNotations.
Open Scope Q_scope.
(** ** Lines *)
Lemma line_trans a b u v q : on_line a b u -> on_line a b v -> on_line u v q -> on_line a b q.
Proof.
  intros (t & (X1 & Y1 & Z1)) (r & (X2 & Y2 & Z2)) (k & (X & Y & Z)). exists (t + k * (r - t)). unfold qadd, qscale, qsub in *. cbn [qx qy qz] in *.
  repeat split; cbn [qx qy qz]; [rewrite X, X1, X2|rewrite Y, Y1, Y2|rewrite Z, Z1, Z2]; ring.
Qed.
Lemma line_eq a b q a' b' q' : qp_eq a a' -> qp_eq b b' -> qp_eq q q' -> on_line a b q -> on_line a' b' q'.
Proof.
  intros (A1 & A2 & A3) (B1 & B2 & B3) (C1 & C2 & C3) (t & (X & Y & Z)). exists t. unfold qadd, qscale, qsub in *. cbn [qx qy qz] in *.
  repeat split; cbn [qx qy qz]; [rewrite <- C1, <- A1, <- B1; exact X|rewrite <- C2, <- A2, <- B2; exact Y|rewrite <- C3, <- A3, <- B3; exact Z].
Qed.
Lemma side_line h a b u v q : on_line a b u -> on_line a b v -> ~ qp_eq u v -> side h u == 0 -> side h v == 0 -> on_line a b q -> side h q == 0.
Proof.
  intros (t & T) (r & R) Ne U V (k & K).
  assert (E : forall x y, qp_eq x (qadd a (qscale y (qsub b a))) -> side h x == (1 - y) * side h a + y * side h b) by (intros x y E; rewrite (PolyInfoProofs.side_eq h _ _ E); change (qadd a (qscale y (qsub b a))) with (between a b y); rewrite PolyInfoProofs.side_between; ring).
  rewrite (E _ _ T) in U. rewrite (E _ _ R) in V. rewrite (E _ _ K).
  assert (Nt : ~ t == r). { intros Z. apply Ne. rewrite T, R. unfold qadd, qscale, qsub. repeat split; cbn [qx qy qz]; rewrite Z; ring. }
  assert (Z : (t - r) * (side h b - side h a) == 0) by lra. assert (D : side h b - side h a == 0) by (apply (Qmult_integral_l (t - r)); [intros Z'; apply Nt; lra|exact Z]). assert (Ab : side h b == side h a) by lra. rewrite Ab in U |- *. lra.
Qed.
(** ** Free edges *)
Lemma hs_eqb_eq a b : hs_eqb a b = true -> a = b.
Proof. destruct a as [[a1 a2 a3] a4], b as [[b1 b2 b3] b4]. unfold hs_eqb, v3_eqb. cbn [hn hd vx vy vz]. rewrite !andb_true_iff, !Z.eqb_eq. intros (((-> & ->) & ->) & ->). reflexivity. Qed.
Lemma hs_eqb_refl a : hs_eqb a a = true.
Proof. unfold hs_eqb, v3_eqb. rewrite !Z.eqb_refl. reflexivity. Qed.
Lemma same_split_refl a : same_split a a = true.
Proof. destruct a as [s|]; [apply hs_eqb_refl|reflexivity]. Qed.
Lemma path_unique w (s : split_side) l r l' r' : path_ok w -> w = l ++ s :: r -> w = l' ++ s :: r' -> l = l'.
Proof.
  intros P E E'. assert (G : forall l s r, w = l ++ s :: r -> ~ In s l) by (intros l0 s0 r0 E0 I; destruct (P _ _ _ E0) as [_ F]; apply (F s0 I); intros q; reflexivity).
  pose proof (G _ _ _ E) as N. pose proof (G _ _ _ E') as N'. rewrite E in E'. clear E G. revert l' E' N'. induction l as [|x l IH]; intros [|y l'] E' N'; cbn in E'; [reflexivity| | |].
  - injection E' as -> E'. exfalso. apply N'. left. reflexivity.
  - injection E' as -> E'. exfalso. apply N. left. reflexivity.
  - injection E' as -> E'. f_equal. apply IH; [intros I; apply N; right; exact I|exact E'|intros I; apply N'; right; exact I].
Qed.
(** An edge that the partitioner takes for a split lies on no other plane of the
    path than the one of the polygon. *)
Lemma free_edge w u v dt s0 : path_ok w -> edge_exact w u v dt -> In s0 w -> on_split s0 u -> on_split s0 v -> same_split (first_co dt) (edge_co dt) = true -> forall s, In s w -> on_split s u -> on_split s v -> s = s0.
Proof.
  intros P [F L _ _] I0 U0 V0 Sm. destruct (first_co dt) as [s1|]; [|exfalso; cbn [first_in] in F; rewrite Forall_forall in F; exact (F s0 I0 (conj U0 V0))]. destruct (edge_co dt) as [s2|]; [|discriminate].
  cbn [same_split] in Sm. apply hs_eqb_eq in Sm. destruct F as (l & r & E & [U1 V1] & Fl), L as (l2 & r2 & E2 & [U2 V2] & Fr).
  assert (I1 : In s1 w) by (rewrite E; apply in_elt). assert (I2 : In s2 w) by (rewrite E2; apply in_elt).
  assert (s1 = s2) as <- by (apply (path_distinct w s1 s2 P I1 I2); intros q; rewrite Sm; reflexivity). assert (l = l2) as <- by exact (path_unique w s1 l r l2 r2 P E E2). assert (r = r2) as <- by (rewrite E in E2; apply app_inv_head in E2; congruence).
  assert (G : forall s, In s w -> on_split s u -> on_split s v -> s = s1).
  { intros s Is U V. rewrite E in Is. apply in_app_iff in Is as [Is|[Is|Is]]; [exfalso; rewrite Forall_forall in Fl; exact (Fl s Is (conj U V))|congruence|exfalso; rewrite Forall_forall in Fr; exact (Fr s Is (conj U V))]. }
  intros s Is U V. rewrite (G s Is U V). symmetry. exact (G s0 I0 U0 V0).
Qed.
Lemma bound_edge w u v dt s0 : edge_exact w u v dt -> In s0 w -> on_split s0 u -> on_split s0 v -> same_split (first_co dt) (edge_co dt) = false -> exists s, In s w /\ s <> s0 /\ on_split s u /\ on_split s v.
Proof.
  intros [F L _ _] I0 U0 V0 Sm. destruct (first_co dt) as [s1|]; [|exfalso; cbn [first_in] in F; rewrite Forall_forall in F; exact (F s0 I0 (conj U0 V0))]. destruct (edge_co dt) as [s2|]; [|exfalso; cbn [last_in] in L; rewrite Forall_forall in L; exact (L s0 I0 (conj U0 V0))].
  destruct F as (l & r & E & [U1 V1] & Fl), L as (l2 & r2 & E2 & [U2 V2] & Fr). cbn [same_split] in Sm.
  assert (D : forall a b : split_side, {a = b} + {a <> b}) by (repeat decide equality).
  destruct (D s1 s0) as [->|N]; [|exists s1; split; [rewrite E; apply in_elt|split; [exact N|split; assumption]]]. destruct (D s2 s0) as [->|N]; [rewrite hs_eqb_refl in Sm; discriminate|].
  exists s2. split; [rewrite E2; apply in_elt|split; [exact N|split; assumption]].
Qed.
(** ** Looking for an edge *)
Lemma split_edge_some b e : split_edge b = Some e -> exists i, nth_error (pedges (bp_poly b)) i = Some e /\ same_split (first_co (pd e)) (edge_co (pd e)) = true.
Proof. intros E. apply find_some in E as [I S]. apply In_nth_error in I as (i & I). exists i. split; assumption. Qed.
Lemma split_edge_none b i e : split_edge b = None -> nth_error (pedges (bp_poly b)) i = Some e -> same_split (first_co (pd e)) (edge_co (pd e)) = false.
Proof. intros E I. apply (find_none _ _ E). apply nth_error_In in I. exact I. Qed.
Lemma search_ok l is : (forall i, In i is -> (i < length l)%nat) -> exists o, search l is = Ok o /\
  match o with Some e => exists b, In b l /\ split_edge b = Some e | None => forall i b, In i is -> nth_error l i = Some b -> split_edge b = None end.
Proof.
  induction is as [|i is IH]; intros L; cbn [search]; [exists None; split; [reflexivity|intros i b []]|].
  unfold poly_at. destruct (nth_error l i) as [b|] eqn:Eb; [|apply nth_error_None in Eb; specialize (L i (or_introl eq_refl)); lia]. cbn [rbind]. destruct (split_edge b) as [e|] eqn:Es.
  - exists (Some e). split; [reflexivity|]. exists b. split; [apply nth_error_In in Eb; exact Eb|exact Es].
  - destruct (IH (fun j J => L j (or_intror J))) as (o & -> & G). exists o. split; [reflexivity|]. destruct o; [exact G|]. intros j b' [<-|J] Ej; [congruence|exact (G j b' J Ej)].
Qed.
Lemma middle_out_lt n i : In i (middle_out n) -> (i < n)%nat.
Proof.
  unfold middle_out. rewrite in_app_iff, in_flat_map. pose proof (Nat.div_mod n 2 ltac:(lia)) as D. pose proof (Nat.mod_upper_bound n 2 ltac:(lia)) as M. intros [(o & I & [<-|[<-|[]]])|I].
  - apply in_seq in I. lia.
  - apply in_seq in I. lia.
  - destruct (Nat.odd n) eqn:O; [|destruct I]. destruct I as [<-|[]]. apply Nat.odd_spec in O as (k & ->). lia.
Qed.
Lemma middle_out_all n i : (i < n)%nat -> In i (middle_out n).
Proof.
  intros L. unfold middle_out. rewrite in_app_iff, in_flat_map. pose proof (Nat.div_mod n 2 ltac:(lia)) as D. pose proof (Nat.mod_upper_bound n 2 ltac:(lia)) as M. set (m := (n / 2)%nat) in *.
  destruct (Nat.lt_ge_cases i m) as [I|I]; [left; exists (m - i - 1)%nat; split; [apply in_seq; lia|right; left; lia]|].
  destruct (Nat.lt_ge_cases i (m + m)) as [I'|I']; [left; exists (i - m)%nat; split; [apply in_seq; lia|left; lia]|]. right.
  assert (O : Nat.odd n = true) by (apply Nat.odd_spec; exists m; lia). rewrite O. left. lia.
Qed.
Lemma search_all l is : (forall i, In i is -> (i < length l)%nat) -> (forall i, (i < length l)%nat -> In i is) -> exists o, search l is = Ok o /\
  match o with Some e => exists b, In b l /\ split_edge b = Some e | None => forall b, In b l -> split_edge b = None end.
Proof.
  intros L A. destruct (search_ok l is L) as (o & E & G). exists o. split; [exact E|]. destruct o; [exact G|]. intros b I. apply In_nth_error in I as (i & I). apply (G i b); [apply A; apply nth_error_Some; congruence|exact I].
Qed.
(** ** Pushing polygons to the two sides *)
Lemma part_refl b : part_of b b.
Proof. split; [reflexivity|split; reflexivity|reflexivity|auto]. Qed.
Lemma part_trans a b c : part_of a b -> part_of b c -> part_of a c.
Proof. intros [A1 [A2 A3] A4 A5] [B1 [B2 B3] B4 B5]. split; [congruence|split; congruence|congruence|]. intros q Q. apply B5, A5, Q. Qed.
Definition half (boxed : bool) (w : path) (c : split_side) (b : bpoly) (o : option bpoly) : Prop :=
  match o with
  | None => forall q, bp_point b q -> on_side c q -> on_split c q
  | Some x => (exists qs, st (w ++ [c]) x qs) /\ part_of x b /\ boxes boxed [x] /\ forall q, bp_point b q -> on_side c q -> ~ on_split c q -> bp_point x q
  end.
Definition opt_list {B} (o : option B) : list B := match o with None => [] | Some x => [x] end.
Definition flat {B} (l : list (option B)) : list B := flat_map opt_list l.
Lemma marks_part b b' qs : marks b b' -> poly_ok (bp_poly b) qs -> bp_on b' = bp_on b -> part_of b' b.
Proof. intros M H O. split; [apply (mk_id _ _ M)|apply (mk_plane _ _ M)|exact O|]. intros q. apply (marks_point b b' qs q M H). Qed.
Lemma push_one boxed dbg w h b x : path_ok w -> fresh_plane w h -> (exists qs, st w b qs) -> bp_on b <> None -> ~ same_plane h (pplane (bp_poly b)) -> boxes boxed [b] ->
  good boxed (part_push_one dbg h b x) (fun y => exists n p, fst y = fst x ++ opt_list n /\ snd y = snd x ++ opt_list p /\ half boxed w (SS h false) b n /\ half boxed w (SS h true) b p).
Proof.
  intros P Fr (qs & HS) On Np Bx. pose proof (s_ok _ _ _ HS) as Okb. unfold part_push_one. destruct (place dbg b qs h Okb (s_box _ _ _ HS)) as (i & -> & _ & Pl). cbn [rbind].
  assert (Oi : on_plane_info i = false). { destruct Pl as [_ Z| | |]; [|assumption..]. exfalso. apply Np. apply (plane_of_vertices _ qs Okb h (proj1 Fr) Z). }
  rewrite Oi. cbn [negb]. rewrite check_true. cbn [rbind]. assert (Pt : forall q, bp_point b q <-> polygon_point (pplane (bp_poly b)) (pdrop (bp_poly b)) qs q) by (intros q; apply (point_iff _ qs q Okb)).
  destruct Pl as [E _|_ En Ep Cs A B R|_ En Cs A B R|_ En Ep I Sb]; [congruence| | |].
  - rewrite En, Ep. destruct (one_side w b qs (SS h false) (neg_range (si_ranges i)) HS Cs A B R) as (b' & -> & St' & M & O'). cbn [rbind good]. exists (Some b'), None. cbn [opt_list fst snd]. rewrite app_nil_r. split; [reflexivity|]. split; [reflexivity|]. split.
    + split; [exists qs; exact St'|]. split; [exact (marks_part b b' qs M Okb O')|]. split; [intros E; specialize (Bx E); inversion Bx; subst; constructor; [rewrite (mk_box _ _ M); assumption|constructor]|]. intros q Q _ _. apply (marks_point b b' qs q M Okb). exact Q.
    + intros q Q S2. apply Pt in Q. pose proof (side_all_neg _ qs h Okb Cs q Q) as S1. unfold on_side, on_split in *. cbn [ss_pos ss_split] in *. lra.
  - rewrite En. destruct (one_side w b qs (SS h true) (pos_range (si_ranges i)) HS Cs A B R) as (b' & -> & St' & M & O'). cbn [rbind good]. exists None, (Some b'). cbn [opt_list fst snd]. rewrite app_nil_r. split; [reflexivity|]. split; [reflexivity|]. split.
    + intros q Q S2. apply Pt in Q. pose proof (side_all _ qs h Okb Cs q Q) as S1. unfold on_side, on_split in *. cbn [ss_pos ss_split] in *. lra.
    + split; [exists qs; exact St'|]. split; [exact (marks_part b b' qs M Okb O')|]. split; [intros E; specialize (Bx E); inversion Bx; subst; constructor; [rewrite (mk_box _ _ M); assumption|constructor]|]. intros q Q _ _. apply (marks_point b b' qs q M Okb). exact Q.
  - rewrite En, Ep. pose proof (split_step dbg w b qs h i P HS I Sb En Ep) as Sp.
    assert (Eq : forall (f : bpoly * bpoly -> res (list bpoly * list bpoly)), (c <- bp_split_children dbg b i ;; c <- set_child_angles dbg c h ;; f c) = (c <- (c <- bp_split_children dbg b i ;; set_child_angles dbg c h) ;; f c)) by (intros f; destruct (bp_split_children dbg b i); reflexivity).
    rewrite Eq. destruct (c <- bp_split_children dbg b i ;; set_child_angles dbg c h) as [[y z]| | |]; cbn [rbind good]; [|exact Sp| |exact Sp].
    2:{ destruct boxed; [reflexivity|]. specialize (Bx eq_refl). inversion Bx; subst. congruence. }
    destruct Sp as ((qn & Sn) & (qp & Sp) & Pc & O1 & O2 & Bn). cbn [fst snd]. destruct (pieces_same _ _ y Pc ltac:(left; reflexivity)) as (I1 & E1), (pieces_same _ _ z Pc ltac:(right; left; reflexivity)) as (I2 & E2).
    exists (Some y), (Some z). cbn [opt_list]. split; [reflexivity|]. split; [reflexivity|]. pose proof (pi_union _ _ Pc) as U. pose proof (path_snoc w (SS h false) P Fr) as Pn. pose proof (path_snoc w (SS h true) P Fr) as Pp.
    assert (Cy : forall q, bp_point y q -> on_side (SS h false) q) by (intros q Q; pose proof (st_cell _ _ (st_stored _ _ _ Pn Sn) q Q) as C; unfold in_cell in C; rewrite Forall_forall in C; apply C, in_or_app; right; left; reflexivity).
    assert (Cz : forall q, bp_point z q -> on_side (SS h true) q) by (intros q Q; pose proof (st_cell _ _ (st_stored _ _ _ Pp Sp) q Q) as C; unfold in_cell in C; rewrite Forall_forall in C; apply C, in_or_app; right; left; reflexivity).
    split; (split; [eexists; eassumption|]); (split; [split; [assumption|assumption|assumption|intros q Q; apply U; eexists; split; [|exact Q]; cbn [In]; tauto]|]); (split; [intros E; specialize (Bx E); inversion Bx as [|? ? B0 _]; subst; destruct (Bn B0); constructor; [assumption|constructor]|]).
    + intros q Q S No. apply U in Q as (x0 & [<-|[<-|[]]] & Q); [exact Q|]. exfalso. apply No. specialize (Cz q Q). unfold on_side, on_split in *. cbn [ss_pos ss_split] in *. lra.
    + intros q Q S No. apply U in Q as (x0 & [<-|[<-|[]]] & Q); [|exact Q]. exfalso. apply No. specialize (Cy q Q). unfold on_side, on_split in *. cbn [ss_pos ss_split] in *. lra.
Qed.
Lemma push_all boxed dbg w h l : path_ok w -> fresh_plane w h -> Forall (fun b => (exists qs, st w b qs) /\ bp_on b <> None /\ ~ same_plane h (pplane (bp_poly b))) l -> boxes boxed l ->
  forall x, good boxed (rfold (part_push_one dbg h) l x) (fun y => exists ns ps, fst y = fst x ++ flat ns /\ snd y = snd x ++ flat ps /\ Forall2 (half boxed w (SS h false)) l ns /\ Forall2 (half boxed w (SS h true)) l ps).
Proof.
  intros P Fr F. induction F as [|b l (Hb & On & Np) F IH]; intros Bx x; cbn [rfold].
  - cbn [good]. exists [], []. cbn. rewrite !app_nil_r. repeat split; constructor.
  - assert (Bb : boxes boxed [b]) by (intros E; specialize (Bx E); inversion Bx; subst; constructor; [assumption|constructor]). assert (Bl : boxes boxed l) by (intros E; specialize (Bx E); inversion Bx; subst; assumption).
    apply (good_bind boxed _ _ _ _ (push_one boxed dbg w h b x P Fr Hb On Np Bb)). intros y (n & p & E1 & E2 & H1 & H2). apply (good_mono boxed _ _ _ ) with (2 := IH Bl y). intros z (ns & ps & F1 & F2 & G1 & G2).
    exists (n :: ns), (p :: ps). unfold flat in *. cbn [flat_map]. rewrite F1, E1, F2, E2, !app_assoc. split; [reflexivity|]. split; [reflexivity|]. split; constructor; assumption.
Qed.
(** ** Tables *)
Lemma inside_ext f w w' : (forall id, w id = w' id) -> inside f w <-> inside f w'.
Proof.
  intros E. assert (L : forall ids (R : Z -> Prop), (forall id, In id ids -> R (w id)) <-> (forall id, In id ids -> R (w' id))) by (intros ids R; split; intros G id I; specialize (G id I); rewrite E in *; exact G).
  induction f as [id|id|id|f IHf g IHg|f IHf g IHg|f IHf g IHg|f IHf g IHg|ids|ids|ids]; cbn [inside]; rewrite ?E; try tauto.
  - split; intros (id & I & G); exists id; rewrite E in *; split; assumption.
  - apply (L ids (fun z => (0 < z)%Z)).
  - destruct ids as [|i0 ids]; [tauto|]. rewrite E, (L ids (fun z => (0 <= z)%Z)). tauto.
Qed.
Lemma crossed_ext d pos w w' b : (forall id, w id = w' id) -> forall id, crossed d pos w b id = crossed d pos w' b id.
Proof. intros E id. unfold crossed. rewrite E. reflexivity. Qed.
Lemma flips_ext f d pos l : forall w w' r, (forall id, w id = w' id) -> flips f d pos w l r -> flips f d pos w' l r.
Proof.
  induction l as [|b l IH]; intros w w' r E F; inversion F; subst; [constructor| |]; pose proof (crossed_ext d pos w w' b E) as E'; pose proof (inside_ext f _ _ E) as I1; pose proof (inside_ext f _ _ E') as I2.
  - apply fl_flip; [tauto|]. eapply IH; [exact E'|assumption].
  - apply fl_stay; [tauto|]. eapply IH; [exact E'|assumption].
Qed.
Definition info_pwn (l : list cinfo) : winding := fun id => pwn (info_for l id).
Lemma info_pwn_of l : info_pwn l = winding_of l. Proof. reflexivity. Qed.
Definition table (init cur : list cinfo) : Prop := length cur = length init /\ forall id, interior (info_for cur id) = 0%nat /\ pwn (info_for cur id) = pwn (info_for init id).
Definition bordered (cur : list cinfo) (b : bpoly) : Prop := border (info_for cur (bp_id b)) <> 0%nat.
Lemma bordered_lt cur b : bordered cur b -> (bp_id b < length cur)%nat.
Proof. intros B. destruct (Nat.lt_ge_cases (bp_id b) (length cur)) as [L|L]; [exact L|]. exfalso. apply B. unfold info_for. rewrite nth_overflow by exact L. reflexivity. Qed.
Lemma restore_pwn_ok init : forall cur, length cur = length init -> length (restore_pwn init cur) = length init /\ forall id, info_for (restore_pwn init cur) id = CI (interior (info_for cur id)) (border (info_for cur id)) (pwn (info_for init id)).
Proof.
  induction init as [|i init IH]; intros [|c cur] L; try discriminate; cbn [restore_pwn]; [split; [reflexivity|]; intros [|id]; reflexivity|]. injection L as L. destruct (IH cur L) as [L' G]. split; [cbn; f_equal; exact L'|]. intros [|id]; [reflexivity|apply (G id)].
Qed.
Lemma clear_info cur id : info_for (map clear_border cur) id = clear_border (info_for cur id).
Proof. unfold info_for. change (CI 0 0 0) with (clear_border (CI 0 0 0)) at 1. apply map_nth. Qed.
Lemma set_fold init l : forall cur, table init cur -> Forall (fun b => (bp_id b < length init)%nat) l ->
  exists cur', rfold (fun b cur => at_id cur (bp_id b) set_border) l cur = Ok cur' /\ table init cur' /\ Forall (bordered cur') l /\ forall id, border (info_for cur id) <> 0%nat -> border (info_for cur' id) <> 0%nat.
Proof.
  induction l as [|b l IH]; intros cur T L; cbn [rfold]; [exists cur; split; [reflexivity|split; [exact T|split; [constructor|auto]]]|]. inversion L as [|? ? Lb Ll]; subst. destruct T as [Ln T]. unfold at_id at 1. destruct (Nat.ltb_spec (bp_id b) (length cur)) as [I|I]; [|lia]. cbn [rbind].
  destruct (IH (upd cur (bp_id b) set_border)) as (cur' & E & T' & B' & K); [split; [rewrite upd_length; exact Ln|]; intros id; rewrite info_upd by exact I; destruct (T id) as [T1 T2]; destruct (_ =? _)%nat; split; assumption|exact Ll|].
  exists cur'. split; [exact E|]. split; [exact T'|]. assert (K' : forall id, border (info_for cur id) <> 0%nat \/ id = bp_id b -> border (info_for cur' id) <> 0%nat).
  { intros id D. apply K. rewrite info_upd by exact I. destruct (Nat.eqb_spec (bp_id b) id); [cbn; lia|]. destruct D as [D|D]; [exact D|congruence]. }
  split; [constructor; [apply K'; right; reflexivity|exact B']|]. intros id D. apply K'. left. exact D.
Qed.
Lemma set_polygons_ok dbg init l cur : table init cur -> Forall (fun b => (bp_id b < length init)%nat) l -> exists cur', set_polygons dbg l cur = Ok cur' /\ table init cur' /\ Forall (bordered cur') l.
Proof.
  intros [Ln T] L. unfold set_polygons. replace (forallb _ cur) with true.
  - rewrite check_true. cbn [rbind]. destruct (set_fold init l (map clear_border cur)) as (cur' & E & T' & B & _); [split; [rewrite map_length; exact Ln|]; intros id; rewrite clear_info; apply (T id)|exact L|]. exists cur'. split; [exact E|split; assumption].
  - symmetry. apply forallb_forall. intros c I. apply (In_nth _ _ (CI 0 0 0)) in I as (id & Li & <-). apply Nat.eqb_eq. apply (T id).
Qed.
(** ** Peeling *)
Lemma pwn_change_step d pos b : comp (hn (pplane (bp_poly b))) d <> 0%Z -> pwn_change d pos b = crossing_step d pos b.
Proof.
  intros N. unfold pwn_change, crossing_step. set (z := comp _ d) in *. clearbody z. pose proof (zget_sign_neg z) as G. pose proof (Z.lxor_nonneg (zget_sign z) (if pos then 1 else -1)%Z) as X.
  set (x := Z.lxor _ _) in *. clearbody x. destruct pos; destruct (Z.ltb_spec x 0), (Z.ltb_spec 0 z); cbn [Bool.eqb]; try reflexivity; exfalso; lia.
Qed.

Lemma eqb_flip (a b : bool) (A B : Prop) : (a = true <-> A) -> (b = true <-> B) -> Bool.eqb a b = true <-> (A <-> B).
Proof. intros <- <-. destruct a, b; cbn; intuition congruence. Qed.
Lemma peel_ok dbg f d pos l : forall cur, covered f (length cur) -> Forall (fun b => (bp_id b < length cur)%nat /\ comp (hn (pplane (bp_poly b))) d <> 0%Z) l ->
  exists r cur', peel dbg (eval f) d pos l cur (fst (eval f cur)) = Ok (map EAccept r, cur') /\ flips f d pos (winding_of cur) l r /\ length cur' = length cur /\
    (forall id, interior (info_for cur' id) = interior (info_for cur id)) /\ (forall b, In b r -> In b l).
Proof.
  induction l as [|b l IH]; intros cur C F; cbn [peel]; [exists [], cur; split; [reflexivity|split; [constructor|split; [reflexivity|split; [reflexivity|intros b []]]]]|].
  inversion F as [|? ? [Lb Nb] Fl]; subst. destruct (Z.eqb_spec (comp (hn (pplane (bp_poly b))) d) 0) as [|_]; [contradiction|]. cbn [negb]. rewrite check_true. cbn [rbind]. unfold at_id. destruct (Nat.ltb_spec (bp_id b) (length cur)); [|lia]. cbn [rbind].
  set (cur1 := upd cur (bp_id b) (add_pwn (pwn_change d pos b))). assert (L1 : length cur1 = length cur) by apply upd_length.
  assert (W1 : forall id, winding_of cur1 id = crossed d pos (winding_of cur) b id).
  { intros id. change (pwn (info_for cur1 id) = crossed d pos (winding_of cur) b id). unfold cur1. rewrite info_upd by exact Lb. unfold crossed. rewrite Nat.eqb_sym. rewrite pwn_change_step by exact Nb. destruct (_ =? _)%nat; reflexivity. }
  destruct (IH cur1) as (r & cur' & E & Fl' & L' & I' & In'); [rewrite L1; exact C|rewrite L1; exact Fl|]. rewrite E. cbn [rbind fst snd].
  assert (K : flips f d pos (crossed d pos (winding_of cur) b) l r) by (apply (flips_ext f d pos l (winding_of cur1)); assumption).
  assert (G : Bool.eqb (fst (eval f cur1)) (fst (eval f cur)) = true <-> (inside f (winding_of cur) <-> inside f (crossed d pos (winding_of cur) b))).
  { pose proof (eqb_flip _ _ _ _ (proj1 (eval_right f cur1 ltac:(rewrite L1; exact C))) (proj1 (eval_right f cur C))) as G. rewrite (inside_ext f _ _ W1) in G. tauto. }
  assert (I1 : forall id, interior (info_for cur' id) = interior (info_for cur id)) by (intros id; rewrite I'; unfold cur1; rewrite info_upd by exact Lb; destruct (_ =? _)%nat; reflexivity).
  destruct (Bool.eqb (fst (eval f cur1)) (fst (eval f cur))).
  - exists r, cur'. split; [reflexivity|]. split; [apply fl_stay; [apply G; reflexivity|exact K]|]. split; [congruence|]. split; [exact I1|]. intros b' I; right; apply In'; exact I.
  - exists (b :: r), cur'. split; [reflexivity|]. split; [apply fl_flip; [intros X; apply G in X; discriminate|exact K]|]. split; [congruence|]. split; [exact I1|]. intros b' [<-|I]; [left; reflexivity|right; apply In'; exact I].
Qed.
(** Where the filter says that nothing can change, nothing flips. *)
Lemma prune_flips f d pos cur stack : covered f (length cur) -> snd (eval f cur) = false -> Forall (fun b => may_move cur (bp_id b)) stack -> forall w, below cur w -> flips f d pos w stack [].
Proof.
  intros C S F. pose proof (fun w B => right_stable cur (inside f) _ w (eval_right f cur C) S B) as G. induction F as [|b l Mb F IH]; intros w B; [constructor|].
  assert (B' : below cur (crossed d pos w b)). { intros id N. unfold crossed. destruct (Nat.eqb_spec id (bp_id b)) as [->|_]; [contradiction|apply B; exact N]. }
  apply fl_stay; [rewrite (G w B), (G _ B'); reflexivity|apply IH; exact B'].
Qed.
(** ** Stacks at a point *)
Lemma flips_part f d pos l l' : Forall2 part_of l' l -> forall w r', flips f d pos w l' r' -> exists r, flips f d pos w l r /\ Forall2 part_of r' r.
Proof.
  intros F. induction F as [|x b l' l Pa F IH]; intros w r' Fl; inversion Fl as [|? ? ? ? Nf Kf|? ? ? ? Nf Kf]; subst; [exists []; split; constructor| |];
    (assert (E : forall id, crossed d pos w x id = crossed d pos w b id) by (intros id; unfold crossed, crossing_step; rewrite (pa_id _ _ Pa), (proj1 (pa_plane _ _ Pa)); reflexivity)); pose proof (inside_ext f _ _ E) as Ie.
  - destruct (IH _ _ Kf) as (r1 & Fr & Fp). exists (b :: r1). split; [apply fl_flip; [tauto|]; apply (flips_ext f d pos l (crossed d pos w x)); assumption|constructor; assumption].
  - destruct (IH _ _ Kf) as (r1 & Fr & Fp). exists r1. split; [apply fl_stay; [tauto|]; apply (flips_ext f d pos l (crossed d pos w x)); assumption|assumption].
Qed.
Lemma at_point_app q l l' r r' : at_point q l r -> at_point q l' r' -> at_point q (l ++ l') (r ++ r').
Proof. intros A A'. induction A; cbn [app]; [exact A'|apply ap_in; assumption|apply ap_out; assumption]. Qed.
Lemma at_point_none q l : Forall (fun b => ~ bp_point b q) l -> at_point q l [].
Proof. intros F. induction F; [constructor|apply ap_out; assumption]. Qed.
Lemma at_point_every q l : Forall (fun b => bp_point b q) l -> at_point q l l.
Proof. intros F. induction F; [constructor|apply ap_in; assumption]. Qed.
Lemma at_point_full q l r : Forall (fun b => bp_point b q) l -> at_point q l r -> r = l.
Proof. intros F A. induction A as [|b l r P A IH|b l r P A IH]; [reflexivity|inversion F; subst; f_equal; apply IH; assumption|inversion F; subst; contradiction]. Qed.
Lemma at_point_in q l r b : at_point q l r -> In b r -> In b l /\ bp_point b q.
Proof. intros A. induction A as [|b0 l r P A IH|b0 l r P A IH]; intros I; [destruct I|destruct I as [<-|I]; [split; [left; reflexivity|exact P]|destruct (IH I); split; [right; assumption|assumption]]|destruct (IH I); split; [right; assumption|assumption]]. Qed.
Lemma half_stack boxed w c q l ns : on_side c q -> ~ on_split c q -> Forall2 (half boxed w c) l ns -> forall stack, at_point q l stack -> exists stack', at_point q (flat ns) stack' /\ Forall2 part_of stack' stack.
Proof.
  intros Sd No F. induction F as [|b o l ns Hh F IH]; intros stack A; inversion A as [|? ? ? Pb Kf|? ? ? Pb Kf]; subst; [exists []; split; constructor| |]; destruct (IH _ Kf) as (st' & A' & F'); unfold flat in *; cbn [flat_map].
  - destruct o as [x|]; cbn [half] in Hh; [|exfalso; apply No; apply Hh; assumption]. destruct Hh as (_ & Pa & _ & In2). exists (x :: st'). cbn [opt_list app]. split; [apply ap_in; [apply In2; assumption|exact A']|constructor; assumption].
  - exists st'. split; [|exact F']. destruct o as [x|]; cbn [opt_list app]; [|exact A']. destruct Hh as (_ & Pa & _ & _). apply ap_out; [|exact A']. intros Q. apply Pb. apply (pa_points _ _ Pa). exact Q.
Qed.
Lemma accepted_app a b : accepted (a ++ b) = accepted a ++ accepted b.
Proof. induction a as [|[]]; cbn; try assumption; [reflexivity|f_equal; assumption]. Qed.
Lemma accepted_map r : accepted (map EAccept r) = r.
Proof. induction r; cbn; [reflexivity|f_equal; assumption]. Qed.
Lemma tour_cell w evs : tour w evs -> forall b q, In b (accepted evs) -> bp_point b q -> in_cell w q.
Proof.
  intros T. induction T as [w|w l F|w h n p Fr Tn IHn Tp IHp]; intros b q I Q.
  - destruct I.
  - cbn [accepted] in I. rewrite accepted_map in I. rewrite Forall_forall in F. exact (st_cell _ _ (F b I) q Q).
  - cbn [accepted] in I. rewrite !accepted_app in I. cbn [accepted] in I. rewrite app_nil_r in I. apply in_app_iff in I as [I|I]; [specialize (IHn b q I Q)|specialize (IHp b q I Q)]; unfold in_cell in *; rewrite Forall_app in *; tauto.
Qed.

(** ** The recursion *)
Section Rec.
Context (boxed dbg : bool) (f : filter) (d : nat) (pos : bool) (init : list cinfo) (s0 : split_side).
Context (Ld : (d < 3)%nat) (Nd : comp (hn (ss_split s0)) d <> 0%Z) (Cf : covered f (length init)).
Definition line := (qpoint * qpoint)%type.
Definition free (w : path) (u v : qpoint) : Prop := forall s, In s w -> on_split s u -> on_split s v -> s = s0.
Definition on_lines (Ls : list line) (u v : qpoint) : Prop := exists a, In a Ls /\ on_line (fst a) (snd a) u /\ on_line (fst a) (snd a) v.
Definition item (Ls : list line) (w : path) (b : bpoly) : Prop :=
  exists qs, st w b qs /\ bp_on b = Some s0 /\ forall i, free w (cyc o3 qs i) (cyc o3 qs (S i)) -> on_lines Ls (cyc o3 qs i) (cyc o3 qs (S i)).
Definition told (w : path) (Ls : list line) (l : list bpoly) (evs : list event) : Prop :=
  tour w evs /\ Forall (fun y => exists b, In b l /\ part_of y b) (accepted evs) /\
  forall q, side (ss_split s0) q == 0 -> in_cell w q -> Forall (fun a => ~ on_line (fst a) (snd a) q) Ls ->
  forall stack, at_point q l stack -> exists sel got, flips f d pos (winding_of init) stack sel /\ at_point q (accepted evs) got /\ Forall2 part_of got sel.
Lemma on_plane_of w b qs : st w b qs -> bp_on b = Some s0 -> In s0 w /\ same_plane (ss_split s0) (pplane (bp_poly b)).
Proof. intros H O. destruct (s_on _ _ _ H) as [_ L]. rewrite O in L. exact (last_some _ _ _ L). Qed.
Lemma comp_of w b qs : path_ok w -> st w b qs -> bp_on b = Some s0 -> comp (hn (pplane (bp_poly b))) d <> 0%Z.
Proof using Nd Ld.
  intros P H O Z. destruct (on_plane_of w b qs H O) as [I Sp]. pose proof (s_ok _ _ _ H) as Okb. destruct (plane_of_vertices _ qs Okb (ss_split s0) (path_valid w s0 P I) (on_plane_vertices _ qs Okb _ Sp)) as (_ & _ & E).
  destruct (po_drop _ _ Okb) as [_ Np]. destruct E as (E1 & E2 & E3). unfold qscale, qpt in *. cbn [qx qy qz] in *. rewrite <- !inject_Z_mult in E1, E2, E3. rewrite inject_Z_injective in E1, E2, E3.
  destruct d as [|[|d']]; cbn [comp] in Z, Nd; [rewrite Z, Z.mul_0_r in E1; apply Z.mul_eq_0 in E1; destruct E1 as [X|X]; [exact (Np X)|exact (Nd X)]|rewrite Z, Z.mul_0_r in E2; apply Z.mul_eq_0 in E2; destruct E2 as [X|X]; [exact (Np X)|exact (Nd X)]|rewrite Z, Z.mul_0_r in E3; apply Z.mul_eq_0 in E3; destruct E3 as [X|X]; [exact (Np X)|exact (Nd X)]].
Qed.
Lemma all_edges w b qs : path_ok w -> st w b qs -> bp_on b = Some s0 -> split_edge b = None -> forall i, exists s, In s w /\ s <> s0 /\ on_split s (cyc o3 qs i) /\ on_split s (cyc o3 qs (S i)).
Proof.
  intros P H O Sn i. destruct (on_plane_of w b qs H O) as [I0 Sp]. pose proof (s_ok _ _ _ H) as Okb. pose proof (ok_n _ _ Okb) as N. pose proof (ok_length _ _ Okb) as Ln.
  assert (On : forall k, on_split s0 (cyc o3 qs k)) by (intros k; apply (on_plane_vertices _ qs Okb _ Sp); apply cyc_In; lia).
  destruct (nth_error (pedges (bp_poly b)) (i mod length qs)) as [e|] eqn:Ee; [|apply nth_error_None in Ee; pose proof (Nat.mod_upper_bound i (length qs)); unfold pcount in *; lia].
  pose proof (s_edges _ _ _ H _ e Ee) as Ex. rewrite (cyc_mod o3 qs i) in Ex by lia. rewrite <- (cyc_mod o3 qs (S (i mod length qs))), mod_succ, cyc_mod in Ex by lia.
  apply (bound_edge w _ _ _ s0 Ex I0 (On _) (On _)). apply (split_edge_none b _ e Sn Ee).
Qed.
Lemma leaf_ok w Ls l cur : path_ok w -> Forall (item Ls w) l -> table init cur -> Forall (bordered cur) l -> (forall b, In b l -> split_edge b = None) ->
  exists evs cur', part_leaf dbg (eval f) d pos l cur (eval f cur) = Ok (evs, cur') /\ length cur' = length init /\ (forall id, interior (info_for cur' id) = 0%nat) /\ told w Ls l evs.
Proof using Nd Cf Ld.
  intros P F [Ln T] B Sn. rewrite Forall_forall in F, B. unfold part_leaf.
  destruct (peel_ok dbg f d pos l cur) as (r & cur' & -> & Fl & L' & I' & In'); [rewrite Ln; exact Cf| |].
  { apply Forall_forall. intros b I. split; [apply bordered_lt, B, I|]. destruct (F b I) as (qs & H & O & _). exact (comp_of w b qs P H O). }
  cbn [rbind fst snd]. exists (ELeaf :: map EAccept r), cur'. split; [reflexivity|]. split; [congruence|]. split; [intros id; rewrite I'; apply T|].
  split; [apply to_leaf; apply Forall_forall; intros b I; destruct (F b (In' b I)) as (qs & H & _); exact (st_stored w b qs P H)|]. cbn [accepted]. rewrite accepted_map. split; [apply Forall_forall; intros b I; exists b; split; [apply In'; exact I|apply part_refl]|].
  intros q Q C _ stack A. assert (All : Forall (fun b => bp_point b q) l).
  { apply Forall_forall. intros b I. destruct (F b I) as (qs & H & O & _). destruct (on_plane_of w b qs H O) as [I0 Sp]. exact (fills (bp_poly b) qs w s0 (s_ok _ _ _ H) P I0 Sp (s_cell _ _ _ H) (all_edges w b qs P H O (Sn b I)) q (proj1 (Sp q) Q) C). }
  rewrite (at_point_full q l stack All A). exists r, r. split; [apply (flips_ext f d pos l (winding_of cur)); [intros id; apply (T id)|exact Fl]|]. split; [|clear; induction r; constructor; [apply part_refl|assumption]].
  apply at_point_every. apply Forall_forall. intros b I. rewrite Forall_forall in All. apply All, In', I.
Qed.
(** The children of a node satisfy the same invariant with one line less. *)
Lemma child_items w c a Ls1 Ls2 l ns : path_ok w -> fresh_plane w (ss_split c) -> (forall q, on_line (fst a) (snd a) q -> on_split c q) -> Forall (item (Ls1 ++ a :: Ls2) w) l -> Forall2 (half boxed w c) l ns -> Forall (item (Ls1 ++ Ls2) (w ++ [c])) (flat ns).
Proof.
  intros P Fr La F H. induction H as [|b o l ns Hh H IH]; [constructor|]. inversion F as [|? ? Ib Fl]; subst. unfold flat in *. cbn [flat_map]. apply Forall_app. split; [|apply IH; exact Fl]. destruct o as [x|]; [|constructor]. constructor; [|constructor].
  destruct Hh as ((qx & Hx) & Pa & _ & In2). destruct Ib as (qs & Hb & O & Cov). exists qx. split; [exact Hx|]. split; [rewrite (pa_on _ _ Pa); exact O|]. intros i Fi. destruct (pa_plane _ _ Pa) as [E1 E2].
  destruct (on_plane_of w b qs Hb O) as [I0 Sp]. assert (Ic : In c (w ++ [c])) by (apply in_or_app; right; left; reflexivity). assert (Nc : c <> s0) by (intros ->; apply (proj2 Fr s0 I0); intros z; reflexivity).
  assert (No : on_split c (cyc o3 qx i) -> on_split c (cyc o3 qx (S i)) -> False) by (intros U V; apply Nc; exact (Fi c Ic U V)).
  pose proof (s_ok _ _ _ Hx) as Okx. pose proof (ok_n _ _ Okx) as N. pose proof (ok_length _ _ Okx) as Ln. assert (Sd : forall k, on_side c (cyc o3 qx k)) by (intros k; apply (s_cell _ _ _ Hx); [apply cyc_In; lia|exact Ic]).
  destruct (part_edge (bp_poly b) qs (s_ok _ _ _ Hb) (bp_poly x) qx Okx E1 E2 c (pa_points _ _ Pa) In2 i (Sd _) (Sd _) No) as (j & Lj & L1 & L2).
  destruct (Cov j) as (a' & Ia & A1 & A2). { intros s Is U V. apply Fi; [apply in_or_app; left; exact Is|exact (side_on_line _ _ _ _ L1 U V)|exact (side_on_line _ _ _ _ L2 U V)]. }
  pose proof (line_trans _ _ _ _ _ A1 A2 L1) as M1. pose proof (line_trans _ _ _ _ _ A1 A2 L2) as M2. exists a'. split; [|split; assumption].
  apply in_app_iff in Ia as [Ia|[<-|Ia]]; [apply in_or_app; left; exact Ia| |apply in_or_app; right; exact Ia]. exfalso. apply No; apply La; assumption.
Qed.
Lemma half_boxes w c l ns : Forall2 (half boxed w c) l ns -> boxes boxed (flat ns).
Proof.
  intros F E. induction F as [|b o l ns Hh F IH]; [constructor|]. unfold flat in *. cbn [flat_map]. apply Forall_app. split; [|exact IH]. destruct o as [x|]; [|constructor]. destruct Hh as (_ & _ & Bx & _). exact (Bx E).
Qed.
Lemma half_part w c l ns x : Forall2 (half boxed w c) l ns -> In x (flat ns) -> exists b, In b l /\ part_of x b.
Proof.
  intros F I. induction F as [|b o l ns Hh F IH]; [destruct I|]. unfold flat in *. cbn [flat_map] in I. apply in_app_iff in I as [I|I]; [|destruct (IH I) as (b' & Ib & Pb); exists b'; split; [right; exact Ib|exact Pb]].
  destruct o as [y|]; [|destruct I]. destruct I as [<-|[]]. destruct Hh as (_ & Pa & _). exists b. split; [left; reflexivity|exact Pa].
Qed.
Definition outcome (w : path) (Ls : list line) (l : list bpoly) (r : list event * list cinfo) : Prop := table init (snd r) /\ told w Ls l (fst r).
Lemma split_ok fuel w Ls l cur e b0 : path_ok w -> Forall (item Ls w) l -> boxes boxed l -> table init cur -> Forall (fun b => (bp_id b < length init)%nat) l -> In b0 l -> split_edge b0 = Some e ->
  (length Ls <= fuel)%nat ->
  (forall Ls' w' l' cur', path_ok w' -> Forall (item Ls' w') l' -> boxes boxed l' -> table init cur' -> Forall (bordered cur') l' -> (length Ls' < fuel)%nat -> good boxed (part_rec fuel dbg (eval f) d pos init l' cur') (outcome w' Ls' l')) ->
  let h := edge_plane e d in
  good boxed (c <- part_push dbg h l ;; cur <- set_polygons dbg (fst c) cur ;; r <- part_rec fuel dbg (eval f) d pos init (fst c) cur ;; cur <- set_polygons dbg (snd c) (snd r) ;;
    r' <- part_rec fuel dbg (eval f) d pos init (snd c) cur ;; Ok (EEnter h :: fst r ++ fst r' ++ [ELeave h], snd r')) (outcome w Ls l).
Proof using Nd Cf Ld.
  intros P F Bx T Lid I0 Se Lf IH h. pose proof F as F'. rewrite Forall_forall in F'.
  destruct (F' b0 I0) as (qs & Hb & O & Cov). destruct (split_edge_some b0 e Se) as (i & Ee & Sm). pose proof (s_ok _ _ _ Hb) as Okb. pose proof (comp_of w b0 qs P Hb O) as Nb. destruct (on_plane_of w b0 qs Hb O) as [Is Sp].
  pose proof (ok_n _ _ Okb) as N. pose proof (ok_length _ _ Okb) as Ln. assert (On : forall k, on_split s0 (cyc o3 qs k)) by (intros k; apply (on_plane_vertices _ qs Okb _ Sp); apply cyc_In; lia).
  pose proof (free_edge w _ _ _ s0 P (s_edges _ _ _ Hb i e Ee) Is (On _) (On _) Sm) as Fe. destruct (Cov i Fe) as (a & Ia & A1 & A2).
  pose proof (edge_plane_u _ qs Okb i d e Ee Ld Nb) as Hu. pose proof (edge_plane_v _ qs Okb i d e Ee Ld Nb) as Hv. fold h in Hu, Hv.
  assert (Fr : fresh_plane w h). { split; [exact (edge_plane_valid _ qs Okb i d e Ee Ld Nb)|]. intros s Iw Ss. assert (s = s0) as -> by (apply Fe; [exact Iw|apply Ss; exact Hu|apply Ss; exact Hv]). apply (edge_plane_other _ qs Okb i d e Ee Ld Nb). fold h. intros q. rewrite <- (Ss q), (Sp q). reflexivity. }
  assert (Ne : ~ qp_eq (cyc o3 qs i) (cyc o3 qs (S i))). { intros E. apply (edge_distinct _ qs Okb i). destruct E as (E1 & E2 & E3). destruct (pdrop (bp_poly b0)) as [|[|k']]; split; assumption. }
  assert (La : forall q, on_line (fst a) (snd a) q -> side h q == 0) by (intros q Lq; exact (side_line h _ _ _ _ q A1 A2 Ne Hu Hv Lq)).
  apply in_split in Ia as (Ls1 & Ls2 & ->). rewrite app_length in Lf. cbn [length] in Lf.
  assert (Fp : Forall (fun b => (exists qs, st w b qs) /\ bp_on b <> None /\ ~ same_plane h (pplane (bp_poly b))) l).
  { apply Forall_forall. intros b I. destruct (F' b I) as (qb & H1 & O1 & _). split; [exists qb; exact H1|]. split; [rewrite O1; discriminate|]. intros S1. destruct (on_plane_of w b qb H1 O1) as [_ S2]. apply (proj2 Fr s0 Is). intros q. rewrite (S2 q), (S1 q). reflexivity. }
  apply (good_bind boxed _ _ _ _ (push_all boxed dbg w h l P Fr Fp Bx ([], []))). intros c (ns & ps & E1 & E2 & G1 & G2). cbn [app fst snd] in E1, E2. rewrite E1, E2.
  pose proof (path_snoc w (SS h false) P Fr) as Pn. pose proof (path_snoc w (SS h true) P Fr) as Pp.
  pose proof (child_items w (SS h false) a Ls1 Ls2 l ns P Fr La F G1) as Fn. pose proof (child_items w (SS h true) a Ls1 Ls2 l ps P Fr La F G2) as Fps.
  assert (Id : forall c ns, Forall2 (half boxed w c) l ns -> Forall (fun b => (bp_id b < length init)%nat) (flat ns)). { intros c0 ns0 G. apply Forall_forall. intros x Ix. destruct (half_part w c0 l ns0 x G Ix) as (b & Ib & Pa). rewrite (pa_id _ _ Pa). rewrite Forall_forall in Lid. apply Lid. exact Ib. }
  destruct (set_polygons_ok dbg init (flat ns) cur T (Id _ _ G1)) as (cur1 & -> & T1 & B1). cbn [rbind].
  apply (good_bind boxed _ _ _ _ (IH (Ls1 ++ Ls2) _ _ cur1 Pn Fn (half_boxes _ _ _ _ G1) T1 B1 ltac:(rewrite app_length; lia))). intros r (T2 & Tn & An & Qn).
  destruct (set_polygons_ok dbg init (flat ps) (snd r) T2 (Id _ _ G2)) as (cur2 & -> & T3 & B3). cbn [rbind].
  apply (good_bind boxed _ _ _ _ (IH (Ls1 ++ Ls2) _ _ cur2 Pp Fps (half_boxes _ _ _ _ G2) T3 B3 ltac:(rewrite app_length; lia))). intros r' (T4 & Tp & Ap & Qp). cbn [good]. split; [exact T4|]. cbn [fst].
  split; [apply to_split; assumption|]. cbn [accepted]. rewrite !accepted_app. cbn [accepted]. rewrite app_nil_r. rewrite Forall_forall in An, Ap. split.
  { apply Forall_forall. intros y Iy. apply in_app_iff in Iy as [Iy|Iy]; [destruct (An y Iy) as (x & Ix & Px); destruct (half_part _ _ _ _ x G1 Ix) as (b & Ib & Pb)|destruct (Ap y Iy) as (x & Ix & Px); destruct (half_part _ _ _ _ x G2 Ix) as (b & Ib & Pb)]; exists b; (split; [exact Ib|exact (part_trans _ _ _ Px Pb)]). }
  intros q Q C Off stack A. assert (Off' : Forall (fun a => ~ on_line (fst a) (snd a) q) (Ls1 ++ Ls2)) by (rewrite Forall_app in *; destruct Off as [Of1 Of2]; inversion Of2; subst; split; assumption).
  assert (Hq : ~ side h q == 0). { intros Z. rewrite Forall_app in Off. destruct Off as [_ Of2]. inversion Of2 as [|? ? Oa _]; subst. apply Oa. apply (line_trans _ _ _ _ _ A1 A2). exact (edge_plane_line _ qs Okb i d e Ee Ld Nb q (proj1 (Sp q) Q) Z). }
  destruct (Qlt_le_dec (side h q) 0) as [Lq|Lq].
  - assert (Sd : on_side (SS h false) q) by (unfold on_side; cbn; lra). destruct (half_stack boxed w (SS h false) q l ns Sd Hq G1 stack A) as (st' & A' & F2).
    destruct (Qn q Q ltac:(unfold in_cell in *; rewrite Forall_app; split; [exact C|constructor; [exact Sd|constructor]]) Off' st' A') as (sel & got & Fl & Ag & Fg).
    destruct (flips_part f d pos stack st' F2 _ _ Fl) as (sel2 & Fl2 & Fs). exists sel2, (got ++ []). split; [exact Fl2|]. split.
    + apply at_point_app; [exact Ag|]. apply at_point_none. apply Forall_forall. intros y Iy Qy. pose proof (tour_cell _ _ Tp y q Iy Qy) as Cy. unfold in_cell in Cy. rewrite Forall_app in Cy. destruct Cy as [_ Cy]. inversion Cy as [|? ? Cy' _]; subst. unfold on_side in Cy'. cbn in Cy'. lra.
    + rewrite app_nil_r. clear - Fg Fs. revert sel2 Fs. induction Fg as [|g s got sel Pg Fg IH]; intros sel2 Fs; inversion Fs; subst; constructor; [eapply part_trans; eassumption|apply IH; assumption].
  - assert (Lq' : 0 < side h q) by (apply Qle_lteq in Lq as [Lq|Lq]; [exact Lq|exfalso; apply Hq; symmetry; exact Lq]). assert (Sd : on_side (SS h true) q) by (unfold on_side; cbn; lra). destruct (half_stack boxed w (SS h true) q l ps Sd Hq G2 stack A) as (st' & A' & F2).
    destruct (Qp q Q ltac:(unfold in_cell in *; rewrite Forall_app; split; [exact C|constructor; [exact Sd|constructor]]) Off' st' A') as (sel & got & Fl & Ag & Fg).
    destruct (flips_part f d pos stack st' F2 _ _ Fl) as (sel2 & Fl2 & Fs). exists sel2, ([] ++ got). split; [exact Fl2|]. split.
    + apply at_point_app; [|exact Ag]. apply at_point_none. apply Forall_forall. intros y Iy Qy. pose proof (tour_cell _ _ Tn y q Iy Qy) as Cy. unfold in_cell in Cy. rewrite Forall_app in Cy. destruct Cy as [_ Cy]. inversion Cy as [|? ? Cy' _]; subst. unfold on_side in Cy'. cbn in Cy'. lra.
    + cbn [app]. clear - Fg Fs. revert sel2 Fs. induction Fg as [|g s got sel Pg Fg IH]; intros sel2 Fs; inversion Fs; subst; constructor; [eapply part_trans; eassumption|apply IH; assumption].
Qed.
Lemma skip_told w Ls l cur : table init cur -> Forall (bordered cur) l -> snd (eval f cur) = false -> told w Ls l [].
Proof using Cf.
  intros [Ln T] B S. split; [apply to_skip|]. split; [constructor|]. intros q _ _ _ stack A. exists [], []. split; [|split; constructor]. apply (prune_flips f d pos cur); [rewrite Ln; exact Cf|exact S| |].
  - apply Forall_forall. intros b I. right. rewrite Forall_forall in B. apply (B b). apply (at_point_in _ _ _ _ A I).
  - intros id _. symmetry. apply (T id).
Qed.
Lemma bordered_ids cur l : table init cur -> Forall (bordered cur) l -> Forall (fun b => (bp_id b < length init)%nat) l.
Proof. intros [Ln _] B. rewrite Forall_forall in *. intros b I. rewrite <- Ln. apply bordered_lt. apply B. exact I. Qed.
Lemma part_rec_ok fuel : forall Ls w l cur, path_ok w -> Forall (item Ls w) l -> boxes boxed l -> table init cur -> Forall (bordered cur) l -> (length Ls < fuel)%nat -> good boxed (part_rec fuel dbg (eval f) d pos init l cur) (outcome w Ls l).
Proof using Nd Cf Ld.
  induction fuel as [|fuel IH]; intros Ls w l cur P F Bx T B Lf; [lia|]. cbn [part_rec]. destruct (snd (eval f cur)) eqn:Se; cbn [negb].
  - destruct (search_all l (middle_out (length l)) (middle_out_lt _) (middle_out_all _)) as ([e|] & -> & G); cbn [rbind].
    + destruct G as (b0 & I0 & S0). apply (split_ok fuel w Ls l cur e b0 P F Bx T (bordered_ids cur l T B) I0 S0 ltac:(lia)). intros Ls' w' l' cur' P' F' B' T' Bd' L'. apply IH; assumption.
    + destruct (leaf_ok w Ls l cur P F T B G) as (evs & cur' & -> & L' & I' & Td). cbn [rbind snd fst]. unfold restore. rewrite L', Nat.eqb_refl, check_true. cbn [rbind]. rewrite Nat.leb_refl. cbn [rbind good]. destruct (restore_pwn_ok init cur' L') as [L2 G2].
      split; [split; [exact L2|]; intros id; cbn [snd]; rewrite G2; cbn; split; [apply I'|reflexivity]|exact Td].
  - cbn [good]. split; [exact T|]. exact (skip_told w Ls l cur T B Se).
Qed.
Lemma part_run_ok fuel Ls w l : path_ok w -> Forall (item Ls w) l -> boxes boxed l -> table init init -> Forall (bordered init) l -> (length Ls <= fuel)%nat -> good boxed (part_run fuel dbg (eval f) d pos init l) (told w Ls l).
Proof using Nd Cf Ld.
  intros P F Bx T B Lf. unfold part_run. replace (infos_match l init) with true.
  2:{ symmetry. apply forallb_forall. intros b I. rewrite Forall_forall in B. specialize (B b I). pose proof (bordered_lt init b B) as Lb. unfold bordered, info_for in B. destruct (nth_error init (bp_id b)) as [c|] eqn:E; [|apply nth_error_None in E; lia]. rewrite (nth_error_nth _ _ _ E) in B. destruct (Nat.eqb_spec (border c) 0); [contradiction|reflexivity]. }
  rewrite check_true. cbn [rbind]. destruct (snd (eval f init)) eqn:Se; cbn [negb]; [|exact (skip_told w Ls l init T B Se)].
  destruct (search_all l (seq 0 (length l))) as ([e|] & -> & G); [intros i I; apply in_seq in I; lia|intros i I; apply in_seq; lia| |]; cbn [rbind].
  - destruct G as (b0 & I0 & S0). pose proof (split_ok fuel w Ls l init e b0 P F Bx T (bordered_ids init l T B) I0 S0 Lf ltac:(intros; apply part_rec_ok; assumption)) as Sp. cbv zeta in Sp.
    destruct (part_push dbg (edge_plane e d) l) as [c| | |]; cbn [rbind good] in *; try exact Sp. destruct (set_polygons dbg (fst c) init) as [cur1| | |]; cbn [rbind good] in *; try exact Sp.
    destruct (part_rec fuel dbg (eval f) d pos init (fst c) cur1) as [r| | |]; cbn [rbind good] in *; try exact Sp. destruct (set_polygons dbg (snd c) (snd r)) as [cur2| | |]; cbn [rbind good] in *; try exact Sp.
    destruct (part_rec fuel dbg (eval f) d pos init (snd c) cur2) as [r'| | |]; cbn [rbind good] in *; try exact Sp. apply Sp.
  - destruct (leaf_ok w Ls l init P F T B G) as (evs & cur' & -> & _ & _ & Td). cbn [rbind fst good]. exact Td.
Qed.
End Rec.
(** ** A leaf *)
Definition count_edges (l : list bpoly) : nat := list_sum (map (fun b => length (pedges (bp_poly b))) l).
Lemma item_mono s0 Ls Ls' w b : (forall a, In a Ls -> In a Ls') -> item s0 Ls w b -> item s0 Ls' w b.
Proof. intros I (qs & H & O & C). exists qs. split; [exact H|]. split; [exact O|]. intros i F. destruct (C i F) as (a & Ia & A). exists a. split; [apply I; exact Ia|exact A]. Qed.
Lemma line_u a b : on_line a b a.
Proof. exists 0. unfold qadd, qscale, qsub. repeat split; cbn [qx qy qz]; ring. Qed.
Lemma line_v a b : on_line a b b.
Proof. exists 1. unfold qadd, qscale, qsub. repeat split; cbn [qx qy qz]; ring. Qed.
Lemma lines_of s0 w l : Forall (fun b => (exists qs, st w b qs) /\ bp_on b = Some s0) l -> exists Ls : list line, length Ls = count_edges l /\ Forall (item s0 Ls w) l /\ forall q, off_lines q l -> Forall (fun a : line => ~ on_line (fst a) (snd a) q) Ls.
Proof.
  intros F. induction F as [|b l ((qs & H) & O) F IH]; [exists []; split; [reflexivity|split; [constructor|intros; constructor]]|].
  destruct IH as (Ls & Ln & Fi & Of). pose proof (s_ok _ _ _ H) as Okb. pose proof (ok_n _ _ Okb) as N. pose proof (ok_length _ _ Okb) as Lq.
  set (L0 := map (fun i => (cyc o3 qs i, cyc o3 qs (S i)) : line) (seq 0 (length qs))). exists (L0 ++ Ls). split.
  - rewrite app_length, Ln. unfold L0. rewrite map_length, seq_length. unfold count_edges, pcount, list_sum in *. cbn [map fold_right]. lia.
  - split.
    + constructor; [|revert Fi; apply Forall_impl; intros b'; apply item_mono; intros a I; apply in_or_app; right; exact I]. exists qs. split; [exact H|]. split; [exact O|]. intros i _. exists (cyc o3 qs (i mod length qs), cyc o3 qs (S (i mod length qs))). split.
      * apply in_or_app. left. apply in_map_iff. exists (i mod length qs)%nat. split; [reflexivity|]. apply in_seq. pose proof (Nat.mod_upper_bound i (length qs)). lia.
      * cbn [fst snd]. rewrite (cyc_mod o3 qs i) by lia. rewrite <- (cyc_mod o3 qs (S (i mod length qs))), mod_succ, cyc_mod by lia. split; [apply line_u|apply line_v].
    + intros q Oq. apply Forall_app. split; [|apply Of; intros b' i u v e I; apply (Oq b' i u v e); right; exact I]. apply Forall_forall. intros a Ia. apply in_map_iff in Ia as (i & <- & Ii). apply in_seq in Ii. cbn [fst snd].
      destruct (nth_error (pedges (bp_poly b)) i) as [e|] eqn:Ee; [|apply nth_error_None in Ee; unfold pcount in *; lia]. apply (Oq b i _ _ (pd e)); [left; reflexivity|]. apply has_edge_at; assumption.
Qed.
Lemma at_point_nil q l : at_point q l [] -> forall b, In b l -> ~ bp_point b q.
Proof. intros A. remember [] as r eqn:Er. induction A; intros b0 I; [destruct I|discriminate|]. destruct I as [<-|I]; [assumption|apply IHA; assumption]. Qed.
Definition peeled (f : filter) (d : nat) (pos : bool) (init : list cinfo) (s0 : split_side) (l : list bpoly) (evs : list event) : Prop :=
  forall q, on_split s0 q -> off_lines q l -> forall stack, at_point q l stack -> exists sel got, flips f d pos (winding_of init) stack sel /\ at_point q (accepted evs) got /\ Forall2 part_of got sel.
Lemma leaf_run boxed dbg f d pos w infos s0 l fuel : path_ok w -> (d < 3)%nat -> comp (hn (ss_split s0)) d <> 0%Z -> covered f (length infos) -> (forall id, interior (info_for infos id) = 0%nat) ->
  Forall (fun b => stored w b /\ bp_on b = Some s0 /\ border (info_for infos (bp_id b)) <> 0%nat) l -> boxes boxed l -> (count_edges l <= fuel)%nat ->
  good boxed (part_run fuel dbg (eval f) d pos infos l) (fun evs => tour w evs /\ Forall (fun y => exists b, In b l /\ part_of y b) (accepted evs) /\ peeled f d pos infos s0 l evs).
Proof.
  intros P Ld Nd C I0 F Bx Lf. assert (F1 : Forall (fun b => (exists qs, st w b qs) /\ bp_on b = Some s0) l) by (revert F; apply Forall_impl; intros b (S1 & O & _); split; [exact (stored_st w b P S1)|exact O]).
  destruct (lines_of s0 w l F1) as (Ls & Ln & Fi & Of). assert (B : Forall (bordered infos) l) by (revert F; apply Forall_impl; intros b (_ & _ & B); exact B).
  assert (T : table infos infos) by (split; [reflexivity|intros id; split; [apply I0|reflexivity]]).
  apply (good_mono boxed _ _ _) with (2 := part_run_ok boxed dbg f d pos infos s0 Ld Nd C fuel Ls w l P Fi Bx T B ltac:(lia)). intros evs (Tr & Ac & Q). split; [exact Tr|]. split; [exact Ac|].
  intros q Oq Off stack A. destruct stack as [|b stack].
  - exists [], []. split; [constructor|]. split; [|constructor]. apply at_point_none. rewrite Forall_forall in *. intros y Iy Qy. destruct (Ac y Iy) as (b & Ib & Pa). apply (at_point_nil q l A b Ib). apply (pa_points _ _ Pa). exact Qy.
  - apply (Q q Oq); [|apply Of; exact Off|exact A]. destruct (at_point_in q l (b :: stack) b A (or_introl eq_refl)) as [Ib Qb]. rewrite Forall_forall in F. apply (st_cell _ _ (proj1 (F b Ib))). exact Qb.
Qed.
(** ** Consequences of peeling *)
Lemma eval_dec f w : inside f w \/ ~ inside f w.
Proof.
  assert (D : forall ids (R : Z -> Prop), (forall z, R z \/ ~ R z) -> (forall id, In id ids -> R (w id)) \/ ~ forall id, In id ids -> R (w id)).
  { intros ids R D. induction ids as [|i ids [IH|IH]]; [left; intros id []| |right; intros G; apply IH; intros id I; apply G; right; exact I]. destruct (D (w i)) as [Y|Nn]; [left; intros id [<-|I]; [exact Y|apply IH; exact I]|right; intros G; apply Nn, G; left; reflexivity]. }
  induction f as [id|id|id|f IHf g IHg|f IHf g IHg|f IHf g IHg|f IHf g IHg|ids|ids|ids]; cbn [inside]; try tauto; try lia.
  - destruct (Z.Even_or_Odd (w id)) as [[a Ea]|O]; [right; intros [b Eb]; lia|left; exact O].
  - destruct (D ids (fun z => (z <= 0)%Z) ltac:(cbn beta; intros; lia)) as [Y|Nn]; [right; intros (id & I & P); specialize (Y id I); lia|]. left. clear D. induction ids as [|i ids IH]; [exfalso; apply Nn; intros id []|]. destruct (Z_lt_le_dec 0 (w i)) as [L|L]; [exists i; split; [left; reflexivity|exact L]|]. destruct IH as (id & I & Q); [intros G; apply Nn; intros id [<-|I]; [exact L|apply G; exact I]|exists id; split; [right; exact I|exact Q]].
  - apply (D ids (fun z => (0 < z)%Z)). cbn beta; intros; lia.
  - destruct ids as [|i ids]; [tauto|]. destruct (D ids (fun z => (0 <= z)%Z) ltac:(cbn beta; intros; lia)); destruct (Z_lt_le_dec 0 (w i)); [left; tauto|right; lia|right; tauto|right; tauto].
Qed.
Lemma flips_parity f d pos l : forall w r, flips f d pos w l r -> Nat.Even (length r) <-> (inside f w <-> inside f (after d pos w l)).
Proof.
  induction l as [|b l IH]; intros w r F; inversion F as [|? ? ? r' Nf Kf|? ? ? ? Nf Kf]; subst.
  - split; [intros _; reflexivity|]. intros _. exists 0%nat. reflexivity.
  - specialize (IH _ _ Kf). cbn [after fold_left length] in *. fold (after d pos (crossed d pos w b) l) in *. rewrite Nat.Even_succ.
    pose proof (eval_dec f w). pose proof (eval_dec f (crossed d pos w b)). pose proof (eval_dec f (after d pos (crossed d pos w b) l)). 
    assert (Od : Nat.Odd (length r') <-> ~ Nat.Even (length r')) by (split; [intros O E; exact (Nat.Even_Odd_False _ E O)|intros N; destruct (Nat.Even_or_Odd (length r')); [contradiction|assumption]]). tauto.
  - specialize (IH _ _ Kf). cbn [after fold_left] in *. fold (after d pos (crossed d pos w b) l) in *. tauto.
Qed.
Lemma inside_mono f w w' : monotone f -> (forall id, (w' id <= w id)%Z) -> inside f w' -> inside f w.
Proof.
  intros M L. induction f as [id|id|id|f IHf g IHg|f IHf g IHg|f IHf g IHg|f IHf g IHg|ids|ids|ids]; cbn [inside monotone] in *; try tauto; try (specialize (L id); lia).
  - intros (id & I & P). exists id. split; [exact I|]. specialize (L id). lia.
  - intros G id I. specialize (G id I). specialize (L id). lia.
  - destruct ids as [|i ids]; [tauto|]. intros [P G]. split; [specialize (L i); lia|]. intros id I. specialize (G id I). specialize (L id). lia.
Qed.
Lemma crossed_le d pos w b : crossing_step d pos b = (-1)%Z -> forall id, (crossed d pos w b id <= w id)%Z.
Proof. intros E id. unfold crossed. rewrite E. destruct (_ =? _)%nat; lia. Qed.
Lemma after_le d pos l : Forall (fun b => crossing_step d pos b = (-1)%Z) l -> forall w id, (after d pos w l id <= w id)%Z.
Proof.
  intros F. induction F as [|b l E F IH]; intros w id; [apply Z.le_refl|]. cbn [after fold_left]. fold (after d pos (crossed d pos w b) l). pose proof (crossed_le d pos w b E id). specialize (IH (crossed d pos w b) id). lia.
Qed.
Lemma flips_monotone f d pos l : monotone f -> Forall (fun b => crossing_step d pos b = (-1)%Z) l -> forall w r, flips f d pos w l r -> (length r <= 1)%nat /\ (r <> [] <-> inside f w /\ ~ inside f (after d pos w l)).
Proof.
  intros M F. induction F as [|b l E F IH]; intros w r Fl; inversion Fl as [|? ? ? r' Nf Kf|? ? ? ? Nf Kf]; subst.
  - split; [cbn; lia|]. cbn [after fold_left]. tauto.
  - destruct (IH _ _ Kf) as [L1 L2]. cbn [after fold_left length] in *. fold (after d pos (crossed d pos w b) l) in *.
    pose proof (inside_mono f w _ M (crossed_le d pos w b E)) as M1. pose proof (inside_mono f _ _ M (after_le d pos l F (crossed d pos w b))) as M2. pose proof (eval_dec f w). pose proof (eval_dec f (crossed d pos w b)).
    assert (r' = []) as -> by (destruct r' as [|x r']; [reflexivity|]; exfalso; assert (x :: r' <> []) by discriminate; tauto). split; [cbn; lia|]. split; [intros _; tauto|discriminate].
  - destruct (IH _ _ Kf) as [L1 L2]. cbn [after fold_left] in *. fold (after d pos (crossed d pos w b) l) in *. split; [exact L1|]. tauto.
Qed.
Lemma Forall2_len {B C} (R : B -> C -> Prop) l l' : Forall2 R l l' -> length l = length l'.
Proof. intros F. induction F; cbn; congruence. Qed.
