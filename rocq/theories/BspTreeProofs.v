(** Trees that are built by adding polygons and splitting leaves. *)
From Coq Require Import List Bool Arith ZArith QArith Lqa Lia ZifyBool Morphisms Setoid Permutation.
From Verif Require Import BigUIntModel GeoModel GeoSpec GeoProofs AabbModel AabbSpec AabbTrackerProofs CvxSpec PolyModel PolySpec PolyBridgeProofs PolyInfoProofs PolyCapProofs PolyChildProofs PolyTopProofs MergeProofs RTransModel RTransProofs FilterModel BspModel BspSpec BspGeoProofs BspMarkProofs BspBoxProofs BspPolyProofs.
Import ListNotations.
Open Scope Q_scope.
(** ** Counters *)
Lemma info_upd infos id f j : (id < length infos)%nat -> info_for (upd infos id f) j = if (id =? j)%nat then f (info_for infos j) else info_for infos j.
Proof.
  intros L. unfold info_for. destruct (Nat.lt_ge_cases j (length infos)) as [J|J].
  - apply nth_error_nth. rewrite upd_nth, (nth_error_nth' infos (CI 0 0 0) J). destruct (_ =? _)%nat; reflexivity.
  - rewrite !nth_overflow by (rewrite ?upd_length; exact J). destruct (Nat.eqb_spec id j); [lia|reflexivity].
Qed.
Definition same_counts (l l' : list cinfo) : Prop := length l' = length l /\ forall id, interior (info_for l' id) = interior (info_for l id) /\ border (info_for l' id) = border (info_for l id).
Lemma same_counts_refl l : same_counts l l.
Proof. split; [reflexivity|]. intros id. split; reflexivity. Qed.
Lemma same_counts_trans a b c : same_counts a b -> same_counts b c -> same_counts a c.
Proof. intros [L1 C1] [L2 C2]. split; [congruence|]. intros id. destruct (C1 id), (C2 id). split; congruence. Qed.
(** ** Winding numbers are pushed without a failure *)
Lemma parallel_same a b q : hs_valid a = true -> hs_valid b = true -> v3_cross (hn a) (hn b) = V3 0 0 0 -> side a q == 0 -> side b q == 0 -> same_plane a b.
Proof.
  intros Va Vb C A B. assert (G : forall i j, (i < 3)%nat -> (j < 3)%nat -> (comp (hn a) i * comp (hn b) j = comp (hn a) j * comp (hn b) i)%Z).
  { intros i j Li Lj. unfold v3_cross in C. injection C as C1 C2 C3. destruct i as [|[|[|i]]], j as [|[|[|j]]]; cbn [comp]; lia. }
  destruct (valid_comp b Vb) as (d & Ld & Nd). destruct (valid_comp a Va) as (k & Lk & Nk).
  assert (Na : comp (hn a) d <> 0%Z). { intros Z. specialize (G k d Lk Ld). rewrite Z in G. cbn in G. nia. }
  assert (E : forall x, inject_Z (comp (hn b) d) * (side a x - side a q) == inject_Z (comp (hn a) d) * (side b x - side b q)).
  { intros x. pose proof (G 0%nat d ltac:(lia) Ld) as G0. pose proof (G 1%nat d ltac:(lia) Ld) as G1. pose proof (G 2%nat d ltac:(lia) Ld) as G2.
    apply (f_equal inject_Z) in G0, G1, G2. rewrite !inject_Z_mult in G0, G1, G2. cbn [comp] in G0, G1, G2. unfold side, qdot, qpt in *. cbn [qx qy qz] in *.
    setoid_replace (inject_Z (comp (hn b) d) * (inject_Z (vx (hn a)) * qx x + inject_Z (vy (hn a)) * qy x + inject_Z (vz (hn a)) * qz x - inject_Z (hd a) - (inject_Z (vx (hn a)) * qx q + inject_Z (vy (hn a)) * qy q + inject_Z (vz (hn a)) * qz q - inject_Z (hd a))))
      with ((inject_Z (vx (hn a)) * inject_Z (comp (hn b) d)) * (qx x - qx q) + (inject_Z (vy (hn a)) * inject_Z (comp (hn b) d)) * (qy x - qy q) + (inject_Z (vz (hn a)) * inject_Z (comp (hn b) d)) * (qz x - qz q)) by ring.
    rewrite G0, G1, G2. ring. }
  assert (Qb : ~ inject_Z (comp (hn b) d) == 0) by (intros Z; apply Nd, inject_Z_injective; exact Z). assert (Qa : ~ inject_Z (comp (hn a) d) == 0) by (intros Z; apply Na, inject_Z_injective; exact Z).
  intros x. specialize (E x). rewrite A, B in E. split; intros Z; rewrite Z in E; [apply (Qmult_integral_l (inject_Z (comp (hn a) d))); [exact Qa|lra]|apply (Qmult_integral_l (inject_Z (comp (hn b) d))); [exact Qb|lra]].
Qed.
Lemma check_true dbg : check dbg true = Ok tt. Proof. destruct dbg; reflexivity. Qed.
Lemma rxy_split_range u s : (-1 <= rxy_compare_split u s <= 1)%Z.
Proof. unfold rxy_compare_split. pose proof (rxy_range u (hn (ss_split s))). destruct (ss_pos s); lia. Qed.
Lemma effect_total dbg w split el e u d : path_ok w -> In el w -> on_split el u -> last_in (fun s => on_split s u) w (vertex_co (pd e)) -> rxy_compare_split (hn split) el = d -> d <> 0%Z ->
  exists r, pwn_effect dbg split d el e = Ok r.
Proof.
  intros P Ie Oe La Ed Nd. unfold pwn_effect. destruct (vertex_co (pd e)) as [vl|] eqn:Ev; [|exfalso; exact (last_none _ _ _ La Ie Oe)]. destruct (last_some _ _ _ La) as [Iv Ov].
  pose proof (rxy_split_range (hn split) vl) as Rv. pose proof (rxy_split_range (hn split) el) as Re. rewrite Ed in Re. set (v := rxy_compare_split (hn split) vl) in *. destruct (Z.eqb_spec (d + v) 0) as [E0|E0]; [|eexists; reflexivity].
  pose proof (rxy_range (hn (ss_split vl)) (hn (ss_split el))) as Rx.
  assert (Nx : rxy_compare (hn (ss_split vl)) (hn (ss_split el)) <> 0%Z).
  { intros Z. apply rxy_zero in Z. assert (Sp : same_plane (ss_split vl) (ss_split el)) by (apply (parallel_same _ _ u); [exact (path_valid w vl P Iv)|exact (path_valid w el P Ie)|exact Z|exact Ov|exact Oe]).
    pose proof (path_distinct w vl el P Iv Ie Sp) as ->. fold v in Ed. lia. }
  cbv zeta. set (x := rxy_compare (hn (ss_split vl)) (hn (ss_split el))) in *.
  assert (Dx : x = 1%Z \/ x = (-1)%Z) by lia. assert (Dd : (d = 1 /\ v = -1 \/ d = -1 /\ v = 1)%Z) by lia. clearbody x v. clear - Dx Dd.
  destruct (xorb (ss_pos vl) (ss_pos el)), Dx as [-> | ->], Dd as [[-> ->]|[-> ->]]; cbn -[hs_compare Z.lxor zget_sign check]; rewrite ?check_true; cbn -[hs_compare Z.lxor zget_sign]; (destruct (0 <=? _)%Z; [destruct (0 <=? _)%Z; eexists; reflexivity|eexists; reflexivity]).
Qed.
Lemma push_to_total dbg id k pos x : (id < length (fst x))%nat -> (id < length (snd x))%nat -> exists y, push_pwn_to dbg id k pos x = Ok y /\ same_counts (fst x) (fst y) /\ same_counts (snd x) (snd y).
Proof.
  intros L1 L2. unfold push_pwn_to. destruct (k =? 0)%Z; [exists x; split; [reflexivity|split; apply same_counts_refl]|].
  assert (G : forall l, (id < length l)%nat -> exists l', at_id l id (add_pwn k) = Ok l' /\ same_counts l l').
  { intros l L. unfold at_id. destruct (Nat.ltb_spec id (length l)); [|lia]. eexists. split; [reflexivity|]. split; [apply upd_length|]. intros j. rewrite info_upd by exact L. destruct (_ =? _)%nat; split; reflexivity. }
  destruct pos.
  - destruct (Nat.leb_spec id (length (snd x))); [|lia]. rewrite check_true. cbn [rbind]. destruct (G _ L2) as (l' & -> & C). cbn [rbind]. eexists. split; [reflexivity|]. split; [apply same_counts_refl|exact C].
  - destruct (Nat.leb_spec id (length (fst x))); [|lia]. rewrite check_true. cbn [rbind]. destruct (G _ L1) as (l' & -> & C). cbn [rbind]. eexists. split; [reflexivity|]. split; [exact C|apply same_counts_refl].
Qed.
Lemma pwn_edge_total dbg split w b qs i x : path_ok w -> st w b qs -> (i < bp_count b)%nat -> (bp_id b < length (fst x))%nat -> (bp_id b < length (snd x))%nat ->
  exists y, push_pwn_edge dbg split b i x = Ok y /\ same_counts (fst x) (fst y) /\ same_counts (snd x) (snd y).
Proof.
  intros P Hs Li L1 L2. pose proof (ok_n _ _ (s_ok _ _ _ Hs)) as N. fold (bp_count b) in N. unfold push_pwn_edge, pedge_at.
  destruct (nth_error (pedges (bp_poly b)) i) as [e|] eqn:Ee; [|apply nth_error_None in Ee; unfold bp_count, pcount in Li; lia]. cbn [rbind].
  destruct (edge_co (pd e)) as [el|] eqn:Eo; [|exists x; split; [reflexivity|split; apply same_counts_refl]]. destruct (rxy_compare_split (hn split) el =? 0)%Z eqn:Ez; [exists x; split; [reflexivity|split; apply same_counts_refl]|].
  pose proof (s_edges _ _ _ Hs i e Ee) as [_ Ed Ev _]. rewrite Eo in Ed. destruct (last_some _ _ _ Ed) as (Ie & Ou & Ov).
  destruct (effect_total dbg w split el e (cyc o3 qs i) (rxy_compare_split (hn split) el) P Ie Ou Ev eq_refl ltac:(lia)) as (r & ->). cbn [rbind].
  destruct (push_to_total dbg (bp_id b) (fst r) (snd r) x L1 L2) as (y & -> & C1 & C2). cbn [rbind].
  destruct (nth_error (pedges (bp_poly b)) (S i mod bp_count b)) as [e'|] eqn:Ee'; [|apply nth_error_None in Ee'; pose proof (Nat.mod_upper_bound (S i) (bp_count b)); unfold bp_count, pcount in *; lia]. cbn [rbind].
  pose proof (s_edges _ _ _ Hs _ e' Ee') as [_ _ Ev' _]. rewrite (q_same _ qs (s_ok _ _ _ Hs) (S i mod bp_count b) (S i)) in Ev' by (fold (bp_count b); apply Nat.mod_mod; lia).
  destruct (effect_total dbg w split el e' (cyc o3 qs (S i)) (rxy_compare_split (hn split) el) P Ie Ov Ev' eq_refl ltac:(lia)) as (r' & ->). cbn [rbind].
  destruct (push_to_total dbg (bp_id b) (- fst r') (snd r') y) as (z & -> & D1 & D2); [rewrite (proj1 C1); exact L1|rewrite (proj1 C2); exact L2|]. exists z. split; [reflexivity|]. split; eapply same_counts_trans; eassumption.
Qed.
Lemma pwn_fold {B} (f : B -> list cinfo * list cinfo -> res (list cinfo * list cinfo)) (ok : B -> list cinfo * list cinfo -> Prop) l :
  (forall b x y, ok b x -> same_counts (fst x) (fst y) -> same_counts (snd x) (snd y) -> ok b y) ->
  (forall b x, In b l -> ok b x -> exists y, f b x = Ok y /\ same_counts (fst x) (fst y) /\ same_counts (snd x) (snd y)) ->
  forall x, (forall b, In b l -> ok b x) -> exists y, rfold f l x = Ok y /\ same_counts (fst x) (fst y) /\ same_counts (snd x) (snd y).
Proof.
  intros Keep. induction l as [|b l IH]; intros F x A; cbn [rfold]; [exists x; split; [reflexivity|split; apply same_counts_refl]|].
  destruct (F b x (or_introl eq_refl) (A b (or_introl eq_refl))) as (y & -> & C1 & C2). cbn [rbind]. destruct (IH (fun b x I => F b x (or_intror I)) y) as (z & -> & D1 & D2); [intros b' I; apply (Keep b' x y); [apply A; right; exact I|exact C1|exact C2]|].
  exists z. split; [reflexivity|]. split; eapply same_counts_trans; eassumption.
Qed.
Lemma push_pwn_total dbg split w l x : path_ok w -> hs_valid split = true -> Forall (fun b => exists qs, st w b qs) l -> Forall (fun b => (bp_id b < length (fst x))%nat /\ (bp_id b < length (snd x))%nat) l ->
  exists y, push_pwn dbg split l x = Ok y /\ same_counts (fst x) (fst y) /\ same_counts (snd x) (snd y).
Proof.
  intros P V Hs Hi. unfold push_pwn. rewrite V, check_true. cbn [rbind]. rewrite Forall_forall in Hs, Hi.
  assert (Kp : forall b (x y : list cinfo * list cinfo), (bp_id b < length (fst x))%nat /\ (bp_id b < length (snd x))%nat -> same_counts (fst x) (fst y) -> same_counts (snd x) (snd y) -> (bp_id b < length (fst y))%nat /\ (bp_id b < length (snd y))%nat) by (intros b x0 y0 [A B] [C _] [D _]; rewrite C, D; split; assumption).
  apply (pwn_fold _ (fun b x => (bp_id b < length (fst x))%nat /\ (bp_id b < length (snd x))%nat)); [exact Kp| |exact Hi].
  intros b y I Lb. destruct (Hs b I) as (qs & Sb). apply (pwn_fold _ (fun _ x => (bp_id b < length (fst x))%nat /\ (bp_id b < length (snd x))%nat)).
  - intros _ x0 y0. apply Kp.
  - intros i z Ii Lz. apply in_seq in Ii. apply (pwn_edge_total dbg split w b qs i z P Sb ltac:(lia)); apply Lz.
  - intros i _. exact Lb.
Qed.
(** ** One polygon *)
(** The result is an ordinary one with the property Q, or undefined behaviour of
    the int64 arithmetic of a bounding box. *)
Definition good {A} (boxed : bool) (r : res A) (Q : A -> Prop) : Prop := match r with Ok x => Q x | UB => boxed = true | _ => False end.
Lemma good_bind {A B} boxed (r : res A) (f : A -> res B) P Q : good boxed r P -> (forall x, P x -> good boxed (f x) Q) -> good boxed (rbind r f) Q.
Proof. destruct r; cbn; auto. Qed.
Lemma good_mono {A} boxed (r : res A) (P Q : A -> Prop) : (forall x, P x -> Q x) -> good boxed r P -> good boxed r Q.
Proof. destruct r; cbn; auto. Qed.
Definition boxes (boxed : bool) (l : list bpoly) : Prop := boxed = false -> Forall (fun b => bp_box b = None) l.
(** k has been extended by the contents cs and the border contents bs. *)
Record added (k : kid) (cs bs : list bpoly) (k' : kid) : Prop := Added {
  ad_contents : k_contents k' = k_contents k ++ cs; ad_border : k_border k' = k_border k ++ bs;
  ad_length : length (k_infos k') = length (k_infos k);
  ad_interior : forall id, interior (info_for (k_infos k') id) = (interior (info_for (k_infos k) id) + count_id id cs)%nat;
  ad_bordered : forall id, border (info_for (k_infos k') id) = (border (info_for (k_infos k) id) + count_id id bs)%nat }.
Lemma count_app id l l' : count_id id (l ++ l') = (count_id id l + count_id id l')%nat.
Proof. unfold count_id. rewrite filter_app, app_length. reflexivity. Qed.
Lemma added_refl k : added k [] [] k.
Proof. split; rewrite ?app_nil_r; try reflexivity; intros id; unfold count_id; cbn; lia. Qed.
Lemma added_trans a c1 b1 b c2 b2 c : added a c1 b1 b -> added b c2 b2 c -> added a (c1 ++ c2) (b1 ++ b2) c.
Proof.
  intros [A1 A2 A3 A4 A5] [B1 B2 B3 B4 B5]. split; [rewrite B1, A1, app_assoc; reflexivity|rewrite B2, A2, app_assoc; reflexivity|congruence| |].
  - intros id. rewrite B4, A4, count_app. lia.
  - intros id. rewrite B5, A5, count_app. lia.
Qed.
Lemma put_contents_ok k b : (bp_id b < length (k_infos k))%nat -> exists k', put_contents k b = Ok k' /\ added k [b] [] k'.
Proof.
  intros L. unfold put_contents, at_id. destruct (Nat.ltb_spec (bp_id b) (length (k_infos k))); [|lia]. cbn [rbind]. eexists. split; [reflexivity|].
  split; cbn [k_contents k_border k_infos]; [reflexivity|rewrite app_nil_r; reflexivity|apply upd_length| |]; intros id; rewrite info_upd by exact L; unfold count_id; cbn [List.filter]; destruct (_ =? _)%nat; cbn; lia.
Qed.
Lemma put_border_ok k b : (bp_id b < length (k_infos k))%nat -> exists k', put_border k b = Ok k' /\ added k [] [b] k'.
Proof.
  intros L. unfold put_border, at_id. destruct (Nat.ltb_spec (bp_id b) (length (k_infos k))); [|lia]. cbn [rbind]. eexists. split; [reflexivity|].
  split; cbn [k_contents k_border k_infos]; [rewrite app_nil_r; reflexivity|reflexivity|apply upd_length| |]; intros id; rewrite info_upd by exact L; unfold count_id; cbn [List.filter]; destruct (_ =? _)%nat; cbn; lia.
Qed.
(** The four cases. *)
Inductive placed (b : bpoly) (qs : list qpoint) (h : hspace3) (i : split_info) : Prop :=
| pl_on : on_plane_info i = true -> (forall q, In q qs -> side h q == 0) -> placed b qs h i
| pl_neg : on_plane_info i = false -> emit_neg (si_ranges i) = true -> emit_pos (si_ranges i) = false -> (forall q, In q qs -> on_side (SS h false) q) -> (fst (neg_range (si_ranges i)) < snd (neg_range (si_ranges i)))%nat ->
    (snd (neg_range (si_ranges i)) <= fst (neg_range (si_ranges i)) + bp_count b)%nat -> (forall j, (j < bp_count b)%nat -> ~ on_split (SS h false) (cyc o3 qs j) <-> in_cyclic_range (bp_count b) (neg_range (si_ranges i)) j) -> placed b qs h i
| pl_pos : on_plane_info i = false -> emit_neg (si_ranges i) = false -> (forall q, In q qs -> on_side (SS h true) q) -> (fst (pos_range (si_ranges i)) < snd (pos_range (si_ranges i)))%nat ->
    (snd (pos_range (si_ranges i)) <= fst (pos_range (si_ranges i)) + bp_count b)%nat -> (forall j, (j < bp_count b)%nat -> ~ on_split (SS h true) (cyc o3 qs j) <-> in_cyclic_range (bp_count b) (pos_range (si_ranges i)) j) -> placed b qs h i
| pl_cut : on_plane_info i = false -> emit_neg (si_ranges i) = true -> emit_pos (si_ranges i) = true -> info_ok (bp_poly b) qs h i -> (fst (neg_range (si_ranges i)) <= bp_count b)%nat -> placed b qs h i.
Lemma info_checked {A} dbg (p : poly A) h i : get_split_info dbg p h = Ok i -> check dbg (info_valid i (pcount p)) = Ok tt.
Proof.
  intros E. unfold get_split_info in E. destruct (negb _).
  - apply rbind_ok in E as ([] & C & E). injection E as <-. exact C.
  - apply rbind_ok in E as (r & _ & E). apply rbind_ok in E as (_ & _ & E). destruct (_ || _).
    + apply rbind_ok in E as ([] & C & E). injection E as <-. exact C.
    + apply rbind_ok in E as (? & _ & E). apply rbind_ok in E as (? & _ & E). apply rbind_ok in E as ([] & C & E). injection E as <-. exact C.
Qed.
Lemma full_range n j : (j < n)%nat -> in_cyclic_range n (0%nat, n) j.
Proof. intros L. exists j. cbn. repeat split; [lia|lia|apply Nat.mod_small; lia]. Qed.
Lemma place dbg b qs h : poly_ok (bp_poly b) qs -> (forall t, bp_box b = Some t -> tracks t (map pv (pedges (bp_poly b)))) ->
  exists i, bp_split_info dbg b h = Ok i /\ check dbg (info_valid i (bp_count b)) = Ok tt /\ placed b qs h i.
Proof.
  intros H Bx. pose proof (ok_n _ _ H) as N. pose proof (ok_length _ _ H) as Ln. fold (bp_count b) in *.
  assert (Ordinary : exists i, get_split_info dbg (bp_poly b) h = Ok i /\ check dbg (info_valid i (bp_count b)) = Ok tt /\ placed b qs h i).
  { destruct (get_split_info_ok _ qs H h dbg) as (i & Ei & I). exists i. split; [exact Ei|]. split; [exact (info_checked _ _ _ _ Ei)|].
    pose proof (io_ranges _ _ _ _ I) as R. rewrite Ln in R. pose proof (emit_neg_lt _ _ _ R) as En. pose proof (emit_pos_lt _ _ _ R) as Ep. destruct (re_neg _ _ _ R) as [_ Bn]. destruct (re_pos _ _ _ R) as [_ Bp].
    pose proof (re_neg_in _ _ _ R) as Rn. pose proof (re_pos_in _ _ _ R) as Rp.
    assert (Vn : emit_neg (si_ranges i) = false -> forall q, In q qs -> 0 <= side h q).
    { intros X q Iq. apply (In_cyc o3) in Iq as (j & Lj & ->). destruct (Qlt_le_dec (side h (cyc o3 qs j)) 0) as [L|L]; [exfalso|exact L]. apply Rn in L as (k & K1 & K2 & _); [|lia]. assert (emit_neg (si_ranges i) = true) by (apply En; lia). congruence. }
    assert (Vp : emit_pos (si_ranges i) = false -> forall q, In q qs -> side h q <= 0).
    { intros X q Iq. apply (In_cyc o3) in Iq as (j & Lj & ->). destruct (Qlt_le_dec 0 (side h (cyc o3 qs j))) as [L|L]; [exfalso|exact L]. apply Rp in L as (k & K1 & K2 & _); [|lia]. assert (emit_pos (si_ranges i) = true) by (apply Ep; lia). congruence. }
    destruct (emit_neg (si_ranges i)) eqn:Xn; [destruct (emit_pos (si_ranges i)) eqn:Xp|destruct (emit_pos (si_ranges i)) eqn:Xp].
    - apply pl_cut; [unfold on_plane_info; rewrite Xn, Xp; reflexivity|exact Xn|exact Xp|exact I|]. apply (split_info_start dbg _ h i Ei N Xn Xp).
    - apply pl_neg; [unfold on_plane_info; rewrite Xn, Xp; reflexivity|exact Xn|exact Xp|exact (Vp eq_refl)|apply En; reflexivity|exact Bn|]. intros j Lj. rewrite <- Rn by exact Lj. unfold on_split. cbn [ss_split]. specialize (Vp eq_refl (cyc o3 qs j) ltac:(apply cyc_In; lia)). split; intros X; lra.
    - apply pl_pos; [unfold on_plane_info; rewrite Xn, Xp; reflexivity|exact Xn|exact (Vn eq_refl)|apply Ep; reflexivity|exact Bp|]. intros j Lj. rewrite <- Rp by exact Lj. unfold on_split. cbn [ss_split]. specialize (Vn eq_refl (cyc o3 qs j) ltac:(apply cyc_In; lia)). split; intros X; lra.
    - apply pl_on; [unfold on_plane_info; rewrite Xn, Xp; reflexivity|]. intros q Iq. specialize (Vn eq_refl q Iq). specialize (Vp eq_refl q Iq). lra. }
  unfold bp_split_info. destruct (bp_box b) as [t|] eqn:Et; [|exact Ordinary]. destruct (box_side _ qs t h H (Bx t eq_refl)) as [Bneg Bpos].
  destruct (Z.eqb_spec (bx_plane_side (tbox t) h) (-1)) as [E|_].
  { eexists. split; [reflexivity|]. specialize (Bneg E). split.
    - unfold info_valid, ranges_valid, emit_neg, emit_pos. cbn [si_ranges neg_range pos_range fst snd si_point1 si_point2 is_some negb andb]. 
      replace (check dbg _) with (@Ok unit tt); [reflexivity|]. destruct dbg; [|reflexivity]. cbn [check]. destruct (bp_count b) as [|m]; [lia|]. cbn. rewrite ?Nat.leb_refl, ?Nat.sub_0_r, ?Nat.eqb_refl. cbn. rewrite ?Nat.leb_refl. reflexivity.
    - apply pl_neg; cbn [si_ranges neg_range pos_range fst snd]; try lia.
      + unfold on_plane_info, emit_neg, emit_pos. cbn. destruct (bp_count b); [lia|reflexivity].
      + unfold emit_neg. cbn. destruct (bp_count b); [lia|reflexivity].
      + reflexivity.
      + intros q Iq. specialize (Bneg q Iq). unfold on_side. cbn. lra.
      + intros j Lj. split; [intros _; apply full_range; exact Lj|]. intros _. specialize (Bneg (cyc o3 qs j) ltac:(apply cyc_In; lia)). unfold on_split. cbn. lra. }
  destruct (Z.eqb_spec (bx_plane_side (tbox t) h) 1) as [E|_]; [|exact Ordinary].
  eexists. split; [reflexivity|]. specialize (Bpos E). split.
  - unfold info_valid, ranges_valid, emit_neg, emit_pos. cbn [si_ranges neg_range pos_range fst snd si_point1 si_point2 is_some negb andb]. 
    replace (check dbg _) with (@Ok unit tt); [reflexivity|]. destruct dbg; [|reflexivity]. cbn [check]. destruct (bp_count b) as [|m]; [lia|]. cbn. rewrite ?Nat.leb_refl, ?Nat.sub_0_r, ?Nat.eqb_refl. cbn. rewrite ?Nat.leb_refl. reflexivity.
  - apply pl_pos; cbn [si_ranges neg_range pos_range fst snd]; try lia.
    + unfold on_plane_info, emit_neg, emit_pos. cbn. destruct (bp_count b); [lia|reflexivity].
    + reflexivity.
    + intros q Iq. specialize (Bpos q Iq). unfold on_side. cbn. lra.
    + intros j Lj. split; [intros _; apply full_range; exact Lj|]. intros _. specialize (Bpos (cyc o3 qs j) ltac:(apply cyc_In; lia)). unfold on_split. cbn. lra.
Qed.
(** ** Pieces *)
Lemma cut_up_nil : cut_up [] [].
Proof. exists []. split; constructor. Qed.
Lemma cut_up_app l l' m m' : cut_up l l' -> cut_up m m' -> cut_up (l ++ m) (l' ++ m').
Proof. intros (ls & F & P) (ms & F' & P'). exists (ls ++ ms). split; [apply Forall2_app; assumption|]. rewrite concat_app. apply Permutation_app; assumption. Qed.
Lemma cut_up_perm l l' m : cut_up l l' -> Permutation l' m -> cut_up l m.
Proof. intros (ls & F & P) Q. exists ls. split; [exact F|]. eapply Permutation_trans; [apply Permutation_sym; exact Q|exact P]. Qed.
Lemma cut_up_one b l : pieces b l -> cut_up [b] l.
Proof. intros P. exists [l]. split; [constructor; [exact P|constructor]|]. cbn. rewrite app_nil_r. apply Permutation_refl. Qed.
Lemma F2_perm {A B} (R : A -> B -> Prop) l m ls : Permutation l m -> Forall2 R l ls -> exists ms, Forall2 R m ms /\ Permutation ls ms.
Proof.
  intros P. revert ls. induction P as [|x l m P IH|x y l|l m k P1 IH1 P2 IH2]; intros ls F.
  - inversion F; subst. exists []. split; constructor.
  - inversion F as [|? a ? ls' Rx F']; subst. destruct (IH ls' F') as (ms & G & Q). exists (a :: ms). split; [constructor; assumption|apply perm_skip; exact Q].
  - inversion F as [|? a ? ls' Rx F']; subst. inversion F' as [|? a' ? ls'' Ry F'']; subst. exists (a' :: a :: ls''). split; [repeat constructor; assumption|apply perm_swap].
  - destruct (IH1 ls F) as (ms & G & Q). destruct (IH2 ms G) as (ks & G' & Q'). exists ks. split; [exact G'|]. eapply Permutation_trans; eassumption.
Qed.
Lemma concat_perm {A} (l m : list (list A)) : Permutation l m -> Permutation (concat l) (concat m).
Proof.
  intros P. induction P; cbn [concat].
  - apply perm_nil.
  - apply Permutation_app_head. assumption.
  - rewrite !app_assoc. apply Permutation_app_tail, Permutation_app_comm.
  - eapply Permutation_trans; eassumption.
Qed.
Lemma cut_up_perm_l l m l' : Permutation l m -> cut_up l l' -> cut_up m l'.
Proof. intros P (ls & F & Q). destruct (F2_perm _ _ _ _ P F) as (ms & G & R). exists ms. split; [exact G|]. eapply Permutation_trans; [exact Q|]. apply concat_perm. exact R. Qed.
Lemma cut_up_cons_inv b l m : cut_up (b :: l) m -> exists m1 m2, pieces b m1 /\ cut_up l m2 /\ Permutation m (m1 ++ m2).
Proof. intros (ls & F & P). inversion F as [|? a ? ls' Pb F']; subst. cbn [concat] in P. exists a, (concat ls'). split; [exact Pb|]. split; [exists ls'; split; [exact F'|apply Permutation_refl]|exact P]. Qed.
Lemma cut_up_app_inv l1 l2 m : cut_up (l1 ++ l2) m -> exists m1 m2, cut_up l1 m1 /\ cut_up l2 m2 /\ Permutation m (m1 ++ m2).
Proof. intros (ls & F & P). apply Forall2_app_inv_l in F as (a & c & F1 & F2 & ->). rewrite concat_app in P. exists (concat a), (concat c). split; [exists a; split; [exact F1|apply Permutation_refl]|]. split; [exists c; split; [exact F2|apply Permutation_refl]|exact P]. Qed.
(** Pieces of pieces. *)
Definition apart (h : hspace3) (x y : bpoly) : Prop := forall q, ~ (inner h (bp_point x) q /\ inner h (bp_point y) q).
Lemma apart_sym h x y : apart h x y -> apart h y x.
Proof. intros A q [I J]. exact (A q (conj J I)). Qed.
Lemma pairs_app h l m : ForallOrdPairs (apart h) (l ++ m) <-> ForallOrdPairs (apart h) l /\ ForallOrdPairs (apart h) m /\ forall x y, In x l -> In y m -> apart h x y.
Proof.
  induction l as [|a l IH]; cbn [app].
  - split; [intros F; split; [constructor|split; [exact F|intros x y []]]|intros (_ & F & _); exact F].
  - split.
    + intros F. inversion F as [|? ? Fa Fl]; subst. apply IH in Fl as (F1 & F2 & F3). apply Forall_app in Fa as [Fa1 Fa2]. rewrite Forall_forall in Fa2. split; [constructor; assumption|]. split; [exact F2|]. intros x y [<-|I] J; [apply Fa2; exact J|apply F3; assumption].
    + intros (F1 & F2 & F3). inversion F1 as [|? ? Fa Fl]; subst. constructor; [apply Forall_app; split; [exact Fa|apply Forall_forall; intros y J; apply F3; [left; reflexivity|exact J]]|]. apply IH. split; [exact Fl|]. split; [exact F2|]. intros x y I J. apply F3; [right; exact I|exact J].
Qed.
Lemma pairs_perm h l m : Permutation l m -> ForallOrdPairs (apart h) l -> ForallOrdPairs (apart h) m.
Proof.
  intros P. induction P as [|x l m P IH|x y l|l m k P1 IH1 P2 IH2]; intros F.
  - exact F.
  - inversion F; subst. constructor; [eapply Permutation_Forall; eassumption|apply IH; assumption].
  - inversion F as [|? ? Fy F']; subst. inversion F' as [|? ? Fx Fl]; subst. inversion Fy as [|? ? Yx Fyl]; subst. constructor; [constructor; [apply apart_sym; exact Yx|exact Fx]|constructor; assumption].
  - apply IH2, IH1, F.
Qed.
Lemma pieces_same b m x : pieces b m -> In x m -> bp_id x = bp_id b /\ pplane (bp_poly x) = pplane (bp_poly b) /\ pdrop (bp_poly x) = pdrop (bp_poly b).
Proof. intros P I. pose proof (pi_same _ _ P) as S. rewrite Forall_forall in S. exact (S x I). Qed.
Lemma pieces_perm b l m : Permutation l m -> pieces b l -> pieces b m.
Proof.
  intros Pm P. split.
  - eapply Permutation_Forall; [exact Pm|apply (pi_same _ _ P)].
  - intros q. rewrite (pi_union _ _ P q). split; intros (x & I & Q); exists x; (split; [|exact Q]); [apply (Permutation_in x Pm)|apply (Permutation_in x (Permutation_sym Pm))]; exact I.
  - exact (pairs_perm _ _ _ Pm (pi_disjoint _ _ P)).
  - intros x i u v d I. apply (pi_edges _ _ P). exact (Permutation_in x (Permutation_sym Pm) I).
Qed.
Lemma pieces_trans b l m : pieces b l -> cut_up l m -> pieces b m.
Proof.
  intros P (ls & F & Pm). apply (pieces_perm b (concat ls)); [apply Permutation_sym; exact Pm|]. clear m Pm.
  assert (Of : forall y, In y (concat ls) -> exists x m, In x l /\ pieces x m /\ In y m /\ In m ls).
  { intros y I. apply in_concat in I as (m & Im & Iy). clear P. induction F as [|x a l ls Px F IH]; [destruct Im|]. destruct Im as [<-|Im]; [exists x, a; split; [left; reflexivity|split; [exact Px|split; [exact Iy|left; reflexivity]]]|]. destruct (IH Im) as (x' & m' & A & B & C & D). exists x', m'. split; [right; exact A|split; [exact B|split; [exact C|right; exact D]]]. }
  assert (Onto : forall x, In x l -> exists m, In m ls /\ pieces x m).
  { intros x I. clear P Of. induction F as [|x' a l ls Px F IH]; [destruct I|]. destruct I as [<-|I]; [exists a; split; [left; reflexivity|exact Px]|]. destruct (IH I) as (m & A & B). exists m. split; [right; exact A|exact B]. }
  split.
  - apply Forall_forall. intros y I. destruct (Of y I) as (x & m & Ix & Px & Iy & _). destruct (pieces_same x m y Px Iy) as (E1 & E2 & E3), (pieces_same b l x P Ix) as (D1 & D2 & D3). repeat split; congruence.
  - intros q. rewrite (pi_union _ _ P q). split.
    + intros (x & I & Q). destruct (Onto x I) as (m & Im & Px). destruct (proj1 (pi_union _ _ Px q) Q) as (y & Iy & Qy). exists y. split; [apply in_concat; exists m; split; assumption|exact Qy].
    + intros (y & I & Q). destruct (Of y I) as (x & m & Ix & Px & Iy & _). exists x. split; [exact Ix|]. apply (pi_union _ _ Px). exists y. split; assumption.
  - pose proof (pi_disjoint _ _ P) as D. pose proof (pi_same _ _ P) as S. clear Of Onto P. fold (apart (pplane (bp_poly b))) in *. induction F as [|x a l ls Px F IH]; [constructor|]. inversion D as [|? ? Dx Dl]; subst. inversion S as [|? ? Sx Sl]; subst. cbn [concat]. apply (pairs_app (pplane (bp_poly b))).
    split; [pose proof (pi_disjoint _ _ Px) as Da; rewrite (proj1 (proj2 Sx)) in Da; exact Da|]. split; [apply IH; assumption|]. intros y z Iy Iz q [Ny Nz]. rewrite Forall_forall in Dx.
    assert (exists x' m, In x' l /\ pieces x' m /\ In z m) as (x' & m & Ix' & Px' & Izm).
    { apply in_concat in Iz as (m & Im & Iz). clear - F Im Iz. induction F as [|x0 a0 l ls P0 F IH]; [destruct Im|]. destruct Im as [<-|Im]; [exists x0, a0; split; [left; reflexivity|split; [exact P0|exact Iz]]|]. destruct (IH Im) as (x1 & m1 & A & B & C). exists x1, m1. split; [right; exact A|split; [exact B|exact C]]. }
    apply (Dx x' Ix' q). split; [revert Ny|revert Nz]; apply inner_mono; intros q0 Q; [apply (pi_union _ _ Px); exists y|apply (pi_union _ _ Px'); exists z]; split; assumption.
  - intros y i u v d I He. destruct (Of y I) as (x & m & Ix & Px & Iy & _). destruct (pi_edges _ _ Px y i u v d Iy He) as [C|(j & u' & v' & d' & H1 & C1 & S1 & S2)]; [left; exact C|].
    destruct (pi_edges _ _ P x j u' v' d' Ix H1) as [C|(k & u2 & v2 & d2 & H2 & C2 & S3 & S4)]; [contradiction|right]. exists k, u2, v2, d2. split; [exact H2|]. split; [exact C2|]. split; [exact (segment_trans _ _ _ _ _ S3 S4 S1)|exact (segment_trans _ _ _ _ _ S3 S4 S2)].
Qed.
Lemma cut_up_trans l m k : cut_up l m -> cut_up m k -> cut_up l k.
Proof.
  revert m k. induction l as [|b l IH]; intros m k A B.
  - destruct A as (ls & F & P). inversion F; subst. cbn in P. apply Permutation_sym, Permutation_nil in P. subst m. exact B.
  - apply cut_up_cons_inv in A as (m1 & m2 & P1 & A2 & Pm). apply (cut_up_perm_l _ _ _ Pm) in B. apply cut_up_app_inv in B as (k1 & k2 & B1 & B2 & Pk). apply (cut_up_perm _ (k1 ++ k2)); [|apply Permutation_sym; exact Pk].
    apply (cut_up_app [b] k1 l k2); [apply cut_up_one, (pieces_trans b m1); assumption|exact (IH m2 k2 A2 B2)].
Qed.
Lemma pieces_refl b qs : poly_ok (bp_poly b) qs -> pieces b [b].
Proof. intros H. destruct b as [p t i o]. exact (marks_pieces _ _ qs (marks_refl (BP p t i o) o) H). Qed.
Lemma cut_up_refl l : Forall (fun b => exists qs, poly_ok (bp_poly b) qs) l -> cut_up l l.
Proof. intros F. induction F as [|b l [qs H] F IH]; [exact cut_up_nil|]. apply (cut_up_app [b] [b] l l); [apply cut_up_one, (pieces_refl b qs H)|exact IH]. Qed.
(** ** Dealing out polygons to two children *)
Lemma placed_off b qs h i : poly_ok (bp_poly b) qs -> placed b qs h i -> on_plane_info i = false -> ~ same_plane h (pplane (bp_poly b)).
Proof.
  intros H Pl Off Sp. pose proof (ok_n _ _ H) as N. pose proof (ok_length _ _ H) as Ln. fold (bp_count b) in *. assert (Z : forall j, side h (cyc o3 qs j) == 0).
  { intros j. apply Sp. pose proof (po_plane _ _ H) as Pp. rewrite Forall_forall in Pp. apply Pp. apply cyc_In. lia. }
  assert (Rg : forall r, (fst r < snd r)%nat -> in_cyclic_range (bp_count b) r (fst r mod bp_count b)%nat) by (intros r L; exists (fst r); repeat split; lia).
  assert (Lt : forall a, (a mod bp_count b < bp_count b)%nat) by (intros a; apply Nat.mod_upper_bound; lia).
  destruct Pl as [E _|_ _ _ _ L _ R|_ _ _ L _ R|_ En _ I _]; [congruence| | |].
  - exact (proj2 (R _ (Lt _)) (Rg _ L) (Z _)).
  - exact (proj2 (R _ (Lt _)) (Rg _ L) (Z _)).
  - pose proof (io_ranges _ _ _ _ I) as R. rewrite Ln in R. apply (emit_neg_lt _ _ _ R) in En. pose proof (proj2 (re_neg_in _ _ _ R _ (Lt _)) (Rg _ En)) as X. cbn beta in X. rewrite Z in X. lra.
Qed.
(** Number of polygons that are on none of the planes so far. *)
Definition off (l : list bpoly) : nat := length (List.filter (fun b => match bp_on b with None => true | Some _ => false end) l).
Lemma off_app l m : off (l ++ m) = (off l + off m)%nat.
Proof. unfold off. rewrite filter_app, app_length. reflexivity. Qed.
Record dealt (boxed : bool) (w : path) (h : hspace3) (l : list bpoly) (x y : kid * kid) : Prop := Dealt { d_lists : exists cn bn cp bp,
  added (fst x) cn bn (fst y) /\ added (snd x) cp bp (snd y) /\
  Forall (in_contents (w ++ [SS h false])) cn /\ Forall (in_border (w ++ [SS h false])) bn /\ Forall (in_contents (w ++ [SS h true])) cp /\ Forall (in_border (w ++ [SS h true])) bp /\
  cut_up l ((cn ++ bn) ++ (cp ++ bp)) /\ boxes boxed ((cn ++ bn) ++ (cp ++ bp)) /\
  exists m, (length cn + m <= off l)%nat /\ (length cp + m <= off l)%nat /\ ((exists b, In b l /\ bp_on b = None /\ same_plane h (pplane (bp_poly b))) -> (1 <= m)%nat) }.
Lemma boxes_app boxed l m : boxes boxed (l ++ m) <-> boxes boxed l /\ boxes boxed m.
Proof. unfold boxes. split; [intros B; split; intros E; specialize (B E); apply Forall_app in B; apply B|intros [A B] E; apply Forall_app; auto]. Qed.
Lemma boxes_perm boxed l m : Permutation l m -> boxes boxed l -> boxes boxed m.
Proof. intros P B E. eapply Permutation_Forall; [exact P|exact (B E)]. Qed.
Lemma swap_middle {A} (a b c d : list A) : Permutation ((a ++ b) ++ (c ++ d)) ((a ++ c) ++ (b ++ d)).
Proof. rewrite <- !app_assoc. apply Permutation_app_head. rewrite !app_assoc. apply Permutation_app_tail, Permutation_app_comm. Qed.
Lemma dealt_trans boxed w h l m x y z : dealt boxed w h l x y -> dealt boxed w h m y z -> dealt boxed w h (l ++ m) x z.
Proof.
  intros [(a & b & c & d & A1 & A2 & A3 & A4 & A5 & A6 & A7 & A8 & am & A9 & A10 & A11)] [(a' & b' & c' & d' & B1 & B2 & B3 & B4 & B5 & B6 & B7 & B8 & bm & B9 & B10 & B11)]. constructor. exists (a ++ a'), (b ++ b'), (c ++ c'), (d ++ d').
  assert (Pm : Permutation (((a ++ b) ++ (c ++ d)) ++ ((a' ++ b') ++ (c' ++ d'))) (((a ++ a') ++ (b ++ b')) ++ ((c ++ c') ++ (d ++ d')))).
  { eapply Permutation_trans; [apply swap_middle|]. apply Permutation_app; apply swap_middle. }
  split; [eapply added_trans; eassumption|]. split; [eapply added_trans; eassumption|]. repeat (split; [apply Forall_app; split; assumption|]). split.
  - eapply cut_up_perm; [|exact Pm]. apply cut_up_app; assumption.
  - split; [eapply boxes_perm; [exact Pm|]; apply boxes_app; split; assumption|]. exists (am + bm)%nat. rewrite !app_length, off_app. split; [lia|]. split; [lia|]. intros (z0 & I & Z). apply in_app_or in I as [I|I]; [assert (1 <= am)%nat by (apply A11; exists z0; tauto)|assert (1 <= bm)%nat by (apply B11; exists z0; tauto)]; lia.
Qed.
Lemma dealt_refl boxed w h x : dealt boxed w h [] x x.
Proof. constructor. exists [], [], [], []. repeat (split; [apply added_refl||constructor|]). split; [exact cut_up_nil|split; [intros _; constructor|]]. exists 0%nat. repeat split; cbn; try lia. intros (b & [] & _). Qed.
Lemma dealt_length boxed w h l x y : dealt boxed w h l x y -> length (k_infos (fst y)) = length (k_infos (fst x)) /\ length (k_infos (snd y)) = length (k_infos (snd x)).
Proof. intros [(a & b & c & d & A1 & A2 & _)]. split; [apply (ad_length _ _ _ _ A1)|apply (ad_length _ _ _ _ A2)]. Qed.
Definition room (b : bpoly) (x : kid * kid) : Prop := (bp_id b < length (k_infos (fst x)))%nat /\ (bp_id b < length (k_infos (snd x)))%nat.
Definition putter (on : bool) : kid -> bpoly -> res kid := if on then put_border else put_contents.
Definition stored_as (on : bool) (w : path) (b : bpoly) : Prop := if on then in_border w b else in_contents w b.
Ltac one := first [apply Forall_nil|apply Forall_cons; [assumption|apply Forall_nil]].
Lemma putter_ok on k b : (bp_id b < length (k_infos k))%nat -> exists k', putter on k b = Ok k' /\ added k (if on then [] else [b]) (if on then [b] else []) k'.
Proof. destruct on; [apply put_border_ok|apply put_contents_ok]. Qed.
Lemma stored_as_on on w b : stored w b -> (on = true <-> bp_on b <> None) -> stored_as on w b.
Proof. intros St O. destruct on; cbn; (split; [exact St|]); [apply O; reflexivity|]. destruct (bp_on b); [|reflexivity]. exfalso. assert (false = true) by (apply O; discriminate). discriminate. Qed.
Lemma off_plane boxed dbg on w b qs h i x : path_ok w -> fresh_plane w h -> st w b qs -> (on = true <-> bp_on b <> None) -> boxes boxed [b] -> room b x -> on_plane_info i = false -> placed b qs h i ->
  good boxed (push_off_plane dbg h (putter on) b i x) (dealt boxed w h [b] x).
Proof.
  intros P Fr HS On Bx [R1 R2] Off Pl. pose proof (path_snoc w (SS h false) P Fr) as Pn. pose proof (path_snoc w (SS h true) P Fr) as Pp. unfold push_off_plane.
  assert (M0 : (exists b0, In b0 [b] /\ bp_on b0 = None /\ same_plane h (pplane (bp_poly b0))) -> (1 <= 0)%nat) by (intros (b0 & [<-|[]] & _ & Sp); exfalso; exact (placed_off b qs h i (s_ok _ _ _ HS) Pl Off Sp)).
  assert (Of : off [b] = if on then 0%nat else 1%nat). { unfold off. cbn [List.filter]. destruct (bp_on b); destruct on; try reflexivity; exfalso; [assert (false = true) by (apply On; discriminate); discriminate|apply On; reflexivity]. }
  assert (L1 : forall b', bp_id b' = bp_id b -> exists k', putter on (fst x) b' = Ok k' /\ added (fst x) (if on then [] else [b']) (if on then [b'] else []) k') by (intros b' E; apply putter_ok; rewrite E; exact R1).
  assert (L2 : forall b', bp_id b' = bp_id b -> exists k', putter on (snd x) b' = Ok k' /\ added (snd x) (if on then [] else [b']) (if on then [b'] else []) k') by (intros b' E; apply putter_ok; rewrite E; exact R2).
  destruct Pl as [E _|_ En Ep Cs A B R|_ En Cs A B R|_ En Ep I Sb]; [congruence| | |].
  - rewrite En, Ep. destruct (one_side w b qs (SS h false) (neg_range (si_ranges i)) HS Cs A B R) as (b' & -> & St' & M & O'). cbn [rbind]. destruct (L1 b' (mk_id _ _ M)) as (k' & -> & Ad). cbn [rbind good].
    pose proof (stored_as_on on _ b' (st_stored _ _ _ Pn St') ltac:(rewrite O'; exact On)) as Sa.
    assert (Pc : cut_up [b] [b']) by (apply cut_up_one, (marks_pieces b b' qs M (s_ok _ _ _ HS))). assert (Bb : boxes boxed [b']) by (intros E; specialize (Bx E); inversion Bx; subst; constructor; [rewrite (mk_box _ _ M); assumption|constructor]).
    constructor. exists (if on then [] else [b']), (if on then [b'] else []), [], []. split; [exact Ad|]. split; [apply added_refl|]. rewrite Of; destruct on; cbn [app]; repeat (split; [one|]); (split; [exact Pc|split; [exact Bb|exists 0%nat; split; [cbn [length]; lia|split; [cbn [length]; lia|exact M0]]]]).
  - rewrite En. destruct (one_side w b qs (SS h true) (pos_range (si_ranges i)) HS Cs A B R) as (b' & -> & St' & M & O'). cbn [rbind]. destruct (L2 b' (mk_id _ _ M)) as (k' & -> & Ad). cbn [rbind good].
    pose proof (stored_as_on on _ b' (st_stored _ _ _ Pp St') ltac:(rewrite O'; exact On)) as Sa.
    assert (Pc : cut_up [b] [b']) by (apply cut_up_one, (marks_pieces b b' qs M (s_ok _ _ _ HS))). assert (Bb : boxes boxed [b']) by (intros E; specialize (Bx E); inversion Bx; subst; constructor; [rewrite (mk_box _ _ M); assumption|constructor]).
    constructor. exists [], [], (if on then [] else [b']), (if on then [b'] else []). split; [apply added_refl|]. split; [exact Ad|]. rewrite Of; destruct on; cbn [app]; repeat (split; [one|]); (split; [exact Pc|split; [exact Bb|exists 0%nat; split; [cbn [length]; lia|split; [cbn [length]; lia|exact M0]]]]).
  - rewrite En, Ep. pose proof (split_step dbg w b qs h i P HS I Sb En Ep) as Sp.
    assert (Eq : forall (f : bpoly * bpoly -> res (kid * kid)), (c <- bp_split_children dbg b i ;; c <- set_child_angles dbg c h ;; f c) = (c <- (c <- bp_split_children dbg b i ;; set_child_angles dbg c h) ;; f c)) by (intros f; destruct (bp_split_children dbg b i); reflexivity).
    rewrite Eq. destruct (c <- bp_split_children dbg b i ;; set_child_angles dbg c h) as [[y z]| | |]; cbn [rbind good]; [|exact Sp| |exact Sp].
    2:{ destruct boxed; [reflexivity|]. specialize (Bx eq_refl). inversion Bx; subst. congruence. }
    destruct Sp as ((qn & Sn) & (qp & Sp) & Pc & O1 & O2 & Bn). cbn [fst snd]. destruct (pieces_same _ _ y Pc ltac:(left; reflexivity)) as (I1 & _), (pieces_same _ _ z Pc ltac:(right; left; reflexivity)) as (I2 & _).
    destruct (L1 y I1) as (k1 & -> & A1). cbn [rbind]. destruct (L2 z I2) as (k2 & -> & A2). cbn [rbind good].
    pose proof (stored_as_on on _ y (st_stored _ _ _ Pn Sn) ltac:(rewrite O1; exact On)) as Sa1. pose proof (stored_as_on on _ z (st_stored _ _ _ Pp Sp) ltac:(rewrite O2; exact On)) as Sa2.
    assert (Bb : boxes boxed [y; z]) by (intros E; specialize (Bx E); inversion Bx as [|? ? B0 _]; subst; destruct (Bn B0); repeat constructor; assumption).
    constructor. exists (if on then [] else [y]), (if on then [y] else []), (if on then [] else [z]), (if on then [z] else []). split; [exact A1|]. split; [exact A2|]. rewrite Of; destruct on; cbn [app]; repeat (split; [one|]); (split; [apply cut_up_one; exact Pc|split; [exact Bb|exists 0%nat; split; [cbn [length]; lia|split; [cbn [length]; lia|exact M0]]]]).
Qed.
Lemma push_content_ok boxed dbg w b qs h x : path_ok w -> fresh_plane w h -> st w b qs -> bp_on b = None -> boxes boxed [b] -> room b x -> good boxed (push_content dbg h b x) (dealt boxed w h [b] x).
Proof.
  intros P Fr HS No Bx R. pose proof (ok_n _ _ (s_ok _ _ _ HS)) as N. fold (bp_count b) in N. unfold push_content. destruct (Nat.ltb_spec 0 (bp_count b)); [|lia]. rewrite check_true. cbn [rbind].
  destruct (place dbg b qs h (s_ok _ _ _ HS) (s_box _ _ _ HS)) as (i & -> & Ck & Pl). cbn [rbind]. rewrite Ck. cbn [rbind]. destruct (on_plane_info i) eqn:Oi.
  - destruct Pl as [_ Z|E|E|E]; try congruence. unfold push_on_plane. set (pos := zdiff_sign _ _). destruct (on_plane w b qs h HS No (proj1 Fr) Z) as (b' & Eb & St' & M). fold pos in Eb, St', M. rewrite Eb. cbn [rbind].
    pose proof (path_snoc w (SS h pos) P Fr) as Pn. set (b1 := BP (bp_poly b') (bp_box b') (bp_id b') (Some (SS h pos))) in *.
    assert (Sa : in_border (w ++ [SS h pos]) b1) by (split; [exact (st_stored _ _ _ Pn St')|discriminate]). assert (Pc : cut_up [b] [b1]) by (apply cut_up_one, (marks_pieces b b1 qs M (s_ok _ _ _ HS))).
    assert (Bb : boxes boxed [b1]) by (intros E; specialize (Bx E); inversion Bx; subst; constructor; [rewrite (mk_box _ _ M); assumption|constructor]). destruct R as [R1 R2]. assert (Of : off [b] = 1%nat) by (unfold off; cbn [List.filter]; rewrite No; reflexivity).
    destruct pos; [destruct (put_border_ok (snd x) b1 ltac:(rewrite (mk_id _ _ M); exact R2)) as (k' & -> & Ad)|destruct (put_border_ok (fst x) b1 ltac:(rewrite (mk_id _ _ M); exact R1)) as (k' & -> & Ad)]; cbn [rbind good]; constructor.
    + exists [], [], [], [b1]. split; [apply added_refl|]. split; [exact Ad|]. repeat (split; [one|]). split; [exact Pc|split; [exact Bb|exists 1%nat; rewrite Of; cbn [length]; repeat split; lia]].
    + exists [], [b1], [], []. split; [exact Ad|]. split; [apply added_refl|]. repeat (split; [one|]). split; [exact Pc|split; [exact Bb|exists 1%nat; rewrite Of; cbn [length]; repeat split; lia]].
  - apply (off_plane boxed dbg false w b qs h i x); try assumption. rewrite No. split; [discriminate|intros X; contradiction].
Qed.
Lemma push_border_ok boxed dbg w b qs h x : path_ok w -> fresh_plane w h -> st w b qs -> bp_on b <> None -> boxes boxed [b] -> room b x -> good boxed (push_border dbg h b x) (dealt boxed w h [b] x).
Proof.
  intros P Fr HS No Bx R. pose proof (ok_n _ _ (s_ok _ _ _ HS)) as N. fold (bp_count b) in N. unfold push_border. destruct (Nat.ltb_spec 0 (bp_count b)); [|lia]. rewrite check_true. cbn [rbind].
  destruct (place dbg b qs h (s_ok _ _ _ HS) (s_box _ _ _ HS)) as (i & -> & Ck & Pl). cbn [rbind]. destruct (on_plane_info i) eqn:Oi.
  - exfalso. destruct Pl as [_ Z|E|E|E]; try congruence. destruct (bp_on b) as [s|] eqn:Eo; [|contradiction]. destruct (s_on _ _ _ HS) as [O _]. rewrite Eo in O. apply first_some in O as [Is Sp].
    destruct (plane_of_vertices _ qs (s_ok _ _ _ HS) h (proj1 Fr) Z) as (Sh & _). apply (proj2 Fr s Is). intros q. rewrite (Sp q), (Sh q). reflexivity.
  - apply (off_plane boxed dbg true w b qs h i x); try assumption. split; [intros _; exact No|reflexivity].
Qed.
Lemma rfold_dealt boxed w h (f : bpoly -> kid * kid -> res (kid * kid)) (Q : bpoly -> Prop) l : (forall b x, Q b -> boxes boxed [b] -> room b x -> good boxed (f b x) (dealt boxed w h [b] x)) ->
  forall x, Forall Q l -> boxes boxed l -> Forall (fun b => room b x) l -> good boxed (rfold f l x) (dealt boxed w h l x).
Proof.
  intros F. induction l as [|b l IH]; intros x Ql Bx R; cbn [rfold]; [apply dealt_refl|]. inversion Ql as [|? ? Qb Ql']; subst. inversion R as [|? ? Rb Rl]; subst. apply (boxes_app boxed [b] l) in Bx as [Bb Bl].
  apply (good_bind boxed _ _ (dealt boxed w h [b] x)); [apply F; assumption|]. intros y D. apply (good_mono boxed _ (dealt boxed w h l y)).
  - intros z D'. exact (dealt_trans boxed w h [b] l x y z D D').
  - apply IH; [exact Ql'|exact Bl|]. destruct (dealt_length _ _ _ _ _ _ D) as [L1 L2]. eapply Forall_impl; [|exact Rl]. intros c [A B]. split; rewrite ?L1, ?L2; assumption.
Qed.
Lemma push_all_ok boxed dbg w h cs bs x : path_ok w -> fresh_plane w h -> Forall (in_contents w) cs -> Forall (in_border w) bs -> boxes boxed (cs ++ bs) -> Forall (fun b => room b x) (cs ++ bs) ->
  good boxed (push_all dbg h cs bs x) (dealt boxed w h (cs ++ bs) x).
Proof.
  intros P Fr Hc Hb Bx R. unfold push_all. apply Forall_app in R as [Rc Rb]. apply boxes_app in Bx as [Bc Bb].
  destruct (push_pwn_total dbg h w cs (k_infos (fst x), k_infos (snd x)) P (proj1 Fr)) as (y & -> & C1 & C2).
  { eapply Forall_impl; [|exact Hc]. intros b [S _]. exact (stored_st w b P S). }
  { exact Rc. }
  cbn [rbind fst snd] in *. set (x1 := (Kid (k_contents (fst x)) (k_border (fst x)) (fst y), Kid (k_contents (snd x)) (k_border (snd x)) (snd y))).
  assert (D0 : dealt boxed w h [] x x1).
  { constructor. exists [], [], [], []. destruct C1 as [L1 C1], C2 as [L2 C2]. split; [split; unfold x1; cbn [fst snd k_contents k_border k_infos]; rewrite ?app_nil_r; try reflexivity; [exact L1|intros id; rewrite (proj1 (C1 id)); unfold count_id; cbn [List.filter length]; lia|intros id; rewrite (proj2 (C1 id)); unfold count_id; cbn [List.filter length]; lia]|].
    split; [split; unfold x1; cbn [fst snd k_contents k_border k_infos]; rewrite ?app_nil_r; try reflexivity; [exact L2|intros id; rewrite (proj1 (C2 id)); unfold count_id; cbn [List.filter length]; lia|intros id; rewrite (proj2 (C2 id)); unfold count_id; cbn [List.filter length]; lia]|]. repeat (split; [constructor|]). split; [exact cut_up_nil|split; [intros _; constructor|]]. exists 0%nat. repeat split; cbn; try lia. intros (b & [] & _). }
  assert (Keep : forall l m y, dealt boxed w h m x y -> Forall (fun b => room b x) l -> Forall (fun b => room b y) l).
  { intros l m y0 D Rl. destruct (dealt_length _ _ _ _ _ _ D) as [L1 L2]. eapply Forall_impl; [|exact Rl]. intros c [A B]. split; rewrite ?L1, ?L2; assumption. }
  apply (good_bind boxed _ _ (dealt boxed w h cs x)).
  - apply (good_mono boxed _ (dealt boxed w h cs x1)); [intros z D; exact (dealt_trans boxed w h [] cs x x1 z D0 D)|]. apply (rfold_dealt boxed w h _ (in_contents w)); [|exact Hc|exact Bc|exact (Keep cs [] x1 D0 Rc)].
    intros b z [S O] Bz Rz. destruct (stored_st w b P S) as (qs & HS). exact (push_content_ok boxed dbg w b qs h z P Fr HS O Bz Rz).
  - intros z D. apply (good_mono boxed _ (dealt boxed w h bs z)); [intros z' D'; exact (dealt_trans boxed w h cs bs x z z' D D')|]. apply (rfold_dealt boxed w h _ (in_border w)); [|exact Hb|exact Bb|exact (Keep bs cs z D Rb)].
    intros b z' [S O] Bz Rz. destruct (stored_st w b P S) as (qs & HS). exact (push_border_ok boxed dbg w b qs h z' P Fr HS O Bz Rz).
Qed.
