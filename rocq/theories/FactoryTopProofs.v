(** ConvexPolygonFactory: the loops. *)
From Coq Require Import List Bool Arith ZArith QArith Lqa Lia ZifyBool Permutation.
From Verif Require Import BigUIntModel GeoModel GeoSpec CvxSpec GeoProofs GeoPlaneProofs GeoPluckerProofs ConcatModel ConcatSpec ConcatProofs PlanarModel PlanarSpec PlanarProofs TriModel TriSpec TriProofs TriGeoProofs TriTileProofs
  MonoRangeModel MonoRangeSpec MonoChainProofs MonoLoopProofs DecModel DecSpec DecProofs DecTopProofs OrientModel OrientProofs OrientTopProofs PolyModel PolySpec FactoryModel FactorySpec FactoryProofs FactoryLoopProofs.
Import ListNotations.
Open Scope Q_scope.
Notation zkey mono := (fun p => inject_Z (comp p mono)).
(** ** Chains and loops *)
Lemma hd_rev {B} (l : list B) z : hd_error (rev l) = Some z -> exists l', l = l' ++ [z].
Proof. intros E. destruct (rev l) as [|y r] eqn:R; [discriminate|]. injection E as ->. exists (rev r). rewrite <- (rev_involutive l), R. reflexivity. Qed.
Lemma loop_in {B} (c1 c2 : list B) x : same_ends c1 c2 -> In x (c1 ++ c2) -> In x (loop_of c1 c2).
Proof.
  intros (a & z & H1 & H2 & H3 & H4) Hx. unfold loop_of. apply in_app_iff. apply in_app_iff in Hx. destruct Hx as [Hx|Hx]; [left; exact Hx|].
  destruct (hd_rev _ _ H3) as (l1 & E1). destruct (hd_rev _ _ H4) as (l2 & E2). subst c2. rewrite rev_app_distr. cbn [rev app tl]. apply in_app_iff in Hx. destruct Hx as [Hx|[<-|[]]]; [|left; rewrite E1; apply in_or_app; right; left; reflexivity].
  destruct l2 as [|b l2]; [destruct Hx|]. cbn in H2. injection H2 as ->. cbn [rev]. rewrite removelast_last. destruct Hx as [<-|Hx]; [left; destruct c1; [discriminate|]; cbn in H1; injection H1 as ->; left; reflexivity|right; rewrite <- in_rev; exact Hx].
Qed.
Lemma rotation_perm {B} (l l' : list B) : rotation l l' -> Permutation l l'.
Proof. intros (x & y & -> & ->). apply Permutation_app_comm. Qed.
Lemma in_between {B} (v : list B) b e x : In x (MonoRangeModel.between v b e) -> In x v.
Proof. intros H. unfold MonoRangeModel.between in H. assert (F : forall n (l : list B), In x (firstn n l) -> In x l) by (intros n l I; rewrite <- (firstn_skipn n l); apply in_or_app; left; exact I). apply F in H. rewrite <- (firstn_skipn b v). apply in_or_app. right. exact H. Qed.
(** ** One round of the loop over monotone ranges *)
Section Loop.
Context {A : Type} (dbg : bool) (d0 : A) (plane : hspace3) (drop mono : nat) (v : list vec3).
Context (Dl : (drop < 3)%nat) (Dc : comp (hn plane) drop <> 0%Z) (On : Forall (on_plane plane) v) (Ne : Forall near v).
Notation pos := (fun p => seen drop mono (qpt p)).
Notation po := (cf_plane_orientation (hn plane) drop).
Notation loop := (fun fuel b e => cf_loop dbg fuel d0 plane drop mono po v b e).
Notation btw := (MonoRangeModel.between v).
Definition piece_good (c1 c2 : list vec3) : Prop := exists es, od_build dbg kind_point3 drop mono c1 c2 = Ok es /\ Forall (fun e => oriented (fst e) (map pos (snd e))) es.
Lemma piece_ok c1 c2 : same_ends c1 c2 -> incl (c1 ++ c2) v -> piece_good c1 c2 ->
  exists es ps, od_build dbg kind_point3 drop mono c1 c2 = Ok es /\ cf_emits dbg d0 plane drop po es = Ok ps /\ sound v ps (fun i => cycle_sum i (loop_of c1 c2)).
Proof using All.
  intros SE I (es & E & F). pose proof (od_build_in _ _ _ _ _ _ _ E) as IN.
  assert (G : Forall (fun e => oriented (fst e) (map pos (snd e)) /\ incl (snd e) v) es). { rewrite Forall_forall in *. intros e He. split; [apply F; exact He|]. intros x Hx. apply I, (IN e He), Hx. }
  destruct (emits_ok dbg d0 plane drop mono v Dl Dc On Ne es G) as (ps & EP & S). exists es, ps. split; [exact E|]. split; [exact EP|]. eapply sound_ext; [|exact S]. intros i W.
  pose proof (od_boundary dbg kind_point3 drop mono c1 c2 es (fun p => p) (fun _ => True)) as H. rewrite map_id in H.
  replace (map (fun e : Z * list vec3 => map (fun p => p) (snd e)) es) with (map snd es) in H by (apply map_ext; intros e; symmetry; apply map_id).
  destruct H as [H|(l & EL & R)]; [intros [x y z] [x' y' z'] _ _ Q; apply v3_eq_true in Q; cbn in Q; destruct Q as (-> & -> & ->); reflexivity|apply Forall_forall; intros; exact Logic.I|apply Forall_forall; intros; exact Logic.I|exact SE|exact E| |].
  - apply boundary_area; [exact W|exact H].
  - subst es. cbn [map snd sum_z fold_right]. inversion G as [|? ? (Or & I') _]; subst. cbn [fst snd] in *. assert (Z : cycle_sum i l = 0%Z).
    { apply area_line; [exact W|]. apply (flat_in_line plane drop mono); try assumption; [apply sub_all with (v := v); assumption|]. destruct Or as [(C & _)|[(C & _)|(_ & C)]]; [discriminate|discriminate|exact C]. }
    rewrite Z. rewrite (area_rotation i _ _ R), (area_rev i _ W) in Z. lia.
Qed.
Lemma area_cut i (W : edge_weight i) pre' x mid y suf' : cycle_sum i ((pre' ++ [x]) ++ mid ++ y :: suf') = (cycle_sum i ((pre' ++ [x]) ++ y :: suf') + cycle_sum i (x :: mid ++ [y]))%Z.
Proof using Type. pose proof (cyc_cut (fq i) (fq_anti i W) pre' x mid y suf') as H. rewrite !area_cyc, <- inject_Z_plus in H. apply (proj1 (inject_Z_injective _ _)) in H. exact H. Qed.
Context (Pg : forall c1 c2 pre mid suf b e, (b + 2 <= e <= length v)%nat -> btw b e = pre ++ mid ++ suf -> (mid <> [] -> pre <> [] /\ suf <> []) -> rotation (loop_of c1 c2) (pre ++ suf) ->
  same_ends c1 c2 -> ascending (zkey mono) c1 -> ascending (zkey mono) c2 -> piece_good c1 c2).
Lemma cf_loop_ok : forall n b e, (e - b <= n)%nat -> (b <= e <= length v)%nat -> (b = e \/ b + 2 <= e)%nat ->
  (exists ps, (forall fuel, loop fuel b e = Ok ps \/ (fuel < e - b)%nat /\ loop fuel b e = NoFuel) /\ sound v ps (fun i => cycle_sum i (btw b e))) \/
  (exists b' e', (b <= b' < e')%nat /\ (e' <= e)%nat /\ stuck (zkey mono) (btw b' e') /\ forall fuel, loop fuel b e = NoFuel).
Proof using All.
  assert (DONE : forall b, (exists ps, (forall fuel, loop fuel b b = Ok ps \/ (fuel < b - b)%nat /\ loop fuel b b = NoFuel) /\ sound v ps (fun i => cycle_sum i (btw b b)))).
  { intros b. exists []. split; [intros fuel; left; destruct fuel; cbn [cf_loop]; rewrite Nat.eqb_refl; reflexivity|]. eapply sound_ext; [|apply sound_nil]. intros i W. rewrite between_same. reflexivity. }
  induction n as [|n IH]; intros b e N L B2; [assert (b = e) by lia; subst b; left; apply DONE|]. destruct (Nat.eq_dec b e) as [->|NE]; [left; apply DONE|]. destruct B2 as [B2|B2]; [contradiction|].
  assert (L' : (b < e <= length v)%nat) by lia. pose proof (keyed_point3 mono v) as K.
  destruct (build_ok kind_point3 mono v (zkey mono) K dbg b e L') as (r & c1 & c2 & pre & mid & suf & E & GC & SL & RO & SE & A1 & A2 & B1 & B3 & CASE).
  assert (G : piece_good c1 c2). { apply (Pg c1 c2 pre mid suf b e); try assumption; [lia|]. intros NM. destruct CASE as [(-> & _)|(pre' & x & y & suf' & EP & ES & _)]; [contradiction|]. split; [rewrite EP; destruct pre'; discriminate|rewrite ES; discriminate]. }
  assert (I : incl (c1 ++ c2) v). { intros x Hx. apply (loop_in _ _ _ SE) in Hx. apply (Permutation_in _ (rotation_perm _ _ RO)) in Hx. apply (in_between v b e). rewrite SL. apply in_app_iff in Hx. rewrite !in_app_iff. tauto. }
  destruct (piece_ok c1 c2 SE I G) as (es & ps & EO & EE & SO).
  assert (STEP : forall f, loop (S f) b e = rbind (loop f (mr_begin r) (mr_end r)) (fun t => Ok (ps ++ t))).
  { intros f. cbn [cf_loop]. replace (b =? e)%nat with false by (symmetry; apply Nat.eqb_neq; lia). rewrite E. cbn [rbind]. rewrite GC. cbn [fst snd]. rewrite EO. cbn [rbind]. rewrite EE. reflexivity. }
  assert (ZERO : loop 0%nat b e = NoFuel). { cbn [cf_loop]. replace (b =? e)%nat with false by (symmetry; apply Nat.eqb_neq; lia). reflexivity. }
  destruct (build_progress kind_point3 mono v (zkey mono) K dbg b e r L' E) as [LT|(M1 & M2 & ST)].
  2:{ right. exists b, e. split; [lia|]. split; [lia|]. split; [exact ST|]. destruct (stuck_keeps kind_point3 mono v (zkey mono) K dbg b e r L' ST E) as [Q1 Q2].
      induction fuel as [|f IHf]; [exact ZERO|]. rewrite STEP, Q1, Q2, IHf. reflexivity. }
  assert (B4 : (mr_begin r = mr_end r \/ mr_begin r + 2 <= mr_end r)%nat).
  { destruct CASE as [(_ & Q)|(pre' & x & y & suf' & EP & ES & NM & SR & _)]; [left; exact Q|right]. apply (f_equal (@length vec3)) in SR. unfold MonoRangeModel.between in SR. rewrite firstn_length, skipn_length in SR. cbn [length] in SR. rewrite app_length in SR. cbn [length] in SR. lia. }
  destruct (IH (mr_begin r) (mr_end r) ltac:(lia) ltac:(lia) B4) as [(qs & OKS & S')|(b' & e' & H1 & H2 & ST & NF)].
  - left. exists (ps ++ qs). split.
    + intros [|f]; [right; split; [lia|exact ZERO]|]. rewrite STEP. destruct (OKS f) as [Q|(Q1 & Q)]; rewrite Q; [left; reflexivity|right; split; [lia|reflexivity]].
    + eapply sound_ext; [|apply (sound_app _ _ _ _ _ SO S')]. intros i W. cbn beta. rewrite (area_rotation i _ _ RO). destruct CASE as [(-> & Q)|(pre' & x & y & suf' & EP & ES & NM & SR & _)].
      * rewrite Q, between_same. cbn [app] in SL. rewrite SL. change (cycle_sum i (@nil vec3)) with 0%Z. lia.
      * rewrite SR, SL, EP, ES, (area_cut i W). reflexivity.
  - right. exists b', e'. split; [lia|]. split; [lia|]. split; [exact ST|]. intros [|f]; [exact ZERO|]. rewrite STEP, NF. reflexivity.
Qed.
End Loop.
(** ** Vertices in general position *)
Lemma ends_shape {B} (c : list B) a z : hd_error c = Some a -> hd_error (rev c) = Some z -> (c = [a] /\ a = z) \/ exists y, c = a :: y ++ [z].
Proof.
  intros H R. destruct (hd_rev _ _ R) as (l & ->). destruct l as [|b l]; [left; cbn in H; injection H as ->; split; reflexivity|right]. cbn in H. injection H as ->. exists l. reflexivity.
Qed.
Lemma ascending_all {B} (key : B -> Q) : forall l a, ascending key (a :: l) -> forall x, In x l -> key a <= key x.
Proof.
  induction l as [|b l IH]; intros a H x Hx; [destruct Hx|]. assert (AB : key a <= key b) by (apply H; left; reflexivity). destruct Hx as [<-|Hx]; [exact AB|].
  eapply Qle_trans; [exact AB|]. apply (IH b); [|exact Hx]. intros p q Hpq. apply H. right. exact Hpq.
Qed.
Lemma ascending_last {B} (key : B -> Q) z : forall l, ascending key (l ++ [z]) -> forall x, In x l -> key x <= key z.
Proof.
  induction l as [|a l IH]; intros H x Hx; [destruct Hx|]. cbn [app] in H. destruct Hx as [<-|Hx]; [apply (ascending_all key _ _ H); apply in_or_app; right; left; reflexivity|].
  apply IH; [|exact Hx]. intros p q Hpq. apply H. destruct l as [|b l]; [destruct Hx|]. right. exact Hpq.
Qed.
Lemma strict_of {mono drop} (Dl : (drop < 3)%nat) (Ml : (mono < 3)%nat) (MD : mono <> drop) c : ascending (zkey mono) c -> NoDup (map (fun p => comp p mono) c) -> strictly_rightwards (map (fun p => seen drop mono (qpt p)) c).
Proof.
  intros AS ND a b Hab. induction c as [|p c IH]; [destruct Hab|]. destruct c as [|q c]; [destruct Hab|]. cbn [map] in ND. inversion ND as [|? ? NI ND']; subst. destruct Hab as [Hab|Hab].
  - injection Hab as <- <-. rewrite !seen_x by assumption. assert (LE : inject_Z (comp p mono) <= inject_Z (comp q mono)) by (apply AS; left; reflexivity).
    assert (QC : forall x, qcomp (qpt x) mono = inject_Z (comp x mono)) by (intros x; destruct mono as [|[|]]; reflexivity). rewrite !QC. rewrite <- Zle_Qle in LE. rewrite <- Zlt_Qlt.
    assert (comp p mono <> comp q mono) by (intros C; apply NI; left; symmetry; exact C). lia.
  - apply IH; [|exact ND'|exact Hab]. intros x y Hxy. apply AS. right. exact Hxy.
Qed.
Lemma distinct_of {mono drop} (Dl : (drop < 3)%nat) (Ml : (mono < 3)%nat) (MD : mono <> drop) l : NoDup (map (fun p => comp p mono) l) -> all_distinct (map (fun p => seen drop mono (qpt p)) l).
Proof.
  intros ND i j a b NE Ea Eb (Q & _). rewrite nth_error_map in Ea, Eb. destruct (nth_error l i) as [p|] eqn:Ei; [|discriminate]. destruct (nth_error l j) as [q|] eqn:Ej; [|discriminate]. injection Ea as <-. injection Eb as <-.
  rewrite !seen_x in Q by assumption. assert (QC : forall x, qcomp (qpt x) mono = inject_Z (comp x mono)) by (intros x; destruct mono as [|[|]]; reflexivity). rewrite !QC in Q. apply (proj1 (inject_Z_injective _ _)) in Q.
  apply NE. apply (proj1 (NoDup_nth_error _) ND); [rewrite map_length; apply nth_error_Some; rewrite Ei; discriminate|]. rewrite !nth_error_map, Ei, Ej. cbn. f_equal. exact Q.
Qed.
Lemma words_one v : (- 2 ^ 63 <= v < 2 ^ 63)%Z -> zwords v = 1%Z.
Proof.
  intros H. unfold zwords. set (u := if (v <? 0)%Z then (- v - 1)%Z else v). assert (U : (0 <= u < 2 ^ 63)%Z) by (unfold u; destruct (v <? 0)%Z eqn:E; lia).
  assert (LG : (Z.log2 u < 63)%Z). { destruct (Z.eq_dec u 0) as [->|NU]; [cbn; lia|]. apply Z.log2_lt_pow2; lia. }
  pose proof (Z.log2_nonneg u). destruct ((v =? 0) || (v =? -1))%Z; rewrite Z.div_small; lia.
Qed.
Lemma twist_near drop a b c : near a -> near b -> near c -> (- 2 ^ 63 < p3_twist drop c a b < 2 ^ 63)%Z.
Proof.
  intros NA NB NC. unfold p3_twist, p2_twist. set (x := v2_cross _ _).
  assert (X : (- 2 ^ 63 < x < 2 ^ 63)%Z).
  { assert (CB : forall p i, near p -> (- 2 ^ 30 < comp p i < 2 ^ 30)%Z). { intros p i Np. unfold near in Np. rewrite !Forall_cons_iff in Np. destruct i as [|[|]]; cbn; tauto. }
    unfold x, v2_cross, v2_sub, drop_dim. cbn [x2 y2]. pose proof (CB a ((drop + 1) mod 3)%nat NA). pose proof (CB a ((drop + 2) mod 3)%nat NA). pose proof (CB b ((drop + 1) mod 3)%nat NB). pose proof (CB b ((drop + 2) mod 3)%nat NB). pose proof (CB c ((drop + 1) mod 3)%nat NC). pose proof (CB c ((drop + 2) mod 3)%nat NC).
    generalize dependent (comp a ((drop + 1) mod 3)). generalize dependent (comp a ((drop + 2) mod 3)). generalize dependent (comp b ((drop + 1) mod 3)). generalize dependent (comp b ((drop + 2) mod 3)). generalize dependent (comp c ((drop + 1) mod 3)). generalize dependent (comp c ((drop + 2) mod 3)).
    intros c2 H2 c1 H1 b2 H4 b1 H3 a2 H6 a1 H5.
    assert (PB : forall u w, (- 2 ^ 31 <= u <= 2 ^ 31 -> - 2 ^ 31 <= w <= 2 ^ 31 -> - 2 ^ 62 <= u * w <= 2 ^ 62)%Z) by (intros u w Hu Hw; nia).
    assert (PS : forall u w, (- 2 ^ 31 < u < 2 ^ 31 -> - 2 ^ 31 < w < 2 ^ 31 -> - 2 ^ 62 < u * w < 2 ^ 62)%Z) by (intros u w Hu Hw; nia).
    pose proof (PS (a1 - c1) (b2 - c2) ltac:(lia) ltac:(lia))%Z. pose proof (PS (a2 - c2) (b1 - c1) ltac:(lia) ltac:(lia))%Z. lia. }
  unfold zget_sign. rewrite (words_one x) by lia. change (64 * (1 - 1))%Z with 0%Z. change (1 - 1)%Z with 0%Z. rewrite Z.pow_0_r, Z.div_1_r, Z.lor_0_r. exact X.
Qed.
Lemma general_piece dbg drop mono c1 c2 : (drop < 3)%nat -> (mono < 3)%nat -> mono <> drop -> NoDup (map (fun p => comp p mono) (loop_of c1 c2)) -> (2 <= length (loop_of c1 c2))%nat ->
  same_ends c1 c2 -> ascending (zkey mono) c1 -> ascending (zkey mono) c2 -> Forall near (loop_of c1 c2) -> piece_good dbg drop mono c1 c2.
Proof.
  intros Dl Ml MD ND L2 (a & z & H1 & H2 & H3 & H4) A1 A2 Ne.
  assert (KE : forall x y, inject_Z (comp x mono) <= inject_Z (comp y mono) -> inject_Z (comp y mono) <= inject_Z (comp x mono) -> comp x mono = comp y mono) by (intros x y U W; rewrite <- Zle_Qle in U, W; lia).
  destruct (ends_shape c1 a z H1 H3) as [(-> & <-)|(y1 & ->)].
  { exfalso. destruct (ends_shape c2 a a H2 H4) as [(-> & _)|(y2 & ->)]; [cbn in L2; lia|].
    unfold loop_of in *. change (a :: y2 ++ [a]) with ((a :: y2) ++ [a]) in ND, L2. rewrite rev_app_distr in ND, L2. cbn [rev app tl] in ND, L2. rewrite removelast_last in ND, L2. destruct y2 as [|y y2]; [cbn in L2; lia|].
    assert (IY : In y (rev (y :: y2))) by (rewrite <- in_rev; left; reflexivity). cbn [map app] in ND. inversion ND as [|? ? NI _]; subst. apply NI. apply in_map_iff. exists y. split; [|exact IY].
    apply KE; [apply (ascending_last (zkey mono) a ((a :: y :: y2)) A2); right; left; reflexivity|apply (ascending_all (zkey mono) _ _ A2); left; reflexivity]. }
  destruct (ends_shape c2 a z H2 H4) as [(-> & <-)|(y2 & ->)].
  { exfalso. unfold loop_of in ND. cbn [rev app tl removelast] in ND. rewrite app_nil_r in ND. cbn [map] in ND. inversion ND as [|? ? NI _]; subst. apply NI. rewrite map_app. apply in_or_app. right. left. reflexivity. }
  assert (PL : Permutation (loop_of (a :: y1 ++ [z]) (a :: y2 ++ [z])) (a :: y1 ++ y2 ++ [z])).
  { unfold loop_of. change (a :: y2 ++ [z]) with ((a :: y2) ++ [z]). rewrite rev_app_distr. cbn [rev app tl]. rewrite removelast_last. cbn [app]. constructor. rewrite <- app_assoc. apply Permutation_app_head. cbn [app].
    eapply perm_trans; [apply perm_skip, Permutation_sym, Permutation_rev|]. apply Permutation_cons_append. }
  assert (ND' : NoDup (map (fun p => comp p mono) (a :: y1 ++ y2 ++ [z]))) by (eapply Permutation_NoDup; [apply Permutation_map; exact PL|exact ND]).
  assert (SUB : forall l m : list vec3, NoDup (map (fun p => comp p mono) (a :: l ++ m ++ [z])) -> NoDup (map (fun p => comp p mono) (a :: l ++ [z]))).
  { intros l m N. assert (PM : Permutation (a :: l ++ m ++ [z]) (m ++ a :: l ++ [z])). { eapply perm_trans; [|apply (Permutation_middle m (l ++ [z]) a)]. constructor. rewrite !app_assoc. apply Permutation_app_tail, Permutation_app_comm. }
    apply (Permutation_map (fun p => comp p mono)) in PM. apply (Permutation_NoDup PM) in N. rewrite map_app in N. clear - N. induction (map (fun p => comp p mono) m) as [|x r IH]; [exact N|]. apply IH. inversion N; assumption. }
  apply (od_crossing kind_point3 drop mono (fun _ => True) (fun p => seen drop mono (qpt p)) (kind_ok_point3 drop mono Dl Ml MD) (kind_dec_point3 drop mono Dl) (kind_orient_point3 drop mono Dl Ml MD)).
  - apply Forall_forall; intros; exact I.
  - apply Forall_forall; intros; exact I.
  - apply strict_of; try assumption. apply (SUB y1 y2 ND').
  - apply strict_of; try assumption. apply (SUB y2 y1). eapply Permutation_NoDup; [|exact ND']. apply Permutation_map. constructor. rewrite !app_assoc. apply Permutation_app_tail, Permutation_app_comm.
  - apply distinct_of; assumption.
  - assert (NE : forall p, In p (a :: y1 ++ y2 ++ [z]) -> near p). { rewrite Forall_forall in Ne. intros p Hp. apply Ne. eapply Permutation_in; [apply Permutation_sym; exact PL|exact Hp]. }
    intros p q r Hp Hq Hr. cbn [k_twist kind_point3]. apply twist_near; apply NE; assumption.
Qed.
(** ** Build(plane, begin, end) *)
Lemma between_all {B} (v : list B) : MonoRangeModel.between v 0 (length v) = v.
Proof. unfold MonoRangeModel.between. cbn [skipn]. rewrite Nat.sub_0_r. apply firstn_all. Qed.
Lemma NoDup_mid {B} (a b c : list B) : NoDup (a ++ b ++ c) -> NoDup (a ++ c).
Proof.
  intros N. assert (PM : Permutation (a ++ b ++ c) (b ++ a ++ c)) by (rewrite !app_assoc; apply Permutation_app_tail, Permutation_app_comm). apply (Permutation_NoDup PM) in N. clear - N. induction b as [|x b IH]; [exact N|]. apply IH. inversion N; assumption.
Qed.
Lemma NoDup_sub {B} (v : list B) b e : NoDup v -> NoDup (MonoRangeModel.between v b e).
Proof.
  intros N. unfold MonoRangeModel.between. rewrite <- (firstn_skipn b v) in N. apply (NoDup_mid [] (firstn b v) (skipn b v)) in N. cbn [app] in N. rewrite <- (firstn_skipn (e - b) (skipn b v)) in N.
  rewrite <- (app_nil_r (skipn (e - b) _)) in N. apply (NoDup_mid (firstn (e - b) (skipn b v)) (skipn (e - b) (skipn b v)) []) in N. rewrite app_nil_r in N. exact N.
Qed.
Lemma map_between {B C} (f : B -> C) v b e : map f (MonoRangeModel.between v b e) = MonoRangeModel.between (map f v) b e.
Proof. unfold MonoRangeModel.between. rewrite skipn_map, firstn_map. reflexivity. Qed.
Lemma planar_ok {A} dbg (d0 : A) plane v : hn plane <> V3 0 0 0 -> (2 <= length v)%nat -> Forall (on_plane plane) v -> Forall near v -> distinct_xy v ->
  (exists ps, (forall fuel, cf_planar dbg fuel d0 plane v = Ok ps \/ (fuel < length v)%nat /\ cf_planar dbg fuel d0 plane v = NoFuel) /\ sound v ps (fun i => cycle_sum i v)) \/
  (exists mono b e, (mono < 2)%nat /\ stuck (zkey mono) (MonoRangeModel.between v b e) /\ forall fuel, cf_planar dbg fuel d0 plane v = NoFuel).
Proof.
  intros NZ L2 On Ne (NX & NY). unfold cf_planar. destruct (first_nonzero (hn plane)) as [drop|] eqn:FN; [|apply first_nonzero_none in FN; contradiction].
  destruct (first_nonzero_ok _ _ FN) as (Dl & Dc). destruct (mono_ok drop Dl) as (Ml & MD).
  assert (ND : NoDup (map (fun p => comp p (cf_mono drop)) v)). { destruct (cf_mono drop) as [|[|]]; [exact NX|exact NY|lia]. }
  assert (PG : forall c1 c2 pre mid suf b e, (b + 2 <= e <= length v)%nat -> MonoRangeModel.between v b e = pre ++ mid ++ suf -> (mid <> [] -> pre <> [] /\ suf <> []) -> rotation (loop_of c1 c2) (pre ++ suf) ->
    same_ends c1 c2 -> ascending (zkey (cf_mono drop)) c1 -> ascending (zkey (cf_mono drop)) c2 -> piece_good dbg drop (cf_mono drop) c1 c2).
  { intros c1 c2 pre mid suf b e L SL NM RO SE A1 A2. pose proof (rotation_perm _ _ RO) as PM. apply general_piece; try assumption; try lia.
    - apply (NoDup_sub _ b e) in ND. rewrite <- map_between, SL, !map_app in ND. apply NoDup_mid in ND. rewrite <- map_app in ND. eapply Permutation_NoDup; [|exact ND]. apply Permutation_map, Permutation_sym. exact PM.
    - rewrite (Permutation_length PM), app_length. apply (f_equal (@length vec3)) in SL. unfold MonoRangeModel.between in SL. rewrite firstn_length, skipn_length, !app_length in SL.
      destruct mid as [|x mid]; [cbn [length] in SL; lia|]. destruct (NM ltac:(discriminate)) as (N1 & N2). destruct pre; [contradiction|]. destruct suf; [contradiction|]. cbn [length]. lia.
    - rewrite Forall_forall in *. intros x Hx. apply Ne. apply (Permutation_in _ PM) in Hx. apply (in_between v b e). rewrite SL. apply in_app_iff in Hx. rewrite !in_app_iff. tauto. }
  destruct (cf_loop_ok dbg d0 plane drop (cf_mono drop) v Dl Dc On Ne PG (length v) 0 (length v)) as [(ps & OKS & S)|(b & e & H1 & H2 & ST & NF)]; [lia|lia|lia| |].
  - left. exists ps. split; [|rewrite between_all in S; exact S]. intros fuel. specialize (OKS fuel). rewrite Nat.sub_0_r in OKS. exact OKS.
  - right. exists (cf_mono drop), b, e. split; [exact Ml|]. split; [exact ST|exact NF].
Qed.
(** ** Reading a planar range *)
Lemma walk_more size r stop : forall f g a its, walk f size r a stop = Ok its -> (f <= g)%nat -> walk g size r a stop = Ok its.
Proof.
  induction f as [|f IH]; intros g a its E L; destruct g as [|g]; try lia; cbn [walk] in *; try exact E; destruct (ci_eqb a stop); try exact E; try discriminate.
  destruct (ci_inc size r a) as [b| | |]; try discriminate. cbn [rbind] in *. destruct (walk f size r b stop) as [t| | |] eqn:W; try discriminate. cbn [rbind] in E. rewrite (IH g b t W) by lia. exact E.
Qed.
Lemma vertices_ok v r l : outputs v r l -> (length l <= length v)%nat -> range_vertices v r = Ok l.
Proof.
  intros (refs & (b & e & fwd & bwd & B1 & B2 & W & F & _ & _) & F2) L. unfold range_vertices. rewrite B1. cbn [rbind]. rewrite B2. cbn [rbind].
  rewrite (walk_more _ _ _ (length refs) (length v) b fwd W); [|clear - F2 L; assert (length refs = length l) by (clear L; induction F2; cbn [length]; [reflexivity|f_equal; assumption]); lia]. cbn [rbind]. clear - F F2. revert refs l F F2. induction fwd as [|a fwd IH]; intros refs l F F2.
  - inversion F; subst. inversion F2; subst. reflexivity.
  - inversion F as [|? p ? refs' SO F']; subst. inversion F2 as [|? x ? l' (C0 & N) F2']; subst. cbn [derefs]. unfold ci_deref. unfold stands_on in SO. rewrite SO. destruct p as [c k]. cbn [fst snd] in *. rewrite N. cbn [rbind]. rewrite (IH refs' l' F' F2'). reflexivity.
Qed.
(** ** Build(begin, end) *)
Lemma slice_between {B} (v : list B) b e : ConcatSpec.slice v b e = MonoRangeModel.between v b e.
Proof. reflexivity. Qed.
Theorem build_all {A} dbg (d0 : A) v : Forall near v -> distinct_xy v -> forall n b e, (e - b <= n)%nat -> (b <= e <= length v)%nat ->
  (exists ps, (forall fuel, cf_build dbg fuel d0 v b e = Ok ps \/ (fuel < e - b)%nat /\ cf_build dbg fuel d0 v b e = NoFuel) /\ sound v ps (fun i => cycle_sum i (MonoRangeModel.between v b e))) \/
  (exists l mono b' e', incl l v /\ (mono < 2)%nat /\ stuck (zkey mono) (MonoRangeModel.between l b' e') /\ forall fuel, cf_build dbg fuel d0 v b e = NoFuel).
Proof.
  intros Ne (NX & NY).
  assert (DONE : forall b, (exists ps, (forall fuel, cf_build dbg fuel d0 v b b = Ok ps \/ (fuel < b - b)%nat /\ cf_build dbg fuel d0 v b b = NoFuel) /\ sound v ps (fun i => cycle_sum i (MonoRangeModel.between v b b)))).
  { intros b. exists []. split; [intros fuel; left; destruct fuel; cbn [cf_build]; rewrite Nat.eqb_refl; reflexivity|]. eapply sound_ext; [|apply sound_nil]. intros i W. rewrite between_same. reflexivity. }
  induction n as [|n IH]; intros b e N L; [assert (b = e) by lia; subst b; left; apply DONE|]. destruct (Nat.eq_dec b e) as [->|NE]; [left; apply DONE|].
  assert (L' : (b < e <= length v)%nat) by lia.
  destruct (pr_build_facts dbg v b e L') as (r & pre & mid & suf & E & SL & O & SZ & ON & B1 & B2 & B3 & C). rewrite slice_between in SL.
  assert (LEN : (length (pre ++ mid ++ suf) = e - b)%nat) by (rewrite <- SL; unfold MonoRangeModel.between; rewrite firstn_length, skipn_length; lia).
  assert (LL : (length (pre ++ suf) <= e - b)%nat) by (rewrite !app_length in *; lia).
  assert (RV : range_vertices v (pr_range r) = Ok (pre ++ suf)) by (apply vertices_ok; [exact O|lia]).
  assert (I : incl (pre ++ suf) v). { intros x Hx. apply (in_between v b e). rewrite SL. apply in_app_iff in Hx. rewrite !in_app_iff. tauto. }
  assert (ZERO : cf_build dbg 0 d0 v b e = NoFuel). { cbn [cf_build]. replace (b =? e)%nat with false by (symmetry; apply Nat.eqb_neq; lia). reflexivity. }
  assert (STEP : forall f, cf_build dbg (S f) d0 v b e = rbind (cf_planar dbg (S f) d0 (pr_plane r) (pre ++ suf)) (fun ps => rbind (cf_build dbg f d0 v (pr_begin r) (pr_end r)) (fun t => Ok (ps ++ t)))).
  { intros f. cbn [cf_build]. replace (b =? e)%nat with false by (symmetry; apply Nat.eqb_neq; lia). rewrite E. cbn [rbind]. rewrite RV. reflexivity. }
  (* the planar part *)
  assert (PLN : (exists ps, (forall fuel, cf_planar dbg fuel d0 (pr_plane r) (pre ++ suf) = Ok ps \/ (fuel < length (pre ++ suf))%nat /\ cf_planar dbg fuel d0 (pr_plane r) (pre ++ suf) = NoFuel) /\ sound v ps (fun i => cycle_sum i (pre ++ suf))) \/
    (exists mono b e, (mono < 2)%nat /\ stuck (zkey mono) (MonoRangeModel.between (pre ++ suf) b e) /\ forall fuel, cf_planar dbg fuel d0 (pr_plane r) (pre ++ suf) = NoFuel)).
  { pose proof (zero_plane_iff dbg v b e r L' E) as ZI. destruct (get_ok v b ltac:(lia)) as (fi & Fi & _). destruct (get_ok v (e - 1) ltac:(lia)) as (la & La & _).
    destruct (first_nonzero (hn (pr_plane r))) as [drop|] eqn:FN.
    - assert (NZ : hn (pr_plane r) <> V3 0 0 0) by (intros Q; rewrite Q in FN; discriminate).
      assert (E2 : (2 <= e - b)%nat).
      { destruct (Nat.eq_dec (e - b) 1) as [Q|Q]; [exfalso|lia]. apply NZ. apply ZI. intros f l F La'. replace (e - 1)%nat with b in La' by lia. rewrite F in La'. injection La' as <-. apply Forall_forall. intros x _. apply in_line_same. }
      destruct (planar_ok dbg d0 (pr_plane r) (pre ++ suf) NZ) as [(ps & H1 & H2)|H]; [| exact ON| | |left; exists ps; split; [exact H1|apply (sound_incl _ _ _ _ I H2)]|right; exact H].
      + destruct C as [(-> & -> & _)|(pre' & x & y & suf' & m1 & m2 & z1 & z2 & -> & -> & _)]; repeat rewrite app_nil_r in *; repeat rewrite app_length in *; cbn [length] in *; lia.
      + rewrite Forall_forall in *. intros x Hx. apply Ne, I, Hx.
      + assert (SUB : forall f : vec3 -> Z, NoDup (map f v) -> NoDup (map f (pre ++ suf))).
        { intros f ND. apply (NoDup_sub _ b e) in ND. rewrite <- map_between, SL, !map_app in ND. apply NoDup_mid in ND. rewrite map_app. exact ND. }
        split; apply SUB; assumption.
    - left. exists []. split; [intros fuel; left; unfold cf_planar; rewrite FN; reflexivity|]. eapply sound_ext; [|apply sound_nil]. intros i W. cbn beta. symmetry. apply area_line; [exact W|].
      assert (Z : zero_normal (pr_plane r)) by (apply first_nonzero_none; exact FN). pose proof (proj1 ZI Z fi la Fi La) as AL. rewrite slice_between, SL in AL.
      assert (AL' : Forall (in_line la fi) (pre ++ suf)). { rewrite !Forall_app in *. tauto. }
      destruct (Nat.eq_dec (e - b) 1) as [Q|Q].
      + destruct (pre ++ suf) as [|x [|y t]] eqn:ES; [intros p q s []| |cbn [length] in LL; lia]. intros p q s Hp Hq Hs. destruct Hp as [<-|[]]. destruct Hq as [<-|[]]. apply in_line_same.
      + apply (all_in_line_of la fi); [|exact AL']. intros Q'. subst la. apply (f_equal Some) in Fi. assert (b = e - 1)%nat; [|lia].
        apply (proj1 (NoDup_nth_error _) NX); [rewrite map_length; lia|]. rewrite !nth_error_map. injection Fi as Fi. rewrite Fi, La. reflexivity. }
  destruct PLN as [(ps & OKP & SP)|(mono & b' & e' & Ml & ST & NF)].
  2:{ right. exists (pre ++ suf), mono, b', e'. split; [exact I|]. split; [exact Ml|]. split; [exact ST|]. intros [|f]; [exact ZERO|]. rewrite STEP, NF. reflexivity. }
  destruct (IH (pr_begin r) (pr_end r) ltac:(lia) ltac:(lia)) as [(qs & OKS & S')|(l & mono & b' & e' & I' & Ml & ST & NF)].
  - left. exists (ps ++ qs). split.
    + intros [|f]; [right; split; [lia|exact ZERO]|]. rewrite STEP. destruct (OKP (S f)) as [Q|(Q1 & Q)]; rewrite Q; cbn [rbind]; [|right; split; [lia|reflexivity]]. destruct (OKS f) as [Q'|(Q1 & Q')]; rewrite Q'; [left; reflexivity|right; split; [lia|reflexivity]].
    + eapply sound_ext; [|apply (sound_app _ _ _ _ _ SP S')]. intros i W. cbn beta. destruct C as [(-> & -> & PE)|(pre' & x & y & suf' & m1 & m2 & z1 & z2 & EP & ES & _ & _ & _ & _ & _ & SL')].
      * rewrite PE, between_same, SL. cbn [app]. rewrite !app_nil_r. change (cycle_sum i (@nil vec3)) with 0%Z. lia.
      * rewrite slice_between in SL'. rewrite SL', SL, EP, ES, (area_cut i W). reflexivity.
  - right. exists l, mono, b', e'. split; [exact I'|]. split; [exact Ml|]. split; [exact ST|]. intros [|f]; [exact ZERO|]. rewrite STEP. destruct (OKP (S f)) as [Q|(Q1 & Q)]; rewrite Q; cbn [rbind]; [|reflexivity]. rewrite NF. reflexivity.
Qed.
