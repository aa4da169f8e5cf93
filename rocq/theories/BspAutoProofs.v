(** Split() without a plane. *)
From Coq Require Import List Bool Arith ZArith QArith Lqa Lia ZifyBool Morphisms Setoid Permutation Sorted.
From Verif Require Import BigUIntModel GeoModel GeoSpec GeoProofs GeoReduceProofs GeoSidesProofs NudgeProofs AabbModel AabbSpec AabbTrackerProofs CvxSpec PolyModel PolySpec PolyBridgeProofs PolyInfoProofs PolyCapProofs PolyChildProofs PolyTopProofs MergeProofs RTransModel RTransProofs FilterModel BspModel BspSpec BspGeoProofs BspMarkProofs BspBoxProofs BspPolyProofs BspTreeProofs BspHistSpec BspHistProofs.
Import ListNotations.
Open Scope Q_scope.
Lemma content_fresh w b : path_ok w -> in_contents w b -> fresh_plane w (pplane (bp_poly b)).
Proof.
  intros P [St On]. destruct (st_ok _ _ St) as (qs & H). split.
  - destruct (po_drop _ _ H) as [_ D]. unfold pnormal_drop in D. unfold hs_valid, v3_is_zero. destruct (pdrop (bp_poly b)) as [|[|d]]; cbn [comp] in D; destruct (hn (pplane (bp_poly b))) as [x y z]; cbn [vx vy vz] in *; lia.
  - intros s I Sp. apply (contents_inside w b (conj St On) s I). apply (lies_on_iff b qs s H (path_valid w s P I)). exact Sp.
Qed.
Lemma candidates_lt n i : (1 < n)%nat -> In i (candidates n) -> (i < n)%nat.
Proof.
  intros N I. unfold candidates in I. pose proof (Nat.div_mod n 2 ltac:(lia)) as D. pose proof (Nat.mod_upper_bound n 2 ltac:(lia)) as M. set (mid := (n / 2)%nat) in *. apply in_app_or in I as [I|I].
  - apply in_flat_map in I as (o & Io & I). apply in_seq in Io. destruct I as [<-|[<-|[]]]; lia.
  - destruct (Nat.odd n) eqn:O; [|destruct I]. destruct I as [<-|[]]. rewrite Nat.odd_spec in O. destruct O as (k & ->). lia.
Qed.
Lemma at_known cs i : (i < length cs)%nat -> exists b, poly_at cs i = Ok b /\ In b cs.
Proof. intros L. unfold poly_at. destruct (nth_error cs i) as [b|] eqn:E; [|apply nth_error_None in E; lia]. exists b. split; [reflexivity|]. eapply nth_error_In; exact E. Qed.
Lemma count_known infos id : (id < length infos)%nat -> count_of infos id = Ok (interior (info_for infos id)).
Proof. intros L. unfold count_of, info_for. rewrite (nth_error_nth' infos (CI 0 0 0) L). reflexivity. Qed.
Lemma pick_index_ok cs infos : cs <> [] -> Forall (fun b => (bp_id b < length infos)%nat) cs -> exists i, pick_index cs infos = Ok i /\ (i < length cs)%nat.
Proof.
  intros N F. rewrite Forall_forall in F. unfold pick_index. assert (L : (0 < length cs)%nat) by (destruct cs; [contradiction|cbn; lia]). assert (M : (length cs / 2 < length cs)%nat) by (apply Nat.div_lt; lia).
  destruct (Nat.eqb_spec (length cs) 1) as [E|E]; [exists (length cs / 2)%nat; split; [reflexivity|exact M]|].
  assert (Go : forall l j, (forall i, In i l -> (i < length cs)%nat) -> (j < length cs)%nat -> exists i, rfold (consider cs infos) l j = Ok i /\ (i < length cs)%nat).
  { induction l as [|a l IH]; intros j Hl Hj; cbn [rfold]; [exists j; split; [reflexivity|exact Hj]|]. unfold consider at 1. destruct (at_known cs a (Hl a (or_introl eq_refl))) as (b & -> & Ib). cbn [rbind]. destruct (at_known cs j Hj) as (c & -> & Ic). cbn [rbind]. rewrite !count_known by (apply F; assumption). cbn [rbind]. apply IH; [intros i I; apply Hl; right; exact I|]. destruct (_ <? _)%nat; [apply Hl; left; reflexivity|exact Hj]. }
  apply Go; [intros i I; apply candidates_lt; [lia|exact I]|exact M].
Qed.
(** ** The turned plane *)
Lemma seed_list dbg turned id cs l : seed_distances dbg turned id cs = Ok l -> forall x, In x l -> exists c e, In c cs /\ nth_error (pedges (bp_poly c)) 0 = Some e /\ x = (v3_dot turned (hv (pv e)), hw (pv e)).
Proof.
  revert l. induction cs as [|c cs IH]; intros l E x I; cbn [seed_distances] in E; [injection E as <-; destruct I|]. destruct (bp_id c =? id)%nat.
  - apply rbind_ok in E as (u & _ & E). apply rbind_ok in E as (v & Ev & E). apply rbind_ok in E as (l' & El & E). injection E as <-. destruct I as [<-|I].
    + exists c. unfold pvertex, pedge_at in Ev. destruct (nth_error (pedges (bp_poly c)) 0) as [e|] eqn:Ee; [|discriminate]. injection Ev as <-. exists e. split; [left; reflexivity|]. split; reflexivity.
    + destruct (IH l' El x I) as (c' & e & A & B & C). exists c', e. split; [right; exact A|split; assumption].
  - destruct (IH l E x I) as (c' & e & A & B & C). exists c', e. split; [right; exact A|split; assumption].
Qed.
Lemma dist_value v p q : denotes p q -> inject_Z (v3_dot v (hv p)) / inject_Z (hw p) == qdot (qpt v) q.
Proof.
  intros (W & X & Y & Z). pose proof (inject_Z_neq0 _ W) as W'. unfold v3_dot, qdot, qpt. cbn [qx qy qz]. rewrite !inject_Z_plus, !inject_Z_mult, X, Y, Z. field. exact W'.
Qed.
Lemma crossing w h q1 q2 : path_ok w -> in_cell w q1 -> in_cell w q2 -> side h q1 < 0 -> 0 < side h q2 -> fresh_plane w h.
Proof.
  intros P C1 C2 S1 S2. split.
  - apply hs_valid_true. intros (Ex & Ey & Ez). cbn [qx qy qz qpt] in *. unfold side, qdot in S1, S2. cbn [qx qy qz qpt] in *. rewrite Ex, Ey, Ez in S1, S2. lra.
  - intros s I Sp. unfold in_cell in C1, C2. rewrite Forall_forall in C1, C2. specialize (C1 s I). specialize (C2 s I).
    set (t := (- side h q1) / (side h q2 - side h q1)). assert (D : 0 < side h q2 - side h q1) by lra. assert (T1 : 0 < t) by (apply Qlt_shift_div_l; lra). assert (T2 : t < 1) by (apply Qlt_shift_div_r; lra).
    assert (Z : side h (between q1 q2 t) == 0) by (rewrite PolyInfoProofs.side_between; unfold t; field; lra). apply (proj2 (Sp _)) in Z. rewrite PolyInfoProofs.side_between in Z.
    assert (Z1 : side (ss_split s) q1 == 0) by (unfold on_side in *; destruct (ss_pos s); nra). pose proof (proj1 (Sp q1) Z1). lra.
Qed.
Lemma first_vertex w c e : in_contents w c -> nth_error (pedges (bp_poly c)) 0 = Some e -> exists q, denotes (pv e) q /\ in_cell w q.
Proof.
  intros [St _] E. destruct (st_ok _ _ St) as (qs & H). pose proof (po_vertices _ _ H) as V. destruct (pedges (bp_poly c)) as [|e0 es] eqn:Ee; [discriminate|]. cbn in E. injection E as ->. destruct qs as [|q qs]; [inversion V|]. inversion V; subst. exists q. split; [assumption|]. apply (st_cell _ _ St). apply (point_iff _ (q :: qs) q H). apply vertex_point; [exact H|left; reflexivity].
Qed.
Lemma turned_side turned num den q : (den <> 0)%Z -> forall h, h = (if (zsign_ext den <? 0)%Z then HS (v3_neg (v3_scale turned den)) (- num) else HS (v3_scale turned den) num) -> side h q == inject_Z (Z.abs den) * (qdot (qpt turned) q - inject_Z num / inject_Z den).
Proof.
  intros D h ->. pose proof (inject_Z_neq0 _ D) as D'. unfold zsign_ext. destruct (Z.ltb_spec den 0) as [L|L]; cbn [Z.ltb Z.compare].
  - rewrite Z.abs_neq by lia. unfold side, qdot, v3_neg, v3_scale. cbn [hn hd qpt qx qy qz vx vy vz]. rewrite ?inject_Z_opp, ?inject_Z_mult. field. exact D'.
  - rewrite Z.abs_eq by lia. unfold side, qdot, v3_scale. cbn [hn hd qpt qx qy qz vx vy vz]. rewrite ?inject_Z_mult. field. exact D'.
Qed.
Lemma reduced_side gcd h r q : gcd_ok gcd -> hs_reduce gcd h = Ok r -> exists f, 0 < f /\ side h q == f * side r q.
Proof.
  intros G R. destruct (hs_reduce_spec gcd h r G (hs_reduce_nonzero gcd h r G R) R) as (_ & f & Pf & E). unfold l4 in E. cbn [map] in E. injection E as E1 E2 E3 E4. exists (inject_Z f). split; [rewrite Zlt_Qlt in Pf; exact Pf|]. unfold side, qdot. cbn [qpt qx qy qz]. rewrite E1, E2, E3, E4, !inject_Z_mult. ring.
Qed.
Lemma forallb_not {A} (f : A -> bool) l : forallb f l = false -> exists x, In x l /\ f x = false.
Proof. induction l as [|a l IH]; cbn; [discriminate|]. destruct (f a) eqn:E; [|intros _; exists a; split; [left; reflexivity|exact E]]. intros H. destruct (IH H) as (x & I & F). exists x. split; [right; exact I|exact F]. Qed.
Lemma quarter_fresh dbg gcd nth w cs i h : path_ok w -> gcd_ok gcd -> nth_ok nth -> Forall (in_contents w) cs -> pick_quarter_turn dbg gcd nth cs i = Ok h -> fresh_plane w h.
Proof.
  intros P G Nt F E. unfold pick_quarter_turn in E. apply rbind_ok in E as (seed & Es & E). assert (Is : In seed cs) by (unfold poly_at in Es; destruct (nth_error cs i) eqn:X; [injection Es as <-; eapply nth_error_In; exact X|discriminate]). pose proof F as F'. rewrite Forall_forall in F.
  pose proof (content_fresh w seed P (F seed Is)) as Fs. apply rbind_ok in E as ([c|] & _ & E); [|injection E as <-; exact Fs]. cbv zeta in E. apply rbind_ok in E as (turned & _ & E). apply rbind_ok in E as (l & El & E). apply rbind_ok in E as (_ & _ & E).
  assert (Fl : Forall (fun x => snd x <> 0%Z) l). { apply Forall_forall. intros x I. destruct (seed_list dbg turned _ cs l El x I) as (c' & e & Ic & Ee & ->). destruct (first_vertex w c' e (F c' Ic) Ee) as (q & Dq & _). apply Dq. }
  destruct (Nt l Fl) as [Pm Md]. assert (Ll : length (nth l) = length l) by (apply Permutation_length; exact Pm). rewrite Ll in E. destruct (nth_error (nth l) (length l / 2)) as [[num den]|] eqn:Em; [|discriminate]. specialize (Md _ eq_refl). cbn [fst snd] in Md. destruct Md as [Lo Hi].
  assert (Of : forall x, In x (nth l) -> exists q, in_cell w q /\ snd x <> 0%Z /\ inject_Z (fst x) / inject_Z (snd x) == qdot (qpt turned) q).
  { intros x I. destruct (seed_list dbg turned _ cs l El x (Permutation_in x Pm I)) as (c' & e & Ic & Ee & ->). destruct (first_vertex w c' e (F c' Ic) Ee) as (q & Dq & Cq). exists q. split; [exact Cq|]. cbn [fst snd]. split; [apply Dq|exact (dist_value turned _ q Dq)]. }
  destruct (Of (num, den) (nth_error_In _ _ Em)) as (qm & _ & Dm & _). cbn [fst snd] in Dm.
  destruct (forallb _ (firstn _ _)) eqn:A1; [injection E as <-; exact Fs|]. destruct (forallb _ (skipn _ _)) eqn:A2; [injection E as <-; exact Fs|].
  apply forallb_not in A1 as ([n1 d1] & I1 & N1). apply forallb_not in A2 as ([n2 d2] & I2 & N2). cbn [fst snd] in N1, N2. specialize (Lo _ I1). specialize (Hi _ I2). cbn [fst snd] in Lo, Hi.
  assert (J1 : In (n1, d1) (nth l)) by (rewrite <- (firstn_skipn (length l / 2) (nth l)); apply in_or_app; left; exact I1). assert (J2 : In (n2, d2) (nth l)) by (rewrite <- (firstn_skipn (S (length l / 2)) (nth l)); apply in_or_app; right; exact I2).
  destruct (Of _ J1) as (q1 & C1 & D1 & V1), (Of _ J2) as (q2 & C2 & D2 & V2). cbn [fst snd] in *.
  assert (Eq : forall n d, (d <> 0)%Z -> rat_eq n d num den = false -> ~ inject_Z n / inject_Z d == inject_Z num / inject_Z den).
  { intros n d D X Y. unfold rat_eq in X. apply Z.eqb_neq in X. apply X. pose proof (inject_Z_neq0 _ D) as D'. pose proof (inject_Z_neq0 _ Dm) as Dm'. apply inject_Z_injective. rewrite !inject_Z_mult. setoid_replace (inject_Z n) with (inject_Z n / inject_Z d * inject_Z d) by (field; exact D'). rewrite Y. field. exact Dm'. }
  assert (S1 : qdot (qpt turned) q1 - inject_Z num / inject_Z den < 0).
  { rewrite <- V1. destruct (Qlt_le_dec (inject_Z n1 / inject_Z d1) (inject_Z num / inject_Z den)) as [L|L]; [lra|exfalso]. apply (Eq n1 d1 D1 N1). apply Qle_antisym; [|exact L]. apply Qnot_lt_le. intros X. apply (rat_lt_spec _ _ _ _ Dm D1) in X. congruence. }
  assert (S2 : 0 < qdot (qpt turned) q2 - inject_Z num / inject_Z den).
  { rewrite <- V2. destruct (Qlt_le_dec (inject_Z num / inject_Z den) (inject_Z n2 / inject_Z d2)) as [L|L]; [lra|exfalso]. apply (Eq n2 d2 D2 N2). apply Qle_antisym; [exact L|]. apply Qnot_lt_le. intros X. apply (rat_lt_spec _ _ _ _ D2 Dm) in X. congruence. }
  match type of E with hs_reduce _ ?k = _ => set (h0 := k) in *; pose proof (fun q => turned_side turned num den q Dm h0 eq_refl) as Sd end.
  assert (Pa : 0 < inject_Z (Z.abs den)) by (change 0 with (inject_Z 0); rewrite <- Zlt_Qlt; lia).
  apply (crossing w h q1 q2 P C1 C2).
  - destruct (reduced_side gcd h0 h q1 G E) as (f & Pf & X). rewrite Sd in X. nra.
  - destruct (reduced_side gcd h0 h q2 G E) as (f & Pf & X). rewrite Sd in X. nra.
Qed.
(** ** Split() *)
Lemma count_le id l : (count_id id l <= length l)%nat.
Proof. unfold count_id. induction l as [|a l IH]; cbn; [lia|]. destruct (_ =? _)%nat; cbn; lia. Qed.
Lemma pick_plane_ok dbg gcd nth w t : path_ok w -> gcd_ok gcd -> nth_ok nth -> sub_ok w t -> leaf t -> n_contents t <> [] ->
  match pick_split_plane dbg gcd nth t with Ok h => fresh_plane w h /\ ((length (n_contents t) <= 40)%nat -> exists b, In b (n_contents t) /\ h = pplane (bp_poly b)) | _ => (40 < length (n_contents t))%nat end.
Proof.
  intros P G Nt H L Ne. pose proof (sub_root w t H) as [Fc _ Ct _]. destruct t as [|s cs bs infos n p]; [contradiction|]. cbn [n_contents] in *. unfold pick_split_plane, leaf in *. cbn [n_split] in L. unfold bn_is_leaf. rewrite L. cbn [negb]. rewrite check_true. cbn [rbind]. destruct cs as [|b0 cs0] eqn:Ec; [contradiction|]. rewrite <- Ec in *. clear b0 cs0 Ec.
  assert (Kn : Forall (fun b => (bp_id b < length infos)%nat) cs).
  { apply Forall_forall. intros b I. apply info_length. left. pose proof (proj1 (ct_leaf _ _ Ct L (bp_id b))) as X. cbn [n_infos n_contents] in X. rewrite X. apply count_in. exists b. split; [exact I|reflexivity]. }
  destruct (pick_index_ok cs infos Ne Kn) as (i & -> & Li). cbn [rbind]. destruct (at_known cs i Li) as (b & Eb & Ib). rewrite Eb. cbn [rbind]. rewrite Forall_forall in Kn.
  assert (Own : fresh_plane w (pplane (bp_poly b)) /\ ((length cs <= 40)%nat -> exists b', In b' cs /\ pplane (bp_poly b) = pplane (bp_poly b'))).
  { split; [apply content_fresh; [exact P|]; rewrite Forall_forall in Fc; exact (Fc b Ib)|]. intros _. exists b. split; [exact Ib|reflexivity]. }
  destruct (length cs =? 1)%nat; [exact Own|]. rewrite count_known by (apply Kn; exact Ib). cbn [rbind]. destruct (Nat.ltb_spec 40 (interior (info_for infos (bp_id b)))) as [M|M]; [|exact Own].
  assert (Big : (40 < length cs)%nat). { pose proof (proj1 (ct_leaf _ _ Ct L (bp_id b))) as X. cbn [n_infos n_contents] in X. pose proof (count_le (bp_id b) cs). lia. }
  destruct (pick_quarter_turn dbg gcd nth cs i) as [h| | |] eqn:Eq; try exact Big. split; [exact (quarter_fresh dbg gcd nth w cs i h P G Nt Fc Eq)|lia].
Qed.
Lemma auto_eq dbg gcd nth t : n_contents t <> [] -> bn_split_auto dbg gcd nth t = (h <- pick_split_plane dbg gcd nth t ;; _ <- check dbg (hs_valid h) ;; bn_split dbg h t).
Proof. destruct t as [|s [|b cs] bs infos n p]; intros N; [contradiction N; reflexivity|contradiction N; reflexivity|]. cbn [bn_split_auto length Nat.eqb negb]. rewrite check_true. reflexivity. Qed.
Theorem auto_ok boxed dbg gcd nth w t : path_ok w -> gcd_ok gcd -> nth_ok nth -> sub_ok w t -> leaf t -> n_contents t <> [] -> boxes boxed (all_polys t) ->
  match bn_split_auto dbg gcd nth t with
  | Ok t' => exists h, fresh_plane w h /\ pick_split_plane dbg gcd nth t = Ok h /\ bn_split dbg h t = Ok t' /\ split_result boxed w h t t'
  | _ => (40 < length (n_contents t))%nat \/ boxed = true
  end.
Proof.
  intros P G Nt H L Ne Bx. rewrite auto_eq by exact Ne. pose proof (pick_plane_ok dbg gcd nth w t P G Nt H L Ne) as Pk. destruct (pick_split_plane dbg gcd nth t) as [h| | |] eqn:E; cbn [rbind]; try (left; exact Pk). destruct Pk as [Fr _]. rewrite (proj1 Fr), check_true. cbn [rbind].
  pose proof (split_ok boxed dbg w t h P H L Fr Bx) as Sp. destruct (bn_split dbg h t) as [t'| | |] eqn:Es; cbn [good] in Sp; try contradiction; [|right; exact Sp]. exists h. split; [exact Fr|]. split; [reflexivity|]. split; [exact Es|exact Sp].
Qed.
Theorem auto_small dbg gcd nth w t : path_ok w -> gcd_ok gcd -> nth_ok nth -> sub_ok w t -> leaf t -> n_contents t <> [] -> boxes false (all_polys t) -> (length (n_contents t) <= 40)%nat ->
  exists t', bn_split_auto dbg gcd nth t = Ok t' /\ split_result false w (n_split t') t t' /\ (length (n_contents (n_neg t')) < length (n_contents t))%nat /\ (length (n_contents (n_pos t')) < length (n_contents t))%nat.
Proof.
  intros P G Nt H L Ne Bx Sm. pose proof (auto_ok false dbg gcd nth w t P G Nt H L Ne Bx) as A. destruct (bn_split_auto dbg gcd nth t) as [t'| | |]; try (destruct A; [lia|discriminate]). destruct A as (h & Fr & Pk & Es & R). exists t'. split; [reflexivity|]. rewrite (sr_plane _ _ _ _ _ R). split; [exact R|]. apply (sr_progress _ _ _ _ _ R).
  pose proof (pick_plane_ok dbg gcd nth w t P G Nt H L Ne) as X. rewrite Pk in X. destruct (proj2 X Sm) as (b & Ib & ->). exists b. split; [exact Ib|]. intros q. reflexivity.
Qed.
(** ** How many such splits there can be *)
Lemma at_path_node f t w x : at_node t w x -> forall t', at_path (map ss_pos w) f t = Ok t' -> exists x', f x = Ok x'.
Proof.
  intros A. induction A as [t N|s cs bs infos n p w x A IH|s cs bs infos n p w x A IH]; intros t' E; cbn [map at_path ss_pos] in E.
  - destruct t; (eexists; exact E).
  - apply rbind_ok in E as (y & E & _). exact (IH y E).
  - apply rbind_ok in E as (y & E & _). exact (IH y E).
Qed.
Definition leaves_le (t : bnode) : Prop := forall w x, at_node t w x -> leaf x -> (length (n_contents x) <= 40)%nat.
Lemma budget_step t w x : at_node t w x -> forall w0, path_ok w0 -> sub_ok w0 t -> forall f t' x', f x = Ok x' -> at_path (map ss_pos w) f t = Ok t' -> leaf x -> hs_valid (n_split x') = true ->
  leaf (n_neg x') -> leaf (n_pos x') -> (length (n_contents (n_neg x')) < length (n_contents x))%nat -> (length (n_contents (n_pos x')) < length (n_contents x))%nat -> n_neg (n_neg x') = BNil -> n_pos (n_neg x') = BNil -> n_neg (n_pos x') = BNil -> n_pos (n_pos x') = BNil ->
  small_leaves t -> (budget t' < budget t)%nat /\ small_leaves t'.
Proof.
  intros A. induction A as [t N|s cs bs infos n p w x A IH|s cs bs infos n p w x A IH]; intros w0 P H f t' x' Fx E L V Ln Lp Kn Kp Z1 Z2 Z3 Z4 Sm; cbn [map at_path ss_pos] in E.
  - assert (t' = x') by (destruct t; congruence). subst t'. clear E. destruct t as [|s cs bs infos n p]; [contradiction|]. destruct x' as [|s' cs' bs' infos' n' p']; [cbn in V; discriminate|]. unfold leaf in *. cbn [n_split n_neg n_pos n_contents] in *. cbn [budget]. rewrite L, V.
    assert (B : forall y, hs_valid (n_split y) = false -> (length (n_contents y) < length cs)%nat -> (budget y <= 2 ^ (length cs - 1) - 1)%nat).
    { intros y Ly Ky. destruct y as [|sy cy by_ iy ny py]; cbn [budget]; [lia|]. cbn in Ly, Ky. rewrite Ly. pose proof (Nat.pow_le_mono_r 2 (length cy) (length cs - 1) ltac:(lia) ltac:(lia)). lia. }
    pose proof (B n' Ln Kn) as B1. pose proof (B p' Lp Kp) as B2. assert (E2 : (2 ^ length cs = 2 * 2 ^ (length cs - 1))%nat) by (destruct (length cs) as [|k]; [lia|]; cbn [Nat.sub]; rewrite Nat.sub_0_r; reflexivity). assert (1 <= 2 ^ (length cs - 1))%nat by (apply Nat.neq_0_lt_0, Nat.pow_nonzero; lia).
    split; [lia|]. intros w x At Lx. pose proof (Sm [] _ (at_root (BNode s cs bs infos n p) ltac:(discriminate)) L) as M. cbn [n_contents] in M. inversion At; subst; [unfold leaf in Lx; cbn in Lx; congruence| |].
    + match goal with X : at_node n' _ _ |- _ => inversion X; subst end; [lia|cbn in Z1; subst; match goal with X : at_node BNil _ _ |- _ => inversion X; congruence end|cbn in Z2; subst; match goal with X : at_node BNil _ _ |- _ => inversion X; congruence end].
    + match goal with X : at_node p' _ _ |- _ => inversion X; subst end; [lia|cbn in Z3; subst; match goal with X : at_node BNil _ _ |- _ => inversion X; congruence end|cbn in Z4; subst; match goal with X : at_node BNil _ _ |- _ => inversion X; congruence end].
  - apply rbind_ok in E as (y & E & E'). injection E' as <-. assert (M : n <> BNil) by (intros ->; inversion A; congruence). destruct (no_split _ _ (sub_root w0 _ H)) as [(_ & X & _)|(Fr & _)]; [cbn in X; contradiction|]. cbn [n_split] in Fr.
    destruct (IH (w0 ++ [SS s false]) (path_snoc w0 (SS s false) P Fr) (sub_neg w0 _ H M) f y x' Fx E L V Ln Lp Kn Kp Z1 Z2 Z3 Z4) as [B S]; [intros w1 x1 A1 L1; exact (Sm _ x1 (at_neg _ _ _ _ _ _ _ _ A1) L1)|].
    cbn [budget]. rewrite (proj1 Fr). split; [lia|]. intros w1 x1 A1 L1. inversion A1; subst; [unfold leaf in L1; cbn in L1; rewrite (proj1 Fr) in L1; discriminate|eapply S; eassumption|eapply Sm; [apply at_pos; eassumption|exact L1]].
  - apply rbind_ok in E as (y & E & E'). injection E' as <-. assert (M : p <> BNil) by (intros ->; inversion A; congruence). destruct (no_split _ _ (sub_root w0 _ H)) as [(_ & _ & X)|(Fr & _)]; [cbn in X; contradiction|]. cbn [n_split] in Fr.
    destruct (IH (w0 ++ [SS s true]) (path_snoc w0 (SS s true) P Fr) (sub_pos w0 _ H M) f y x' Fx E L V Ln Lp Kn Kp Z1 Z2 Z3 Z4) as [B S]; [intros w1 x1 A1 L1; exact (Sm _ x1 (at_pos _ _ _ _ _ _ _ _ A1) L1)|].
    cbn [budget]. rewrite (proj1 Fr). split; [lia|]. intros w1 x1 A1 L1. inversion A1; subst; [unfold leaf in L1; cbn in L1; rewrite (proj1 Fr) in L1; discriminate|eapply Sm; [apply at_neg; eassumption|exact L1]|eapply S; eassumption].
Qed.
Lemma node_sub t w x : sub_ok [] t -> at_node t w x -> sub_ok w x.
Proof.
  intros T A. assert (N : x <> BNil) by (clear - A; induction A; assumption). split; [exact N|]. intros w' y A'. apply (proj2 T (w ++ w') y). clear - A A'. cbn [app]. induction A; cbn [app]; [exact A'|apply at_neg; auto|apply at_pos; auto].
Qed.
Lemma node_polys t w x b : at_node t w x -> In b (all_polys x) -> In b (all_polys t).
Proof. intros A. induction A; intros I; [exact I| |]; cbn [all_polys]; rewrite !in_app_iff; auto. Qed.
Lemma node_boxes boxed t w x : at_node t w x -> boxes boxed (all_polys t) -> boxes boxed (all_polys x).
Proof. intros A B E. specialize (B E). rewrite Forall_forall in *. intros b I. apply B. exact (node_polys t w x b A I). Qed.
Theorem auto_step_ok dbg gcd nth t t' : gcd_ok gcd -> nth_ok nth -> tree_ok t -> boxes false (all_polys t) -> small_leaves t -> auto_step dbg gcd nth t t' ->
  tree_ok t' /\ boxes false (all_polys t') /\ small_leaves t' /\ cut_up (all_polys t) (all_polys t') /\ (budget t' < budget t)%nat.
Proof.
  intros G Nt T Bx Sm (ds & w & x & (A & <-) & L & Ne & E). apply tree_ok_sub in T. pose proof (sub_path [] t w x path_ok_nil T A) as Pw. cbn [app] in Pw. pose proof (node_sub t w x T A) as Hx.
  destruct (auto_small dbg gcd nth w x Pw G Nt Hx L Ne (node_boxes false t w x A Bx) (Sm w x A L)) as (x' & Ex & R & K1 & K2).
  pose proof (at_path_ok false (bn_split_auto dbg gcd nth) t w x A [] path_ok_nil T Bx) as Ap. cbn [app] in Ap. rewrite Ex in Ap. specialize (Ap (fun _ => sr_step _ _ _ _ _ R)). rewrite E in Ap. cbn [good] in Ap. destruct Ap as [S1 S2 S3 S4 S5].
  pose proof (sr_step _ _ _ _ _ R) as [Sx _ _ _ _]. pose proof (sr_leaves _ _ _ _ _ R) as [L1 L2].
  assert (Vx : hs_valid (n_split x') = true /\ n_neg x' <> BNil /\ n_pos x' <> BNil).
  { assert (X := Ex). rewrite auto_eq in X by exact Ne. apply rbind_ok in X as (h & Eh & X). pose proof (pick_plane_ok dbg gcd nth w x Pw G Nt Hx L Ne) as Pk. rewrite Eh in Pk. destruct Pk as [Fr _]. apply rbind_ok in X as (u & _ & X). pose proof (split_ok false dbg w x h Pw Hx L Fr (node_boxes false t w x A Bx)) as Sp. rewrite X in Sp. cbn [good] in Sp. pose proof (sr_plane _ _ _ _ _ Sp) as Eq. rewrite Eq. split; [apply Fr|].
    destruct (no_split _ _ (sub_root w x' Sx)) as [(Lx & _)|(_ & _ & _ & N1 & N2)]; [unfold leaf in Lx; rewrite Eq in Lx; destruct Fr; congruence|split; assumption]. }
  destruct Vx as (Vx & N1 & N2).
  assert (Nil : forall w0 y, sub_ok w0 y -> leaf y -> n_neg y = BNil /\ n_pos y = BNil). { intros w0 y Hy Ly. destruct (no_split _ _ (sub_root w0 y Hy)) as [(_ & X & Y)|(Fr & _)]; [split; assumption|unfold leaf in Ly; destruct Fr; congruence]. }
  destruct (Nil _ _ (sub_neg w x' Sx N1) L1) as [Z1 Z2]. destruct (Nil _ _ (sub_pos w x' Sx N2) L2) as [Z3 Z4].
  destruct (budget_step t w x A [] path_ok_nil T (bn_split_auto dbg gcd nth) t' x' Ex E L Vx L1 L2 K1 K2 Z1 Z2 Z3 Z4 Sm) as [B Sm'].
  split; [apply tree_ok_sub; exact S1|]. split; [exact S4|]. split; [exact Sm'|]. split; [exact S2|exact B].
Qed.
Theorem auto_steps_ok dbg gcd nth k t t' : gcd_ok gcd -> nth_ok nth -> auto_steps dbg gcd nth k t t' -> tree_ok t -> boxes false (all_polys t) -> small_leaves t ->
  tree_ok t' /\ cut_up (all_polys t) (all_polys t') /\ (k + budget t' <= budget t)%nat.
Proof.
  intros G Nt A. induction A as [t|k t t1 t2 St A IH]; intros T Bx Sm.
  - split; [exact T|]. split; [apply cut_up_refl; apply (sub_okb t []); apply tree_ok_sub; exact T|lia].
  - destruct (auto_step_ok dbg gcd nth t t1 G Nt T Bx Sm St) as (T1 & B1 & S1 & C1 & K1). destruct (IH T1 B1 S1) as (T2 & C2 & K2). split; [exact T2|]. split; [exact (cut_up_trans _ _ _ C1 C2)|lia].
Qed.
(** ** An id without room *)
Lemma push_pwn_fresh dbg h cs x : hs_valid h = true -> Forall (in_contents []) cs -> push_pwn dbg h cs x = Ok x.
Proof.
  intros V F. unfold push_pwn. rewrite V, check_true. cbn [rbind]. induction F as [|b cs [St _] F IH]; cbn [rfold]; [reflexivity|].
  assert (E : forall l, (forall i, In i l -> (i < bp_count b)%nat) -> rfold (push_pwn_edge dbg h b) l x = Ok x).
  { induction l as [|i l IHl]; intros L; cbn [rfold]; [reflexivity|]. unfold push_pwn_edge at 1. unfold pedge_at at 1. destruct (nth_error (pedges (bp_poly b)) i) as [e|] eqn:Ee; [|apply nth_error_None in Ee; specialize (L i (or_introl eq_refl)); unfold bp_count, pcount in L; lia]. cbn [rbind].
    destruct (stored_st [] b path_ok_nil St) as (qs & Hs). pose proof (s_edges _ _ _ Hs i e Ee) as [_ Ed _ _]. destruct (edge_co (pd e)) as [el|]; [destruct Ed as (l0 & r & X & _); destruct l0; discriminate|]. cbn [rbind]. apply IHl. intros j J. apply L. right. exact J. }
  rewrite E by (intros i I; apply in_seq in I; lia). cbn [rbind]. exact IH.
Qed.
Lemma putter_no_room on k b : (length (k_infos k) <= bp_id b)%nat -> putter on k b = UB.
Proof. intros L. destruct on; unfold putter, put_border, put_contents, at_id; (destruct (Nat.ltb_spec (bp_id b) (length (k_infos k))); [lia|]); reflexivity. Qed.
Lemma push_content_no_room dbg w b qs h x : path_ok w -> fresh_plane w h -> st w b qs -> bp_on b = None -> bp_box b = None -> (length (k_infos (fst x)) <= bp_id b)%nat -> (length (k_infos (snd x)) <= bp_id b)%nat -> push_content dbg h b x = UB.
Proof.
  intros P Fr HS No Nb R1 R2. pose proof (ok_n _ _ (s_ok _ _ _ HS)) as N. fold (bp_count b) in N. unfold push_content. destruct (Nat.ltb_spec 0 (bp_count b)); [|lia]. rewrite check_true. cbn [rbind].
  destruct (place dbg b qs h (s_ok _ _ _ HS) (s_box _ _ _ HS)) as (i & -> & Ck & Pl). cbn [rbind]. rewrite Ck. cbn [rbind].
  assert (U1 : forall on b', bp_id b' = bp_id b -> putter on (fst x) b' = UB) by (intros on b' E; apply putter_no_room; rewrite E; exact R1). assert (U2 : forall on b', bp_id b' = bp_id b -> putter on (snd x) b' = UB) by (intros on b' E; apply putter_no_room; rewrite E; exact R2).
  destruct Pl as [Oi Z|Oi En Ep Cs A B R|Oi En Cs A B R|Oi En Ep I Sb]; rewrite Oi.
  - unfold push_on_plane. set (pos := zdiff_sign _ _). destruct (on_plane w b qs h HS No (proj1 Fr) Z) as (b' & Eb & St' & M). fold pos in Eb, St', M. rewrite Eb. cbn [rbind]. pose proof (mk_id _ _ M) as Ei. destruct pos; [rewrite (U2 true)|rewrite (U1 true)]; try reflexivity; exact Ei.
  - unfold push_off_plane. rewrite En, Ep. destruct (one_side w b qs (SS h false) (neg_range (si_ranges i)) HS Cs A B R) as (b' & -> & St' & M & O'). cbn [rbind]. rewrite (U1 false); [reflexivity|exact (mk_id _ _ M)].
  - unfold push_off_plane. rewrite En. destruct (one_side w b qs (SS h true) (pos_range (si_ranges i)) HS Cs A B R) as (b' & -> & St' & M & O'). cbn [rbind]. rewrite (U2 false); [reflexivity|exact (mk_id _ _ M)].
  - unfold push_off_plane. rewrite En, Ep. pose proof (split_step dbg w b qs h i P HS I Sb En Ep) as Sp. destruct (bp_split_children dbg b i) as [c| | |]; cbn [rbind] in Sp |- *; [|exfalso; exact Sp|reflexivity|exfalso; exact Sp].
    destruct (set_child_angles dbg c h) as [[y z]| | |]; cbn [rbind fst snd]; [|exfalso; exact Sp|reflexivity|exfalso; exact Sp]. destruct Sp as (_ & _ & Pc & _). change (put_contents (fst x) y) with (putter false (fst x) y). rewrite (U1 false y); [reflexivity|]. apply (pieces_same _ _ y Pc). left. reflexivity.
Qed.
Theorem no_room dbg id p ps t : tree_ok t -> ~ leaf t -> Forall (fun p => exists qs, poly_ok p qs) (p :: ps) -> boxes false (all_polys t) -> (length (n_infos (n_neg t)) <= id)%nat -> (length (n_infos (n_pos t)) <= id)%nat -> add_contents dbg false id (p :: ps) t = UB.
Proof.
  intros T Nl F Bx R1 R2. apply tree_ok_sub in T. unfold add_contents. pose proof (add_roots_ok false id (p :: ps) F t (sub_pre [] t T)) as G. destruct (rfold (add_root_content false id) (p :: ps) t) as [t1| | |] eqn:E1; cbn [good] in G; [|contradiction|discriminate|contradiction]. cbn [rbind].
  destruct G as [G1 (new & G2 & G3 & G4 & G5) G6 G7 G8 G9 G10]. destruct (no_split _ _ (sub_root [] t T)) as [(L & _)|(Fr & Z1 & Z2 & _)]; [contradiction|]. rewrite Z1 in G2. rewrite Z2 in G6. cbn [app] in G2.
  destruct t1 as [|s cs bs infos n q]; [destruct (pr_some _ _ G1); reflexivity|]. cbn [n_contents n_border n_split n_neg n_pos] in *. subst cs bs s n q. unfold push_to_leaves. cbn [kid_of rbind]. rewrite push_to_leaves_eq. cbn [k_contents k_border k_infos].
  destruct new as [|b new]. { apply cut_up_cons_inv in G3 as (m1 & m2 & Pm & _ & Em). apply Permutation_nil, app_eq_nil in Em as [-> _]. exfalso. inversion F as [|? ? [qs Hp] _]; subst. destruct (some_piece _ _ (ex_intro _ qs (fresh_okb id p qs Hp)) Pm) as (x & []). }
  unfold bn_is_leaf. rewrite (proj1 Fr). cbn [negb orb]. pose proof (pr_contents _ _ G1) as Fc. cbn [n_contents] in Fc.
  assert (Nn : n_neg t <> BNil /\ n_pos t <> BNil) by (destruct (no_split _ _ (sub_root [] t T)) as [(L & _)|(_ & _ & _ & X)]; [contradiction|exact X]).
  destruct (kid_of_some (n_neg t) (proj1 Nn)) as (kn & -> & En), (kid_of_some (n_pos t) (proj2 Nn)) as (kp & -> & Ep). cbn [rbind].
  assert (Ln : length (k_infos kn) = length (n_infos (n_neg t)) /\ length (k_infos kp) = length (n_infos (n_pos t))).
  { split; [rewrite <- En at 1; destruct (n_neg t); [destruct Nn; contradiction|]; rewrite <- En; reflexivity|rewrite <- Ep at 1; destruct (n_pos t); [destruct Nn; contradiction|]; rewrite <- Ep; reflexivity]. }
  unfold push_all. rewrite push_pwn_fresh by (try exact Fc; apply Fr). cbn [rbind fst snd rfold]. inversion Fc as [|? ? [St On] Fc']; subst. destruct (stored_st [] b path_ok_nil St) as (qs & HS). inversion G4 as [|? ? Eid _]; subst. specialize (G5 eq_refl). inversion G5; subst.
  rewrite (push_content_no_room dbg [] b qs (n_split t)); [reflexivity|exact path_ok_nil|exact Fr|exact HS|exact On|assumption| |]; cbn [fst snd k_infos]; lia.
Qed.
(** ** GetCostExclude *)
Lemma cost_loop infos : forall id count best, let r := cost_exclude_loop infos id count best in
  snd r = (count + length (List.filter (fun c => negb (interior c =? 0)%nat) infos))%nat /\
  (forall i c, nth_error infos i = Some c -> (interior c <= match fst r with None => 0 | Some b => snd b end)%nat) /\ (match best with None => 0 | Some b => snd b end <= match fst r with None => 0 | Some b => snd b end)%nat /\
  (fst r = best \/ exists i c, nth_error infos i = Some c /\ fst r = Some ((id + i)%nat, interior c) /\ (0 < interior c)%nat /\ (match best with None => 0 | Some b => snd b end < interior c)%nat /\ forall j c', (j < i)%nat -> nth_error infos j = Some c' -> (interior c' < interior c)%nat).
Proof.
  induction infos as [|c infos IH]; intros id count best; cbn [cost_exclude_loop List.filter].
  - cbn [fst snd length]. split; [lia|]. split; [intros [|i] c E; discriminate|]. split; [lia|left; reflexivity].
  - destruct (Nat.eqb_spec (interior c) 0) as [Z|Z]; cbn [negb].
    + destruct (IH (S id) count best) as (A & B & C & D). split; [exact A|]. split; [intros [|i] c' E; [injection E as <-; lia|exact (B i c' E)]|]. split; [exact C|]. destruct D as [D|(i & c' & E & D & P & M & L)]; [left; exact D|right]. exists (S i), c'. split; [exact E|]. split; [rewrite D; f_equal; f_equal; lia|]. split; [exact P|]. split; [exact M|]. intros [|j] c2 Lj Ej; [injection Ej as <-; lia|apply (L j); [lia|exact Ej]].
    + set (best' := if (_ <? _)%nat then _ else best). destruct (IH (S id) (S count) best') as (A & B & C & D). cbn [length].
      assert (Bb : (interior c <= match best' with None => 0 | Some b => snd b end)%nat /\ (match best with None => 0 | Some b => snd b end <= match best' with None => 0 | Some b => snd b end)%nat) by (unfold best'; destruct (Nat.ltb_spec (match best with None => 0 | Some b => snd b end) (interior c)); cbn [snd]; lia).
      split; [lia|]. split; [intros [|i] c' E; [injection E as <-; lia|exact (B i c' E)]|]. split; [lia|]. destruct D as [D|(i & c' & E & D & P & M & L)].
      * unfold best' in D. destruct (Nat.ltb_spec (match best with None => 0 | Some b => snd b end) (interior c)) as [Lt|Ge]; [|left; exact D]. right. exists 0%nat, c. split; [reflexivity|]. split; [rewrite Nat.add_0_r; exact D|]. split; [lia|]. split; [exact Lt|]. intros j c2 Lj. lia.
      * right. exists (S i), c'. split; [exact E|]. split; [rewrite D; f_equal; f_equal; lia|]. split; [exact P|]. split; [lia|]. intros [|j] c2 Lj Ej; [injection Ej as <-; lia|apply (L j); [lia|exact Ej]].
Qed.
Lemma cost_exclude_ok infos :
  let full := List.filter (fun c => negb (interior c =? 0)%nat) infos in
  match cost_exclude infos with
  | None => (length full <= 1)%nat
  | Some (id, n) => (2 <= length full)%nat /\ exists c, nth_error infos id = Some c /\ interior c = n /\ (forall j c', nth_error infos j = Some c' -> (interior c' <= n)%nat) /\ forall j c', (j < id)%nat -> nth_error infos j = Some c' -> (interior c' < n)%nat
  end.
Proof.
  cbv zeta. unfold cost_exclude. destruct (cost_loop infos 0 0 None) as (A & B & _ & D). destruct (cost_exclude_loop infos 0 0 None) as [best n]. cbn [fst snd] in *. destruct (Nat.ltb_spec 1 n) as [L|L]; [|lia].
  destruct D as [->|(i & c & E & -> & P & _ & F)].
  - exfalso. destruct (List.filter _ infos) as [|c l] eqn:Ef; [cbn [length] in A; lia|]. assert (I : In c (List.filter (fun c => negb (interior c =? 0)%nat) infos)) by (rewrite Ef; left; reflexivity). apply filter_In in I as [I Z]. apply In_nth_error in I as [i Ei]. specialize (B i c Ei). cbv beta in Z. destruct (Nat.eqb_spec (interior c) 0); [discriminate|lia].
  - split; [lia|]. cbn [Nat.add] in *. exists c. split; [exact E|]. split; [reflexivity|]. split; [exact B|exact F].
Qed.
(** ** Room for an id *)
Lemma root_room boxed id p t t' : add_root_content boxed id p t = Ok t' -> n_split t' = n_split t /\ n_neg t' = n_neg t /\ n_pos t' = n_pos t /\ (id < length (n_infos t'))%nat.
Proof.
  intros E. destruct t as [|s cs bs infos n q]; [discriminate|]. unfold add_root_content in E. apply rbind_ok in E as (b & _ & E). cbv zeta in E. apply rbind_ok in E as (infos' & Ei & E). injection E as <-. cbn [n_split n_neg n_pos n_infos].
  repeat (split; [reflexivity|]). unfold at_id in Ei. destruct (Nat.ltb_spec id (length (if (length infos <=? id)%nat then infos ++ repeat ci_empty (id + 1 - length infos) else infos))) as [Lt|]; [|discriminate]. injection Ei as <-. rewrite upd_length. exact Lt.
Qed.
Lemma roots_room boxed id ps : forall t t', rfold (add_root_content boxed id) ps t = Ok t' -> n_split t' = n_split t /\ n_neg t' = n_neg t /\ n_pos t' = n_pos t /\ (ps <> [] -> (id < length (n_infos t'))%nat).
Proof.
  induction ps as [|p ps IH]; intros t t' E; cbn [rfold] in E; [injection E as <-; repeat (split; [reflexivity|]); contradiction|]. apply rbind_ok in E as (t1 & E1 & E). destruct (root_room _ _ _ _ _ E1) as (A & B & C & D). destruct (IH _ _ E) as (A' & B' & C' & D').
  split; [congruence|]. split; [congruence|]. split; [congruence|]. intros _. destruct ps as [|p' ps]; [cbn [rfold] in E; injection E as <-; exact D|apply D'; discriminate].
Qed.
Theorem room_for dbg boxed id p ps t t' : tree_ok t -> leaf t -> add_contents dbg boxed id (p :: ps) t = Ok t' -> forall j, (j <= id)%nat -> knows t' j.
Proof.
  intros T L E j J. unfold add_contents in E. apply rbind_ok in E as (t1 & E1 & E). destruct (roots_room _ _ _ _ _ E1) as (A & B & C & D). specialize (D ltac:(discriminate)). apply tree_ok_sub in T. destruct (no_split _ _ (sub_root [] t T)) as [(_ & N1 & N2)|(Fr & _)]; [|unfold leaf in L; destruct Fr; congruence].
  destruct t1 as [|s cs bs infos n q]; [cbn in D; lia|]. cbn [n_split n_neg n_pos n_infos] in *. subst n q. unfold push_to_leaves in E. cbn [kid_of rbind] in E. rewrite push_to_leaves_eq in E. unfold bn_is_leaf in E. unfold leaf in L. rewrite A, L, orb_true_r in E. injection E as <-. rewrite N1, N2.
  intros w x Ax. inversion Ax; subst; try (match goal with H : at_node BNil _ _ |- _ => inversion H; subst; congruence end). cbn [with_kid n_infos k_infos]. lia.
Qed.
(** ** Sorting is one way to find the middle *)
Fixpoint rat_insert (x : Z * Z) (l : list (Z * Z)) : list (Z * Z) :=
  match l with [] => [x] | y :: l' => if rat_lt (fst y) (snd y) (fst x) (snd x) then y :: rat_insert x l' else x :: l end.
Definition rat_sort (l : list (Z * Z)) : list (Z * Z) := fold_right rat_insert [] l.
Definition rat_le (x y : Z * Z) : Prop := inject_Z (fst x) / inject_Z (snd x) <= inject_Z (fst y) / inject_Z (snd y).
Lemma rat_insert_perm x l : Permutation (rat_insert x l) (x :: l).
Proof. induction l as [|y l IH]; cbn; [reflexivity|]. destruct (rat_lt _ _ _ _); [|reflexivity]. rewrite IH. apply perm_swap. Qed.
Lemma rat_sort_perm l : Permutation (rat_sort l) l.
Proof. induction l as [|x l IH]; cbn; [reflexivity|]. rewrite rat_insert_perm, IH. reflexivity. Qed.
Lemma rat_insert_sorted x l : snd x <> 0%Z -> Forall (fun x => snd x <> 0%Z) l -> StronglySorted rat_le l -> StronglySorted rat_le (rat_insert x l).
Proof.
  intros Dx F S. induction S as [|y l S IH Fy]; cbn; [constructor; constructor|]. inversion F as [|? ? Dy Fl]; subst. destruct (rat_lt _ _ _ _) eqn:E.
  - constructor; [exact (IH Fl)|]. rewrite (rat_insert_perm x l). constructor; [|exact Fy]. apply (rat_lt_spec _ _ _ _ Dy Dx) in E. unfold rat_le. lra.
  - constructor; [constructor; assumption|]. assert (L : rat_le x y) by (apply Qnot_lt_le; intros X; apply (rat_lt_spec _ _ _ _ Dy Dx) in X; congruence). constructor; [exact L|]. eapply Forall_impl; [|exact Fy]. intros z Z. unfold rat_le in *. lra.
Qed.
Lemma rat_sort_sorted l : Forall (fun x => snd x <> 0%Z) l -> StronglySorted rat_le (rat_sort l).
Proof. intros F. induction F as [|x l D F IH]; cbn; [constructor|]. apply rat_insert_sorted; [exact D| |exact IH]. rewrite rat_sort_perm. exact F. Qed.
Lemma rat_sort_ok : nth_ok rat_sort.
Proof.
  intros l F. split; [apply rat_sort_perm|]. intros m Em. pose proof (rat_sort_sorted l F) as S. assert (F' : Forall (fun x => snd x <> 0%Z) (rat_sort l)) by (rewrite rat_sort_perm; exact F). set (k := (length l / 2)%nat) in *. clearbody k. revert k Em. induction S as [|y l' S IH Fy]; intros k Em; [destruct k; discriminate|].
  assert (Nl : forall a b, snd a <> 0%Z -> snd b <> 0%Z -> rat_le a b -> rat_lt (fst b) (snd b) (fst a) (snd a) = false). { intros a b Da Db L. destruct (rat_lt _ _ _ _) eqn:X; [|reflexivity]. apply (rat_lt_spec _ _ _ _ Db Da) in X. unfold rat_le in L. lra. }
  inversion F' as [|? ? Dy Dl]; subst. rewrite Forall_forall in Fy, Dl. destruct k as [|k].
  - cbn in Em. injection Em as <-. split; [intros x []|]. intros x I. cbn [skipn] in I. apply Nl; [exact Dy|exact (Dl x I)|exact (Fy x I)].
  - cbn [nth_error] in Em. rewrite <- Forall_forall in Dl. destruct (IH Dl k Em) as [A B]. cbn [firstn]. split; [|exact B]. intros x [<-|I]; [|exact (A x I)]. rewrite Forall_forall in Dl. pose proof (nth_error_In _ _ Em) as Im. apply Nl; [exact Dy|exact (Dl m Im)|exact (Fy m Im)].
Qed.
