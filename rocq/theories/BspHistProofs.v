(** Trees of polygons: pushing to the leaves, splitting a leaf, adding polygons, and
    histories of such operations. *)
From Coq Require Import List Bool Arith ZArith QArith Lqa Lia ZifyBool Morphisms Setoid Permutation.
From Verif Require Import BigUIntModel GeoModel GeoSpec GeoProofs AabbModel AabbSpec AabbTrackerProofs CvxSpec PolyModel PolySpec PolyBridgeProofs PolyInfoProofs PolyCapProofs PolyChildProofs PolyTopProofs MergeProofs RTransModel RTransProofs FilterModel BspModel BspSpec BspGeoProofs BspMarkProofs BspBoxProofs BspPolyProofs BspTreeProofs BspHistSpec.
Import ListNotations.
Open Scope Q_scope.
(** ** Counters *)
Definition okb (b : bpoly) : Prop := exists qs, poly_ok (bp_poly b) qs.
Lemma count_in id l : count_id id l <> 0%nat <-> exists b, In b l /\ bp_id b = id.
Proof.
  unfold count_id. induction l as [|a l IH]; cbn [List.filter].
  - split; [intros H; cbn in H; lia|intros (b & [] & _)].
  - destruct (Nat.eqb_spec (bp_id a) id) as [E|E].
    + split; [intros _; exists a; split; [left; reflexivity|exact E]|intros _; cbn; lia].
    + rewrite IH. split; intros (b & I & F); exists b; (split; [|exact F]); [right; exact I|]. destruct I as [->|I]; [contradiction|exact I].
Qed.
Definition inside_of (w : path) (b : bpoly) : Prop := forall s, In s w -> ~ lies_on s b.
Definition border_of (w : path) (b : bpoly) : Prop := exists s, In s w /\ lies_on s b.
Lemma contents_inside w b : in_contents w b -> inside_of w b.
Proof. intros [St O] s I. destruct (st_on _ _ St) as [F _]. rewrite O in F. cbn in F. rewrite Forall_forall in F. exact (F s I). Qed.
Lemma border_border w b : in_border w b -> border_of w b.
Proof. intros [St O]. destruct (bp_on b) as [s|] eqn:E; [|contradiction]. destruct (st_on _ _ St) as [F _]. rewrite E in F. destruct (first_some _ _ _ F) as [I L]. exists s. split; assumption. Qed.
Lemma not_both w b : inside_of w b -> border_of w b -> False.
Proof. intros A (s & I & L). exact (A s I L). Qed.
Definition counts (w : path) (l : list bpoly) (infos : list cinfo) : Prop := forall id,
  (interior (info_for infos id) <> 0%nat <-> exists b, In b l /\ bp_id b = id /\ inside_of w b) /\ (border (info_for infos id) <> 0%nat <-> exists b, In b l /\ bp_id b = id /\ border_of w b).
Lemma counts_of w x : counted w x -> counts w (all_polys x) (n_infos x).
Proof. intros [_ A B] id. split; [apply A|apply B]. Qed.
Lemma lies_piece w b l x : path_ok w -> okb b -> pieces b l -> In x l -> okb x -> forall s, In s w -> lies_on s b <-> lies_on s x.
Proof.
  intros P [qs H] Pc I [qx Hx] s Is. destruct (pieces_same _ _ _ Pc I) as (_ & E & _). rewrite (lies_on_iff b qs s H (path_valid w s P Is)), (lies_on_iff x qx s Hx (path_valid w s P Is)), E. reflexivity.
Qed.
Lemma some_piece b l : okb b -> pieces b l -> exists x, In x l.
Proof.
  intros [qs H] Pc. pose proof (ok_n _ _ H) as N. pose proof (ok_length _ _ H) as Ln. destruct qs as [|q qs]; [cbn in Ln; lia|].
  assert (Q : bp_point b q) by (apply (point_iff _ (q :: qs) q H), vertex_point; [exact H|left; reflexivity]). apply (pi_union _ _ Pc) in Q as (x & I & _). exists x. exact I.
Qed.
Lemma cut_to l l' b : cut_up l l' -> In b l -> exists m, pieces b m /\ forall x, In x m -> In x l'.
Proof.
  intros (ls & F & P) I. assert (exists m, In m ls /\ pieces b m) as (m & Im & Pm). { clear P. induction F as [|x' a l ls Px F IH]; [destruct I|]. destruct I as [<-|I]; [exists a; split; [left; reflexivity|exact Px]|]. destruct (IH I) as (m & A & B). exists m. split; [right; exact A|exact B]. }
  exists m. split; [exact Pm|]. intros x Ix. apply (Permutation_in x (Permutation_sym P)). apply in_concat. exists m. split; assumption.
Qed.
Lemma cut_from l l' x : cut_up l l' -> In x l' -> exists b m, In b l /\ pieces b m /\ In x m.
Proof.
  intros (ls & F & P) I. apply (Permutation_in x P) in I. apply in_concat in I as (m & Im & Ix). clear P. induction F as [|b a l ls Pb F IH]; [destruct Im|].
  destruct Im as [<-|Im]; [exists b, a; split; [left; reflexivity|split; [exact Pb|exact Ix]]|]. destruct (IH Im) as (b' & m' & A & B & C). exists b', m'. split; [right; exact A|split; [exact B|exact C]].
Qed.
Lemma counts_cut w l l' infos : path_ok w -> Forall okb l -> Forall okb l' -> cut_up l l' -> counts w l infos -> counts w l' infos.
Proof.
  intros P F F' C H id. rewrite Forall_forall in F, F'. destruct (H id) as [A B]. split; [rewrite A|rewrite B]; split.
  - intros (b & I & E & T). destruct (cut_to l l' b C I) as (m & Pm & Im). destruct (some_piece b m (F b I) Pm) as (x & Ix). exists x. split; [exact (Im x Ix)|]. split; [destruct (pieces_same _ _ _ Pm Ix); congruence|]. intros s Is L. apply (T s Is). apply (lies_piece w b m x P (F b I) Pm Ix (F' x (Im x Ix)) s Is). exact L.
  - intros (x & I & E & T). destruct (cut_from l l' x C I) as (b & m & Ib & Pm & Ix). exists b. split; [exact Ib|]. split; [destruct (pieces_same _ _ _ Pm Ix); congruence|]. intros s Is L. apply (T s Is). apply (lies_piece w b m x P (F b Ib) Pm Ix (F' x I) s Is). exact L.
  - intros (b & I & E & s & Is & L). destruct (cut_to l l' b C I) as (m & Pm & Im). destruct (some_piece b m (F b I) Pm) as (x & Ix). exists x. split; [exact (Im x Ix)|]. split; [destruct (pieces_same _ _ _ Pm Ix); congruence|]. exists s. split; [exact Is|]. apply (lies_piece w b m x P (F b I) Pm Ix (F' x (Im x Ix)) s Is). exact L.
  - intros (x & I & E & s & Is & L). destruct (cut_from l l' x C I) as (b & m & Ib & Pm & Ix). exists b. split; [exact Ib|]. split; [destruct (pieces_same _ _ _ Pm Ix); congruence|]. exists s. split; [exact Is|]. apply (lies_piece w b m x P (F b Ib) Pm Ix (F' x I) s Is). exact L.
Qed.
Lemma counts_perm w l l' infos : Permutation l l' -> counts w l infos -> counts w l' infos.
Proof.
  intros P H id. destruct (H id) as [A B]. split; [rewrite A|rewrite B]; split; intros (b & I & R); exists b; (split; [|exact R]); [apply (Permutation_in b P)|apply (Permutation_in b (Permutation_sym P))|apply (Permutation_in b P)|apply (Permutation_in b (Permutation_sym P))]; exact I.
Qed.
Lemma with_polys t k : t <> BNil -> all_polys (with_kid t k) = k_contents k ++ k_border k ++ all_polys (n_neg t) ++ all_polys (n_pos t).
Proof. destruct t; [congruence|reflexivity]. Qed.
Lemma with_fields t k : t <> BNil -> n_contents (with_kid t k) = k_contents k /\ n_border (with_kid t k) = k_border k /\ n_infos (with_kid t k) = k_infos k /\ n_split (with_kid t k) = n_split t /\ n_neg (with_kid t k) = n_neg t /\ n_pos (with_kid t k) = n_pos t /\ with_kid t k <> BNil.
Proof. destruct t; [congruence|]. intros _. repeat split; discriminate. Qed.
Lemma counted_added w t k k' cs bs : t <> BNil -> counted w (with_kid t k) -> added k cs bs k' -> Forall (in_contents w) cs -> Forall (in_border w) bs -> counted w (with_kid t k').
Proof.
  intros N [L A B] [E1 E2 E3 E4 E5] Fc Fb. rewrite Forall_forall in Fc, Fb. destruct (with_fields t k N) as (C1 & C2 & C3 & C4 & _), (with_fields t k' N) as (D1 & D2 & D3 & D4 & _). unfold leaf in L. rewrite C1, C2, C3, C4 in L. rewrite C3 in A, B. rewrite with_polys in A, B by exact N.
  split; unfold leaf; rewrite ?D1, ?D2, ?D3, ?D4, ?with_polys by exact N; rewrite ?E1, ?E2.
  - intros Lf id. destruct (L Lf id) as [L1 L2]. rewrite E4, E5, !count_app. lia.
  - intros id. rewrite E4. split.
    + intros H. destruct (Nat.eq_dec (interior (info_for (k_infos k) id)) 0) as [Z|Z].
      * assert (Hc : count_id id cs <> 0%nat) by lia. apply count_in in Hc as (b & I & Eb). exists b. split; [rewrite !in_app_iff; tauto|]. split; [exact Eb|]. exact (contents_inside w b (Fc b I)).
      * apply A in Z as (b & I & Z). exists b. split; [rewrite !in_app_iff in *; tauto|exact Z].
    + intros (b & I & Eb & T). assert (In b (k_contents k ++ k_border k ++ all_polys (n_neg t) ++ all_polys (n_pos t)) \/ In b cs \/ In b bs) as [I'|[I'|I']] by (rewrite !in_app_iff in *; tauto).
      * enough (interior (info_for (k_infos k) id) <> 0%nat) by lia. apply A. exists b. split; [exact I'|split; assumption].
      * enough (count_id id cs <> 0%nat) by lia. apply count_in. exists b. split; assumption.
      * exfalso. exact (not_both w b T (border_border w b (Fb b I'))).
  - intros id. rewrite E5. split.
    + intros H. destruct (Nat.eq_dec (border (info_for (k_infos k) id)) 0) as [Z|Z].
      * assert (Hc : count_id id bs <> 0%nat) by lia. apply count_in in Hc as (b & I & Eb). exists b. split; [rewrite !in_app_iff; tauto|]. split; [exact Eb|]. exact (border_border w b (Fb b I)).
      * apply B in Z as (b & I & Z). exists b. split; [rewrite !in_app_iff in *; tauto|exact Z].
    + intros (b & I & Eb & T). assert (In b (k_contents k ++ k_border k ++ all_polys (n_neg t) ++ all_polys (n_pos t)) \/ In b cs \/ In b bs) as [I'|[I'|I']] by (rewrite !in_app_iff in *; tauto).
      * enough (border (info_for (k_infos k) id) <> 0%nat) by lia. apply B. exists b. split; [exact I'|split; assumption].
      * exfalso. exact (not_both w b (contents_inside w b (Fc b I')) T).
      * enough (count_id id bs <> 0%nat) by lia. apply count_in. exists b. split; assumption.
Qed.
(** ** Subtrees *)
Definition sub_ok (w : path) (t : bnode) : Prop := t <> BNil /\ forall w' x, at_node t w' x -> node_ok (w ++ w') x.
Lemma sub_root w t : sub_ok w t -> node_ok w t.
Proof. intros [N H]. specialize (H [] t (at_root t N)). rewrite app_nil_r in H. exact H. Qed.
Lemma sub_neg w t : sub_ok w t -> n_neg t <> BNil -> sub_ok (w ++ [SS (n_split t) false]) (n_neg t).
Proof. intros [N H] M. split; [exact M|]. intros w' x A. rewrite <- app_assoc. cbn [app]. apply H. destruct t; [contradiction|]. apply at_neg. exact A. Qed.
Lemma sub_pos w t : sub_ok w t -> n_pos t <> BNil -> sub_ok (w ++ [SS (n_split t) true]) (n_pos t).
Proof. intros [N H] M. split; [exact M|]. intros w' x A. rewrite <- app_assoc. cbn [app]. apply H. destruct t; [contradiction|]. apply at_pos. exact A. Qed.
Lemma sub_make w t : t <> BNil -> node_ok w t -> (n_neg t <> BNil -> sub_ok (w ++ [SS (n_split t) false]) (n_neg t)) -> (n_pos t <> BNil -> sub_ok (w ++ [SS (n_split t) true]) (n_pos t)) -> sub_ok w t.
Proof.
  intros N Hr Hn Hp. split; [exact N|]. intros w' x A. destruct A as [t _|s cs bs infos n p w' x A|s cs bs infos n p w' x A].
  - rewrite app_nil_r. exact Hr.
  - cbn in Hn. assert (M : n <> BNil) by (intros ->; inversion A; congruence). change (SS s false :: w') with ([SS s false] ++ w'). rewrite app_assoc. apply (proj2 (Hn M)). exact A.
  - cbn in Hp. assert (M : p <> BNil) by (intros ->; inversion A; congruence). change (SS s true :: w') with ([SS s true] ++ w'). rewrite app_assoc. apply (proj2 (Hp M)). exact A.
Qed.
Lemma stored_okb w b : stored w b -> okb b.
Proof. intros S. exact (st_ok _ _ S). Qed.
Lemma list_okb w cs bs : Forall (in_contents w) cs -> Forall (in_border w) bs -> Forall okb (cs ++ bs).
Proof. intros A B. apply Forall_app. split; [eapply Forall_impl; [|exact A]|eapply Forall_impl; [|exact B]]; intros b [S _]; exact (stored_okb w b S). Qed.
Lemma sub_okb t : forall w, sub_ok w t -> Forall okb (all_polys t).
Proof.
  induction t as [|s cs bs infos n IHn p IHp]; intros w H; [constructor|]. pose proof (sub_root w _ H) as [A B _ _]. cbn [n_contents n_border] in A, B. cbn [all_polys]. rewrite app_assoc. apply Forall_app. split; [exact (list_okb w cs bs A B)|]. apply Forall_app. split.
  - destruct n as [|s' cs' bs' infos' n' p']; [constructor|]. exact (IHn _ (sub_neg w _ H ltac:(discriminate))).
  - destruct p as [|s' cs' bs' infos' n' p']; [constructor|]. exact (IHp _ (sub_pos w _ H ltac:(discriminate))).
Qed.
Lemma sub_path w t w' x : path_ok w -> sub_ok w t -> at_node t w' x -> path_ok (w ++ w').
Proof.
  intros P H A. revert w P H. induction A as [t _|s cs bs infos n p w' x A IH|s cs bs infos n p w' x A IH]; intros w P H.
  - rewrite app_nil_r. exact P.
  - assert (M : n <> BNil) by (intros ->; inversion A; congruence). change (SS s false :: w') with ([SS s false] ++ w'). rewrite app_assoc. apply IH; [|exact (sub_neg w _ H M)]. apply path_snoc; [exact P|]. destruct (no_split _ _ (sub_root w _ H)) as [(_ & E & _)|(F & _)]; [cbn in E; contradiction|exact F].
  - assert (M : p <> BNil) by (intros ->; inversion A; congruence). change (SS s true :: w') with ([SS s true] ++ w'). rewrite app_assoc. apply IH; [|exact (sub_pos w _ H M)]. apply path_snoc; [exact P|]. destruct (no_split _ _ (sub_root w _ H)) as [(_ & _ & E)|(F & _)]; [cbn in E; contradiction|exact F].
Qed.
(** A node whose own lists have not been pushed yet. *)
Record pre_ok (w : path) (t : bnode) : Prop := PreOk {
  pr_some : t <> BNil; pr_contents : Forall (in_contents w) (n_contents t); pr_border : Forall (in_border w) (n_border t); pr_counted : counted w t;
  pr_split : leaf t /\ n_neg t = BNil /\ n_pos t = BNil \/ fresh_plane w (n_split t) /\ sub_ok (w ++ [SS (n_split t) false]) (n_neg t) /\ sub_ok (w ++ [SS (n_split t) true]) (n_pos t) }.
Lemma pre_sub w t : pre_ok w t -> (leaf t \/ n_contents t = [] /\ n_border t = []) -> sub_ok w t.
Proof.
  intros [N A B C D] O. apply sub_make; [exact N| | |].
  - split; [exact A|exact B|exact C|]. destruct D as [D|(D & E & F)]; [left; exact D|]. right. destruct O as [O|[O1 O2]]; [exfalso; unfold leaf in O; destruct D as [D _]; congruence|]. destruct E as [E _], F as [F _]. repeat split; try assumption; apply D.
  - intros M. destruct D as [(_ & D & _)|(_ & D & _)]; [congruence|exact D].
  - intros M. destruct D as [(_ & _ & D)|(_ & _ & D)]; [congruence|exact D].
Qed.
Lemma sub_pre w t : sub_ok w t -> pre_ok w t.
Proof.
  intros H. destruct (sub_root w t H) as [A B C D]. split; [exact (proj1 H)|exact A|exact B|exact C|]. destruct D as [D|(D & _ & _ & E & F)]; [left; exact D|right]. split; [exact D|]. split; [exact (sub_neg w t H E)|exact (sub_pos w t H F)].
Qed.
Lemma pre_okb w t : pre_ok w t -> Forall okb (all_polys t).
Proof.
  intros [N A B _ D]. destruct t as [|s cs bs infos n p]; [contradiction|]. cbn [n_contents n_border n_split n_neg n_pos all_polys] in *. rewrite app_assoc. apply Forall_app. split; [exact (list_okb w cs bs A B)|]. apply Forall_app. destruct D as [(_ & -> & ->)|(_ & E & F)]; [split; constructor|]. split; [exact (sub_okb n _ E)|exact (sub_okb p _ F)].
Qed.
Lemma kid_of_some t : t <> BNil -> exists k, kid_of t = Ok k /\ with_kid t k = t.
Proof. destruct t; [congruence|]. intros _. eexists. split; reflexivity. Qed.
(** A child after it has received polygons. *)
Lemma pre_added w t k cs bs k' : pre_ok w (with_kid t k) -> t <> BNil -> added k cs bs k' -> Forall (in_contents w) cs -> Forall (in_border w) bs -> pre_ok w (with_kid t k').
Proof.
  intros [N A B C D] T Ad Fc Fb. destruct (with_fields t k T) as (C1 & C2 & C3 & C4 & C5 & C6 & _), (with_fields t k' T) as (D1 & D2 & D3 & D4 & D5 & D6 & D7). split; [exact D7| | | |].
  - rewrite D1, (ad_contents _ _ _ _ Ad). rewrite C1 in A. apply Forall_app. split; assumption.
  - rewrite D2, (ad_border _ _ _ _ Ad). rewrite C2 in B. apply Forall_app. split; assumption.
  - exact (counted_added w t k k' cs bs T C Ad Fc Fb).
  - unfold leaf in *. rewrite D4, D5, D6. rewrite C4, C5, C6 in D. exact D.
Qed.
Lemma knows_node s cs bs infos n p id : knows (BNode s cs bs infos n p) id <-> (id < length infos)%nat /\ knows n id /\ knows p id.
Proof.
  split.
  - intros K. split; [apply (K [] (BNode s cs bs infos n p)); apply at_root; discriminate|]. split; intros w x A; [exact (K _ x (at_neg _ _ _ _ _ _ _ _ A))|exact (K _ x (at_pos _ _ _ _ _ _ _ _ A))].
  - intros (A & B & C) w x At. inversion At; subst; [exact A|eapply B; eassumption|eapply C; eassumption].
Qed.
Lemma knows_nil id : knows BNil id.
Proof. intros w x A. inversion A. congruence. Qed.
Lemma info_length infos id : interior (info_for infos id) <> 0%nat \/ border (info_for infos id) <> 0%nat -> (id < length infos)%nat.
Proof. intros H. destruct (Nat.lt_ge_cases id (length infos)) as [L|L]; [exact L|]. unfold info_for in H. rewrite nth_overflow in H by exact L. cbn in H. lia. Qed.
Lemma leaf_knows w t a : counted w t -> leaf t -> n_neg t = BNil -> n_pos t = BNil -> In a (n_contents t ++ n_border t) -> knows t (bp_id a).
Proof.
  intros [C _ _] L E1 E2 I. destruct t as [|s cs bs infos n p]; [apply knows_nil|]. cbn in E1, E2, I. subst n p. apply knows_node. split; [|split; apply knows_nil]. destruct (C L (bp_id a)) as [C1 C2]. cbn [n_infos n_contents n_border] in C1, C2. apply info_length. apply in_app_or in I as [I|I].
  - left. rewrite C1. apply count_in. exists a. split; [exact I|reflexivity].
  - right. rewrite C2. apply count_in. exists a. split; [exact I|reflexivity].
Qed.
(** The outcome of a step on a subtree. *)
Record step (boxed : bool) (w : path) (t t' : bnode) : Prop := Step {
  sp_ok : sub_ok w t'; sp_cut : cut_up (all_polys t) (all_polys t'); sp_infos : n_infos t' = n_infos t; sp_box : boxes boxed (all_polys t'); sp_knows : forall id, knows t id -> knows t' id }.
Lemma step_refl boxed w t : sub_ok w t -> boxes boxed (all_polys t) -> step boxed w t t.
Proof. intros H B. split; [exact H|apply cut_up_refl; exact (sub_okb t w H)|reflexivity|exact B|intros id K; exact K]. Qed.
Lemma push_to_leaves_eq dbg s c b i n p k : push_to_leaves_from dbg (BNode s c b i n p) k =
  if (match k_contents k, k_border k with [], [] => true | _, _ => false end || bn_is_leaf s)%bool then Ok (with_kid (BNode s c b i n p) k) else
  (kn <- kid_of n ;; kp <- kid_of p ;; x <- push_all dbg s (k_contents k) (k_border k) (kn, kp) ;; n' <- push_to_leaves_from dbg n (fst x) ;; p' <- push_to_leaves_from dbg p (snd x) ;; Ok (BNode s [] [] (k_infos k) n' p')).
Proof. destruct k as [[|x cs] [|y bs] infos]; cbn; try reflexivity; destruct (bn_is_leaf s); reflexivity. Qed.
Lemma boxes_4 boxed (a b c d : list bpoly) : boxes boxed (a ++ b ++ c ++ d) <-> boxes boxed (a ++ b) /\ boxes boxed c /\ boxes boxed d.
Proof. rewrite app_assoc, !boxes_app. tauto. Qed.
Theorem push_leaves_ok boxed dbg t : forall w k, t <> BNil -> path_ok w -> pre_ok w (with_kid t k) -> boxes boxed (all_polys (with_kid t k)) -> Forall (fun b => knows (with_kid t k) (bp_id b)) (k_contents k ++ k_border k) ->
  good boxed (push_to_leaves_from dbg t k) (step boxed w (with_kid t k)).
Proof.
  induction t as [|s c b i n IHn p IHp]; intros w k N P Pr Bx Kn; [contradiction|]. rewrite push_to_leaves_eq. destruct (_ || _)%bool eqn:Ch.
  - cbn [good]. apply step_refl; [|exact Bx]. apply pre_sub; [exact Pr|]. apply orb_prop in Ch as [Ch|Ch].
    + right. cbn. destruct (k_contents k), (k_border k); try discriminate. split; reflexivity.
    + left. unfold leaf. cbn. unfold bn_is_leaf in Ch. destruct (hs_valid s); [discriminate|reflexivity].
  - apply orb_false_elim in Ch as [_ Lf]. destruct Pr as [_ Fc Fb Ct D]. cbn [with_kid n_contents n_border n_split n_neg n_pos all_polys] in *. destruct D as [(L & _)|(Fr & Sn & Sp)]; [unfold leaf in L; cbn in L; unfold bn_is_leaf in Lf; rewrite L in Lf; discriminate|].
    destruct (kid_of_some n (proj1 Sn)) as (kn & -> & En), (kid_of_some p (proj1 Sp)) as (kp & -> & Ep). cbn [rbind]. apply boxes_4 in Bx as (Bk & Bn & Bp).
    assert (Rm : Forall (fun b => room b (kn, kp)) (k_contents k ++ k_border k)).
    { eapply Forall_impl; [|exact Kn]. intros a Ka. apply knows_node in Ka as (_ & Ka & Kb). split; cbn [fst snd].
      - pose proof (Ka [] n (at_root n (proj1 Sn))) as X. rewrite <- En, (proj1 (proj2 (proj2 (with_fields n kn (proj1 Sn))))) in X. exact X.
      - pose proof (Kb [] p (at_root p (proj1 Sp))) as X. rewrite <- Ep, (proj1 (proj2 (proj2 (with_fields p kp (proj1 Sp))))) in X. exact X. }
    apply (good_bind boxed _ _ _ _ (push_all_ok boxed dbg w s (k_contents k) (k_border k) (kn, kp) P Fr Fc Fb Bk Rm)). intros [yn yp] [(dn & en & dp & ep & An & Ap & F1 & F2 & F3 & F4 & Cu & By & cm & Cm1 & Cm2 & Cm3)]. cbn [fst snd] in *.
    apply boxes_app in By as [Byn Byp].
    assert (IDn : forall a, In a (dn ++ en) -> exists a0, In a0 (k_contents k ++ k_border k) /\ bp_id a = bp_id a0).
    { intros a I. destruct (cut_from _ _ a Cu ltac:(apply in_or_app; left; exact I)) as (a0 & m & I0 & Pm & Im). exists a0. split; [exact I0|]. apply (pieces_same _ _ _ Pm Im). }
    assert (IDp : forall a, In a (dp ++ ep) -> exists a0, In a0 (k_contents k ++ k_border k) /\ bp_id a = bp_id a0).
    { intros a I. destruct (cut_from _ _ a Cu ltac:(apply in_or_app; right; exact I)) as (a0 & m & I0 & Pm & Im). exists a0. split; [exact I0|]. apply (pieces_same _ _ _ Pm Im). }
    pose proof (path_snoc w (SS s false) P Fr) as Pn. pose proof (path_snoc w (SS s true) P Fr) as Pp.
    rewrite Forall_forall in Kn.
    assert (Half : forall t kt yt d e c0, t <> BNil -> with_kid t kt = t -> sub_ok (w ++ [c0]) t -> added kt d e yt -> Forall (in_contents (w ++ [c0])) d -> Forall (in_border (w ++ [c0])) e -> boxes boxed (d ++ e) -> boxes boxed (all_polys t) -> (forall a, In a (d ++ e) -> knows t (bp_id a)) ->
      pre_ok (w ++ [c0]) (with_kid t yt) /\ boxes boxed (all_polys (with_kid t yt)) /\ Permutation (all_polys (with_kid t yt)) ((d ++ e) ++ all_polys t) /\ (forall id, knows t id -> knows (with_kid t yt) id) /\ Forall (fun a => knows (with_kid t yt) (bp_id a)) (k_contents yt ++ k_border yt)).
    { intros t kt yt d e c0 T Et So Ad Fd Fe Bd Bt Kd. pose proof (sub_pre _ _ So) as Pt. rewrite <- Et in Pt.
      assert (Pm : Permutation (all_polys (with_kid t yt)) ((d ++ e) ++ all_polys t)).
      { rewrite with_polys, (ad_contents _ _ _ _ Ad), (ad_border _ _ _ _ Ad) by exact T. rewrite <- Et at 3. rewrite with_polys by exact T. rewrite <- !app_assoc. eapply Permutation_trans; [apply Permutation_app_swap_app|]. apply Permutation_app_head.
        rewrite app_assoc. eapply Permutation_trans; [apply Permutation_app_swap_app|]. apply Permutation_app_head. rewrite <- app_assoc. apply Permutation_refl. }
      assert (Kt : forall id, knows t id -> knows (with_kid t yt) id).
      { intros id. rewrite <- Et at 1. destruct t as [|s1 c1 b1 i1 n1 p1]; [contradiction|]. cbn [with_kid]. rewrite !knows_node, (ad_length _ _ _ _ Ad). tauto. }
      pose proof (pre_added (w ++ [c0]) t kt d e yt Pt T Ad Fd Fe) as Py.
      split; [exact Py|]. split; [apply (boxes_perm boxed _ _ (Permutation_sym Pm)); apply boxes_app; split; assumption|]. split; [exact Pm|]. split; [exact Kt|].
      destruct (with_fields t yt T) as (D1 & D2 & D3 & D4 & D5 & D6 & D7). apply Forall_forall. intros a Ia. destruct (no_split _ _ (sub_root _ _ So)) as [(L & L1 & L2)|(_ & Z1 & Z2 & _)].
      - apply (leaf_knows (w ++ [c0])); [exact (pr_counted _ _ Py)|unfold leaf; rewrite D4; exact L|rewrite D5; exact L1|rewrite D6; exact L2|rewrite D1, D2; exact Ia].
      - apply Kt, Kd. rewrite <- Et in Z1, Z2. destruct (with_fields t kt T) as (C1 & C2 & _). rewrite C1 in Z1. rewrite C2 in Z2. rewrite (ad_contents _ _ _ _ Ad), (ad_border _ _ _ _ Ad), Z1, Z2 in Ia. exact Ia. }
    destruct (Half n kn yn dn en (SS s false) (proj1 Sn) En Sn An F1 F2 Byn Bn) as (H1 & H2 & H3 & H4 & H5). { intros a I. destruct (IDn a I) as (a0 & I0 & ->). specialize (Kn a0 I0). apply knows_node in Kn. apply Kn. }
    destruct (Half p kp yp dp ep (SS s true) (proj1 Sp) Ep Sp Ap F3 F4 Byp Bp) as (G1 & G2 & G3 & G4 & G5). { intros a I. destruct (IDp a I) as (a0 & I0 & ->). specialize (Kn a0 I0). apply knows_node in Kn. apply Kn. }
    clear Half.
    apply (good_bind boxed _ _ _ _ (IHn _ yn (proj1 Sn) Pn H1 H2 H5)). intros n' [N1 N2 N3 N4 N5].
    apply (good_bind boxed _ _ _ _ (IHp _ yp (proj1 Sp) Pp G1 G2 G5)). intros p' [M1 M2 M3 M4 M5]. cbn [good].
    assert (Cut : cut_up (k_contents k ++ k_border k ++ all_polys n ++ all_polys p) (all_polys n' ++ all_polys p')).
    { rewrite app_assoc. apply (cut_up_trans _ (((dn ++ en) ++ (dp ++ ep)) ++ (all_polys n ++ all_polys p))).
      - apply cut_up_app; [exact Cu|]. apply cut_up_refl. apply Forall_app. split; [exact (sub_okb n _ Sn)|exact (sub_okb p _ Sp)].
      - apply (cut_up_perm_l (((dn ++ en) ++ all_polys n) ++ ((dp ++ ep) ++ all_polys p))); [apply swap_middle|]. apply cut_up_app; [exact (cut_up_perm_l _ _ _ H3 N2)|exact (cut_up_perm_l _ _ _ G3 M2)]. }
    assert (Okn : Forall okb (all_polys n' ++ all_polys p')) by (apply Forall_app; split; [exact (sub_okb n' _ N1)|exact (sub_okb p' _ M1)]).
    assert (Okk : Forall okb (k_contents k ++ k_border k ++ all_polys n ++ all_polys p)) by (rewrite app_assoc; apply Forall_app; split; [exact (list_okb w _ _ Fc Fb)|]; apply Forall_app; split; [exact (sub_okb n _ Sn)|exact (sub_okb p _ Sp)]).
    split.
    + apply pre_sub; [|right; split; reflexivity]. split; cbn [n_contents n_border n_split n_neg n_pos]; [discriminate|constructor|constructor| |right; split; [exact Fr|split; [exact N1|exact M1]]].
      pose proof (counts_cut w _ _ _ P Okk Okn Cut (counts_of _ _ Ct)) as Cn. cbn [n_infos with_kid] in Cn. split; cbn [n_infos n_contents n_border all_polys app].
      * intros L. exfalso. unfold leaf in L. cbn in L. destruct Fr as [Fr _]. congruence.
      * intros id. exact (proj1 (Cn id)).
      * intros id. exact (proj2 (Cn id)).
    + exact Cut.
    + reflexivity.
    + cbn [all_polys app]. apply boxes_app. split; assumption.
    + intros id. rewrite !knows_node. intros (K1 & K2 & K3). split; [exact K1|]. split; [apply N5, H4, K2|apply M5, G4, K3].
Qed.
(** ** Split *)
Lemma set_pwn_info infos id : interior (info_for (set_pwn infos) id) = 0%nat /\ border (info_for (set_pwn infos) id) = 0%nat.
Proof.
  unfold info_for, set_pwn. pose proof (map_nth (fun c => CI 0 0 (pwn c)) infos (CI 0 0 0) id) as E. cbn [pwn] in E. rewrite E. split; reflexivity.
Qed.
Lemma new_child w infos : pre_ok w (BNode no_plane [] [] (set_pwn infos) BNil BNil).
Proof.
  split; cbn; [discriminate|constructor|constructor| |left; repeat split]. split; cbn [n_infos n_contents n_border all_polys app].
  - intros _ id. exact (set_pwn_info infos id).
  - intros id. rewrite (proj1 (set_pwn_info infos id)). split; [congruence|intros (b & [] & _)].
  - intros id. rewrite (proj2 (set_pwn_info infos id)). split; [congruence|intros (b & [] & _)].
Qed.
Record split_result (boxed : bool) (w : path) (h : hspace3) (t t' : bnode) : Prop := SplitResult {
  sr_step : step boxed w t t'; sr_plane : n_split t' = h; sr_leaves : leaf (n_neg t') /\ leaf (n_pos t');
  sr_less : (length (n_contents (n_neg t')) <= length (n_contents t))%nat /\ (length (n_contents (n_pos t')) <= length (n_contents t))%nat;
  sr_progress : (exists b, In b (n_contents t) /\ same_plane h (pplane (bp_poly b))) -> (length (n_contents (n_neg t')) < length (n_contents t))%nat /\ (length (n_contents (n_pos t')) < length (n_contents t))%nat }.
Lemma off_contents w cs bs : Forall (in_contents w) cs -> Forall (in_border w) bs -> off (cs ++ bs) = length cs.
Proof.
  intros F G. rewrite off_app. assert (A : off cs = length cs). { unfold off. induction F as [|b cs [_ E] F IH]; [reflexivity|]. cbn [List.filter]. rewrite E. cbn [length]. lia. }
  assert (B : off bs = 0%nat). { unfold off. clear - G. induction G as [|b bs [_ E] G IH]; [reflexivity|]. cbn [List.filter]. destruct (bp_on b); [exact IH|contradiction]. }
  lia.
Qed.
Theorem split_ok boxed dbg w t h : path_ok w -> sub_ok w t -> leaf t -> fresh_plane w h -> boxes boxed (all_polys t) -> good boxed (bn_split dbg h t) (split_result boxed w h t).
Proof.
  intros P H L Fr Bx. pose proof (sub_root w t H) as [Fc Fb Ct D]. destruct t as [|s cs bs infos n p]; [destruct H; contradiction|]. destruct D as [(_ & En & Ep)|(D & _)]; [|exfalso; destruct D as [D _]; unfold leaf in L; cbn in *; congruence]. cbn [n_neg n_pos n_contents n_border] in *. subst n p.
  unfold bn_split. rewrite (proj1 Fr). unfold bn_is_leaf at 1. unfold leaf in L. cbn [n_split] in L. rewrite L. cbn [negb]. rewrite !check_true. cbn [rbind push_to_children kid_of]. unfold bn_is_leaf. rewrite (proj1 Fr). cbn [negb].
  cbn [all_polys] in Bx. rewrite !app_nil_r in Bx. set (child := BNode no_plane [] [] (set_pwn infos) BNil BNil). set (k := Kid [] [] (set_pwn infos)).
  assert (Rm : Forall (fun b => room b (k, k)) (cs ++ bs)).
  { apply Forall_forall. intros a I. pose proof (leaf_knows w _ a Ct L eq_refl eq_refl I) as K. apply knows_node in K as [K _]. split; cbn; unfold set_pwn; rewrite map_length; exact K. }
  apply (good_bind boxed _ _ _ _ (push_all_ok boxed dbg w h cs bs (k, k) P Fr Fc Fb Bx Rm)). intros [yn yp] [(dn & en & dp & ep & An & Ap & F1 & F2 & F3 & F4 & Cu & By & cm & Cm1 & Cm2 & Cm3)]. cbn [fst snd good] in *. apply boxes_app in By as [Byn Byp].
  assert (Half : forall c0 y d e, added k d e y -> Forall (in_contents (w ++ [c0])) d -> Forall (in_border (w ++ [c0])) e -> sub_ok (w ++ [c0]) (with_kid child y) /\ all_polys (with_kid child y) = d ++ e).
  { intros c0 y d e Ad Fd Fe. split.
    - apply pre_sub; [|left; reflexivity]. exact (pre_added (w ++ [c0]) child k d e y (new_child (w ++ [c0]) infos) ltac:(discriminate) Ad Fd Fe).
    - unfold child. cbn. rewrite (ad_contents _ _ _ _ Ad), (ad_border _ _ _ _ Ad). cbn. rewrite !app_nil_r. reflexivity. }
  destruct (Half (SS h false) yn dn en An F1 F2) as [N1 N2]. destruct (Half (SS h true) yp dp ep Ap F3 F4) as [M1 M2]. clear Half.
  assert (Cut : cut_up (cs ++ bs ++ [] ++ []) (all_polys (with_kid child yn) ++ all_polys (with_kid child yp))) by (rewrite N2, M2; cbn [app]; rewrite app_nil_r; exact Cu).
  assert (Len : length (n_contents (with_kid child yn)) = length dn /\ length (n_contents (with_kid child yp)) = length dp) by (unfold child; cbn; rewrite (ad_contents _ _ _ _ An), (ad_contents _ _ _ _ Ap); split; reflexivity).
  rewrite (off_contents w cs bs Fc Fb) in Cm1, Cm2.
  assert (Small : (length (n_contents (with_kid child yn)) <= length cs)%nat /\ (length (n_contents (with_kid child yp)) <= length cs)%nat) by lia.
  assert (Less : (exists b, In b cs /\ same_plane h (pplane (bp_poly b))) -> (length (n_contents (with_kid child yn)) < length cs)%nat /\ (length (n_contents (with_kid child yp)) < length cs)%nat).
  { intros (b & Ib & Sb). rewrite Forall_forall in Fc. assert (1 <= cm)%nat by (apply Cm3; exists b; split; [apply in_or_app; left; exact Ib|split; [apply (Fc b Ib)|exact Sb]]). lia. }
  split; [|reflexivity|split; reflexivity|exact Small|exact Less]. split.
  - apply pre_sub; [|right; split; reflexivity]. split; cbn [n_contents n_border n_split n_neg n_pos]; [discriminate|constructor|constructor| |right; split; [exact Fr|split; [exact N1|exact M1]]].
    assert (Okn : Forall okb (all_polys (with_kid child yn) ++ all_polys (with_kid child yp))) by (apply Forall_app; split; [exact (sub_okb _ _ N1)|exact (sub_okb _ _ M1)]).
    assert (Okk : Forall okb (cs ++ bs ++ [] ++ [])) by (cbn [app]; rewrite app_nil_r; exact (list_okb w _ _ Fc Fb)).
    pose proof (counts_cut w _ _ _ P Okk Okn Cut (counts_of _ _ Ct)) as Cn. cbn [n_infos] in Cn. split; cbn [n_infos n_contents n_border all_polys app].
    + intros Lf. exfalso. unfold leaf in Lf. cbn in Lf. destruct Fr as [Fr _]. congruence.
    + intros id. exact (proj1 (Cn id)).
    + intros id. exact (proj2 (Cn id)).
  - exact Cut.
  - reflexivity.
  - cbn [all_polys app]. apply boxes_app. rewrite N2, M2. split; assumption.
  - intros id. rewrite !knows_node. intros (K1 & _ & _). split; [exact K1|]. unfold child. cbn [with_kid]. rewrite !knows_node. pose proof (ad_length _ _ _ _ An) as E1. pose proof (ad_length _ _ _ _ Ap) as E2. cbn in E1, E2. unfold set_pwn in E1, E2. rewrite map_length in E1, E2. rewrite E1, E2. repeat split; try exact K1; apply knows_nil.
Qed.
(** ** A change of one node *)
Theorem at_path_ok boxed (f : bnode -> res bnode) t w' x : at_node t w' x -> forall w, path_ok w -> sub_ok w t -> boxes boxed (all_polys t) -> (boxes boxed (all_polys x) -> good boxed (f x) (step boxed (w ++ w') x)) ->
  good boxed (at_path (map ss_pos w') f t) (step boxed w t).
Proof.
  intros A. induction A as [t N|s cs bs infos n p w' x A IH|s cs bs infos n p w' x A IH]; intros w P H Bx F.
  - cbn [map at_path]. rewrite app_nil_r in F. destruct t; apply F; exact Bx.
  - assert (M : n <> BNil) by (intros ->; inversion A; congruence). pose proof (sub_root w _ H) as [_ _ Ct D]. cbn [n_split n_contents n_border n_neg n_pos] in D. destruct D as [(_ & E & _)|(Fr & E1 & E2 & _ & Q)]; [contradiction|]. subst cs bs. cbn [all_polys app] in Bx. apply boxes_app in Bx as [Bn Bp].
    pose proof (sub_neg w _ H M) as Sn. pose proof (sub_pos w _ H Q) as Sp. cbn [n_split n_neg n_pos] in Sn, Sp. cbn [map at_path ss_pos]. 
    apply (good_bind boxed _ _ (step boxed (w ++ [SS s false]) n)); [apply IH; [exact (path_snoc w (SS s false) P Fr)|exact Sn|exact Bn|rewrite <- app_assoc; exact F]|]. intros n' [N1 N2 N3 N4 N5]. cbn [good].
    assert (Cut : cut_up (all_polys n ++ all_polys p) (all_polys n' ++ all_polys p)) by (apply cut_up_app; [exact N2|apply cut_up_refl; exact (sub_okb p _ Sp)]).
    split; cbn [all_polys app n_infos]; [|exact Cut|reflexivity|apply boxes_app; split; assumption|].
    + apply pre_sub; [|right; split; reflexivity]. split; cbn [n_contents n_border n_split n_neg n_pos]; [discriminate|constructor|constructor| |right; split; [exact Fr|split; [exact N1|exact Sp]]].
      assert (O1 : Forall okb (all_polys n ++ all_polys p)) by (apply Forall_app; split; [exact (sub_okb _ _ Sn)|exact (sub_okb _ _ Sp)]). assert (O2 : Forall okb (all_polys n' ++ all_polys p)) by (apply Forall_app; split; [exact (sub_okb _ _ N1)|exact (sub_okb _ _ Sp)]).
      pose proof (counts_cut w _ _ _ P O1 O2 Cut (counts_of _ _ Ct)) as Cn. cbn [n_infos] in Cn. split; cbn [n_infos n_contents n_border all_polys app]; [intros Lf; exfalso; unfold leaf in Lf; cbn in Lf; destruct Fr; congruence|intros id; exact (proj1 (Cn id))|intros id; exact (proj2 (Cn id))].
    + intros id. rewrite !knows_node. intros (K1 & K2 & K3). split; [exact K1|]. split; [exact (N5 id K2)|exact K3].
  - assert (M : p <> BNil) by (intros ->; inversion A; congruence). pose proof (sub_root w _ H) as [_ _ Ct D]. cbn [n_split n_contents n_border n_neg n_pos] in D. destruct D as [(_ & _ & E)|(Fr & E1 & E2 & Q & _)]; [contradiction|]. subst cs bs. cbn [all_polys app] in Bx. apply boxes_app in Bx as [Bn Bp].
    pose proof (sub_neg w _ H Q) as Sn. pose proof (sub_pos w _ H M) as Sp. cbn [n_split n_neg n_pos] in Sn, Sp. cbn [map at_path ss_pos]. 
    apply (good_bind boxed _ _ (step boxed (w ++ [SS s true]) p)); [apply IH; [exact (path_snoc w (SS s true) P Fr)|exact Sp|exact Bp|rewrite <- app_assoc; exact F]|]. intros p' [N1 N2 N3 N4 N5]. cbn [good].
    assert (Cut : cut_up (all_polys n ++ all_polys p) (all_polys n ++ all_polys p')) by (apply cut_up_app; [apply cut_up_refl; exact (sub_okb n _ Sn)|exact N2]).
    split; cbn [all_polys app n_infos]; [|exact Cut|reflexivity|apply boxes_app; split; assumption|].
    + apply pre_sub; [|right; split; reflexivity]. split; cbn [n_contents n_border n_split n_neg n_pos]; [discriminate|constructor|constructor| |right; split; [exact Fr|split; [exact Sn|exact N1]]].
      assert (O1 : Forall okb (all_polys n ++ all_polys p)) by (apply Forall_app; split; [exact (sub_okb _ _ Sn)|exact (sub_okb _ _ Sp)]). assert (O2 : Forall okb (all_polys n ++ all_polys p')) by (apply Forall_app; split; [exact (sub_okb _ _ Sn)|exact (sub_okb _ _ N1)]).
      pose proof (counts_cut w _ _ _ P O1 O2 Cut (counts_of _ _ Ct)) as Cn. cbn [n_infos] in Cn. split; cbn [n_infos n_contents n_border all_polys app]; [intros Lf; exfalso; unfold leaf in Lf; cbn in Lf; destruct Fr; congruence|intros id; exact (proj1 (Cn id))|intros id; exact (proj2 (Cn id))].
    + intros id. rewrite !knows_node. intros (K1 & K2 & K3). split; [exact K1|]. split; [exact K2|exact (N5 id K3)].
Qed.
(** ** Adding polygons *)
Lemma pieces_box q t t' i o o' l : pieces (BP q t i o) l -> pieces (BP q t' i o') l.
Proof. intros [A B C D]. split; [exact A|exact B|exact C|exact D]. Qed.
Lemma fresh_okb id p qs : poly_ok p qs -> poly_ok (bp_poly (fresh_poly id p)) qs.
Proof. intros H. unfold fresh_poly. cbn [bp_poly]. apply poly_ok_shape; [exact H|rewrite map_map; reflexivity]. Qed.
Lemma track_quiet vs : quiet (track vs).
Proof.
  unfold track. destruct vs as [|v vs]; [exact I|]. destruct (scan (v :: vs)) as [mins maxs]. apply quiet_bind.
  - unfold max_denominator. repeat (apply quiet_bind; [apply zabs_quiet|intros ?]). exact I.
  - intros den. apply quiet_bind; [|intros; exact I]. unfold approximate_extremes, bound_min, bound_max. repeat (apply quiet_bind; [apply round_quiet|intros ?]). exact I.
Qed.
Lemma bp_new_ok boxed id p qs : poly_ok p qs -> good boxed (bp_new boxed id p) (fun b => in_contents [] b /\ boxes boxed [b] /\ bp_id b = id /\ pieces (fresh_poly id p) [b]).
Proof.
  intros H. pose proof (fresh_okb id p qs H) as Hq. set (q := bp_poly (fresh_poly id p)) in *.
  assert (Core : forall t, (forall t', t = Some t' -> tracks t' (map pv (pedges q))) -> in_contents [] (BP q t id None) /\ bp_id (BP q t id None) = id /\ pieces (fresh_poly id p) [BP q t id None]).
  { intros t Ht. split; [|split; [reflexivity|]].
    - split; [|reflexivity]. split.
      + exists qs. exact Hq.
      + intros x _. constructor.
      + split; constructor.
      + discriminate.
      + intros i u v d (qs' & e & _ & E & <- & _). unfold q, fresh_poly in E. cbn [bp_poly pedges] in E. apply nth_error_In, in_map_iff in E as (e0 & <- & _). cbn [pd]. split; cbn; [constructor|constructor|constructor|discriminate].
      + intros t' E. apply Ht. exact E.
    - apply (pieces_box q t None id None None). apply (pieces_refl (BP q t id None) qs). exact Hq. }
  unfold bp_new. change (Poly (pplane p) (pdrop p) (map (fun e : pedge unit => PE (pv e) (pl e) bd_new) (pedges p))) with q. destruct boxed.
  - pose proof (track_quiet (map pv (pedges p))) as Qt. destruct (track (map pv (pedges p))) as [t| | |] eqn:E; try contradiction; cbn [rbind good]; [|reflexivity].
    destruct (Core (Some t)) as (A & B & C). { intros t' [= <-]. assert (Ev : map pv (pedges q) = map pv (pedges p)) by (unfold q, fresh_poly; cbn [bp_poly pedges]; rewrite map_map; reflexivity). rewrite Ev. pose proof (ok_n _ _ H) as Nn. apply track_spec; [|intros Z; apply map_eq_nil in Z; unfold pcount in Nn; rewrite Z in Nn; cbn in Nn; lia|exact E].
      pose proof (po_vertices _ _ H) as V. clear - V. unfold finite. induction V as [|e q0 es qs0 D V IH]; [constructor|]. constructor; [apply D|exact IH]. }
    split; [exact A|]. split; [intros X; discriminate|]. split; [exact B|exact C].
  - cbn [rbind good]. destruct (Core None) as (A & B & C); [discriminate|]. split; [exact A|]. split; [intros _; constructor; [reflexivity|constructor]|]. split; [exact B|exact C].
Qed.
Lemma at_id_put cs bs infos b : (i <- at_id infos (bp_id b) add_interior ;; Ok (Kid (cs ++ [b]) bs i)) = put_contents (Kid cs bs infos) b.
Proof. unfold put_contents. reflexivity. Qed.
Lemma grown_info infos m id : info_for (infos ++ repeat ci_empty m) id = info_for infos id.
Proof.
  unfold info_for. destruct (Nat.lt_ge_cases id (length infos)) as [L|L]; [apply app_nth1; exact L|]. rewrite app_nth2 by exact L. rewrite (nth_overflow infos) by exact L. generalize (id - length infos)%nat as j. clear. induction m as [|m IH]; intros j; destruct j; cbn; try reflexivity. apply IH.
Qed.
Record grown (boxed : bool) (id : nat) (ps : list (poly unit)) (t t1 : bnode) : Prop := Grown {
  gr_pre : pre_ok [] t1; gr_new : exists new, n_contents t1 = n_contents t ++ new /\ cut_up (map (fresh_poly id) ps) new /\ Forall (fun b => bp_id b = id) new /\ boxes boxed new;
  gr_border : n_border t1 = n_border t; gr_split : n_split t1 = n_split t; gr_neg : n_neg t1 = n_neg t; gr_pos : n_pos t1 = n_pos t; gr_length : (length (n_infos t) <= length (n_infos t1))%nat }.
Lemma grown_refl boxed id t : pre_ok [] t -> grown boxed id [] t t.
Proof. intros P. split; try reflexivity; [exact P|]. exists []. rewrite app_nil_r. split; [reflexivity|]. split; [exact cut_up_nil|]. split; [constructor|intros _; constructor]. Qed.
Lemma grown_trans boxed id ps ps' t t1 t2 : grown boxed id ps t t1 -> grown boxed id ps' t1 t2 -> grown boxed id (ps ++ ps') t t2.
Proof.
  intros [A1 (n1 & A2 & A3 & A4 & A5) A6 A7 A8 A9 A10] [B1 (n2 & B2 & B3 & B4 & B5) B6 B7 B8 B9 B10]. split; [exact B1| |congruence|congruence|congruence|congruence|lia]. exists (n1 ++ n2). split; [rewrite B2, A2, app_assoc; reflexivity|]. split; [rewrite map_app; apply cut_up_app; assumption|]. split; [apply Forall_app; split; assumption|apply boxes_app; split; assumption].
Qed.
Lemma add_root_ok boxed id p qs t : pre_ok [] t -> poly_ok p qs -> good boxed (add_root_content boxed id p t) (grown boxed id [p] t).
Proof.
  intros Pr H. destruct t as [|s cs bs infos n q]; [destruct (pr_some _ _ Pr); reflexivity|]. unfold add_root_content. apply (good_bind boxed _ _ _ _ (bp_new_ok boxed id p qs H)). intros b (Ib & Bb & Eid & Pc). cbv zeta.
  set (infos1 := if length infos <=? id then infos ++ repeat ci_empty (id + 1 - length infos) else infos).
  assert (Same : forall j, info_for infos1 j = info_for infos j) by (intros j; unfold infos1; destruct (_ <=? _)%nat; [apply grown_info|reflexivity]).
  assert (Len : (id < length infos1)%nat /\ (length infos <= length infos1)%nat) by (unfold infos1; destruct (Nat.leb_spec (length infos) id); [rewrite app_length, repeat_length|]; lia).
  assert (Pr1 : pre_ok [] (with_kid (BNode s cs bs infos n q) (Kid cs bs infos1))).
  { destruct Pr as [_ A B [C1 C2 C3] D]. cbn [with_kid k_contents k_border k_infos]. split; [discriminate|exact A|exact B| |exact D]. split; cbn [n_infos n_contents n_border all_polys] in *; [intros L j|intros j|intros j]; rewrite Same; [exact (C1 L j)|exact (C2 j)|exact (C3 j)]. }
  destruct (put_contents_ok (Kid cs bs infos1) b) as (k' & Ek & Ad); [rewrite Eid; exact (proj1 Len)|]. rewrite <- at_id_put in Ek. rewrite Eid in Ek.
  destruct (at_id infos1 id add_interior) as [infos2| | |]; try discriminate. cbn [rbind] in *. injection Ek as <-. cbn [good].
  pose proof (pre_added [] _ _ [b] [] _ Pr1 ltac:(discriminate) Ad (Forall_cons b Ib (Forall_nil _)) (Forall_nil _)) as Pr2. cbn [with_kid k_contents k_border k_infos] in Pr2.
  split; cbn [n_contents n_border n_split n_neg n_pos n_infos]; try reflexivity; [exact Pr2| |].
  - exists [b]. split; [reflexivity|]. split; [apply cut_up_one; exact Pc|]. split; [constructor; [exact Eid|constructor]|exact Bb].
  - pose proof (ad_length _ _ _ _ Ad) as E. cbn in E. lia.
Qed.
Lemma add_roots_ok boxed id ps : Forall (fun p => exists qs, poly_ok p qs) ps -> forall t, pre_ok [] t -> good boxed (rfold (add_root_content boxed id) ps t) (grown boxed id ps t).
Proof.
  intros F. induction F as [|p ps [qs H] F IH]; intros t Pr; cbn [rfold]; [apply grown_refl; exact Pr|]. apply (good_bind boxed _ _ _ _ (add_root_ok boxed id p qs t Pr H)). intros t1 G. apply (good_mono boxed _ (grown boxed id ps t1)); [|apply IH; exact (gr_pre _ _ _ _ _ G)]. intros t2 G2. exact (grown_trans boxed id [p] ps t t1 t2 G G2).
Qed.
Lemma tree_ok_sub t : tree_ok t <-> sub_ok [] t.
Proof. unfold tree_ok, sub_ok. cbn [app]. reflexivity. Qed.
Lemma path_ok_nil : path_ok [].
Proof. intros l s r E. destruct l; discriminate. Qed.
Theorem add_ok boxed dbg id ps t : tree_ok t -> boxes boxed (all_polys t) -> Forall (fun p => exists qs, poly_ok p qs) ps -> (leaf t \/ knows t id) ->
  good boxed (add_contents dbg boxed id ps t) (fun t' => tree_ok t' /\ cut_up (all_polys t ++ map (fresh_poly id) ps) (all_polys t') /\ boxes boxed (all_polys t') /\ forall j, knows t j -> knows t' j).
Proof.
  intros T Bx F Lk. apply tree_ok_sub in T. unfold add_contents. apply (good_bind boxed _ _ _ _ (add_roots_ok boxed id ps F t (sub_pre [] t T))). intros t1 [G1 (new & G2 & G3 & G4 & G5) G6 G7 G8 G9 G10].
  unfold push_to_leaves. destruct (kid_of_some t1 (pr_some _ _ G1)) as (k & -> & Ek). cbn [rbind].
  assert (Pm : Permutation (all_polys t1) (new ++ all_polys t)).
  { assert (Al : forall x, x <> BNil -> all_polys x = n_contents x ++ n_border x ++ all_polys (n_neg x) ++ all_polys (n_pos x)) by (intros [|] X; [contradiction|reflexivity]). rewrite (Al t1 (pr_some _ _ G1)), (Al t (proj1 T)), G2, G6, G8, G9, <- app_assoc. apply Permutation_app_swap_app. }
  assert (Kn : forall j, knows t j -> knows t1 j).
  { intros j. destruct t as [|s cs bs infos n q]; [destruct (proj1 T); reflexivity|]. destruct t1 as [|s1 cs1 bs1 infos1 n1 q1]; [destruct (pr_some _ _ G1); reflexivity|]. cbn in G8, G9, G10. subst n1 q1. rewrite !knows_node. intros (A & B & C). split; [lia|split; assumption]. }
  pose proof (with_fields t1 k (pr_some _ _ G1)) as (C1 & C2 & C3 & C4 & C5 & C6 & _). rewrite Ek in *.
  apply (good_mono boxed _ (step boxed [] t1)).
  - intros t' [S1 S2 S3 S4 S5]. split; [apply tree_ok_sub; exact S1|]. split; [|split; [exact S4|intros j K; apply S5, Kn, K]].
    apply (cut_up_trans _ (all_polys t1)); [|exact S2]. apply (cut_up_perm _ (all_polys t ++ new)); [|eapply Permutation_trans; [apply Permutation_app_comm|apply Permutation_sym; exact Pm]]. apply cut_up_app; [apply cut_up_refl; exact (sub_okb t [] T)|exact G3].
  - rewrite <- Ek at 2. apply push_leaves_ok; [exact (pr_some _ _ G1)|exact path_ok_nil|rewrite Ek; exact G1|rewrite Ek; apply (boxes_perm boxed _ _ (Permutation_sym Pm)); apply boxes_app; split; assumption|].
    rewrite Ek, <- C1, <- C2. apply Forall_forall. intros a Ia. destruct (pr_split _ _ G1) as [(L & L1 & L2)|(Fr & _)]; [exact (leaf_knows [] t1 a (pr_counted _ _ G1) L L1 L2 Ia)|].
    assert (Nl : ~ leaf t) by (unfold leaf; rewrite <- G7, (proj1 Fr); discriminate). destruct (no_split _ _ (sub_root [] t T)) as [(L & _)|(_ & Z1 & Z2 & _)]; [contradiction|]. rewrite G2, G6, Z1, Z2, app_nil_r in Ia. cbn [app] in Ia. rewrite Forall_forall in G4. rewrite (G4 a Ia). destruct Lk as [Lk|Lk]; [contradiction|exact (Kn id Lk)].
Qed.
(** ** Histories *)
Theorem op_ok boxed dbg o t : tree_ok t -> boxes boxed (all_polys t) -> legal t o ->
  good boxed (do_op dbg boxed o t) (fun t' => tree_ok t' /\ cut_up (all_polys t ++ added_polys [o]) (all_polys t') /\ boxes boxed (all_polys t') /\ forall j, knows t j -> knows t' j).
Proof.
  intros T Bx Lg. destruct o as [id ps|ds h]; cbn [do_op].
  - unfold added_polys. cbn [flat_map]. rewrite app_nil_r. apply add_ok; try assumption; apply Lg.
  - destruct Lg as (w & x & (A & <-) & L & Fr). unfold added_polys. cbn [flat_map app]. rewrite app_nil_r. apply tree_ok_sub in T.
    apply (good_mono boxed _ (step boxed [] t)); [intros t' [S1 S2 S3 S4 S5]; split; [apply tree_ok_sub; exact S1|split; [exact S2|split; assumption]]|].
    apply (at_path_ok boxed (bn_split dbg h) t w x A [] path_ok_nil T Bx). intros Bxx. cbn [app]. apply (good_mono boxed _ (split_result boxed w h x)); [intros t' S; exact (sr_step _ _ _ _ _ S)|].
    apply split_ok; [exact (sub_path [] t w x path_ok_nil T A)| |exact L|exact Fr|exact Bxx].
    assert (N : x <> BNil) by (clear - A; induction A; assumption). split; [exact N|]. intros w' y A'. apply (proj2 T (w ++ w') y). clear - A A'. cbn [app]. induction A; cbn [app]; [exact A'|apply at_neg; auto|apply at_pos; auto].
Qed.
Theorem run_ok boxed dbg ops : forall t, tree_ok t -> boxes boxed (all_polys t) -> legal_ops dbg boxed ops t ->
  good boxed (run_ops dbg boxed ops t) (fun t' => tree_ok t' /\ cut_up (all_polys t ++ added_polys ops) (all_polys t') /\ boxes boxed (all_polys t') /\ forall j, knows t j -> knows t' j).
Proof.
  induction ops as [|o ops IH]; intros t T Bx Lg; unfold run_ops; cbn [rfold].
  - cbn [good]. unfold added_polys. cbn [flat_map]. rewrite app_nil_r. split; [exact T|]. split; [apply cut_up_refl; apply (sub_okb t []); apply tree_ok_sub; exact T|]. split; [exact Bx|auto].
  - destruct Lg as [Lo Lr]. pose proof (op_ok boxed dbg o t T Bx Lo) as G. destruct (do_op dbg boxed o t) as [t1| | |] eqn:E; cbn [good rbind] in *; try assumption. destruct G as (G1 & G2 & G3 & G4).
    apply (good_mono boxed _ (fun t' => tree_ok t' /\ cut_up (all_polys t1 ++ added_polys ops) (all_polys t') /\ boxes boxed (all_polys t') /\ forall j, knows t1 j -> knows t' j)); [|apply IH; [exact G1|exact G3|apply Lr; reflexivity]].
    intros t' (A & B & C & D). split; [exact A|]. split; [|split; [exact C|intros j K; apply D, G4, K]]. apply cut_up_app_inv in B as (m1 & m2 & B1 & B2 & Pm). apply (cut_up_perm _ (m1 ++ m2)); [|apply Permutation_sym; exact Pm].
    change (added_polys (o :: ops)) with (added_polys ([o] ++ ops)). unfold added_polys. rewrite flat_map_app, app_assoc. apply cut_up_app; [exact (cut_up_trans _ _ _ G2 B1)|exact B2].
Qed.
