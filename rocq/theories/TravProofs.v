(** Proofs about BSPTraverser: the walk and the tree. *)
From Coq Require Import List Bool Arith ZArith QArith Lqa Lia ZifyBool Permutation.
From Verif Require Import BigUIntModel GeoModel GeoSpec GeoProofs GeoBridge CvxSpec PolyModel PolySpec RTransModel FilterModel FilterSpec FilterProofs BspModel BspSpec BspHistSpec BspGeoProofs BspPolyProofs BspTreeProofs BspHistProofs BspAutoProofs PartModel PartSpec PartGeoProofs PartProofs TravModel KdSpec TravSpec.
Import ListNotations.
Open Scope Q_scope.
(** ** Trees *)
Lemma step_trans boxed w t u v : step boxed w t u -> step boxed w u v -> step boxed w t v.
Proof. intros [A1 A2 A3 A4 A5] [B1 B2 B3 B4 B5]. split; [exact B1|exact (cut_up_trans _ _ _ A2 B2)|congruence|exact B4|intros id K; apply B5, A5, K]. Qed.
Lemma step_node boxed w s infos n p n' p' : path_ok w -> sub_ok w (BNode s [] [] infos n p) -> step boxed (w ++ [SS s false]) n n' -> step boxed (w ++ [SS s true]) p p' -> n <> BNil -> p <> BNil ->
  step boxed w (BNode s [] [] infos n p) (BNode s [] [] infos n' p').
Proof.
  intros P H [N1 N2 N3 N4 N5] [M1 M2 M3 M4 M5] Nn Np. pose proof (sub_root w _ H) as [_ _ Ct D]. cbn [n_split n_contents n_border n_neg n_pos] in D. destruct D as [(_ & E & _)|(Fr & _)]; [contradiction|].
  pose proof (sub_neg w _ H Nn) as Sn. pose proof (sub_pos w _ H Np) as Sp. cbn [n_split n_neg n_pos] in Sn, Sp.
  assert (Cut : cut_up (all_polys n ++ all_polys p) (all_polys n' ++ all_polys p')) by (apply cut_up_app; [exact N2|exact M2]).
  split; cbn [all_polys app n_infos]; [|exact Cut|reflexivity|apply boxes_app; split; assumption|].
  - apply pre_sub; [|right; split; reflexivity]. split; cbn [n_contents n_border n_split n_neg n_pos]; [discriminate|constructor|constructor| |right; split; [exact Fr|split; [exact N1|exact M1]]].
    assert (O1 : Forall okb (all_polys n ++ all_polys p)) by (apply Forall_app; split; [exact (sub_okb _ _ Sn)|exact (sub_okb _ _ Sp)]). assert (O2 : Forall okb (all_polys n' ++ all_polys p')) by (apply Forall_app; split; [exact (sub_okb _ _ N1)|exact (sub_okb _ _ M1)]).
    pose proof (counts_cut w _ _ _ P O1 O2 Cut (counts_of _ _ Ct)) as Cn. cbn [n_infos] in Cn. split; cbn [n_infos n_contents n_border all_polys app]; [intros Lf; exfalso; unfold leaf in Lf; cbn in Lf; destruct Fr; congruence|intros id; exact (proj1 (Cn id))|intros id; exact (proj2 (Cn id))].
  - intros id. rewrite !knows_node. intros (K1 & K2 & K3). split; [exact K1|]. split; [exact (N5 id K2)|exact (M5 id K3)].
Qed.
Lemma split_shape dbg w t t' h : path_ok w -> sub_ok w t -> leaf t -> fresh_plane w h -> bn_split dbg h t = Ok t' -> exists n p, t' = BNode h [] [] (n_infos t) n p /\ n <> BNil /\ p <> BNil /\ leaf n /\ leaf p /\ length (n_infos n) = length (n_infos t) /\ length (n_infos p) = length (n_infos t).
Proof.
  intros P H L Fr E. pose proof (sub_root w t H) as [Fc Fb Ct D]. destruct t as [|s cs bs infos n p]; [destruct H; contradiction|]. destruct D as [(_ & En & Ep)|(D & _)]; [|exfalso; destruct D as [D _]; unfold leaf in L; cbn in *; congruence]. cbn [n_neg n_pos n_contents n_border] in *. subst n p.
  unfold bn_split in E. rewrite (proj1 Fr) in E. unfold bn_is_leaf at 1 in E. unfold leaf in L. cbn [n_split] in L. rewrite L in E. cbn [negb] in E. rewrite !check_true in E. cbn [rbind push_to_children kid_of] in E. unfold bn_is_leaf in E. rewrite (proj1 Fr) in E. cbn [negb] in E.
  set (k := Kid [] [] (set_pwn infos)) in *.
  assert (Rm : Forall (fun b => room b (k, k)) (cs ++ bs)).
  { apply Forall_forall. intros a I. pose proof (leaf_knows w _ a Ct L eq_refl eq_refl I) as K. apply knows_node in K as [K _]. split; cbn; unfold set_pwn; rewrite map_length; exact K. }
  pose proof (push_all_ok true dbg w h cs bs (k, k) P Fr Fc Fb ltac:(discriminate) Rm) as G. destruct (BspModel.push_all dbg h cs bs (k, k)) as [[yn yp]| | |]; cbn [rbind] in E; try discriminate. cbn [good] in G. destruct (dealt_length _ _ _ _ _ _ G) as [E1 E2]. injection E as <-. eexists _, _. split; [reflexivity|]. split; [discriminate|]. split; [discriminate|]. split; [reflexivity|]. split; [reflexivity|]. cbn in E1, E2 |- *. unfold set_pwn in E1, E2. rewrite map_length in E1, E2. split; assumption.
Qed.
(** ** Order *)
Lemma count_perm id l m : Permutation l m -> count_id id l = count_id id m.
Proof. intros Pm. unfold count_id. induction Pm; cbn [List.filter]; repeat (destruct (_ =? _)%nat); cbn [length]; congruence. Qed.
Lemma reordered_polys t t' : reordered t t' -> Permutation (all_polys t) (all_polys t').
Proof. intros R. induction R; cbn [all_polys]; [constructor|]. repeat apply Permutation_app; assumption. Qed.
Lemma reordered_sub t t' : reordered t t' -> forall w, sub_ok w t -> sub_ok w t'.
Proof.
  intros R. induction R as [|s cs cs' bs bs' infos n n' p p' Pc Pb Rn IHn Rp IHp]; intros w H; [exact H|]. pose proof (reordered_polys _ _ (re_node s _ _ _ _ infos _ _ _ _ Pc Pb Rn Rp)) as PA. cbn [all_polys] in PA.
  assert (In' : forall b, In b (cs ++ bs ++ all_polys n ++ all_polys p) <-> In b (cs' ++ bs' ++ all_polys n' ++ all_polys p')) by (intros b; split; apply Permutation_in; [exact PA|apply Permutation_sym; exact PA]).
  assert (Nn : n = BNil <-> n' = BNil) by (destruct Rn; split; congruence). assert (Np : p = BNil <-> p' = BNil) by (destruct Rp; split; congruence).
  destruct (sub_root w _ H) as [A B [C1 C2 C3] D]. cbn [n_contents n_border n_infos n_split n_neg n_pos all_polys] in *. apply sub_make; cbn [n_split n_neg n_pos]; [discriminate| | |].
  - split; cbn [n_contents n_border n_infos n_split n_neg n_pos all_polys]; [exact (Permutation_Forall Pc A)|exact (Permutation_Forall Pb B)| |].
    + split; cbn [n_contents n_border n_infos n_split n_neg n_pos all_polys].
      * intros L id. rewrite <- (count_perm id _ _ Pc), <- (count_perm id _ _ Pb). exact (C1 L id).
      * intros id. rewrite C2. split; intros (b & I & X); exists b; (split; [apply In'; exact I|exact X]).
      * intros id. rewrite C3. split; intros (b & I & X); exists b; (split; [apply In'; exact I|exact X]).
    + destruct D as [(L & E1 & E2)|(F & E1 & E2 & E3 & E4)]; [left; split; [exact L|]; split; [apply Nn; exact E1|apply Np; exact E2]|right]. split; [exact F|]. subst cs bs. apply Permutation_nil in Pc, Pb. split; [exact Pc|]. split; [exact Pb|]. split; [rewrite <- Nn; exact E3|rewrite <- Np; exact E4].
  - intros M. apply IHn. apply (sub_neg w _ H). cbn. rewrite Nn. exact M.
  - intros M. apply IHp. apply (sub_pos w _ H). cbn. rewrite Np. exact M.
Qed.
Lemma reordered_knows t t' : reordered t t' -> forall id, knows t id -> knows t' id.
Proof. intros R. induction R as [|s cs cs' bs bs' infos n n' p p' Pc Pb Rn IHn Rp IHp]; intros id; [intros K; exact K|]. rewrite !knows_node. intros (K1 & K2 & K3). auto. Qed.
Lemma step_reordered boxed w t u v : step boxed w t u -> reordered u v -> step boxed w t v.
Proof.
  intros [A1 A2 A3 A4 A5] R. pose proof (reordered_polys _ _ R) as PA. split; [exact (reordered_sub _ _ R w A1)|exact (cut_up_perm _ _ _ A2 PA)| |exact (boxes_perm boxed _ _ PA A4)|intros id K; apply (reordered_knows _ _ R), A5, K].
  destruct R; [exact A3|exact A3].
Qed.
(** ** What is shown *)
Lemma shown_app a b : shown (a ++ b) = shown a ++ shown b.
Proof. induction a as [|e a IH]; [reflexivity|]. destruct e as [| |[| | |x]]; cbn [app shown]; rewrite ?IH; reflexivity. Qed.
Lemma shown_map l : shown (map TPart l) = accepted l.
Proof. induction l as [|e l IH]; [reflexivity|]. destruct e; cbn [map shown accepted]; rewrite ?IH; reflexivity. Qed.
Definition pos_of (b : bpoly) : bool := (comp (hn (pplane (bp_poly b))) (pdrop (bp_poly b)) <? 0)%Z.
(** One range of equal keys. *)
Record group_told (f : filter) (w : path) (infos : list cinfo) (g : list bpoly) (l : list event) : Prop := GroupTold {
  gt_tour : tour w l; gt_parts : Forall (fun y => exists b, In b g /\ part_of y b) (accepted l);
  gt_peel : exists b0 g' s, g = b0 :: g' /\ Forall (fun b => stored w b /\ bp_on b = Some s) g /\ peeled f (pdrop (bp_poly b0)) (pos_of b0) infos s g l }.
Inductive emits (f : filter) : path -> bnode -> list tevent -> Prop :=
| em_skip w x : covered f (length (n_infos x)) -> snd (eval f (n_infos x)) = false -> emits f w x []
| em_leaf w x gs ls : leaf x -> n_contents x = [] -> grouping (n_border x) gs -> Forall2 (group_told f w (n_infos x)) gs ls -> emits f w x (map TPart (concat ls))
| em_split w h infos n p en ep : hs_valid h = true -> emits f (w ++ [SS h false]) n en -> emits f (w ++ [SS h true]) p ep -> emits f w (BNode h [] [] infos n p) (TEnter h :: en ++ ep ++ [TLeave h]).
Lemma faces_comp s b d k : 0 < k -> qp_eq (qpt (hn (pplane (bp_poly b)))) (qscale (if ss_pos s then - k else k) (qpt (hn (ss_split s)))) -> (d < 3)%nat ->
  inject_Z (comp (hn (pplane (bp_poly b))) d) == (if ss_pos s then - k else k) * inject_Z (comp (hn (ss_split s)) d).
Proof. intros K (E1 & E2 & E3) L. unfold qpt, qscale in *. cbn [qx qy qz] in *. destruct d as [|[|[|d]]]; try assumption; lia. Qed.
Lemma group_run boxed dbg f w infos g : path_ok w -> covered f (length infos) -> (forall id, interior (info_for infos id) = 0%nat) -> g <> [] -> (forall a b, In a g -> In b g -> same_split (bp_on a) (bp_on b) = true) ->
  Forall (fun b => in_border w b /\ border (info_for infos (bp_id b)) <> 0%nat) g -> boxes boxed g -> good boxed (trav_plane dbg (eval f) infos g) (group_told f w infos g).
Proof.
  intros P C I0 Ne Sm F Bx. destruct g as [|b0 g]; [contradiction|]. assert (F' := F). rewrite Forall_forall in F'. destruct (F' b0 (or_introl eq_refl)) as [[S0 O0] _]. destruct (bp_on b0) as [s|] eqn:Es; [|contradiction].
  destruct (stored_st w b0 P S0) as (qs & H0). destruct (po_drop _ _ (s_ok _ _ _ H0)) as [Ld Np]. assert (Fs : Forall (fun b => stored w b /\ bp_on b = Some s) (b0 :: g)).
  { apply Forall_forall. intros b Ib. destruct (F' b Ib) as [[Sb Ob] _]. split; [exact Sb|]. pose proof (Sm b0 b (or_introl eq_refl) Ib) as E. rewrite Es in E. destruct (bp_on b) as [s'|] eqn:Eb; [|contradiction]. cbn [same_split] in E. apply hs_eqb_eq in E.
    assert (A : In s w) by (destruct (st_on _ _ S0) as [Fi _]; rewrite Es in Fi; destruct Fi as (l1 & r1 & -> & _); apply in_or_app; right; left; reflexivity).
    assert (A' : In s' w) by (destruct (st_on _ _ Sb) as [Fi _]; rewrite Eb in Fi; destruct Fi as (l1 & r1 & -> & _); apply in_or_app; right; left; reflexivity).
    f_equal. symmetry. apply (path_distinct w s s' P A A'). rewrite E. intros q. tauto. }
  destruct (st_faces _ _ S0 s Es) as (k & K & Ek). pose proof (faces_comp s b0 (pdrop (bp_poly b0)) k K Ek Ld) as Ec.
  assert (Nd : comp (hn (ss_split s)) (pdrop (bp_poly b0)) <> 0%Z). { intros Z. rewrite Z in Ec. assert (Ez : inject_Z (comp (hn (pplane (bp_poly b0))) (pdrop (bp_poly b0))) == inject_Z 0) by (rewrite Ec; change (inject_Z 0) with 0; ring). rewrite inject_Z_injective in Ez. exact (Np Ez). }
  unfold trav_plane. rewrite zget_sign_neg.
  eapply good_mono; [|apply (leaf_run boxed dbg f (pdrop (bp_poly b0)) (pos_of b0) w infos s (b0 :: g) _ P Ld Nd C I0); [|exact Bx|unfold count_edges; apply le_n]].
  - intros evs (T & Pa & Pe). split; [exact T|exact Pa|]. exists b0, g, s. split; [reflexivity|]. split; [exact Fs|exact Pe].
  - apply Forall_forall. intros b Ib. rewrite Forall_forall in Fs. destruct (Fs b Ib) as [Sb Ob]. split; [exact Sb|]. split; [exact Ob|apply (F' b Ib)].
Qed.
Lemma groups_run boxed dbg f w infos gs : path_ok w -> covered f (length infos) -> (forall id, interior (info_for infos id) = 0%nat) -> Forall (fun g => g <> [] /\ forall a b, In a g -> In b g -> same_split (bp_on a) (bp_on b) = true) gs ->
  Forall (fun b => in_border w b /\ border (info_for infos (bp_id b)) <> 0%nat) (concat gs) -> boxes boxed (concat gs) -> good boxed (trav_planes dbg (eval f) infos gs) (fun evs => exists ls, evs = concat ls /\ Forall2 (group_told f w infos) gs ls).
Proof.
  intros P C I0. induction gs as [|g gs IH]; intros G F Bx; cbn [trav_planes concat] in *; [exists []; split; [reflexivity|constructor]|]. inversion G as [|? ? [G1 G2] G3]; subst. apply Forall_app in F as [F1 F2]. apply boxes_app in Bx as [B1 B2].
  apply (good_bind boxed _ _ _ _ (group_run boxed dbg f w infos g P C I0 G1 G2 F1 B1)). intros l T. apply (good_bind boxed _ _ _ _ (IH G3 F2 B2)). intros es (ls & -> & F3). cbn [good]. exists (l :: ls). split; [reflexivity|constructor; assumption].
Qed.
Lemma leaf_visit boxed dbg f groups w x : path_ok w -> sub_ok w x -> leaf x -> n_contents x = [] -> covered f (length (n_infos x)) -> (forall l, grouping l (groups l)) -> boxes boxed (all_polys x) ->
  good boxed (trav_visit dbg (eval f) groups (n_contents x) (n_border x) (n_infos x)) (fun evs => exists ls, evs = concat ls /\ Forall2 (group_told f w (n_infos x)) (groups (n_border x)) ls).
Proof.
  intros P H Lf Nc C Gr Bx. pose proof (sub_root w x H) as [_ Fb Ct _]. unfold trav_visit. rewrite Nc. cbn [length Nat.eqb]. rewrite check_true. cbn [rbind].
  assert (On : forallb (fun b => match bp_on b with Some _ => true | None => false end) (n_border x) = true). { apply forallb_forall. intros b I. rewrite Forall_forall in Fb. destruct (Fb b I) as [_ O]. destruct (bp_on b); [reflexivity|contradiction]. }
  rewrite On, check_true. cbn [rbind]. destruct (Gr (n_border x)) as (Pm & G1 & _). assert (I0 : forall id, interior (info_for (n_infos x) id) = 0%nat) by (intros id; rewrite (proj1 (ct_leaf _ _ Ct Lf id)), Nc; reflexivity).
  apply (groups_run boxed dbg f w (n_infos x) (groups (n_border x)) P C I0 G1).
  - apply (Permutation_Forall (Permutation_sym Pm)). apply Forall_forall. intros b I. rewrite Forall_forall in Fb. split; [exact (Fb b I)|]. rewrite (proj2 (ct_leaf _ _ Ct Lf (bp_id b))). apply count_in. exists b. split; [exact I|reflexivity].
  - apply (boxes_perm boxed _ _ (Permutation_sym Pm)). intros E. specialize (Bx E). rewrite Forall_forall in Bx. apply Forall_forall. intros b I. apply Bx. destruct x as [|s cs bs infos n p]; [destruct I|]. cbn [all_polys]. apply in_or_app. right. apply in_or_app. left. exact I.
Qed.
Lemma emits_trip_leaf f w infos gs ls : Forall2 (group_told f w infos) gs ls -> trip w (map TPart (concat ls)).
Proof. intros F. apply tp_leaf. induction F as [|g l gs ls T F IH]; constructor; [exact (gt_tour _ _ _ _ _ T)|exact IH]. Qed.
Definition outcome_of (f : filter) (boxed : bool) (w : path) (t : bnode) (evs : list tevent) (t' : bnode) : Prop := step boxed w t t' /\ emits f w t' evs /\ trip w evs.
Lemma leaf_bn x : leaf x -> bn_is_leaf (n_split x) = true.
Proof. unfold leaf, bn_is_leaf. intros ->. reflexivity. Qed.
Lemma trav_leaf_ok {St} boxed dbg f (Inv : St -> bnode -> Prop) split groups : splitter dbg Inv split -> (forall l, grouping l (groups l)) -> forall fuel w st t evs t', path_ok w -> sub_ok w t -> leaf t -> Inv st t -> boxes boxed (all_polys t) -> covered f (length (n_infos t)) ->
  trav_leaf fuel dbg (eval f) split groups st t = Ok (evs, t') -> outcome_of f boxed w t evs t'.
Proof.
  intros Sp Gr. induction fuel as [|fuel IH]; intros w st t evs t' P H Lf IV Bx C E; [discriminate|]. destruct t as [|s cs bs infos n p]; [discriminate|]. cbn [trav_leaf] in E. pose proof (leaf_bn _ Lf) as Lb. cbn [n_split] in Lb. rewrite Lb, check_true in E. cbn [rbind] in E.
  destruct (snd (eval f infos)) eqn:Ev; cbn [negb] in E; [|injection E as <- <-; split; [apply step_refl; assumption|split; [apply em_skip; [assumption|exact Ev]|apply tp_skip]]].
  destruct (length cs =? 0)%nat eqn:El; cbn [negb] in E.
  - apply Nat.eqb_eq, length_zero_iff_nil in El. subst cs. pose proof (leaf_visit boxed dbg f groups w _ P H Lf eq_refl C Gr Bx) as G. cbn [n_contents n_border n_infos] in G. destruct (trav_visit dbg (eval f) groups [] bs infos) as [e| | |]; cbn [rbind] in E; try discriminate. injection E as <- <-. destruct G as (ls & -> & F). split; [apply step_refl; assumption|]. split; [|exact (emits_trip_leaf f w _ _ _ F)]. exact (em_leaf f w (BNode s [] bs infos n p) (groups bs) ls Lf eq_refl (Gr bs) F).
  - apply Nat.eqb_neq in El. assert (Ne : cs <> []) by (intros ->; apply El; reflexivity). destruct (split st (BNode s cs bs infos n p)) as [[t1 [s1 s2]]| | |] eqn:Es; cbn [rbind fst snd] in E; try discriminate.
    destruct (Sp w _ st t1 s1 s2 P (sub_root w _ H) Lf Ne IV Es) as (h & t0 & Fr & Eb & Re & Iv1 & Iv2). destruct (split_shape dbg w _ t0 h P H Lf Fr Eb) as (n0 & p0 & -> & Nn0 & Np0 & Ln0 & Lp0 & L10 & L20). pose proof (BspHistProofs.split_ok boxed dbg w _ h P H Lf Fr Bx) as G. rewrite Eb in G. cbn [good] in G. destruct G as [St0 _ _ _ _]. pose proof (step_reordered _ _ _ _ _ St0 Re) as Sn1. inversion Re as [|? ? cs1 ? bs1 ? ? n1 ? p1 Pc Pb Rn Rp]; subst t1. subst. apply Permutation_nil in Pc, Pb. subst cs1 bs1. clear St0. rename Sn1 into St0. cbn [n_neg n_pos] in Iv1, Iv2.
    assert (SH : n1 <> BNil /\ leaf n1 /\ length (n_infos n1) = length infos) by (destruct Rn; [contradiction|split; [discriminate|split; assumption]]). assert (SH' : p1 <> BNil /\ leaf p1 /\ length (n_infos p1) = length infos) by (destruct Rp; [contradiction|split; [discriminate|split; assumption]]). destruct SH as (Nn & Ln & L1), SH' as (Np & Lp & L2).
    cbn [n_infos] in *. unfold bn_is_leaf in E. rewrite (proj1 Fr) in E. cbn [negb] in E. rewrite check_true in E. cbn [rbind] in E.
    pose proof (sp_ok _ _ _ _ St0) as H1. pose proof (sp_box _ _ _ _ St0) as B1. cbn [all_polys app] in B1. apply boxes_app in B1 as [Bn Bp]. pose proof (sub_neg w _ H1 Nn) as Sn. pose proof (sub_pos w _ H1 Np) as Spp. cbn [n_split n_neg n_pos] in Sn, Spp.
    destruct (trav_leaf fuel dbg (eval f) split groups s1 n1) as [[en n2]| | |] eqn:En; cbn [rbind] in E; try discriminate. destruct (trav_leaf fuel dbg (eval f) split groups s2 p1) as [[ep p2]| | |] eqn:Ep; cbn [rbind fst snd] in E; try discriminate. injection E as <- <-.
    destruct (IH (w ++ [SS h false]) s1 n1 en n2 (path_snoc w (SS h false) P Fr) Sn Ln Iv1 Bn ltac:(rewrite L1; exact C) En) as (A1 & A2 & A3). destruct (IH (w ++ [SS h true]) s2 p1 ep p2 (path_snoc w (SS h true) P Fr) Spp Lp Iv2 Bp ltac:(rewrite L2; exact C) Ep) as (B1 & B2 & B3).
    split; [eapply step_trans; [exact St0|apply step_node; assumption]|]. split; [apply em_split; [apply Fr|assumption|assumption]|apply tp_split; assumption].
Qed.
Theorem trav_run_ok {St} boxed dbg f (Inv : St -> bnode -> Prop) split groups default : splitter dbg Inv split -> (forall l, grouping l (groups l)) -> forall fuel w st t evs t', path_ok w -> sub_ok w t -> starts Inv default st t -> boxes boxed (all_polys t) -> (forall w' x, at_node t w' x -> covered f (length (n_infos x))) ->
  trav_run fuel dbg (eval f) split groups default st t = Ok (evs, t') -> outcome_of f boxed w t evs t'.
Proof.
  intros Sp Gr. induction fuel as [|fuel IH]; intros w st t evs t' P H IV Bx C E; [discriminate|]. destruct t as [|s cs bs infos n p]; [discriminate|]. assert (C0 := C [] _ (at_root (BNode s cs bs infos n p) ltac:(discriminate))). cbn [n_infos] in C0.
  cbn [trav_run] in E. destruct (snd (eval f infos)) eqn:Ev; cbn [negb] in E; [|injection E as <- <-; split; [apply step_refl; assumption|split; [apply em_skip; [assumption|exact Ev]|apply tp_skip]]].
  destruct (bn_is_leaf s) eqn:Lb; [assert (Lf : leaf (BNode s cs bs infos n p)) by (unfold leaf; cbn [n_split]; unfold bn_is_leaf in Lb; destruct (hs_valid s); [discriminate|reflexivity]); apply (trav_leaf_ok boxed dbg f Inv split groups Sp Gr (S fuel) w st); try assumption; apply (IV [] _ (at_root (BNode s cs bs infos n p) ltac:(discriminate)) Lf)|].
  pose proof (sub_root w _ H) as [_ _ _ D]. cbn [n_split n_contents n_border n_neg n_pos] in D. destruct D as [(Lf & _)|(Fr & -> & -> & Nn & Np)]; [exfalso; apply leaf_bn in Lf; cbn [n_split] in Lf; congruence|]. cbn [length Nat.eqb negb rbind] in E.
  pose proof (sub_neg w _ H Nn) as Sn. pose proof (sub_pos w _ H Np) as Spp. cbn [n_split n_neg n_pos] in Sn, Spp. cbn [all_polys app] in Bx. apply boxes_app in Bx as [Bn Bp].
  destruct (trav_run fuel dbg (eval f) split groups default default n) as [[en n2]| | |] eqn:En; cbn [rbind] in E; try discriminate. destruct (trav_run fuel dbg (eval f) split groups default default p) as [[ep p2]| | |] eqn:Ep; cbn [rbind fst snd] in E; try discriminate. injection E as <- <-.
  destruct (IH (w ++ [SS s false]) default n en n2 (path_snoc w (SS s false) P Fr) Sn ltac:(intros w' x A L; destruct (IV (SS s false :: w') x (at_neg _ _ _ _ _ _ _ _ A) L) as [X _]; split; exact X) Bn ltac:(intros w' x A; apply (C (SS s false :: w') x); apply at_neg; exact A) En) as (A1 & A2 & A3). destruct (IH (w ++ [SS s true]) default p ep p2 (path_snoc w (SS s true) P Fr) Spp ltac:(intros w' x A L; destruct (IV (SS s true :: w') x (at_pos _ _ _ _ _ _ _ _ A) L) as [X _]; split; exact X) Bp ltac:(intros w' x A; apply (C (SS s true :: w') x); apply at_pos; exact A) Ep) as (B1 & B2 & B3).
  split; [apply step_node; assumption|]. split; [apply em_split; [apply Fr|assumption|assumption]|apply tp_split; assumption].
Qed.
(** ** The walk ends *)
Lemma leaf_sub w x : x <> BNil -> node_ok w x -> leaf x -> sub_ok w x.
Proof. intros N H L. destruct (no_split _ _ H) as [(_ & En & Ep)|(F & _)]; [|exfalso; unfold leaf in L; destruct F; congruence]. apply sub_make; [exact N|exact H|intros M; congruence|intros M; congruence]. Qed.
Lemma reordered_refl t : reordered t t.
Proof. induction t; constructor; auto using Permutation_refl. Qed.
Lemma auto_leaf dbg gcd nth w x x' : gcd_ok gcd -> nth_ok nth -> path_ok w -> node_ok w x -> leaf x -> n_contents x <> [] -> bn_split_auto dbg gcd nth x = Ok x' -> exists h, fresh_plane w h /\ bn_split dbg h x = Ok x'.
Proof.
  intros G Nt P H L Ne E. assert (N : x <> BNil) by (intros ->; apply Ne; reflexivity). pose proof (auto_ok true dbg gcd nth w x P G Nt (leaf_sub w x N H L) L Ne ltac:(discriminate)) as A. rewrite E in A. destruct A as (h & Fr & _ & Es & _). exists h. split; assumption.
Qed.
Lemma auto_splitter dbg gcd nth : gcd_ok gcd -> nth_ok nth -> splitter dbg (fun _ _ => True) (plain (bn_split_auto dbg gcd nth)).
Proof.
  intros G Nt w x s x' s1 s2 P H L Ne _ E. unfold plain in E. destruct (bn_split_auto dbg gcd nth x) as [y| | |] eqn:Ey; try discriminate. cbn [rbind] in E. assert (Ex : y = x') by congruence. subst y. destruct (auto_leaf dbg gcd nth w x x' G Nt P H L Ne Ey) as (h & Fr & Eb). exists h, x'. split; [exact Fr|]. split; [exact Eb|]. split; [apply reordered_refl|split; exact I].
Qed.
Lemma trav_leaf_total dbg f gcd nth groups : gcd_ok gcd -> nth_ok nth -> (forall l, grouping l (groups l)) -> forall fuel w t, path_ok w -> sub_ok w t -> leaf t -> boxes false (all_polys t) -> covered f (length (n_infos t)) -> (length (n_contents t) <= 40)%nat -> (length (n_contents t) < fuel)%nat ->
  exists r, trav_leaf fuel dbg (eval f) (plain (bn_split_auto dbg gcd nth)) groups tt t = Ok r.
Proof.
  intros G Nt Gr. induction fuel as [|fuel IH]; intros w t P H Lf Bx C Sm Fu; [lia|]. destruct t as [|s cs bs infos n p]; [destruct H; contradiction|]. cbn [trav_leaf]. pose proof (leaf_bn _ Lf) as Lb. cbn [n_split] in Lb. rewrite Lb, check_true. cbn [rbind].
  destruct (snd (eval f infos)); cbn [negb]; [|eexists; reflexivity]. destruct (length cs =? 0)%nat eqn:El; cbn [negb].
  - apply Nat.eqb_eq, length_zero_iff_nil in El. subst cs. pose proof (leaf_visit false dbg f groups w _ P H Lf eq_refl C Gr Bx) as X. cbn [n_contents n_border n_infos] in X. destruct (trav_visit dbg (eval f) groups [] bs infos) as [e| | |]; cbn [good] in X; try contradiction; try discriminate. eexists. reflexivity.
  - apply Nat.eqb_neq in El. assert (Ne : cs <> []) by (intros ->; apply El; reflexivity). destruct (auto_small dbg gcd nth w _ P G Nt H Lf Ne Bx Sm) as (t1 & Es & R & S1 & S2). destruct (auto_leaf dbg gcd nth w _ t1 G Nt P (sub_root w _ H) Lf Ne Es) as (h & Fr & Eb). destruct (split_shape dbg w _ t1 h P H Lf Fr Eb) as (n1 & p1 & -> & Nn & Np & Ln & Lp & L1 & L2).
    unfold plain at 1. rewrite Es. cbn [rbind fst snd]. unfold bn_is_leaf. rewrite (proj1 Fr). cbn [negb]. rewrite check_true. cbn [rbind]. cbn [n_neg n_pos n_contents n_infos] in *. pose proof (sr_step _ _ _ _ _ R) as St. pose proof (sp_ok _ _ _ _ St) as H1. pose proof (sp_box _ _ _ _ St) as B1. cbn [all_polys app] in B1. apply boxes_app in B1 as [Bn Bp]. pose proof (sub_neg w _ H1 Nn) as Sn. pose proof (sub_pos w _ H1 Np) as Spp. cbn [n_split n_neg n_pos] in Sn, Spp.
    destruct (IH _ n1 (path_snoc w (SS h false) P Fr) Sn Ln Bn ltac:(rewrite L1; exact C) ltac:(lia) ltac:(lia)) as (rn & ->). destruct (IH _ p1 (path_snoc w (SS h true) P Fr) Spp Lp Bp ltac:(rewrite L2; exact C) ltac:(lia) ltac:(lia)) as (rp & ->). eexists. reflexivity.
Qed.
Theorem trav_run_total dbg f gcd nth groups : gcd_ok gcd -> nth_ok nth -> (forall l, grouping l (groups l)) -> forall fuel w t, path_ok w -> sub_ok w t -> boxes false (all_polys t) -> (forall w' x, at_node t w' x -> covered f (length (n_infos x))) -> small_leaves t -> (tree_height t + 40 <= fuel)%nat ->
  exists r, trav_run fuel dbg (eval f) (plain (bn_split_auto dbg gcd nth)) groups tt tt t = Ok r.
Proof.
  intros G Nt Gr. induction fuel as [|fuel IH]; intros w t P H Bx C Sm Fu; [lia|]. destruct t as [|s cs bs infos n p]; [destruct H; contradiction|]. cbn [tree_height] in Fu. assert (R0 := at_root (BNode s cs bs infos n p) ltac:(discriminate)). assert (C0 := C [] _ R0). cbn [n_infos] in C0.
  cbn [trav_run]. destruct (snd (eval f infos)); cbn [negb]; [|eexists; reflexivity].
  destruct (bn_is_leaf s) eqn:Lb; [assert (Lf : leaf (BNode s cs bs infos n p)) by (unfold leaf; cbn [n_split]; unfold bn_is_leaf in Lb; destruct (hs_valid s); [discriminate|reflexivity]); pose proof (Sm [] _ R0 Lf); apply (trav_leaf_total dbg f gcd nth groups G Nt Gr (S fuel) w); try assumption; lia|].
  pose proof (sub_root w _ H) as [_ _ _ D]. cbn [n_split n_contents n_border n_neg n_pos] in D. destruct D as [(Lf & _)|(Fr & -> & -> & Nn & Np)]; [exfalso; apply leaf_bn in Lf; cbn [n_split] in Lf; congruence|]. cbn [length Nat.eqb negb rbind].
  pose proof (sub_neg w _ H Nn) as Sn. pose proof (sub_pos w _ H Np) as Spp. cbn [n_split n_neg n_pos] in Sn, Spp. cbn [all_polys app] in Bx. apply boxes_app in Bx as [Bn Bp].
  destruct (IH (w ++ [SS s false]) n (path_snoc w (SS s false) P Fr) Sn Bn ltac:(intros w' x A; apply (C (SS s false :: w') x); apply at_neg; exact A) ltac:(intros w' x A; apply (Sm (SS s false :: w') x); apply at_neg; exact A) ltac:(lia)) as (rn & ->).
  destruct (IH (w ++ [SS s true]) p (path_snoc w (SS s true) P Fr) Spp Bp ltac:(intros w' x A; apply (C (SS s true :: w') x); apply at_pos; exact A) ltac:(intros w' x A; apply (Sm (SS s true :: w') x); apply at_pos; exact A) ltac:(lia)) as (rp & ->). eexists. reflexivity.
Qed.
