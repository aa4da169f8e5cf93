(** [md_build] on chains that do not cross, and on chains without vertical edges. *)
From Coq Require Import List ZArith QArith Lia Lqa Bool Permutation.
From Verif Require Import BigUIntModel GeoModel GeoSpec CvxSpec TriModel TriSpec PolySpec TriProofs TriGeoProofs GeoProofs GeoDirProofs GeoPluckerProofs TriTileProofs DecModel DecSpec DecCvxProofs DecOrdProofs DecInvProofs.
Import ListNotations.
Open Scope Q_scope.
Definition key (q : qpoint2) : Q * Q := (Qred (qx2 q), Qred (qy2 q)).
Lemma key_eq a b : key a = key b <-> qp2_eq a b.
Proof.
  unfold key, qp2_eq. split.
  - intros E. injection E as E1 E2. split; [rewrite <- (Qred_correct (qx2 a)), E1|rewrite <- (Qred_correct (qy2 a)), E2]; apply Qred_correct.
  - intros (E1 & E2). f_equal; apply Qred_complete; assumption.
Qed.
Lemma distinct_keys l : all_distinct l <-> NoDup (map key l).
Proof.
  rewrite NoDup_nth_error. split.
  - intros D i j Hi E. rewrite map_length in Hi. rewrite !nth_error_map in E. destruct (Nat.eq_dec i j) as [|Nij]; [assumption|exfalso].
    destruct (nth_error l i) as [a|] eqn:Ea; [|apply nth_error_None in Ea; lia]. destruct (nth_error l j) as [b|] eqn:Eb; [|discriminate]. cbn in E. injection E as E.
    apply (D i j a b Nij Ea Eb). apply key_eq. unfold key. congruence.
  - intros D i j a b Nij Ea Eb E. apply Nij, D; [rewrite map_length; apply nth_error_Some; congruence|]. rewrite !nth_error_map, Ea, Eb. cbn. f_equal. apply key_eq, E.
Qed.
Lemma nodup_map_inj {A B} (f : A -> B) l a b : NoDup (map f l) -> In a l -> In b l -> f a = f b -> a = b.
Proof.
  induction l as [|x l IH]; intros N Ha Hb E; [contradiction|]. cbn [map] in N. inversion N as [|? ? N1 N2]; subst. destruct Ha as [<-|Ha], Hb as [<-|Hb].
  - reflexivity.
  - exfalso. apply N1. rewrite E. apply in_map, Hb.
  - exfalso. apply N1. rewrite <- E. apply in_map, Ha.
  - apply IH; assumption.
Qed.
Lemma pairs_bef {A} (R : A -> A -> Prop) l a b : ForallOrdPairs R l -> bef l a b -> R a b.
Proof.
  intros F H. induction F as [|x l Fx _ IH]; [destruct (bef_in _ _ _ H) as ([] & _)|]. apply bef_cons_inv in H. destruct H as [(-> & H)|H]; [|apply IH, H]. rewrite Forall_forall in Fx. apply Fx, H.
Qed.
Section Top.
Context {P : Type} (k : kind P) (drop mono : nat) (good : P -> Prop) (pos : P -> qpoint2) (K : kind_ok k drop mono good pos) (KD : kind_dec k drop good pos).
Notation X p := (qx2 (pos p)).
Notation Y p := (qy2 (pos p)).
Notation tn a b c := (turn (pos a) (pos b) (pos c)).
Lemma rightwards_pairs l : rightwards (map pos l) -> ForallOrdPairs (fun a b => X a <= X b) l.
Proof.
  intros R. induction l as [|a l IH]; [constructor|]. constructor.
  - apply Forall_forall. intros y Hy. apply (sorted_in pos (a :: l) R [] a l y eq_refl Hy).
  - apply IH. intros u v H. apply R. unfold path_edges in *. destruct l as [|b l]; [contradiction|]. right. exact H.
Qed.
Lemma strictly_pairs l : strictly_rightwards (map pos l) -> ForallOrdPairs (fun a b => X a < X b) l.
Proof.
  intros R. induction l as [|a l IH]; [constructor|].
  assert (IH' : ForallOrdPairs (fun a b => X a < X b) l). { apply IH. intros u v H. apply R. unfold path_edges in *. destruct l as [|b l]; [contradiction|]. right. exact H. }
  constructor; [|exact IH']. destruct l as [|b l]; [constructor|]. assert (L : X a < X b) by (apply R; left; reflexivity). constructor; [exact L|].
  inversion IH' as [|? ? F _]; subst. eapply Forall_impl; [|exact F]. cbn. intros z Hz. lra.
Qed.
Lemma strictly_rightwards_weak l : strictly_rightwards l -> rightwards l.
Proof. intros H a b E. apply Qlt_le_weak, H, E. Qed.
Lemma merged_exists mx : good mx -> forall top b', Forall good top -> Forall good b' -> (forall t, In t top -> X t <= X mx) -> exists l, merged k mono top (b' ++ [mx]) l.
Proof.
  intros Gm top. induction top as [|t top IHt]; intros b' G1 G2 HX.
  - exists (b' ++ [mx]). constructor. destruct b'; discriminate.
  - inversion G1 as [|? ? Gt G1']; subst. revert G2. induction b' as [|b b' IHb]; intros G2.
    + assert (C : (0 <= k_compare k mono mx t)%Z). { destruct (Z.lt_ge_cases (k_compare k mono mx t) 0) as [C|C]; [exfalso|exact C]. apply (ko_compare _ _ _ _ _ K) in C; [|exact Gm|exact Gt]. specialize (HX t (or_introl eq_refl)). lra. }
      destruct (IHt [] G1' G2 ltac:(intros z Hz; apply HX; right; exact Hz)) as (l & M). exists (t :: l). cbn [app] in *. apply mg_top; assumption.
    + inversion G2 as [|? ? Gb G2']; subst. cbn [app]. destruct (Z.lt_ge_cases (k_compare k mono b t) 0) as [C|C].
      * destruct (IHb G2') as (l & M). exists (b :: l). apply mg_bot; assumption.
      * destruct (IHt (b :: b') G1' G2 ltac:(intros z Hz; apply HX; right; exact Hz)) as (l & M). exists (t :: l). apply mg_top; assumption.
Qed.
Lemma merged_sorted top bottom l : merged k mono top bottom l -> Forall good top -> Forall good bottom -> ForallOrdPairs (fun a b => X a <= X b) top -> ForallOrdPairs (fun a b => X a <= X b) bottom ->
  ForallOrdPairs (fun a b => X a <= X b) l.
Proof.
  induction 1 as [b N|t top b bottom l C M IH|t top b bottom l C M IH]; intros G1 G2 F1 F2; [exact F2| |].
  - inversion F2 as [|? ? F2a F2b]; subst. inversion G2 as [|? ? Gb G2']; subst. inversion G1 as [|? ? Gt G1']; subst. constructor; [|apply IH; assumption].
    apply (ko_compare _ _ _ _ _ K) in C; [|assumption|assumption]. rewrite Forall_forall in F2a. apply Forall_forall. intros z Hz. apply (merged_in _ _ _ _ _ _ M) in Hz. destruct Hz as [[<-|Hz]|Hz]; [lra| |apply F2a, Hz].
    inversion F1 as [|? ? F1a _]; subst. rewrite Forall_forall in F1a. specialize (F1a z Hz). cbn in F1a. lra.
  - inversion F1 as [|? ? F1a F1b]; subst. inversion G1 as [|? ? Gt G1']; subst. constructor; [|apply IH; assumption].
    assert (C' : X t <= X b). { apply Qnot_lt_le. intros D. inversion G2; subst. apply (ko_compare _ _ _ _ _ K) in D; [lia|assumption|assumption]. }
    rewrite Forall_forall in F1a. apply Forall_forall. intros z Hz. apply (merged_in _ _ _ _ _ _ M) in Hz. destruct Hz as [Hz|[<-|Hz]]; [apply F1a, Hz|exact C'|].
    inversion F2 as [|? ? F2a _]; subst. rewrite Forall_forall in F2a. specialize (F2a z Hz). cbn in F2a. lra.
Qed.
(** A vertex of the top chain after one of the bottom chain is to its right. *)
Lemma merged_strict top bottom l : merged k mono top bottom l -> Forall good top -> Forall good bottom -> NoDup l -> ForallOrdPairs (fun a b => X a <= X b) top ->
  forall c p, In c bottom -> In p top -> bef l c p -> X c < X p.
Proof.
  induction 1 as [b N|t top b bottom l C M IH|t top b bottom l C M IH]; intros G1 G2 ND F1 c p Hc Hp B; [contradiction| |].
  - inversion ND as [|? ? N1 N2]; subst. inversion G2 as [|? ? Gb G2']; subst. apply bef_cons_inv in B. destruct B as [(-> & _)|B].
    + apply (ko_compare _ _ _ _ _ K) in C; [|exact Gb|inversion G1; assumption]. destruct Hp as [<-|Hp]; [exact C|]. inversion F1 as [|? ? F1a _]; subst. rewrite Forall_forall in F1a. specialize (F1a p Hp). cbn in F1a. lra.
    + destruct Hc as [<-|Hc]; [destruct (bef_in _ _ _ B); contradiction|]. apply (IH G1 G2' N2 F1 c p Hc Hp B).
  - inversion ND as [|? ? N1 N2]; subst. inversion G1 as [|? ? Gt G1']; subst. inversion F1 as [|? ? _ F1b]; subst. apply bef_cons_inv in B. destruct B as [(-> & _)|B].
    + exfalso. apply N1. apply (merged_in _ _ _ _ _ _ M). right. exact Hc.
    + destruct Hp as [<-|Hp]; [destruct (bef_in _ _ _ B); contradiction|]. apply (IH G1' G2 N2 F1b c p Hc Hp B).
Qed.
(** ** The order of all vertices *)
Context (m mx : P) (top b' : list P).
Let TF := m :: top ++ [mx].
Let BF := m :: b' ++ [mx].
Context (GT : Forall good TF) (GB : Forall good BF) (RT : rightwards (map pos TF)) (RB : rightwards (map pos BF)) (Len : (1 <= length top + length b')%nat)
  (AD : all_distinct (map pos (polygon_of (m :: top) (b' ++ [mx])))).
Lemma order_exists : exists l, merged k mono top (b' ++ [mx]) l /\ (2 <= length l)%nat.
Proof.
  unfold TF, BF in *. rewrite Forall_forall in GT, GB. destruct (merged_exists mx) with (top := top) (b' := b') as (l & M).
  - apply GT. right. apply in_or_app. right. left. reflexivity.
  - apply Forall_forall. intros x Hx. apply GT. right. apply in_or_app. left. exact Hx.
  - apply Forall_forall. intros x Hx. apply GB. right. apply in_or_app. left. exact Hx.
  - intros t Ht. apply in_split in Ht as (l1 & l2 & E). apply (sorted_in pos (m :: top ++ [mx]) RT (m :: l1) t (l2 ++ [mx]) mx); [rewrite E, <- app_assoc; reflexivity|apply in_or_app; right; left; reflexivity].
  - exists l. split; [exact M|]. rewrite (Permutation_length (merged_perm _ _ _ _ _ M)), !app_length. cbn [length]. lia.
Qed.
Context (l : list P) (M : merged k mono top (b' ++ [mx]) l).
Let ord := m :: l.
Lemma ord_in x : In x ord <-> In x (m :: top) \/ In x (b' ++ [mx]).
Proof. unfold ord. cbn [In]. rewrite (merged_in _ _ _ _ _ _ M). tauto. Qed.
Lemma ord_chain x : In x ord -> In x TF \/ In x BF.
Proof.
  intros H. apply ord_in in H. destruct H as [[<-|H]|H]; [left; left; reflexivity|left; right; apply in_or_app; left; exact H|right; right; exact H].
Qed.
Lemma ord_good : Forall good ord.
Proof. apply Forall_forall. intros x Hx. rewrite Forall_forall in GT, GB. destruct (ord_chain x Hx); [apply GT|apply GB]; assumption. Qed.
Lemma ord_perm : Permutation ord (polygon_of (m :: top) (b' ++ [mx])).
Proof.
  unfold ord, polygon_of. rewrite (merged_perm _ _ _ _ _ M). change (m :: top ++ b' ++ [mx]) with ((m :: top) ++ b' ++ [mx]). rewrite Permutation_app_comm. apply Permutation_app_head, Permutation_rev.
Qed.
Lemma ord_keys : NoDup (map (fun p => key (pos p)) ord).
Proof.
  rewrite <- map_map. apply distinct_keys in AD. apply (Permutation_NoDup (l := map key (map pos (polygon_of (m :: top) (b' ++ [mx]))))); [|exact AD]. symmetry. apply Permutation_map, Permutation_map, ord_perm.
Qed.
Lemma ord_nodup : NoDup ord.
Proof. exact (NoDup_map_inv _ _ ord_keys). Qed.
Lemma ord_distinct a b : In a ord -> In b ord -> qp2_eq (pos a) (pos b) -> a = b.
Proof. intros Ha Hb E. apply (nodup_map_inj _ ord a b ord_keys Ha Hb). apply key_eq, E. Qed.
Lemma good_top : Forall good top.
Proof. unfold TF in GT. rewrite Forall_forall in GT. apply Forall_forall. intros x Hx. apply GT. right. apply in_or_app. left. exact Hx. Qed.
Lemma good_bottom : Forall good (b' ++ [mx]).
Proof. unfold BF in GB. inversion GB; assumption. Qed.
Lemma pairs_top : ForallOrdPairs (fun a b => X a <= X b) (top ++ [mx]).
Proof. pose proof (rightwards_pairs _ RT) as H. inversion H; assumption. Qed.
Lemma pairs_app_l (R : P -> P -> Prop) l1 l2 : ForallOrdPairs R (l1 ++ l2) -> ForallOrdPairs R l1.
Proof. induction l1 as [|a l1 IH]; [constructor|]. intros H. inversion H as [|? ? H1 H2]; subst. apply Forall_app in H1 as (H1 & _). constructor; [exact H1|apply IH, H2]. Qed.
Lemma ord_sorted a b : bef ord a b -> X a <= X b.
Proof.
  apply (pairs_bef (fun a b => X a <= X b)). unfold ord. pose proof (rightwards_pairs _ RT) as HT. pose proof (rightwards_pairs _ RB) as HB. inversion HT as [|? ? HT1 HT2]; subst. inversion HB as [|? ? HB1 HB2]; subst.
  constructor.
  - apply Forall_forall. intros x Hx. rewrite Forall_forall in HT1, HB1. apply (merged_in _ _ _ _ _ _ M) in Hx. destruct Hx as [Hx|Hx]; [apply HT1, in_or_app; left; exact Hx|apply HB1, Hx].
  - apply (merged_sorted _ _ _ M); [apply good_top|apply good_bottom|exact (pairs_app_l _ _ _ HT2)|exact HB2].
Qed.
Lemma ord_snoc : exists l0, ord = l0 ++ [mx].
Proof.
  exists (removelast ord). assert (N : ord <> []) by discriminate. rewrite (app_removelast_last m N) at 1. do 2 f_equal. unfold ord. rewrite lastc, (merged_last _ _ _ _ _ m M), last_last. reflexivity.
Qed.
Lemma ord_last x : In x ord -> x <> mx -> bef ord x mx.
Proof.
  destruct ord_snoc as (l0 & E). rewrite E. intros H N. apply in_app_or in H. destruct H as [H|[<-|[]]]; [apply bef_last, H|contradiction].
Qed.
Lemma top_ne x : In x (m :: top) -> x <> mx.
Proof.
  intros H C. subst x. pose proof ord_nodup as N. apply (Permutation_NoDup ord_perm) in N. unfold polygon_of in N. rewrite <- app_assoc in N. apply NoDup_remove_2 in N. apply N.
  apply in_or_app. right. apply in_rev. rewrite rev_involutive. exact H.
Qed.
Lemma pairs_snoc (R : P -> P -> Prop) l1 z : ForallOrdPairs R l1 -> (forall x, In x l1 -> R x z) -> ForallOrdPairs R (l1 ++ [z]).
Proof.
  intros F H. induction F as [|a l1 F1 _ IH]; cbn [app]; [constructor; constructor|]. constructor.
  - apply Forall_app. split; [exact F1|constructor; [apply H; left; reflexivity|constructor]].
  - apply IH. intros x Hx. apply H. right. exact Hx.
Qed.
Lemma chain_top : ForallOrdPairs (bef ord) TF.
Proof.
  destruct (merged_chains _ _ _ _ _ M) as (HT & _). unfold TF. change (m :: top ++ [mx]) with ((m :: top) ++ [mx]). apply pairs_snoc.
  - constructor.
    + apply Forall_forall. intros x Hx. apply bef_head, (merged_in _ _ _ _ _ _ M). left. exact Hx.
    + eapply pairs_mono; [|exact HT]. intros x y. apply bef_cons.
  - intros x Hx. apply ord_last; [apply ord_in; left; exact Hx|apply top_ne, Hx].
Qed.
Lemma chain_bottom : ForallOrdPairs (bef ord) BF.
Proof.
  destruct (merged_chains _ _ _ _ _ M) as (_ & HB). unfold BF. constructor.
  - apply Forall_forall. intros x Hx. apply bef_head, (merged_in _ _ _ _ _ _ M). right. exact Hx.
  - eapply pairs_mono; [|exact HB]. intros x y. apply bef_cons.
Qed.
Lemma ord_after b c p : bef ord b c -> bef ord c p -> In c BF -> X c == X p -> In p BF.
Proof.
  intros H1 H2 Hc E. unfold BF in Hc. destruct Hc as [<-|Hc].
  { exfalso. unfold ord in H1. apply bef_cons_inv in H1. pose proof ord_nodup as N. unfold ord in N. inversion N as [|? ? N1 _]; subst. destruct H1 as [(_ & H1)|H1]; [contradiction|destruct (bef_in _ _ _ H1); contradiction]. }
  unfold ord in H2. apply bef_cons_inv in H2. destruct H2 as [(-> & _)|H2].
  { exfalso. unfold ord in H1. apply bef_cons_inv in H1. pose proof ord_nodup as N. unfold ord in N. inversion N as [|? ? N1 _]; subst. destruct H1 as [(_ & H1)|H1]; [contradiction|destruct (bef_in _ _ _ H1); contradiction]. }
  destruct (bef_in _ _ _ H2) as (_ & Hp). apply (merged_in _ _ _ _ _ _ M) in Hp. destruct Hp as [Hp|Hp]; [exfalso|right; exact Hp].
  pose proof ord_nodup as N. unfold ord in N. inversion N as [|? ? _ N2]; subst.
  pose proof (merged_strict _ _ _ M good_top good_bottom N2 (pairs_app_l _ _ _ pairs_top) c p Hc Hp H2) as C. lra.
Qed.
Lemma chain_run c a b d : ForallOrdPairs (bef ord) c -> straight_runs (map pos c) -> bef ord a b -> bef ord b d -> In a c -> In b c -> In d c -> X a == X b -> X b == X d -> 0 < (Y b - Y a) * (Y d - Y b).
Proof.
  intros F V H1 H2 Ia Ib Id E1 E2. destruct (ordered_index ord c a b ord_nodup F H1 Ia Ib) as (i & j & L1 & Na & Nb). destruct (ordered_index ord c b d ord_nodup F H2 Ib Id) as (j' & n & L2 & Nb' & Nd).
  assert (NDc : NoDup c). { clear -F l M AD. induction F as [|x c Fx _ IH]; constructor; [|exact IH]. intros C. rewrite Forall_forall in Fx. exact (bef_irrefl ord x ord_nodup (Fx x C)). }
  assert (j = j') by (exact (bef_unique c j j' b NDc Nb Nb')). subst j'. apply (V i j n (pos a) (pos b) (pos d) L1 L2); try assumption; rewrite nth_error_map; [rewrite Na|rewrite Nb|rewrite Nd]; reflexivity.
Qed.
Lemma bef_differ a b : bef ord a b -> ~ qp2_eq (pos a) (pos b).
Proof. apply bef_ne; [exact ord_nodup|exact ord_distinct]. Qed.
Lemma discipline_upright : straight_runs (map pos TF) -> straight_runs (map pos BF) -> upright_chains (map pos TF) (map pos BF) -> discipline pos ord TF BF 1.
Proof.
  intros VT VB W0. assert (W : forall a b, In a BF -> In b TF -> X a == X b -> Y a <= Y b) by (intros a b Ha Hb; apply W0; apply in_map; assumption).
  assert (D : forall a b, bef ord a b -> X a == X b -> ~ Y a == Y b) by (intros a b H E C; apply (bef_differ a b H); split; assumption). split.
  - intros a b c H1 H2 E1 E2 Ib Ic S. destruct (bef_in _ _ _ H1) as (Ia & _). specialize (D a b H1 E1). destruct (ord_chain a Ia) as [Ia'|Ia'].
    + pose proof (chain_run TF a b c chain_top VT H1 H2 Ia' Ib Ic E1 E2) as V. nra.
    + pose proof (W a b Ia' Ib E1). lra.
  - intros b c p H1 H2 E1 E2 Ic S. destruct (bef_in _ _ _ H1) as (Ib & _). destruct (bef_in _ _ _ H2) as (_ & Ip). specialize (D c p H2 E2).
    assert (Ib' : In b TF). { destruct (ord_chain b Ib) as [H|H]; [exact H|]. pose proof (W b c H Ic E1). lra. }
    destruct (ord_chain p Ip) as [Ip'|Ip'].
    + pose proof (chain_run TF b c p chain_top VT H1 H2 Ib' Ic Ip' E1 E2) as V. nra.
    + pose proof (W p c Ip' Ic ltac:(symmetry; exact E2)). lra.
  - intros a b c H1 H2 E1 E2 Ib Ic S. destruct (bef_in _ _ _ H1) as (Ia & _). specialize (D a b H1 E1). destruct (ord_chain a Ia) as [Ia'|Ia'].
    + pose proof (W b a Ib Ia' ltac:(symmetry; exact E1)). lra.
    + pose proof (chain_run BF a b c chain_bottom VB H1 H2 Ia' Ib Ic E1 E2) as V. nra.
  - intros b c p H1 H2 E1 E2 Ic S. destruct (bef_in _ _ _ H1) as (Ib & _). pose proof (ord_after b c p H1 H2 Ic E2) as Ip.
    destruct (ord_chain b Ib) as [Ib'|Ib'].
    + pose proof (W c b Ic Ib' ltac:(symmetry; exact E1)). lra.
    + pose proof (chain_run BF b c p chain_bottom VB H1 H2 Ib' Ic Ip E1 E2) as V. nra.
Qed.
Lemma strict_three : strictly_rightwards (map pos TF) -> strictly_rightwards (map pos BF) -> forall a b c, bef ord a b -> bef ord b c -> X a == X b -> ~ X b == X c.
Proof.
  intros S1 S2 a b c H1 H2 E1 E2. pose proof (bef_trans ord a b c ord_nodup H1 H2) as H3.
  assert (L : forall u v, bef ord u v -> X u == X v -> ~ (In u TF /\ In v TF) /\ ~ (In u BF /\ In v BF)).
  { assert (G : forall L, ForallOrdPairs (bef ord) L -> strictly_rightwards (map pos L) -> forall u v, bef ord u v -> X u == X v -> ~ (In u L /\ In v L)).
    { intros L F S u v H E (Iu & Iv). destruct (ordered_index ord L u v ord_nodup F H Iu Iv) as (i & j & Lij & Nu & Nv). pose proof (pairs_bef _ L u v (strictly_pairs L S) (ex_intro _ i (ex_intro _ j (conj Lij (conj Nu Nv))))) as C. cbn in C. lra. }
    intros u v H E. split; [apply (G TF chain_top S1 u v H E)|apply (G BF chain_bottom S2 u v H E)]. }
  destruct (L a b H1 E1) as (L1 & L1'). destruct (L b c H2 E2) as (L2 & L2'). destruct (L a c H3 ltac:(lra)) as (L3 & L3').
  destruct (bef_in _ _ _ H1) as (Ia & Ib). destruct (bef_in _ _ _ H2) as (_ & Ic).
  destruct (ord_chain a Ia), (ord_chain b Ib), (ord_chain c Ic); tauto.
Qed.
Lemma discipline_strict s : strictly_rightwards (map pos TF) -> strictly_rightwards (map pos BF) -> discipline pos ord TF BF s.
Proof.
  intros S1 S2. split.
  - intros a b c H1 H2 E1 E2. destruct (strict_three S1 S2 a b c H1 H2 E1 E2).
  - intros a b c H1 H2 E1 E2. destruct (strict_three S1 S2 a b c H1 H2 E1 E2).
  - intros a b c H1 H2 E1 E2. destruct (strict_three S1 S2 a b c H1 H2 E1 E2).
  - intros a b c H1 H2 E1 E2. destruct (strict_three S1 S2 a b c H1 H2 E1 E2).
Qed.
Lemma max_last x : In (last (b' ++ [mx]) x) TF.
Proof. rewrite last_last. right. apply in_or_app. right. left. reflexivity. Qed.
End Top.

(** ** The theorems *)
Section Final.
Context {P : Type} (k : kind P) (drop mono : nat) (good : P -> Prop) (pos : P -> qpoint2) (K : kind_ok k drop mono good pos) (KD : kind_dec k drop good pos).
Notation tn a b c := (turn (pos a) (pos b) (pos c)).
Lemma fold_result dbg m mx top b' l ord (allowed : Q -> Prop) o : merged k mono top (b' ++ [mx]) l -> ord = m :: l ->
  Forall good (m :: top ++ [mx]) -> Forall good (m :: b' ++ [mx]) -> rightwards (map pos (m :: top ++ [mx])) -> rightwards (map pos (m :: b' ++ [mx])) ->
  all_distinct (map pos (polygon_of (m :: top) (b' ++ [mx]))) -> twists_fit k drop (polygon_of (m :: top) (b' ++ [mx])) ->
  (forall s, allowed s -> (s = 1 \/ s = -1) /\ discipline pos ord (m :: top ++ [mx]) (m :: b' ++ [mx]) s) ->
  tri_build dbg k drop mono (m :: top) (b' ++ [mx]) = Ok o -> Forall (tri_good pos ord (m :: top ++ [mx]) (m :: b' ++ [mx]) allowed) o ->
  exists out, md_build dbg k drop mono (m :: top) (b' ++ [mx]) = Ok out /\ all_oriented pos allowed out.
Proof.
  intros M Eo GT GB RT RB AD FW AL ET TG.
  assert (PM : Permutation ord (polygon_of (m :: top) (b' ++ [mx]))) by (rewrite Eo; exact (ord_perm k mono m mx top b' l M)).
  destruct (fold_oriented k drop good pos KD ord (m :: top ++ [mx]) (m :: b' ++ [mx])) with (allowed := allowed) (dbg := dbg) (ts := o) as (s' & E & O).
  - rewrite Eo. exact (ord_nodup k mono pos m mx top b' AD l M).
  - rewrite Eo. exact (ord_distinct k mono pos m mx top b' AD l M).
  - rewrite Eo. exact (ord_sorted k drop mono good pos K m mx top b' GT GB RT RB l M).
  - rewrite Eo. exact (ord_good k mono good m mx top b' GT GB l M).
  - intros a b c Ha Hb Hc. apply FW; eapply Permutation_in; eassumption.
  - exact AL.
  - exact TG.
  - unfold md_build. rewrite ET. cbn [rbind]. rewrite E. cbn [rbind]. eexists. split; [reflexivity|exact O].
Qed.
(** Chains that do not cross: every polygon is counter-clockwise or flat. *)
Theorem build_convex dbg m mx top b' : Forall good (m :: top ++ [mx]) -> Forall good (m :: b' ++ [mx]) ->
  chains_ok (map pos (m :: top ++ [mx])) (map pos (m :: b' ++ [mx])) -> (1 <= length top + length b')%nat ->
  all_distinct (map pos (polygon_of (m :: top) (b' ++ [mx]))) -> straight_runs (map pos (m :: top ++ [mx])) -> straight_runs (map pos (m :: b' ++ [mx])) ->
  upright_chains (map pos (m :: top ++ [mx])) (map pos (m :: b' ++ [mx])) -> twists_fit k drop (polygon_of (m :: top) (b' ++ [mx])) ->
  exists out, md_build dbg k drop mono (m :: top) (b' ++ [mx]) = Ok out /\ Forall (fun e => oriented (fst e) (map pos (snd e)) /\ (fst e = 0 \/ fst e = -1)%Z) out.
Proof.
  intros GT GB CO Len AD VT VB W FW. pose proof (co_top _ _ CO) as RT. pose proof (co_bottom _ _ CO) as RB.
  destruct (order_exists k drop mono good pos K m mx top b' GT GB RT Len) as (l & M & L2).
  destruct (build_ord k drop mono (m :: top ++ [mx]) (m :: b' ++ [mx]) dbg m top (b' ++ [mx]) l M L2) as (o & E1 & F1).
  { intros x [<-|Hx]; [left; reflexivity|right; apply in_or_app; left; exact Hx]. } { intros x Hx. right. exact Hx. } { apply max_last. }
  destruct (build_geo k drop mono good pos K True (m :: top ++ [mx]) (m :: b' ++ [mx]) CO GT GB) with (dbg := dbg) (m := m) (top := top) (b' := b') (mx := mx) as (o' & E2 & F2); [|reflexivity|reflexivity|exact Len|].
  { intros _ a b Ha Hb. apply W; apply in_map; assumption. }
  rewrite E1 in E2. injection E2 as <-.
  destruct (fold_result dbg m mx top b' l (m :: l) (fun s => s = 1) o M eq_refl GT GB RT RB AD FW) as (out & E & O); [|exact E1| |].
  - intros s ->. split; [left; reflexivity|]. apply (discipline_upright k drop mono good pos K m mx top b' GT GB RT AD l M VT VB W).
  - rewrite Forall_forall in *. intros t Ht. specialize (F1 t Ht). specialize (F2 t Ht). destruct F1 as (TO & TT). destruct F2 as (C1 & C2). split; [exact TO|exact TT|reflexivity|intros C; lra|].
    intros s -> _ EX. specialize (C2 I EX). assert (N : ~ qp2_eq (pos (t1 t)) (pos (t2 t))).
    { destruct TO as ([O|O] & _); pose proof (bef_differ k mono pos m mx top b' AD l M _ _ O) as G; intros C; apply G; [exact C|split; symmetry; apply C]. }
    assert (~ qy2 (pos (t1 t)) == qy2 (pos (t2 t))) by (intros C; apply N; split; assumption). lra.
  - exists out. split; [exact E|]. eapply Forall_impl; [|exact O]. intros e (H1 & H2 & H3). split; [exact H1|]. destruct H1 as [(G & _)|[(G & _)|(G & _)]]; [right; exact G| |left; exact G].
    specialize (H3 G). discriminate.
Qed.
(** Chains without vertical edges, which may cross. *)
Theorem build_convex_crossing dbg m mx top b' : Forall good (m :: top ++ [mx]) -> Forall good (m :: b' ++ [mx]) ->
  strictly_rightwards (map pos (m :: top ++ [mx])) -> strictly_rightwards (map pos (m :: b' ++ [mx])) -> (1 <= length top + length b')%nat ->
  all_distinct (map pos (polygon_of (m :: top) (b' ++ [mx]))) -> twists_fit k drop (polygon_of (m :: top) (b' ++ [mx])) ->
  exists out, md_build dbg k drop mono (m :: top) (b' ++ [mx]) = Ok out /\ Forall (fun e => oriented (fst e) (map pos (snd e))) out.
Proof.
  intros GT GB ST SB Len AD FW. pose proof (strictly_rightwards_weak _ ST) as RT. pose proof (strictly_rightwards_weak _ SB) as RB.
  destruct (order_exists k drop mono good pos K m mx top b' GT GB RT Len) as (l & M & L2).
  destruct (build_ord k drop mono (m :: top ++ [mx]) (m :: b' ++ [mx]) dbg m top (b' ++ [mx]) l M L2) as (o & E1 & F1).
  { intros x [<-|Hx]; [left; reflexivity|right; apply in_or_app; left; exact Hx]. } { intros x Hx. right. exact Hx. } { apply max_last. }
  destruct (fold_result dbg m mx top b' l (m :: l) (fun s => s = 1 \/ s = -1) o M eq_refl GT GB RT RB AD FW) as (out & E & O); [|exact E1| |].
  - intros s Hs. split; [exact Hs|]. apply (discipline_strict k mono pos m mx top b' AD l M s ST SB).
  - rewrite Forall_forall in *. intros t Ht. specialize (F1 t Ht). destruct F1 as (TO & TT). split; [exact TO|exact TT|left; reflexivity|right; reflexivity|].
    intros s Hs TS EX. destruct TO as (O12 & O13 & O23).
    assert (N : ~ qp2_eq (pos (t1 t)) (pos (t2 t))). { destruct O12 as [O|O]; pose proof (bef_differ k mono pos m mx top b' AD l M _ _ O) as G; intros C; apply G; [exact C|split; symmetry; apply C]. }
    assert (NY : ~ qy2 (pos (t1 t)) == qy2 (pos (t2 t))) by (intros C; apply N; split; assumption).
    assert (X3 : qx2 (pos (t1 t)) < qx2 (pos (t3 t))).
    { pose proof (ord_sorted k drop mono good pos K m mx top b' (proj2 (Forall_forall _ _) GT) (proj2 (Forall_forall _ _) GB) RT RB l M _ _ O13) as G. destruct (Qlt_le_dec (qx2 (pos (t1 t))) (qx2 (pos (t3 t)))) as [H|H]; [exact H|exfalso].
      assert (E3 : qx2 (pos (t1 t)) == qx2 (pos (t3 t))) by lra. destruct O12 as [O|O].
      - apply (strict_three k mono pos m mx top b' AD l M ST SB _ _ _ O O23 EX). lra.
      - apply (strict_three k mono pos m mx top b' AD l M ST SB _ _ _ O O13 ltac:(lra)). exact E3. }
    assert (TE : tn (t1 t) (t2 t) (t3 t) == (qy2 (pos (t1 t)) - qy2 (pos (t2 t))) * (qx2 (pos (t3 t)) - qx2 (pos (t1 t)))). { unfold turn, qcross2, qsub2; cbn. rewrite EX. ring. }
    rewrite TE in TS. destruct Hs as [-> | ->]; nra.
  - exists out. split; [exact E|]. eapply Forall_impl; [|exact O]. intros e (H1 & _). exact H1.
Qed.
End Final.

(** ** The point types *)
Lemma qsign_nonneg q : (0 <= qsign q)%Z <-> 0 <= q.
Proof. unfold qsign, Qle. cbn. lia. Qed.
Lemma seen_eq drop mono a b : qp_eq a b -> qp2_eq (seen drop mono a) (seen drop mono b).
Proof.
  intros (E1 & E2 & E3). unfold seen, qdrop, qp2_eq. destruct (Nat.eqb mono ((drop + 1) mod 3)), drop as [|[|drop]]; cbn; rewrite ?E1, ?E2, ?E3; split; reflexivity.
Qed.
Lemma kind_dec_point3 drop mono : (drop < 3)%nat -> kind_dec kind_point3 drop (fun _ => True) (fun p => seen drop mono (qpt p)).
Proof.
  intros H1. constructor.
  - intros c a b _ _ _. rewrite seen_turn, <- qsign_nonneg, <- p3_twist_spec by exact H1. cbn [kind_point3 k_twist]. lia.
  - intros c a b _ _ _. rewrite seen_turn, <- qsign_le, <- p3_twist_spec by exact H1. cbn [kind_point3 k_twist]. lia.
  - intros a b _ _ E. apply v3_eq_true in E. apply seen_eq. destruct E as (E1 & E2 & E3). unfold qp_eq, qpt. cbn. rewrite E1, E2, E3. repeat split; reflexivity.
Qed.
Lemma kind_dec_homo3 drop mono (s : Z) : (drop < 3)%nat -> kind_dec kind_homo3 drop (fun p => 0 < s * hw p)%Z (fun p => seen drop mono (hp_point p)).
Proof.
  intros H1. constructor.
  - intros c a b Gc Ga Gb. rewrite seen_turn, <- qsign_nonneg. cbn [kind_homo3 k_twist].
    rewrite <- (hp_twist_spec drop c a b (hp_point c) (hp_point a) (hp_point b)); try (apply hp_point_denotes; nia); [lia|exact H1|nia].
  - intros c a b Gc Ga Gb. rewrite seen_turn, <- qsign_le. cbn [kind_homo3 k_twist].
    rewrite <- (hp_twist_spec drop c a b (hp_point c) (hp_point a) (hp_point b)); try (apply hp_point_denotes; nia); [lia|exact H1|nia].
  - intros a b Ga Gb E. apply seen_eq. apply (hp_eq_spec a b); [apply hp_point_denotes; nia|apply hp_point_denotes; nia|exact E].
Qed.
Lemma zget_sign_small v : (- 2 ^ 63 <= v < 2 ^ 63)%Z -> zget_sign v = v.
Proof.
  intros H. assert (E : zwords v = 1%Z).
  { unfold zwords. assert (L : (Z.log2 (if v <? 0 then - v - 1 else v) < 63)%Z).
    { destruct (Z.ltb_spec v 0); (destruct (Z.eq_dec (if v <? 0 then - v - 1 else v) 0) as [E|E]; [|]);
      match goal with |- (Z.log2 ?u < _)%Z => destruct (Z.eq_dec u 0) as [->|Nu]; [cbn; lia|apply Z.log2_lt_pow2; lia] end. }
    pose proof (Z.log2_nonneg (if v <? 0 then - v - 1 else v)%Z). rewrite Z.div_small; [reflexivity|]. destruct ((v =? 0) || (v =? -1))%Z; lia. }
  unfold zget_sign. rewrite E. change (64 * (1 - 1))%Z with 0%Z. rewrite Z.pow_0_r, Z.div_1_r. apply Z.lor_0_r.
Qed.
Lemma twists_small drop l : (forall p i, In p l -> (Z.abs (comp p i) < 2 ^ 30)%Z) -> twists_fit kind_point3 drop l.
Proof.
  intros H a b c Ha Hb Hc. cbn [kind_point3 k_twist]. unfold p3_twist, p2_twist.
  assert (B : forall p, In p l -> (Z.abs (x2 (drop_dim p drop)) < 2 ^ 30 /\ Z.abs (y2 (drop_dim p drop)) < 2 ^ 30)%Z).
  { intros p Hp. unfold drop_dim. cbn [x2 y2]. split; apply H, Hp. }
  destruct (B a Ha), (B b Hb), (B c Hc). unfold v2_cross, v2_sub. cbn [x2 y2].
  set (ax := x2 (drop_dim a drop)) in *. set (ay := y2 (drop_dim a drop)) in *. set (bx := x2 (drop_dim b drop)) in *. set (by' := y2 (drop_dim b drop)) in *. set (cx := x2 (drop_dim c drop)) in *. set (cy := y2 (drop_dim c drop)) in *.
  assert (M : forall u v, (Z.abs u < 2 ^ 31 -> Z.abs v < 2 ^ 31 -> Z.abs (u * v) < 2 ^ 62)%Z). { intros u v Hu Hv. rewrite Z.abs_mul. change (2 ^ 62)%Z with (2 ^ 31 * 2 ^ 31)%Z. apply Z.mul_lt_mono_nonneg; lia. }
  pose proof (M (ax - cx) (by' - cy) ltac:(lia) ltac:(lia))%Z as M1. pose proof (M (ay - cy) (bx - cx) ltac:(lia) ltac:(lia))%Z as M2.
  rewrite zget_sign_small; lia.
Qed.
