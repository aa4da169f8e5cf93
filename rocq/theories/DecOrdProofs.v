(** The order in which the vertices are processed, and the corners of the
    triangles in it. *)
From Coq Require Import List ZArith QArith Lia Lqa Bool Permutation.
From Verif Require Import BigUIntModel GeoModel GeoSpec TriModel TriSpec TriProofs TriGeoProofs.
Import ListNotations.
Open Scope Q_scope.
(** a comes before b. *)
Definition bef {A} (l : list A) (a b : A) : Prop := exists i j, (i < j)%nat /\ nth_error l i = Some a /\ nth_error l j = Some b.
Lemma bef_in {A} (l : list A) a b : bef l a b -> In a l /\ In b l.
Proof. intros (i & j & _ & H1 & H2). split; eapply nth_error_In; eassumption. Qed.
Lemma bef_app {A} (l m : list A) a b : bef l a b -> bef (l ++ m) a b.
Proof.
  intros (i & j & H & H1 & H2). exists i, j. split; [exact H|]. assert (j < length l)%nat by (apply nth_error_Some; congruence).
  split; rewrite nth_error_app1 by lia; assumption.
Qed.
Lemma bef_cons {A} (x : A) l a b : bef l a b -> bef (x :: l) a b.
Proof. intros (i & j & H & H1 & H2). exists (S i), (S j). split; [lia|]. split; assumption. Qed.
Lemma bef_head {A} (x : A) l b : In b l -> bef (x :: l) x b.
Proof. intros H. apply In_nth_error in H as (n & H). exists 0%nat, (S n). split; [lia|]. split; [reflexivity|exact H]. Qed.
Lemma bef_mid {A} (l m : list A) a b : In a l -> In b m -> bef (l ++ m) a b.
Proof.
  intros Ha Hb. induction l as [|x l IH]; [contradiction|]. cbn [app]. destruct Ha as [<-|Ha]; [apply bef_head, in_or_app; right; exact Hb|apply bef_cons, IH, Ha].
Qed.
Lemma bef_last {A} (l : list A) a v : In a l -> bef (l ++ [v]) a v.
Proof. intros H. apply bef_mid; [exact H|left; reflexivity]. Qed.
Lemma bef_cons_inv {A} (x : A) l a b : bef (x :: l) a b -> (a = x /\ In b l) \/ bef l a b.
Proof.
  intros ([|i] & [|j] & H & H1 & H2); try lia.
  - cbn in H1, H2. injection H1 as <-. left. split; [reflexivity|eapply nth_error_In, H2].
  - right. exists i, j. split; [lia|]. split; assumption.
Qed.
Lemma bef_unique {A} (l : list A) i j a : NoDup l -> nth_error l i = Some a -> nth_error l j = Some a -> i = j.
Proof. intros N H1 H2. rewrite NoDup_nth_error in N. apply N; [apply nth_error_Some; congruence|congruence]. Qed.
Lemma bef_irrefl {A} (l : list A) a : NoDup l -> ~ bef l a a.
Proof. intros N (i & j & H & H1 & H2). pose proof (bef_unique l i j a N H1 H2). lia. Qed.
Lemma bef_trans {A} (l : list A) a b c : NoDup l -> bef l a b -> bef l b c -> bef l a c.
Proof.
  intros N (i & j & H & H1 & H2) (i' & j' & H' & H1' & H2'). pose proof (bef_unique l j i' b N H2 H1'). subst i'. exists i, j'. split; [lia|]. split; assumption.
Qed.
Lemma bef_total {A} (l : list A) a b : In a l -> In b l -> a = b \/ bef l a b \/ bef l b a.
Proof.
  intros Ha Hb. apply In_nth_error in Ha as (i & Ha). apply In_nth_error in Hb as (j & Hb). destruct (lt_eq_lt_dec i j) as [[H|<-]|H].
  - right; left. exists i, j. repeat split; assumption.
  - left. congruence.
  - right; right. exists j, i. repeat split; assumption.
Qed.
Lemma ordered_index {A} (l c : list A) a b : NoDup l -> ForallOrdPairs (bef l) c -> bef l a b -> In a c -> In b c ->
  exists i j, (i < j)%nat /\ nth_error c i = Some a /\ nth_error c j = Some b.
Proof.
  intros N F H Ha Hb. induction F as [|x c Fx F IH]; [contradiction|]. rewrite Forall_forall in Fx. destruct Ha as [<-|Ha].
  - destruct Hb as [<-|Hb]; [destruct (bef_irrefl l x N H)|]. apply In_nth_error in Hb as (n & Hb). exists 0%nat, (S n). split; [lia|]. split; [reflexivity|exact Hb].
  - destruct Hb as [<-|Hb]. { destruct (bef_irrefl l x N). eapply bef_trans; [exact N|apply Fx, Ha|exact H]. }
    destruct (IH Ha Hb) as (i & j & L & H1 & H2). exists (S i), (S j). split; [lia|]. split; assumption.
Qed.
Section Order.
Context {P : Type} (k : kind P) (drop mono : nat).
(** The vertices of both chains in the order of Build. *)
Inductive merged : list P -> list P -> list P -> Prop :=
| mg_nil b : b <> [] -> merged [] b b
| mg_bot t top b bottom l : (k_compare k mono b t < 0)%Z -> merged (t :: top) bottom l -> merged (t :: top) (b :: bottom) (b :: l)
| mg_top t top b bottom l : (0 <= k_compare k mono b t)%Z -> merged top (b :: bottom) l -> merged (t :: top) (b :: bottom) (t :: l).
Lemma merged_perm top bottom l : merged top bottom l -> Permutation l (top ++ bottom).
Proof.
  induction 1 as [b N|t top b bottom l C M IH|t top b bottom l C M IH].
  - reflexivity.
  - rewrite IH. apply (Permutation_middle (t :: top) bottom b).
  - cbn [app]. constructor. exact IH.
Qed.
Lemma merged_in top bottom l x : merged top bottom l -> In x l <-> In x top \/ In x bottom.
Proof. intros M. rewrite (merged_perm _ _ _ M). apply in_app_iff. Qed.
Lemma merged_bottom top bottom l : merged top bottom l -> bottom <> [].
Proof. destruct 1; [assumption|discriminate|discriminate]. Qed.
Lemma pairs_mono (R R' : P -> P -> Prop) l : (forall a b, R a b -> R' a b) -> ForallOrdPairs R l -> ForallOrdPairs R' l.
Proof. intros H. induction 1 as [|a l F _ IH]; constructor; [eapply Forall_impl; [|exact F]; intros b; apply H|exact IH]. Qed.
Lemma pairs_self (l : list P) : ForallOrdPairs (bef l) l.
Proof. induction l as [|a l IH]; constructor; [apply Forall_forall; intros b Hb; apply bef_head, Hb|]. eapply pairs_mono; [|exact IH]. intros x y. apply bef_cons. Qed.
Lemma merged_chains top bottom l : merged top bottom l -> ForallOrdPairs (bef l) top /\ ForallOrdPairs (bef l) bottom.
Proof.
  induction 1 as [b N|t top b bottom l C M (IH1 & IH2)|t top b bottom l C M (IH1 & IH2)].
  - split; [constructor|apply pairs_self].
  - split.
    + eapply pairs_mono; [|exact IH1]. intros x y. apply bef_cons.
    + constructor.
      * apply Forall_forall. intros z Hz. apply bef_head. apply (merged_in _ _ _ _ M). right. exact Hz.
      * eapply pairs_mono; [|exact IH2]. intros x y. apply bef_cons.
  - split.
    + constructor.
      * apply Forall_forall. intros z Hz. apply bef_head. apply (merged_in _ _ _ _ M). left. exact Hz.
      * eapply pairs_mono; [|exact IH1]. intros x y. apply bef_cons.
    + eapply pairs_mono; [|exact IH2]. intros x y. apply bef_cons.
Qed.
Lemma merged_last top bottom l (d : P) : merged top bottom l -> last l d = last bottom d.
Proof.
  intros M. revert d. induction M as [b N|t top b bottom l C M IH|t top b bottom l C M IH]; intros d; [reflexivity| |]; rewrite lastc.
  - rewrite IH, lastc. reflexivity.
  - rewrite IH. apply last_nonempty. discriminate.
Qed.
(** ** The triangles *)
Definition tri_ord (d : list P) (t : triangle P) : Prop := (bef d (t1 t) (t2 t) \/ bef d (t2 t) (t1 t)) /\ bef d (t1 t) (t3 t) /\ bef d (t2 t) (t3 t).
Lemma tri_ord_app d e t : tri_ord d t -> tri_ord (d ++ e) t.
Proof. intros (H1 & H2 & H3). split; [destruct H1 as [H1|H1]; [left|right]; apply bef_app, H1|]. split; apply bef_app; assumption. Qed.
Context (TF BF : list P).
Definition tagged (t : triangle P) : Prop := In (t3 t) (if t_top t then TF else BF).
Record ord_inv (d : list P) (s : tri_state P) : Prop := OrdInv {
  oi_two : (2 <= length (ts_stack s))%nat;
  oi_in : incl (ts_stack s) d;
  oi_ord : ForallOrdPairs (fun a b => bef d b a) (ts_stack s);
  oi_tri : Forall (fun t => tri_ord d t /\ tagged t) (ts_out s) }.
Lemma pairs_tail (R : P -> P -> Prop) p s : ForallOrdPairs R (p ++ s) -> ForallOrdPairs R s.
Proof. induction p as [|a p IH]; [intros H; exact H|]. intros H. inversion H; subst. apply IH. assumption. Qed.
Lemma pairs_adj (R : P -> P -> Prop) p a b s : ForallOrdPairs R (p ++ a :: b :: s) -> R a b.
Proof. intros H. apply pairs_tail in H. inversion H as [|? ? F _]; subst. inversion F; assumption. Qed.
Lemma pop_ord d cur v : forall stack s' o, stack <> [] -> incl stack d -> ForallOrdPairs (fun a b => bef d b a) stack -> pop_convex k drop cur v stack = (s', o) ->
  Forall (fun t => tri_ord (d ++ [v]) t /\ t_top t = cur /\ t3 t = v) o /\ s' <> [] /\ exists p, stack = p ++ s'.
Proof.
  induction stack as [|a [|b r] IH]; intros s' o N I F E.
  - contradiction.
  - injection E as <- <-. split; [constructor|]. split; [discriminate|]. exists []. reflexivity.
  - rewrite pop_cons in E. destruct (_ <=? 0)%Z.
    + destruct (pop_convex k drop cur v (b :: r)) as [s1 o1] eqn:E1. cbn [fst snd] in E. injection E as <- <-.
      assert (Ia : In a d) by (apply I; left; reflexivity). assert (Ib : In b d) by (apply I; right; left; reflexivity).
      pose proof (pairs_adj _ [] a b r F) as Bab. inversion F as [|? ? _ F']; subst.
      destruct (IH s1 o1 ltac:(discriminate) ltac:(intros x Hx; apply I; right; exact Hx) F' eq_refl) as (G1 & G2 & p & G3).
      split; [|split; [exact G2|exists (a :: p); rewrite G3; reflexivity]].
      constructor; [|exact G1]. split; [|split; reflexivity]. unfold tri_ord. cbn [t1 t2 t3]. destruct cur; (split; [|split; apply bef_last; assumption]); [right|left]; apply bef_app, Bab.
    + injection E as <- <-. split; [constructor|]. split; [discriminate|]. exists []. reflexivity.
Qed.
Lemma fan_ord d cur v stack : incl stack d -> ForallOrdPairs (fun a b => bef d b a) stack ->
  Forall (fun t => tri_ord (d ++ [v]) t /\ t_top t = negb cur /\ t3 t = v) (fan_out cur v (rev stack)).
Proof.
  intros I F. apply Forall_forall. intros t Ht. destruct (fan_pairs cur v _ t Ht) as (l1 & a & b & l2 & E & ->).
  assert (E' : stack = rev l2 ++ b :: a :: rev l1). { rewrite <- (rev_involutive stack), E, rev_app_distr. cbn [rev]. rewrite <- !app_assoc. reflexivity. }
  rewrite E' in F. apply pairs_adj in F.
  assert (Ia : In a d) by (apply I; rewrite E'; apply in_or_app; right; right; left; reflexivity). assert (Ib : In b d) by (apply I; rewrite E'; apply in_or_app; right; left; reflexivity).
  unfold tri_ord. destruct cur; cbn [t1 t2 t3 t_top negb]; (split; [|split; reflexivity]); (split; [|split; apply bef_last; assumption]); [right|left]; apply bef_app, F.
Qed.
Lemma switch_ord d v s : ord_inv d s -> In v (if ts_top s then BF else TF) ->
  exists s' z, switch_chains v s = Ok s' /\ ts_stack s' = [z] /\ In z d /\ Forall (fun t => tri_ord (d ++ [v]) t /\ tagged t) (ts_out s').
Proof.
  intros [I1 I2 I3 I4] Hv. unfold switch_chains. destruct (ts_stack s) as [|z r] eqn:Es; [cbn in I1; lia|]. eexists; exists z. split; [reflexivity|]. cbn [ts_stack ts_out]. split; [reflexivity|].
  split; [apply I2; left; reflexivity|]. apply Forall_app. split.
  - eapply Forall_impl; [|exact I4]. intros t (H1 & H2). split; [apply tri_ord_app, H1|exact H2].
  - eapply Forall_impl; [|exact (fan_ord d (ts_top s) v (z :: r) I2 I3)]. intros t (H1 & H2 & H3). split; [exact H1|]. unfold tagged. rewrite H2, H3. destruct (ts_top s); exact Hv.
Qed.
Lemma process_ord dbg d (is_top : bool) v s : ord_inv d s -> In v (if is_top then TF else BF) ->
  exists s', process_vertex dbg k drop is_top v s = Ok s' /\ ord_inv (d ++ [v]) s' /\ ts_top s' = is_top.
Proof.
  intros O Hv. pose proof O as [I1 I2 I3 I4]. unfold process_vertex, check. rewrite (proj2 (Nat.leb_le _ _) I1). replace (dbg && negb true) with false by (destruct dbg; reflexivity). cbn [rbind].
  destruct (Bool.eqb is_top (ts_top s)) eqn:Eb; cbn [negb].
  - apply Bool.eqb_prop in Eb. destruct (pop_convex k drop is_top v (ts_stack s)) as [st o] eqn:Ep.
    assert (Ns : ts_stack s <> []) by (intros C; rewrite C in I1; cbn in I1; lia).
    destruct (pop_ord d is_top v _ _ _ Ns I2 I3 Ep) as (G1 & G2 & p & G3). eexists. split; [reflexivity|]. split; [|cbn [ts_top]; congruence].
    assert (Ist : incl st d) by (intros x Hx; apply I2; rewrite G3; apply in_or_app; right; exact Hx).
    split; cbn [ts_stack ts_top ts_out].
    + destruct st; [contradiction|cbn; lia].
    + intros x [<-|Hx]; apply in_or_app; [right; left; reflexivity|left; apply Ist, Hx].
    + constructor; [apply Forall_forall; intros x Hx; apply bef_last, Ist, Hx|]. rewrite G3 in I3. apply pairs_tail in I3. eapply pairs_mono; [|exact I3]. intros x y. apply bef_app.
    + apply Forall_app. split.
      * eapply Forall_impl; [|exact I4]. intros t (H1 & H2). split; [apply tri_ord_app, H1|exact H2].
      * eapply Forall_impl; [|exact G1]. intros t (H1 & H2 & H3). split; [exact H1|]. unfold tagged. rewrite H2, H3. exact Hv.
  - assert (Eb' : ts_top s = negb is_top) by (destruct is_top, (ts_top s); cbn in *; congruence).
    destruct (switch_ord d v s O) as (s1 & z & E1 & E2 & E3 & E4); [rewrite Eb'; destruct is_top; exact Hv|]. rewrite E1. cbn [rbind]. eexists. split; [reflexivity|]. split; [|reflexivity].
    split; cbn [ts_stack ts_top ts_out]; rewrite ?E2.
    + cbn; lia.
    + intros x [<-|[<-|[]]]; apply in_or_app; [right; left; reflexivity|left; exact E3].
    + constructor; [constructor; [apply bef_last, E3|constructor]|constructor; [constructor|constructor]].
    + exact E4.
Qed.
Lemma loop_ord dbg : forall top bottom l, merged top bottom l -> forall s d, ord_inv d s -> incl top TF -> incl bottom BF ->
  exists rest s' d', tri_loop dbg k drop mono top bottom s = Ok (rest, s') /\ l = d' ++ rest /\ ord_inv (d ++ d') s' /\ rest <> [] /\ incl rest BF /\ (forall x, last rest x = last bottom x).
Proof.
  induction 1 as [b N|t top b bottom l C M IH|t top b bottom l C M IH]; intros s d O iT iB.
  - exists b, s, []. rewrite app_nil_r. repeat split; try assumption; try (apply O).
  - assert (E : tri_loop dbg k drop mono (t :: top) (b :: bottom) s = (s <- process_vertex dbg k drop false b s ;; tri_loop dbg k drop mono (t :: top) bottom s)).
    { cbn [tri_loop]. rewrite (proj2 (Z.ltb_lt _ _) C). reflexivity. }
    rewrite E. destruct (process_ord dbg d false b s O) as (s1 & E1 & O1 & _); [apply iB; left; reflexivity|]. rewrite E1. cbn [rbind].
    destruct (IH s1 (d ++ [b]) O1 iT ltac:(intros x Hx; apply iB; right; exact Hx)) as (rest & s' & d' & R1 & R2 & R3 & R4 & R5 & R6).
    exists rest, s', (b :: d'). rewrite R1. split; [reflexivity|]. split; [rewrite R2; reflexivity|]. split; [rewrite <- app_assoc in R3; exact R3|]. split; [exact R4|]. split; [exact R5|].
    intros x. rewrite R6, lastc. apply last_nonempty. exact (merged_bottom _ _ _ M).
  - assert (E : tri_loop dbg k drop mono (t :: top) (b :: bottom) s = (s <- process_vertex dbg k drop true t s ;; tri_loop dbg k drop mono top (b :: bottom) s)).
    { cbn [tri_loop]. rewrite (proj2 (Z.ltb_ge _ _) C). reflexivity. }
    rewrite E. destruct (process_ord dbg d true t s O) as (s1 & E1 & O1 & _); [apply iT; left; reflexivity|]. rewrite E1. cbn [rbind].
    destruct (IH s1 (d ++ [t]) O1 ltac:(intros x Hx; apply iT; right; exact Hx) iB) as (rest & s' & d' & R1 & R2 & R3 & R4 & R5 & R6).
    exists rest, s', (t :: d'). rewrite R1. split; [reflexivity|]. split; [rewrite R2; reflexivity|]. split; [rewrite <- app_assoc in R3; exact R3|]. split; [exact R4|]. split; [exact R5|exact R6].
Qed.
Lemma finish_ord dbg : forall rest prev s d, ord_inv d s -> incl (prev :: rest) BF -> In (last rest prev) TF ->
  exists o, tri_finish dbg k drop prev rest s = Ok o /\ Forall (fun t => tri_ord (d ++ prev :: rest) t /\ tagged t) o.
Proof.
  induction rest as [|b rest IH]; intros prev s d O iB iT; cbn [tri_finish].
  - cbn [last] in iT. destruct (switch_ord d prev s O) as (s1 & z & E1 & E2 & E3 & E4); [destruct (ts_top s); [apply iB; left; reflexivity|exact iT]|].
    rewrite E1. cbn [rbind]. rewrite E2. cbn. exists (ts_out s1). split; [destruct dbg; reflexivity|exact E4].
  - destruct (process_ord dbg d false prev s O) as (s1 & E1 & O1 & _); [apply iB; left; reflexivity|]. rewrite E1. cbn [rbind].
    destruct (IH b s1 (d ++ [prev]) O1) as (o & R1 & R2); [intros x Hx; apply iB; right; exact Hx|rewrite lastc in iT; exact iT|].
    exists o. split; [exact R1|]. rewrite <- app_assoc in R2. exact R2.
Qed.
Theorem build_ord dbg m top bottom l : merged top bottom l -> (2 <= length l)%nat -> incl (m :: top) TF -> incl bottom BF -> (forall x, In (last bottom x) TF) ->
  exists o, tri_build dbg k drop mono (m :: top) bottom = Ok o /\ Forall (fun t => tri_ord (m :: l) t /\ tagged t) o.
Proof.
  intros M L iT iB iM.
  assert (I0 : forall c z, ord_inv [m; z] (TS [z; m] c [])).
  { intros c z. split; cbn [ts_stack ts_out].
    - cbn; lia.
    - intros x [<-|[<-|[]]]; [right; left; reflexivity|left; reflexivity].
    - constructor; [constructor; [exists 0%nat, 1%nat; split; [lia|split; reflexivity]|constructor]|constructor; [constructor|constructor]].
    - constructor. }
  assert (Main : forall top' bot' c z l', merged top' bot' l' -> incl top' TF -> incl bot' BF -> (forall x, last bot' x = last bottom x) ->
     exists o, (r <- tri_loop dbg k drop mono top' bot' (TS [z; m] c []) ;; match fst r with [] => UB | b :: rest => tri_finish dbg k drop b rest (snd r) end) = Ok o /\ Forall (fun t => tri_ord (m :: z :: l') t /\ tagged t) o).
  { intros top' bot' c z l' M' iT' iB' EL. destruct (loop_ord dbg top' bot' l' M' _ [m; z] (I0 c z) iT' iB') as (rest & s' & d' & R1 & R2 & R3 & R4 & R5 & R6). rewrite R1. cbn [rbind fst snd].
    destruct rest as [|b rest]; [contradiction|]. destruct (finish_ord dbg rest b s' ([m; z] ++ d') R3 R5) as (o & F1 & F2).
    - rewrite <- (lastc m b rest), R6, EL. apply iM.
    - exists o. split; [exact F1|]. rewrite R2. rewrite <- app_assoc in F2. exact F2. }
  unfold tri_build. destruct bottom as [|b0 bottom']; [destruct (merged_bottom _ _ _ M eq_refl)|].
  inversion M as [b N E1 E2 E3|t top' b bot l' C M' E1 E2 E3|t top' b bot l' C M' E1 E2 E3]; subst.
  - destruct bottom' as [|b1 bottom']; [cbn in L; lia|]. apply (Main [] (b1 :: bottom') false b0 (b1 :: bottom')).
    + constructor. discriminate.
    + intros x [].
    + intros x Hx. apply iB. right. exact Hx.
    + intros x. rewrite (lastc x b0). apply last_nonempty. discriminate.
  - rewrite (proj2 (Z.ltb_lt _ _) C). apply (Main (t :: top') bottom' false b0 l' M').
    + intros x Hx. apply iT. right. exact Hx.
    + intros x Hx. apply iB. right. exact Hx.
    + intros x. rewrite (lastc x b0). apply last_nonempty. exact (merged_bottom _ _ _ M').
  - rewrite (proj2 (Z.ltb_ge _ _) C). apply (Main top' (b0 :: bottom') true t l' M').
    + intros x Hx. apply iT. right. right. exact Hx.
    + exact iB.
    + intros x. reflexivity.
Qed.
End Order.
