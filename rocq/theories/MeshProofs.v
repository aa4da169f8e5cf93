(** Proofs about MeshPlaneRepairer. *)
From Coq Require Import List Bool Arith ZArith QArith Lia ZifyBool.
From Verif Require Import BigUIntModel GeoModel GeoSpec GeoProofs GeoPlaneProofs GeoPluckerProofs GeoReduceProofs ConcatModel PlanarModel PlanarProofs NudgeModel NudgeSpec NudgeProofs.
Import ListNotations.
Open Scope Z_scope.

(** ** Finalize *)
Lemma hp_reduce_scale gcd p r : gcd_ok gcd -> hp_reduce gcd p = Ok r -> exists f, f <> 0 /\ lp p = List.map (Z.mul f) (lp r).
Proof.
  intros G H. rewrite hp_reduce_chain in H. invert_chain H g E. cbn [rbind] in H. cbv zeta in H.
  set (f := if Bool.eqb (zget_sign g <? 0) (zget_sign (hw p) <? 0) then g else - g) in *.
  assert (Af : Z.abs f = fold_left Z.gcd [vx (hv p); vy (hv p); vz (hv p)] (hw p)).
  { rewrite <- (chain_spec gcd _ _ _ g G E). unfold f. destruct (Bool.eqb _ _); lia. }
  assert (Hf : f <> 0). { intros Z. rewrite Z in H. unfold zdivide, zdiv_rem in H. cbn in H. discriminate. }
  destruct (reduce_generic [vx (hv p); vy (hv p); vz (hv p)] (hw p) f Af Hf) as [_ X]. clear E.
  assert (D : forall a x, zdivide a f = Ok x -> x = Z.quot a f).
  { intros a x. unfold zdivide, zdiv_rem. destruct (f =? 0); [discriminate|]. destruct (_ && _)%bool; [discriminate|]. cbn [rbind fst]. congruence. }
  destruct (zdivide (hw p) f) as [w| | |] eqn:E1; try discriminate. cbn [rbind] in H.
  destruct (zdivide (vx (hv p)) f) as [x| | |] eqn:E2; try discriminate. cbn [rbind] in H.
  destruct (zdivide (vy (hv p)) f) as [y| | |] eqn:E3; try discriminate. cbn [rbind] in H.
  destruct (zdivide (vz (hv p)) f) as [z| | |] eqn:E4; try discriminate. cbn [rbind] in H. injection H as <-.
  apply D in E1, E2, E3, E4. exists f. split; [exact Hf|]. unfold lp at 2. cbn [hv hw vx vy vz]. subst. exact X.
Qed.
Lemma hp_reduce_incident gcd p r h : gcd_ok gcd -> hp_reduce gcd p = Ok r -> (incident h p <-> incident h r).
Proof.
  intros G H. destruct (hp_reduce_scale gcd p r G H) as (f & Hf & E). unfold lp in E. cbn [List.map] in E. injection E as E1 E2 E3 E4.
  unfold incident, v3_dot. rewrite E1, E2, E3, E4. split; intros X.
  - apply (Z.mul_reg_l _ _ f Hf). lia.
  - rewrite <- !Z.mul_assoc, <- X. ring.
Qed.
Lemma hp_reduce_weight gcd p r : gcd_ok gcd -> hp_reduce gcd p = Ok r -> (hw p = 0 <-> hw r = 0).
Proof.
  intros G H. destruct (hp_reduce_scale gcd p r G H) as (f & Hf & E). unfold lp in E. cbn [List.map] in E. injection E as E1 _ _ _. rewrite E1. nia.
Qed.
Lemma one_plane_incident p a : incident a (pl_intersect (pl_of_hpoints p (hp_add_offset p (hn a) 1)) a).
Proof.
  destruct p as [[x y z] w], a as [[n1 n2 n3] d]. unfold incident, pl_intersect, pl_of_hpoints, hp_add_offset, v3_dot, v3_add, v3_cross, v3_scale, v3_sub; cbn [hv hw hn hd vx vy vz ld lm].
  set (s := zabs_mult2 _ _). clearbody s. ring.
Qed.
Lemma two_planes_incident a b c : incident a (pl_intersect (pl_of_planes a b) c) /\ incident b (pl_intersect (pl_of_planes a b) c).
Proof.
  destruct a as [[n1 n2 n3] d], b as [[m1 m2 m3] e], c as [[k1 k2 k3] f]. unfold incident, pl_intersect, pl_of_planes, zdet, v3_dot, v3_add, v3_cross, v3_scale; cbn [hv hw hn hd vx vy vz ld lm].
  split; ring.
Qed.
Lemma third_plane_incident a b c : incident c (pl_intersect (pl_of_planes a b) c).
Proof.
  destruct a as [[n1 n2 n3] d], b as [[m1 m2 m3] e], c as [[k1 k2 k3] f]. unfold incident, pl_intersect, pl_of_planes, zdet, v3_dot, v3_add, v3_cross, v3_scale; cbn [hv hw hn hd vx vy vz ld lm].
  ring.
Qed.
Lemma finalize_spec gcd v v' : gcd_ok gcd -> vi_finalize gcd v = Ok v' -> vadj v' = vadj v /\ Forall (fun h => incident h (vpt v')) (vadj v).
Proof.
  intros G. unfold vi_finalize. destruct (forallb _ (vadj v)) eqn:F.
  - intros E. injection E as <-. split; [reflexivity|]. rewrite forallb_forall in F. apply Forall_forall. intros h Hh. apply hs_coincident_incident, F, Hh.
  - destruct v as [p adj]. cbn [vadj vpt] in *. destruct adj as [|a [|b [|c [|]]]]; try discriminate; cbn [rbind].
    + destruct (hp_reduce gcd _) as [r| | |] eqn:R; try discriminate. cbn [rbind]. intros E. injection E as <-. split; [reflexivity|].
      constructor; [|constructor]. apply (hp_reduce_incident gcd _ r a G R), one_plane_incident.
    + cbv zeta. destruct (hp_reduce gcd _) as [r| | |] eqn:R; try discriminate. cbn [rbind]. intros E. injection E as <-. split; [reflexivity|].
      pose proof (two_planes_incident a b (hs_of_normal_point (ld (pl_of_planes a b)) p)) as [I1 I2].
      constructor; [|constructor; [|constructor]]; apply (hp_reduce_incident gcd _ r _ G R); assumption.
    + destruct (hp_reduce gcd _) as [r| | |] eqn:R; try discriminate. cbn [rbind]. intros E. injection E as <-. split; [reflexivity|].
      pose proof (two_planes_incident a b c) as [I1 I2]. pose proof (third_plane_incident a b c) as I3.
      constructor; [|constructor; [|constructor; [|constructor]]]; apply (hp_reduce_incident gcd _ r _ G R); assumption.
Qed.
(** Equal or opposite planes have the same points. *)
Lemma same_or_opposite_incident a h p : ~ no_plane a -> hs_same_or_opposite a h = true -> incident a p -> incident h p.
Proof.
  intros N S. unfold hs_same_or_opposite, hs_scaled_eq in S. rewrite !andb_true_iff, !Z.eqb_eq in S. destruct S as [[[S1 S2] S3] S4].
  assert (Z : hs_pivot a a <> 0).
  { unfold hs_pivot. destruct (hd a =? 0) eqn:E0; cbn [negb]; [|lia]. destruct (vx (hn a) =? 0) eqn:E1; cbn [negb]; [|lia]. destruct (vy (hn a) =? 0) eqn:E2; cbn [negb]; [|lia].
    intros E3. apply N. unfold no_plane, l4. repeat (constructor; [lia|]). constructor. }
  set (so := hs_pivot a a) in *. set (sm := hs_pivot a h) in *. clearbody so sm. unfold incident, v3_dot. intros I.
  apply (Z.mul_reg_l _ _ so Z).
  transitivity (vx (hn h) * so * vx (hv p) + vy (hn h) * so * vy (hv p) + vz (hn h) * so * vz (hv p)); [ring|]. rewrite <- S1, <- S2, <- S3.
  transitivity (sm * (vx (hn a) * vx (hv p) + vy (hn a) * vy (hv p) + vz (hn a) * vz (hv p))); [ring|]. rewrite I.
  transitivity (hw p * (hd a * sm)); [ring|]. rewrite S4. ring.
Qed.
(** ** Vertex records *)
Open Scope nat_scope.
Definition full (v : vinfo) : Prop := length (vadj v) = 3.
Definition vi_ok (v : vinfo) : Prop := length (vadj v) <= 3 /\ Forall (fun h => ~ no_plane h) (vadj v) /\ (full v -> Forall (fun h => incident h (vpt v)) (vadj v)).
Definition has_plane (v : vinfo) (h : hspace3) : Prop := exists a, In a (vadj v) /\ (a = h \/ hs_same_or_opposite a h = true).
(** The vertex is, or will be, on the plane. *)
Definition covered (v : vinfo) (h : hspace3) : Prop := has_plane v h \/ (full v /\ incident h (vpt v)).
(** What later calls may do to a vertex record. *)
Definition later (v v' : vinfo) : Prop := (exists t, vadj v' = vadj v ++ t) /\ (full v -> v' = v).
Lemma later_refl v : later v v.
Proof. split; [exists []; symmetry; apply app_nil_r|auto]. Qed.
Lemma later_trans a b c : later a b -> later b c -> later a c.
Proof.
  intros [[t E] F] [[t' E'] F']. split; [exists (t ++ t'); rewrite E', E; symmetry; apply app_assoc|].
  intros X. pose proof (F X). subst b. apply F', X.
Qed.
Lemma covered_later v v' h : later v v' -> covered v h -> covered v' h.
Proof.
  intros [[t E] F] [(a & A & B)|[X Y]].
  - left. exists a. split; [rewrite E; apply in_or_app; left; exact A|exact B].
  - right. rewrite (F X). auto.
Qed.
Lemma try_add_facts gcd v h v' : gcd_ok gcd -> vi_ok v -> ~ no_plane h -> vi_try_add gcd v h = Ok v' ->
  vi_ok v' /\ later v v' /\ (can_add v = true -> has_plane v' h) /\ (can_add v = false -> v' = v /\ full v).
Proof.
  intros G I NZ. pose proof I as (L & Z & F). unfold vi_try_add. destruct (can_add v) eqn:CA.
  - unfold can_add in CA. assert (N3 : length (vadj v) < 3) by lia. destruct (existsb _ (vadj v)) eqn:X.
    + intros E. injection E as <-. split; [exact I|]. split; [apply later_refl|]. split; [|discriminate]. intros _.
      apply existsb_exists in X as (a & A & B). exists a. auto.
    + cbv zeta. cbn [vadj]. assert (NF : ~ full v) by (unfold full; lia).
      assert (Z' : Forall (fun h => ~ no_plane h) (vadj v ++ [h])) by (apply Forall_app; split; [exact Z|constructor; [exact NZ|constructor]]).
      destruct (length (vadj v ++ [h]) =? 3) eqn:E3.
      * intros E. destruct (finalize_spec gcd _ v' G E) as [A B]. cbn [vadj] in A, B.
        split; [|split; [|split; [|discriminate]]].
        -- split; [rewrite A; lia|]. split; [rewrite A; exact Z'|]. intros _. rewrite A. exact B.
        -- split; [exists [h]; exact A|intros; contradiction].
        -- intros _. exists h. split; [rewrite A; apply in_or_app; right; left; reflexivity|left; reflexivity].
      * intros E. injection E as <-. split; [|split; [|split; [|discriminate]]].
        -- split; [cbn [vadj]; rewrite app_length; cbn [length]; lia|]. split; [exact Z'|]. unfold full; cbn [vadj]. lia.
        -- split; [exists [h]; reflexivity|intros; contradiction].
        -- intros _. exists h. split; [cbn [vadj]; apply in_or_app; right; left; reflexivity|left; reflexivity].
  - intros E. injection E as <-. split; [exact I|]. split; [apply later_refl|]. split; [discriminate|]. intros _. split; [reflexivity|]. unfold full, can_add in *. lia.
Qed.
(** ** The store *)
Lemma set_nth_length {A} (l : list A) i x : i < length l -> length (set_nth l i x) = length l.
Proof. intros H. unfold set_nth. rewrite app_length, firstn_length. cbn [length]. rewrite skipn_length. lia. Qed.
Lemma set_nth_same {A} (l : list A) i x : i < length l -> nth_error (set_nth l i x) i = Some x.
Proof. intros H. unfold set_nth. rewrite nth_error_app2; rewrite firstn_length; [|lia]. replace (i - Nat.min i (length l)) with 0 by lia. reflexivity. Qed.
Lemma set_nth_other {A} (l : list A) i j x : i < length l -> j <> i -> nth_error (set_nth l i x) j = nth_error l j.
Proof.
  intros H N. unfold set_nth. destruct (Nat.lt_ge_cases j i) as [L|L].
  - rewrite nth_error_app1 by (rewrite firstn_length; lia). revert i L H N. revert j. induction l as [|y l IH]; intros j i L H N; [cbn [length] in H; lia|].
    destruct i as [|i]; [lia|]. destruct j as [|j]; [reflexivity|]. cbn [firstn nth_error]. apply IH; cbn [length] in *; lia.
  - rewrite nth_error_app2 by (rewrite firstn_length; lia). rewrite firstn_length. replace (Nat.min i (length l)) with i by lia.
    destruct (j - i) as [|d] eqn:E; [lia|]. cbn [nth_error]. replace j with (S i + d) by lia. clear. revert l. induction (S i) as [|k IH]; intros l; [reflexivity|].
    destruct l as [|y l]; [destruct d; reflexivity|]. cbn [skipn Nat.add nth_error]. apply IH.
Qed.
Lemma get_some {A} (l : list A) i x : get l i = Ok x <-> nth_error l i = Some x.
Proof. unfold get. destruct (nth_error l i); split; intros H; try discriminate; congruence. Qed.
(** Stores grow and their vertices only change as [later] allows. *)
Definition later_all (st st' : list vinfo) : Prop := length st <= length st' /\ forall k v, nth_error st k = Some v -> exists v', nth_error st' k = Some v' /\ later v v'.
Lemma later_all_refl st : later_all st st.
Proof. split; [lia|]. intros k v E. exists v. split; [exact E|apply later_refl]. Qed.
Lemma later_all_trans a b c : later_all a b -> later_all b c -> later_all a c.
Proof.
  intros [L1 H1] [L2 H2]. split; [lia|]. intros k v E. destruct (H1 k v E) as (v1 & E1 & X1). destruct (H2 k v1 E1) as (v2 & E2 & X2). exists v2. split; [exact E2|].
  eapply later_trans; eassumption.
Qed.
Lemma later_all_set st k v v' : nth_error st k = Some v -> later v v' -> later_all st (set_nth st k v').
Proof.
  intros E L. assert (K : k < length st) by (apply nth_error_Some; congruence). split; [rewrite set_nth_length by exact K; lia|].
  intros j u U. destruct (Nat.eq_dec j k) as [->|N].
  - rewrite set_nth_same by exact K. exists v'. split; [reflexivity|]. congruence.
  - rewrite set_nth_other by assumption. exists u. split; [exact U|apply later_refl].
Qed.
Lemma all_ok_set st k v' : Forall vi_ok st -> k < length st -> vi_ok v' -> Forall vi_ok (set_nth st k v').
Proof.
  intros F K V. unfold set_nth. apply Forall_app. split; [apply Forall_forall; intros x X; rewrite Forall_forall in F; apply F; rewrite <- (firstn_skipn k st); apply in_or_app; left; exact X|].
  constructor; [exact V|]. apply Forall_forall. intros x X. rewrite Forall_forall in F. apply F. rewrite <- (firstn_skipn (S k) st). apply in_or_app. right. exact X.
Qed.
Definition full_at (st : list vinfo) (k : nat) : Prop := exists v, nth_error st k = Some v /\ full v.
Definition covered_at (st : list vinfo) (k : nat) (h : hspace3) : Prop := exists v, nth_error st k = Some v /\ covered v h.
Lemma covered_at_later st st' k h : later_all st st' -> covered_at st k h -> covered_at st' k h.
Proof. intros [_ L] (v & E & C). destruct (L k v E) as (v' & E' & X). exists v'. split; [exact E'|]. eapply covered_later; eassumption. Qed.
Lemma attach_facts gcd act h : gcd_ok gcd -> ~ no_plane h -> forall pos st out st' out', Forall vi_ok st -> attach gcd st act h out pos = Ok (st', out') ->
  Forall vi_ok st' /\ length st' = length st /\ later_all st st' /\
  exists ks, out' = out ++ ks /\ Forall2 (fun i k => nth_error act i = Some k) pos ks /\ Forall (fun k => full_at st k \/ covered_at st' k h) ks.
Proof.
  intros G NZ. induction pos as [|i pos IH]; intros st out st' out' F; cbn [attach].
  - intros E. injection E as <- <-. split; [exact F|]. split; [reflexivity|]. split; [apply later_all_refl|]. exists []. split; [symmetry; apply app_nil_r|]. split; constructor.
  - destruct (get act i) as [k| | |] eqn:Ga; try discriminate. cbn [rbind]. destruct (get st k) as [v| | |] eqn:Gs; try discriminate. cbn [rbind].
    apply get_some in Ga, Gs. assert (K : k < length st) by (apply nth_error_Some; congruence).
    destruct (vi_try_add gcd v h) as [v'| | |] eqn:T; try discriminate. cbn [rbind]. intros E.
    assert (V : vi_ok v) by (rewrite Forall_forall in F; apply F; eapply nth_error_In; exact Gs).
    destruct (try_add_facts gcd v h v' G V NZ T) as (V' & L' & A & B).
    destruct (IH _ _ _ _ (all_ok_set st k v' F K V') E) as (F' & Ln & L2 & ks & -> & P & C). pose proof (later_all_set st k v v' Gs L') as L1.
    split; [exact F'|]. split; [rewrite Ln; apply set_nth_length; exact K|]. split; [eapply later_all_trans; eassumption|].
    exists (k :: ks). split; [rewrite <- app_assoc; reflexivity|]. split; [constructor; assumption|]. constructor.
    + destruct (can_add v) eqn:CA; [right|left; exists v; split; [exact Gs|apply B; reflexivity]].
      apply (covered_at_later (set_nth st k v')); [exact L2|]. exists v'. split; [apply set_nth_same; exact K|]. left. apply A. reflexivity.
    + eapply Forall_impl; [|exact C]. intros j [(u & U & X)|X]; [|right; exact X]. destruct (Nat.eq_dec j k) as [->|N].
      * rewrite set_nth_same in U by exact K. injection U as <-. destruct (can_add v) eqn:CA.
        -- right. apply (covered_at_later (set_nth st k v')); [exact L2|]. exists v'. split; [apply set_nth_same; exact K|]. left. apply A. reflexivity.
        -- left. exists v. split; [exact Gs|apply B; reflexivity].
      * left. exists u. rewrite set_nth_other in U by assumption. auto.
Qed.

(** ** GetNextPlanarRange *)
(** The calls the loops make: each AddUnconstrained after a HasLargePlane. *)
Inductive paired : list nbop -> Prop :=
| pd_nil : paired []
| pd_unc v ops : paired ops -> paired (NLarge :: NUnc v :: ops)
| pd_con v ops : paired ops -> paired (NCon v :: ops)
| pd_end : paired [NLarge].
Lemma paired_split ops : paired ops -> forall before after, ops = before ++ NLarge :: after -> after = [] \/ exists v t, after = NUnc v :: t.
Proof.
  induction 1 as [|v ops H IH|v ops H IH|]; intros before after E.
  - destruct before; discriminate.
  - destruct before as [|o [|o' before]]; cbn [app] in E.
    + injection E as <-. right. exists v, ops. reflexivity.
    + discriminate.
    + injection E as _ _ E. exact (IH _ _ E).
  - destruct before as [|o before]; cbn [app] in E; [discriminate|]. injection E as _ E. exact (IH _ _ E).
  - destruct before as [|o [|]]; cbn [app] in E; try discriminate. injection E as <-. left. reflexivity.
Qed.
Lemma constrained_le_vertex ops : count is_constrained ops <= count is_vertex ops.
Proof. unfold count. induction ops as [|[v|v|] ops IH]; cbn [filter is_vertex is_constrained length]; lia. Qed.
Lemma paired_early o ops : paired ops -> is_vertex o = true -> queried_early (o :: ops) -> 5 <= count is_vertex (o :: ops).
Proof.
  intros P V (before & after & E & N & M). destruct before as [|o' before]; cbn [app] in E; [injection E as -> _; discriminate|]. injection E as <- ->.
  change (o :: before ++ NLarge :: after) with ((o :: before) ++ NLarge :: after). rewrite count_app.
  destruct (paired_split _ P _ _ eq_refl) as [->|(v & t & ->)]; [unfold count in M; cbn in M; lia|].
  change (count is_vertex (NLarge :: NUnc v :: t)) with (S (count is_vertex t)). change (count is_constrained (NUnc v :: t)) with (count is_constrained t) in M.
  pose proof (constrained_le_vertex t). lia.
Qed.
Lemma run_cons gcd b o b1 r ops b2 rs : nb_step gcd b o = Ok (b1, r) -> nb_run gcd b1 ops = Ok (b2, rs) -> nb_run gcd b (o :: ops) = Ok (b2, r :: rs).
Proof. intros A B. cbn [nb_run]. rewrite A. cbn [rbind fst snd]. rewrite B. reflexivity. Qed.
Lemma large_keeps gcd b b' r : nb_ok gcd b -> nb_count b = 3 -> nb_has_large gcd b = Ok (b', r) -> b' = b.
Proof.
  intros I C. pose proof I as (T & _ & _ & K & S). destruct (K C) as [Es _]. pose proof (S Es). unfold nb_has_large. destruct (length (nb_info b) <? 3) eqn:E; [lia|]. rewrite Es. congruence.
Qed.
Lemma unc_keeps gcd b b' v : nb_ok gcd b -> nb_count b = 3 -> nb_add_unconstrained b v = Ok b' -> b' = b.
Proof.
  intros I C. pose proof I as (T & _ & _ & K & S). destruct (K C) as [Es _]. pose proof (S Es). unfold nb_add_unconstrained. destruct (length (nb_info b) <? 3) eqn:E; [lia|]. congruence.
Qed.
(** What holds at every accepted position. *)
Definition seen (st : list vinfo) (act : list nat) (ops : list nbop) (rs : list bool) (i : nat) : Prop :=
  exists v, act_at st act i = Ok v /\ In (vpt v) (flat_map vertex_of ops) /\ (can_add v = false -> In (NCon (vpt v), true) (combine ops rs)).
Lemma seen_tail st act o ops r rs i : seen st act ops rs i -> seen st act (o :: ops) (r :: rs) i.
Proof. intros (v & A & V & B). exists v. split; [exact A|]. split; [cbn [flat_map]; apply in_or_app; right; exact V|]. intros C. right. apply B, C. Qed.
(** Every vertex asked about is one of the range. *)
Definition from_range (st : list vinfo) (act : list nat) (lo hi : nat) (ops : list nbop) : Prop :=
  Forall (fun p => exists i v, lo <= i < hi /\ act_at st act i = Ok v /\ vpt v = p) (flat_map vertex_of ops).
Lemma back_facts gcd st act : forall fuel b last b' e, nb_ok gcd b -> nb_count b = 3 -> range_back gcd fuel st act b last = Ok (b', e) ->
  b' = b /\ e <= last /\ (exists ops rs, nb_run gcd b ops = Ok (b, rs) /\ paired ops /\ from_range st act (e - 1) last ops /\ forall i, e <= i < last -> seen st act ops rs i) /\
  (forall f v, f < last -> act_at st act f = Ok v -> can_add v = false -> ~ incident (nb_plane b) (vpt v) -> f < e).
Proof.
  induction fuel as [|fuel IH]; intros b last b' e I C; cbn [range_back]; [discriminate|]. destruct last as [|l]; [discriminate|].
  destruct (act_at st act l) as [v| | |] eqn:A; try discriminate. cbn [rbind]. destruct (can_add v) eqn:CA.
  - destruct (nb_has_large gcd b) as [[b1 lg]| | |] eqn:HL; try discriminate. cbn [rbind fst snd]. pose proof (large_keeps gcd b b1 lg I C HL). subst b1. destruct lg.
    + intros E. injection E as <- <-. split; [reflexivity|]. split; [lia|]. split; [|intros; lia].
      exists [NLarge], [true]. split; [apply (run_cons gcd b NLarge b true [] b []); [exact HL|reflexivity]|]. split; [constructor|]. split; [constructor|intros; lia].
    + destruct (nb_add_unconstrained b (vpt v)) as [b2| | |] eqn:U; try discriminate. cbn [rbind]. pose proof (unc_keeps gcd b b2 (vpt v) I C U). subst b2.
      intros E. destruct (IH b l b' e I C E) as (-> & Le & (ops & rs & R & P & FR & S) & ST). split; [reflexivity|]. split; [lia|]. split.
      * exists (NLarge :: NUnc (vpt v) :: ops), (false :: true :: rs). split.
        { apply (run_cons gcd b NLarge b false); [exact HL|]. apply (run_cons gcd b (NUnc (vpt v)) b true); [cbn [nb_step]; rewrite U; reflexivity|exact R]. }
        split; [constructor; exact P|]. split.
        { unfold from_range. cbn [flat_map vertex_of app]. constructor; [exists l, v; split; [lia|auto]|]. eapply Forall_impl; [|exact FR]. intros p (i & w & Hi & X). exists i, w. split; [lia|exact X]. }
        intros i Hi. destruct (Nat.eq_dec i l) as [->|N].
        { exists v. split; [exact A|]. split; [left; reflexivity|congruence]. }
        apply seen_tail, seen_tail, S. lia.
      * intros f w Hf Aw Cw Nw. destruct (Nat.eq_dec f l) as [->|N]; [congruence|]. apply (ST f w); [lia|assumption..].
  - destruct (nb_try_constrained gcd b (vpt v)) as [[b1 r]| | |] eqn:TC; try discriminate. cbn [rbind fst snd].
    destruct (nb_con_facts gcd b (vpt v) b1 r I TC) as (_ & [(X & _)|(_ & -> & ->)]); [lia|]. destruct (hs_coincident (nb_plane b) (vpt v)) eqn:HC.
    + intros E. destruct (IH b l b' e I C E) as (-> & Le & (ops & rs & R & P & FR & S) & ST). split; [reflexivity|]. split; [lia|]. split.
      * exists (NCon (vpt v) :: ops), (true :: rs). split; [apply (run_cons gcd b (NCon (vpt v)) b true); [exact TC|exact R]|]. split; [constructor; exact P|]. split.
        { unfold from_range. cbn [flat_map vertex_of app]. constructor; [exists l, v; split; [lia|auto]|]. eapply Forall_impl; [|exact FR]. intros p (i & w & Hi & X). exists i, w. split; [lia|exact X]. }
        intros i Hi. destruct (Nat.eq_dec i l) as [->|N].
        { exists v. split; [exact A|]. split; [left; reflexivity|]. intros _. left. reflexivity. }
        apply seen_tail, S. lia.
      * intros f w Hf Aw Cw Nw. destruct (Nat.eq_dec f l) as [->|N]; [|apply (ST f w); [lia|assumption..]].
        exfalso. apply Nw. rewrite A in Aw. injection Aw as <-. apply hs_coincident_incident, HC.
    + intros E. injection E as <- <-. split; [reflexivity|]. split; [lia|]. split; [|intros; lia].
      exists [NCon (vpt v)], [false]. split; [apply (run_cons gcd b (NCon (vpt v)) b false [] b []); [exact TC|reflexivity]|]. split; [constructor; constructor|].
      split; [|intros; lia]. constructor; [|constructor]. exists l, v. split; [lia|auto].
Qed.
Lemma front_facts gcd st act : forall fuel b first last b' f e, nb_ok gcd b -> first <= last -> range_front gcd fuel st act b first last = Ok (b', f, e) ->
  exists ops rs, nb_run gcd b ops = Ok (b', rs) /\ paired ops /\ from_range st act first last ops /\ first <= f <= e /\ e <= last /\ (f < e \/ (f = e /\ e = last)) /\
  (forall i, first <= i < f \/ e <= i < last -> seen st act ops rs i) /\
  ((exists v, In (NCon v, false) (combine ops rs) /\ nb_count b + (f - first) >= 3) \/ (count is_vertex ops = f - first /\ e = last)) /\
  Nat.min last (first + (3 - length (nb_info b))) <= f.
Proof.
  induction fuel as [|fuel IH]; intros b first last b' f e I L; cbn [range_front]; [discriminate|]. destruct (Nat.eqb_spec first last) as [->|NE].
  - intros E. injection E as <- <- <-. exists [], []. split; [reflexivity|]. split; [constructor|]. split; [constructor|]. split; [lia|]. split; [lia|]. split; [auto|].
    split; [intros; lia|]. split; [right; split; [cbn; lia|reflexivity]|lia].
  - destruct (act_at st act first) as [v| | |] eqn:A; try discriminate. cbn [rbind]. destruct (can_add v) eqn:CA.
    + destruct (nb_has_large gcd b) as [[b1 lg]| | |] eqn:HL; try discriminate. cbn [rbind fst snd]. destruct (nb_large_facts gcd b b1 lg I HL) as (I1 & N1 & C1 & Cs). destruct lg.
      * intros E. injection E as <- <- <-. exists [NLarge], [true]. split; [apply (run_cons gcd b NLarge b1 true [] b1 []); [exact HL|reflexivity]|]. split; [constructor|]. split; [constructor|].
        split; [lia|]. split; [lia|]. split; [lia|]. split; [intros; lia|]. split; [right; split; [cbn; lia|reflexivity]|].
        destruct Cs as [(_ & _ & X)|(X & _)]; [discriminate X|]. lia.
      * destruct (nb_unc_ok gcd b1 (vpt v) I1) as (b2 & U & I2 & C2 & _ & _ & N2). rewrite U. cbn [rbind]. intros E.
        destruct (IH b2 (S first) last b' f e I2 ltac:(lia) E) as (ops & rs & R & P & FR & B1 & B2 & B3 & S & D & M).
        exists (NLarge :: NUnc (vpt v) :: ops), (false :: true :: rs). split.
        { apply (run_cons gcd b NLarge b1 false); [exact HL|]. apply (run_cons gcd b1 (NUnc (vpt v)) b2 true); [cbn [nb_step]; rewrite U; reflexivity|exact R]. }
        split; [constructor; exact P|]. split.
        { unfold from_range. cbn [flat_map vertex_of app]. constructor; [exists first, v; split; [lia|auto]|]. eapply Forall_impl; [|exact FR]. intros p (i & w & Hi & X). exists i, w. split; [lia|exact X]. }
        split; [lia|]. split; [lia|]. split; [exact B3|]. split.
        { intros i Hi. destruct (Nat.eq_dec i first) as [->|N]; [|apply seen_tail, seen_tail, S; lia].
          exists v. split; [exact A|]. split; [left; reflexivity|congruence]. }
        split.
        { destruct D as [(w & D1 & D2)|[D1 D2]]; [left; exists w; split; [right; right; exact D1|lia]|right]. change (count is_vertex (NLarge :: NUnc (vpt v) :: ops)) with (Datatypes.S (count is_vertex ops)). lia. }
        rewrite N2, N1 in M. destruct (length (nb_info b) <? 3) eqn:EL; [rewrite app_length in M; cbn [length] in M|]; lia.
    + destruct (nb_try_constrained gcd b (vpt v)) as [[b1 r]| | |] eqn:TC; try discriminate. cbn [rbind fst snd].
      destruct (nb_con_facts gcd b (vpt v) b1 r I TC) as (I1 & Cs). destruct r.
      * intros E. destruct (IH b1 (S first) last b' f e I1 ltac:(lia) E) as (ops & rs & R & P & FR & B1 & B2 & B3 & S & D & M).
        exists (NCon (vpt v) :: ops), (true :: rs). split; [apply (run_cons gcd b (NCon (vpt v)) b1 true); [exact TC|exact R]|].
        split; [constructor; exact P|]. split.
        { unfold from_range. cbn [flat_map vertex_of app]. constructor; [exists first, v; split; [lia|auto]|]. eapply Forall_impl; [|exact FR]. intros p (i & w & Hi & X). exists i, w. split; [lia|exact X]. }
        split; [lia|]. split; [lia|]. split; [exact B3|]. split.
        { intros i Hi. destruct (Nat.eq_dec i first) as [->|N]; [|apply seen_tail, S; lia].
          exists v. split; [exact A|]. split; [left; reflexivity|]. intros _. left. reflexivity. }
        split.
        { destruct D as [(w & D1 & D2)|[D1 D2]]; [left; exists w; split; [right; exact D1|]|right].
          - destruct Cs as [(_ & _ & X & _)|(_ & -> & _)]; lia.
          - change (count is_vertex (NCon (vpt v) :: ops)) with (Datatypes.S (count is_vertex ops)). lia. }
        destruct Cs as [(_ & _ & _ & X & _)|(X & -> & _)].
        { rewrite X, app_length in M. cbn [length] in M. lia. }
        { pose proof (proj1 I) as T. pose proof (tf (nb_info b)). lia. }
      * destruct Cs as [(_ & X & _)|(C3 & -> & HC)]; [discriminate X|].
        destruct (range_back gcd (S last) st act b last) as [[b2 e2]| | |] eqn:RB; try discriminate. cbn [rbind fst snd]. intros E. injection E as <- <- <-.
        destruct (back_facts gcd st act _ b last b2 e2 I C3 RB) as (-> & Le & (ops & rs & R & P & FR & S) & ST).
        assert (NI : ~ incident (nb_plane b) (vpt v)) by (rewrite <- hs_coincident_incident; congruence).
        pose proof (ST first v ltac:(lia) A CA NI) as Lf.
        exists (NCon (vpt v) :: ops), (false :: rs). split; [apply (run_cons gcd b (NCon (vpt v)) b false); [exact TC|exact R]|].
        split; [constructor; exact P|]. split.
        { unfold from_range. cbn [flat_map vertex_of app]. constructor; [exists first, v; split; [lia|auto]|]. eapply Forall_impl; [|exact FR]. intros p (i & w & Hi & X). exists i, w. split; [lia|exact X]. }
        split; [lia|]. split; [lia|]. split; [lia|]. split; [intros i Hi; apply seen_tail, S; lia|]. split; [left; exists (vpt v); split; [left; reflexivity|lia]|].
        pose proof (proj1 I) as T. pose proof (tf (nb_info b)). lia.
Qed.
