(** Mesh queries. *)
From Coq Require Import List Bool Arith ZArith QArith Lqa Lia ZifyBool Permutation Morphisms Setoid.
From Verif Require Import BigUIntModel GeoModel GeoSpec GeoProofs GeoReduceProofs AreaSpec AreaProofs CvxMergeProofs MergeProofs SolidModel SolidSpec.
Import ListNotations.
Open Scope Q_scope.
(** ** Extremes *)
Lemma far_lt v a b qa qb : denotes a qa -> denotes b qb -> rat_lt (v3_dot (hv a) v) (hw a) (v3_dot (hv b) v) (hw b) = true <-> qdot qa (qpt v) < qdot qb (qpt v).
Proof.
  intros (Wa & Xa & Ya & Za) (Wb & Xb & Yb & Zb). rewrite rat_lt_spec by assumption. pose proof (inject_Z_neq0 _ Wa). pose proof (inject_Z_neq0 _ Wb).
  assert (E : forall p q w, inject_Z (vx p) == qx q * w -> inject_Z (vy p) == qy q * w -> inject_Z (vz p) == qz q * w -> ~ w == 0 -> inject_Z (v3_dot p v) / w == qdot q (qpt v)).
  { intros p q w X Y Z W. unfold v3_dot, qdot, qpt. cbn [qx qy qz]. rewrite !inject_Z_plus, !inject_Z_mult, X, Y, Z. field. exact W. }
  rewrite (E _ qa), (E _ qb) by assumption. reflexivity.
Qed.
Lemma top_fold l qs : Forall2 denotes l qs -> forall s q, denotes s q -> exists r, denotes (fold_left top_step l s) r /\ ((fold_left top_step l s = s /\ r = q) \/ In (fold_left top_step l s, r) (combine l qs)) /\ ~ qtop_lt r q /\ forall x, In x qs -> ~ qtop_lt r x.
Proof.
  intros F. induction F as [|v x l qs D F IH]; intros s q Ds; cbn [fold_left combine].
  - exists q. split; [exact Ds|]. split; [left; auto|]. split; [unfold qtop_lt; lra|intros x []].
  - unfold top_step at 2 4 6. destruct Ds as [W Ds']. pose proof (conj W Ds' : denotes s q) as Ds. clear Ds'. destruct (Z.eqb_spec (hw s) 0) as [Z|_]; [contradiction|]. cbn [orb]. pose proof (hp_topness_lt_spec s v q x Ds D) as T. destruct (hp_topness_lt s v) eqn:Lt.
    + destruct (IH v x D) as (r & Dr & I & Nr & M). pose proof (proj1 T eq_refl) as L. exists r. split; [exact Dr|]. split; [right; destruct I as [[-> ->]|I]; [left; reflexivity|right; exact I]|]. split; [clear - L Nr; unfold qtop_lt in *; intros X; apply Nr; lra|]. intros y [<-|Y]; [exact Nr|apply M; exact Y].
    + destruct (IH s q Ds) as (r & Dr & I & Nr & M). assert (L : ~ qtop_lt q x) by (intros X; apply T in X; discriminate). exists r. split; [exact Dr|]. split; [destruct I as [I|I]; [left; exact I|right; right; exact I]|]. split; [exact Nr|].
      intros y [<-|Y]; [|apply M; exact Y]. clear - L Nr. unfold qtop_lt in *. intros X. destruct (Q_dec (qz q) (qz x)) as [[|]|]; destruct (Q_dec (qy q) (qy x)) as [[|]|]; destruct (Q_dec (qx q) (qx x)) as [[|]|]; try (apply L; lra); apply Nr; lra.
Qed.
Lemma far_fold v l qs : Forall2 denotes l qs -> forall s q, denotes s q -> let r := fst (fold_left (far_step v) l (s, v3_dot (hv s) v)) in exists x, denotes r x /\ ((r = s /\ x = q) \/ In (r, x) (combine l qs)) /\ qdot q (qpt v) <= qdot x (qpt v) /\ forall y, In y qs -> qdot y (qpt v) <= qdot x (qpt v).
Proof.
  intros F. induction F as [|w x l qs D F IH]; intros s q Ds; cbv zeta; cbn [fold_left combine].
  - exists q. split; [exact Ds|]. split; [left; auto|]. split; [lra|intros x []].
  - unfold far_step at 2 4 6. cbv zeta. cbn [fst snd]. destruct Ds as [W Ds']. pose proof (conj W Ds' : denotes s q) as Ds. clear Ds'. destruct (Z.eqb_spec (hw s) 0) as [Z|_]; [contradiction|]. cbn [orb]. pose proof (far_lt v s w q x Ds D) as T. destruct (rat_lt _ _ _ _) eqn:Lt.
    + destruct (IH w x D) as (r & Dr & I & Nr & M). pose proof (proj1 T eq_refl) as L. exists r. split; [exact Dr|]. split; [right; destruct I as [[-> ->]|I]; [left; reflexivity|right; exact I]|]. split; [lra|]. intros y [<-|Y]; [exact Nr|apply M; exact Y].
    + destruct (IH s q Ds) as (r & Dr & I & Nr & M). assert (L : ~ qdot q (qpt v) < qdot x (qpt v)) by (intros X; apply T in X; discriminate). exists r. split; [exact Dr|]. split; [destruct I as [I|I]; [left; exact I|right; right; exact I]|]. split; [exact Nr|]. intros y [<-|Y]; [lra|apply M; exact Y].
Qed.
(** ** The common denominator *)
Definition key_product (k : key) : Z := let '(a, b, c) := k in (a * b * c)%Z.
Lemma key_eqb_eq a b : key_eqb a b = true <-> a = b.
Proof. destruct a as [[a0 a1] a2], b as [[b0 b1] b2]. unfold key_eqb. rewrite !andb_true_iff, !Z.eqb_eq. split; [intros [[-> ->] ->]; reflexivity|intros [= -> -> ->]; auto]. Qed.
Lemma canonical_product k : key_product (canonical_key k) = key_product k.
Proof. destruct k as [[a b] c]. unfold canonical_key. destruct (b <? a)%Z; unfold key_product; ring. Qed.
Lemma map_set_find m k i k' : map_find (map_set m k i) k' = if key_eqb k' k then Some (Some i) else map_find m k'.
Proof.
  induction m as [|[x j] m IH]; cbn [map_set map_find].
  - reflexivity.
  - destruct (key_eqb k x) eqn:E.
    + apply key_eqb_eq in E as <-. cbn [map_find]. destruct (key_eqb k' k); reflexivity.
    + cbn [map_find]. rewrite IH. destruct (key_eqb k' x) eqn:E'; [|reflexivity]. apply key_eqb_eq in E' as ->. destruct (key_eqb x k) eqn:E''; [|reflexivity]. apply key_eqb_eq in E'' as ->. rewrite (proj2 (key_eqb_eq k k) eq_refl) in E. discriminate.
Qed.
(** prod is the product of the denominators of entry (c, m), with the lcm so far L. *)
Fixpoint chain (L : Z) (vals : list (Z * Z)) (prods : list Z) (L' : Z) : Prop :=
  match vals, prods with
  | [], [] => L' = L
  | (c, m) :: vals, p :: prods => (m * p = L * c)%Z /\ (p <> 0 -> c <> 0)%Z /\ chain (L * c) vals prods L'
  | _, _ => False
  end.
Lemma chain_app L vals prods L' c m p : chain L vals prods L' -> (m * p = L' * c)%Z -> (p <> 0 -> c <> 0)%Z -> chain L (vals ++ [(c, m)]) (prods ++ [p]) (L' * c).
Proof.
  revert L prods. induction vals as [|[c' m'] vals IH]; intros L [|p' prods] C E N; cbn in C |- *; try contradiction; [subst; auto|]. destruct C as (E' & N' & C). split; [exact E'|]. split; [exact N'|]. apply IH; assumption.
Qed.
Lemma chain_after vals : forall L prods L', chain L vals prods L' -> (L' = L * snd (after_loop vals))%Z /\ forall i p, nth_error prods i = Some p -> exists x, nth_error (fst (after_loop vals)) i = Some x /\ (x * p = L')%Z.
Proof.
  induction vals as [|[c m] vals IH]; intros L prods L' C; destruct prods as [|p prods]; cbn [chain] in C; try contradiction.
  - subst. cbn. split; [ring|]. intros [|i] p E; discriminate.
  - destruct C as (E & _ & C). destruct (IH _ _ _ C) as [El F]. cbn [after_loop fst snd]. split; [rewrite El; ring|]. intros [|i] q Q; cbn [nth_error] in Q |- *.
    + injection Q as <-. eexists. split; [reflexivity|]. rewrite El. rewrite <- !Z.mul_assoc, (Z.mul_comm _ p), !Z.mul_assoc, E. ring.
    + apply F. exact Q.
Qed.
Definition map_ok (m : key_map) (prods : list Z) : Prop := forall k o, map_find m k = Some o -> exists i, o = Some i /\ nth_error prods i = Some (key_product k).
Record denoms_ok (s : denoms) (ks : list key) (prods : list Z) : Prop := DnOk {
  do_map : map_ok (dn_map s) prods; do_chain : chain 1 (dn_values s) prods (dn_lcm s); do_prods : Forall (fun p => exists k, In k ks /\ p = key_product k) prods;
  do_index : Forall2 (fun k o => exists i, o = Some i /\ nth_error prods i = Some (key_product k)) ks (dn_indices s) }.
Lemma chain_length L vals prods L' : chain L vals prods L' -> length vals = length prods.
Proof. revert L prods. induction vals as [|[c m] vals IH]; intros L [|p prods] C; cbn in C |- *; try contradiction; [reflexivity|]. destruct C as (_ & _ & C). rewrite (IH _ _ C). reflexivity. Qed.
Lemma denom_step_ok gcd s ks prods k s' : gcd_ok gcd -> denoms_ok s ks prods -> denom_step gcd s k = Ok s' -> exists prods', denoms_ok s' (ks ++ [k]) prods'.
Proof.
  intros G [Hm Hc Hp Hi] E. unfold denom_step in E. destruct (map_find (dn_map s) k) as [o|] eqn:Fk.
  - injection E as <-. exists prods. split; cbn [dn_map dn_values dn_lcm dn_indices]; [exact Hm|exact Hc| |]; [revert Hp; apply Forall_impl; intros p (k' & I & ->); exists k'; split; [apply in_or_app; auto|reflexivity]|]. apply Forall2_app; [exact Hi|]. constructor; [apply Hm; exact Fk|constructor].
  - cbv zeta in E. set (m := (k, None) :: dn_map s) in E. set (c := canonical_key k) in E. assert (Fm : forall k', map_find m k' = if key_eqb k' k then Some None else map_find (dn_map s) k') by reflexivity. clearbody m.
    assert (New : forall i p', nth_error p' i = Some (key_product k) -> (forall j x, nth_error prods j = Some x -> nth_error p' j = Some x) -> map_ok (map_set m k i) p').
    { intros i p' N X k' o. rewrite map_set_find, Fm. destruct (key_eqb k' k) eqn:K; [apply key_eqb_eq in K as ->; intros [= <-]; eauto|]. intros Y. destruct (Hm k' o Y) as (j & -> & J). eauto. }
    destruct (map_find m c) as [[i|]|] eqn:Fc.
    + injection E as <-. assert (Ni : nth_error prods i = Some (key_product k)). { rewrite Fm in Fc. destruct (key_eqb c k); [discriminate|]. destruct (Hm c _ Fc) as (j & [= <-] & J). unfold c in J. rewrite canonical_product in J. exact J. }
      exists prods. split; cbn [dn_map dn_values dn_lcm dn_indices]; [apply New; auto|exact Hc| |]; [revert Hp; apply Forall_impl; intros p (k' & I & ->); exists k'; split; [apply in_or_app; auto|reflexivity]|]. apply Forall2_app; [exact Hi|]. constructor; [eauto|constructor].
    + assert (Z : exists w0 w1 w2, k = (w0, w1, w2)) by (destruct k as [[? ?] ?]; eauto). destruct Z as (w0 & w1 & w2 & Ek). rewrite Ek in E. assert (Kp : (w0 * w1 * w2)%Z = key_product k) by (rewrite Ek; reflexivity). rewrite <- Ek in E. rewrite Kp in E. clear Ek Kp w0 w1 w2.
      destruct (gcd _ _) as [g| | |] eqn:Eg; try discriminate. cbn [rbind] in E. destruct (zdivide _ g) as [ct| | |] eqn:E1; try discriminate. cbn [rbind] in E. destruct (zdivide (dn_lcm s) g) as [mu| | |] eqn:E2; try discriminate. cbn [rbind] in E. injection E as <-.
      destruct (gcd_step _ _ _ _ _ _ G Eg E1 E2) as (P1 & P2 & _). pose proof (chain_length _ _ _ _ Hc) as Lc. assert (N : nth_error (prods ++ [key_product k]) (length (dn_values s)) = Some (key_product k)) by (rewrite Lc, nth_error_app2, Nat.sub_diag by lia; reflexivity).
      assert (Old : forall j x, nth_error prods j = Some x -> nth_error (prods ++ [key_product k]) j = Some x) by (intros j x X; rewrite nth_error_app1; [exact X|apply nth_error_Some; congruence]).
      exists (prods ++ [key_product k]). split; cbn [dn_map dn_values dn_lcm dn_indices].
      * intros k' o. rewrite map_set_find. destruct (key_eqb k' k) eqn:K; [apply key_eqb_eq in K as ->; intros [= <-]; eauto|]. rewrite map_set_find. destruct (key_eqb k' c) eqn:Kc; [apply key_eqb_eq in Kc as ->; intros [= <-]; unfold c; rewrite canonical_product; eauto|]. rewrite Fm, K. intros Y. destruct (Hm k' o Y) as (j & -> & J). eauto.
      * apply chain_app; [exact Hc|rewrite P2, P1 at 1; ring|intros X Y; apply X; rewrite P1, Y; ring].
      * apply Forall_app. split; [|constructor; [|constructor]; exists k; split; [apply in_or_app; right; left|]; reflexivity]. revert Hp. apply Forall_impl. intros p (k' & I & ->). exists k'. split; [apply in_or_app; auto|reflexivity].
      * apply Forall2_app; [|constructor; [eauto|constructor]]. clear - Hi Old. induction Hi as [|? ? ? ? (i & -> & J)]; constructor; eauto.
    + assert (Z : exists w0 w1 w2, k = (w0, w1, w2)) by (destruct k as [[? ?] ?]; eauto). destruct Z as (w0 & w1 & w2 & Ek). rewrite Ek in E. assert (Kp : (w0 * w1 * w2)%Z = key_product k) by (rewrite Ek; reflexivity). rewrite <- Ek in E. rewrite Kp in E. clear Ek Kp w0 w1 w2.
      destruct (gcd _ _) as [g| | |] eqn:Eg; try discriminate. cbn [rbind] in E. destruct (zdivide _ g) as [ct| | |] eqn:E1; try discriminate. cbn [rbind] in E. destruct (zdivide (dn_lcm s) g) as [mu| | |] eqn:E2; try discriminate. cbn [rbind] in E. injection E as <-.
      destruct (gcd_step _ _ _ _ _ _ G Eg E1 E2) as (P1 & P2 & _). pose proof (chain_length _ _ _ _ Hc) as Lc. assert (N : nth_error (prods ++ [key_product k]) (length (dn_values s)) = Some (key_product k)) by (rewrite Lc, nth_error_app2, Nat.sub_diag by lia; reflexivity).
      assert (Old : forall j x, nth_error prods j = Some x -> nth_error (prods ++ [key_product k]) j = Some x) by (intros j x X; rewrite nth_error_app1; [exact X|apply nth_error_Some; congruence]).
      exists (prods ++ [key_product k]). split; cbn [dn_map dn_values dn_lcm dn_indices].
      * intros k' o. rewrite map_set_find. destruct (key_eqb k' k) eqn:K; [apply key_eqb_eq in K as ->; intros [= <-]; eauto|]. rewrite map_set_find. destruct (key_eqb k' c) eqn:Kc; [apply key_eqb_eq in Kc as ->; intros [= <-]; unfold c; rewrite canonical_product; eauto|]. rewrite Fm, K. intros Y. destruct (Hm k' o Y) as (j & -> & J). eauto.
      * apply chain_app; [exact Hc|rewrite P2, P1 at 1; ring|intros X Y; apply X; rewrite P1, Y; ring].
      * apply Forall_app. split; [|constructor; [|constructor]; exists k; split; [apply in_or_app; right; left|]; reflexivity]. revert Hp. apply Forall_impl. intros p (k' & I & ->). exists k'. split; [apply in_or_app; auto|reflexivity].
      * apply Forall2_app; [|constructor; [eauto|constructor]]. clear - Hi Old. induction Hi as [|? ? ? ? (i & -> & J)]; constructor; eauto.
Qed.
Lemma denom_loop_ok gcd : gcd_ok gcd -> forall ks s done prods s', denoms_ok s done prods -> denom_loop gcd s ks = Ok s' -> exists prods', denoms_ok s' (done ++ ks) prods'.
Proof.
  intros G. induction ks as [|k ks IH]; intros s done prods s' H E; cbn [denom_loop] in E; [injection E as <-; rewrite app_nil_r; eauto|].
  destruct (denom_step gcd s k) as [s1| | |] eqn:E1; try discriminate. cbn [rbind] in E. destruct (denom_step_ok _ _ _ _ _ _ G H E1) as (p1 & H1). destruct (IH _ _ _ _ H1 E) as (p2 & H2). rewrite <- app_assoc in H2. eauto.
Qed.
Lemma chain_nonzero vals : forall L prods L', chain L vals prods L' -> L <> 0%Z -> Forall (fun p => p <> 0%Z) prods -> L' <> 0%Z.
Proof.
  induction vals as [|[c m] vals IH]; intros L [|p prods] L' C N F; cbn [chain] in C; try contradiction; [subst; exact N|]. destruct C as (_ & Nc & C). inversion F as [|? ? F1 F2]; subst. apply (IH _ _ _ C); [|exact F2]. specialize (Nc F1). nia.
Qed.
(** ** The sums *)
Definition tri_denotes (t : hpoint3 * hpoint3 * hpoint3) (q : qpoint * qpoint * qpoint) : Prop := let '(a, b, c) := t in let '(a', b', c') := q in denotes a a' /\ denotes b b' /\ denotes c c'.
Lemma fan_denotes vs qs : Forall2 denotes vs qs -> Forall2 tri_denotes (fan vs) (triangles qs).
Proof.
  intros F. destruct F as [|a q vs qs D F]; [constructor|]. unfold fan, triangles. assert (C : Forall2 (fun s r => denotes (fst s) (fst r) /\ denotes (snd s) (snd r)) (combine vs (tl vs)) (combine qs (tl qs))).
  { destruct F as [|b r vs qs D' F]; [constructor|]. cbn [tl]. revert b r D'. induction F as [|c s vs qs D'' F IH]; intros b r D'; cbn [combine]; [constructor|]. constructor; [cbn; auto|]. apply IH. exact D''. }
  induction C as [|[x y] [x' y'] l l' [C1 C2] C IH]; cbn [map fst snd]; constructor; [|exact IH]. cbn in *. auto.
Qed.
Lemma fans_denote ms ps : Forall2 (Forall2 denotes) ms ps -> Forall2 tri_denotes (flat_map fan ms) (flat_map triangles ps).
Proof. induction 1; cbn [flat_map]; [constructor|]. apply Forall2_app; [apply fan_denotes|]; assumption. Qed.
Definition det (a b c : qpoint) : Q := qdot a (qcross b c).
Definition norm_term (f : qpoint -> Q) (t : qpoint * qpoint * qpoint) : Q := let '(a, b, c) := t in f (tri_normal a b c) * square_sum (f a) (f b) (f c).
Definition det_term (t : qpoint * qpoint * qpoint) : Q := let '(a, b, c) := t in det a b c.
Lemma inj_plus a b : inject_Z (a + b) = inject_Z a + inject_Z b.
Proof. unfold inject_Z, Qplus. cbn [Qnum Qden]. rewrite !Z.mul_1_r. reflexivity. Qed.
Lemma inj_mult a b : inject_Z (a * b) = inject_Z a * inject_Z b.
Proof. reflexivity. Qed.
Lemma inj_opp a : inject_Z (- a) = - inject_Z a.
Proof. reflexivity. Qed.
Ltac inj := unfold Z.sub; repeat first [rewrite inj_mult|rewrite inj_plus|rewrite inj_opp].
Lemma volume_term_spec t q m L : tri_denotes t q -> (m * key_product (tri_key t) = L)%Z -> inject_Z (volume_term t m) == inject_Z L * det_term q.
Proof.
  destruct t as [[a b] c], q as [[a' b'] c']. intros ((Wa & Xa & Ya & Za) & (Wb & Xb & Yb & Zb) & (Wc & Xc & Yc & Zc)) <-. unfold volume_term, key_product, tri_key, det_term, det, v3_dot, v3_cross, qdot, qcross. cbn [vx vy vz qx qy qz]. inj. rewrite Xa, Ya, Za, Xb, Yb, Zb, Xc, Yc, Zc. ring.
Qed.
Lemma centroid_term_spec t q m L : tri_denotes t q -> (m * key_product (tri_key t) = L)%Z -> let l := inject_Z L in
  inject_Z (vx (centroid_term t m)) == l * l * l * norm_term qx q /\ inject_Z (vy (centroid_term t m)) == l * l * l * norm_term qy q /\ inject_Z (vz (centroid_term t m)) == l * l * l * norm_term qz q.
Proof.
  destruct t as [[a b] c], q as [[a' b'] c']. intros ((Wa & Xa & Ya & Za) & (Wb & Xb & Yb & Zb) & (Wc & Xc & Yc & Zc)) <-. cbv zeta. unfold centroid_term, key_product, tri_key, norm_term, tri_normal, square_sum, v3_scale, v3_squared, v3_hadamard, v3_add, v3_cross, qcross, qsub. cbn [vx vy vz qx qy qz]. inj. revert Xa Ya Za Xb Yb Zb Xc Yc Zc. generalize (inject_Z (vx (hv a))) (inject_Z (vy (hv a))) (inject_Z (vz (hv a))) (inject_Z (vx (hv b))) (inject_Z (vy (hv b))) (inject_Z (vz (hv b))) (inject_Z (vx (hv c))) (inject_Z (vy (hv c))) (inject_Z (vz (hv c))).
  intros ax ay az bx by0 bz cx cy cz Xa Ya Za Xb Yb Zb Xc Yc Zc. repeat split; rewrite Xa, Ya, Za, Xb, Yb, Zb, Xc, Yc, Zc; ring.
Qed.
Lemma sum_loop_spec mult L ts qs is : Forall2 tri_denotes ts qs -> Forall2 (fun t o => exists i m, o = Some i /\ nth_error mult i = Some m /\ (m * key_product (tri_key t) = L)%Z) ts is ->
  forall vol c, exists vol' c', sum_loop mult ts is vol c = Ok (vol', c') /\ let l := inject_Z L in inject_Z vol' == inject_Z vol + l * qsum (map det_term qs) /\
    inject_Z (vx c') == inject_Z (vx c) + l * l * l * qsum (map (norm_term qx) qs) /\ inject_Z (vy c') == inject_Z (vy c) + l * l * l * qsum (map (norm_term qy) qs) /\ inject_Z (vz c') == inject_Z (vz c) + l * l * l * qsum (map (norm_term qz) qs).
Proof.
  intros F. revert is. induction F as [|t q ts qs D F IH]; intros is G vol c; cbv zeta; inversion G as [|t' o ts' is' (i & m & -> & Ei & Em) G']; subst; cbn [sum_loop map qsum fold_right].
  - exists vol, c. split; [reflexivity|]. repeat split; ring.
  - rewrite Ei. destruct (IH is' G' (vol + volume_term t m)%Z (v3_add c (centroid_term t m))) as (vol' & c' & E & V & X & Y & Z). exists vol', c'. split; [exact E|]. pose proof (volume_term_spec t q m _ D eq_refl) as Tv. destruct (centroid_term_spec t q m _ D eq_refl) as (Tx & Ty & Tz). unfold v3_add in X, Y, Z. cbn [vx vy vz] in X, Y, Z.
    rewrite inject_Z_plus in V, X, Y, Z. rewrite V, X, Y, Z, Tv, Tx, Ty, Tz. unfold qsum. repeat split; ring.
Qed.
Lemma mesh_centroid_spec dbg gcd ms ps : gcd_ok gcd -> Forall2 (Forall2 denotes) ms ps -> forall s, denom_loop gcd (Denoms [] [] [] 1) (map tri_key (flat_map fan ms)) = Ok s ->
  exists c L, mesh_centroid dbg gcd ms = Ok c /\ (L <> 0)%Z /\ let l := inject_Z L in let ts := flat_map triangles ps in inject_Z (hw c) == 8 * (l * l * l) * qsum (map det_term ts) /\
    inject_Z (vx (hv c)) == l * l * l * qsum (map (norm_term qx) ts) /\ inject_Z (vy (hv c)) == l * l * l * qsum (map (norm_term qy) ts) /\ inject_Z (vz (hv c)) == l * l * l * qsum (map (norm_term qz) ts).
Proof.
  intros G F s E. pose proof (fans_denote ms ps F) as Ft. set (ts := flat_map fan ms) in *. set (qs := flat_map triangles ps) in *.
  destruct (denom_loop_ok gcd G _ _ [] [] s (DnOk (Denoms [] [] [] 1) [] [] ltac:(intros k o X; discriminate) eq_refl ltac:(constructor) ltac:(constructor)) E) as (prods & [Hm Hc Hp Hi]). cbn [app] in *.
  destruct (chain_after _ _ _ _ Hc) as [El An]. rewrite Z.mul_1_l in El.
  assert (Nz : dn_lcm s <> 0%Z).
  { apply (chain_nonzero _ _ _ _ Hc); [discriminate|]. rewrite Forall_forall in *. intros p Ip. destruct (Hp p Ip) as (k & Ik & ->). apply in_map_iff in Ik as (t & <- & It). clear - Ft It. induction Ft as [|x y l l' D Ft IH]; [destruct It|]. destruct It as [->|It]; [|auto]. destruct t as [[a b] c], y as [[a' b'] c']. destruct D as ((Wa & _) & (Wb & _) & (Wc & _)). unfold key_product, tri_key. nia. }
  unfold mesh_centroid. fold ts. cbv zeta. rewrite E. cbn [rbind]. rewrite <- El, Z.eqb_refl. replace (check dbg true) with (Ok tt) by (unfold check; destruct dbg; reflexivity). cbn [rbind].
  assert (Gi : Forall2 (fun t o => exists i m, o = Some i /\ nth_error (fst (after_loop (dn_values s))) i = Some m /\ (m * key_product (tri_key t) = dn_lcm s)%Z) ts (dn_indices s)).
  { clear - Hi An. revert Hi. generalize (dn_indices s). induction ts as [|t ts IH]; intros l Hi; inversion Hi as [|? o ? l' (i & -> & Ni) Hi']; subst; constructor; [|apply IH; exact Hi']. destruct (An i _ Ni) as (x & X & Y). eauto. }
  destruct (sum_loop_spec _ _ ts qs _ Ft Gi 0%Z (V3 0 0 0)) as (vol & c & Es & V & X & Y & Z). rewrite Es. cbn [rbind fst snd]. eexists. exists (dn_lcm s). split; [reflexivity|]. split; [exact Nz|]. cbv zeta. cbn [hw hv]. rewrite !inject_Z_mult, V, X, Y, Z. cbn [vx vy vz]. change (inject_Z 0) with 0. change (inject_Z 8) with 8. repeat split; ring.
Qed.
