(** Area and centroid of convex polygons: returning, sign and position. *)
From Coq Require Import List Bool Arith ZArith QArith Lqa Lia ZifyBool.
From Verif Require Import BigUIntModel BigIntSpec BigIntDivProofs GeoModel GeoSpec GeoProofs GeoPlaneProofs GeoBridge CvxSpec CvxProofs CvxCapProofs PolyModel PolySpec PolyBridgeProofs PolyCapProofs PolyExtremeProofs PolyOpsModel AreaSpec AreaProofs.
Import ListNotations.
Open Scope Q_scope.
(** ** Returning *)
(** The gcd of two numbers that are not negative. *)
Definition gcd_pos (gcd : Z -> Z -> res Z) : Prop := forall a b, (0 <= a)%Z -> (0 <= b)%Z -> gcd a b = Ok (Z.gcd a b).
Lemma zgcd_pos : gcd_pos zgcd.
Proof.
  intros a b Pa Pb. unfold zgcd. destruct (canon_spec a) as [Ca Va], (canon_spec b) as [Cb Vb]. set (f := S (Z.to_nat (Z.abs b))).
  destruct (gcd_spec_fuel f (canon a) (canon b) Ca Cb ltac:(rewrite Va; lia) ltac:(rewrite Vb; unfold f; lia)) as (x & E & _ & G). specialize (E f (le_n f)).
  rewrite E. cbn [rbind]. f_equal. pose proof (gcd_nonneg_fuel f (canon a) (canon b) x Ca Cb ltac:(lia) ltac:(lia) E). rewrite Va, Vb in G. lia.
Qed.
Lemma pos_step gcd den w : gcd_pos gcd -> (0 < den)%Z -> (0 < w)%Z -> exists g nc tc, gcd den w = Ok g /\ zdivide w g = Ok nc /\ zdivide den g = Ok tc /\ (0 < tc)%Z.
Proof.
  intros G D W. exists (Z.gcd den w). rewrite G by lia. assert (P : (0 < Z.gcd den w)%Z). { pose proof (Z.gcd_nonneg den w). assert (Z.gcd den w <> 0%Z); [|lia]. intros Z. apply Z.gcd_eq_0 in Z. lia. }
  assert (T : forall x, (0 < x)%Z -> zdivide x (Z.gcd den w) = Ok (Z.quot x (Z.gcd den w))).
  { intros x X. unfold zdivide, zdiv_rem. replace (Z.gcd den w =? 0)%Z with false by lia. replace (x =? - 2 ^ 63)%Z with false by lia. reflexivity. }
  exists (Z.quot w (Z.gcd den w)), (Z.quot den (Z.gcd den w)). split; [reflexivity|]. split; [apply T, W|]. split; [apply T, D|]. apply Z.quot_str_pos. split; [exact P|]. apply Z.divide_pos_le; [exact D|apply Z.gcd_divide_l].
Qed.
Lemma area_loop_total gcd d : gcd_pos gcd -> forall vs v num den, Forall (fun w => (0 < hw w)%Z) vs -> (0 < hw v)%Z -> (0 < den)%Z -> exists r, area_loop gcd d v vs num den = Ok r.
Proof.
  intros G. induction vs as [|w vs IH]; intros v num den F V D; [eexists; reflexivity|]. inversion F; subst. destruct (pos_step gcd den (hw w) G D H1) as (g & nc & tc & E1 & E2 & E3 & T).
  cbn [area_loop]. rewrite E1. cbn [rbind]. rewrite E2. cbn [rbind]. rewrite E3. cbn [rbind]. apply IH; [assumption|assumption|nia].
Qed.
Lemma centroid_loop_total gcd d : gcd_pos gcd -> forall vs v a c0 c1 den, Forall (fun w => (0 < hw w)%Z) vs -> (0 < hw v)%Z -> (0 < den)%Z -> exists r, centroid_loop gcd d v vs a c0 c1 den = Ok r.
Proof.
  intros G. induction vs as [|w vs IH]; intros v a c0 c1 den F V D; [eexists; reflexivity|]. inversion F; subst. destruct (pos_step gcd den (hw w) G D H1) as (g & nc & tc & E1 & E2 & E3 & T).
  cbn [centroid_loop]. rewrite E1. cbn [rbind]. rewrite E2. cbn [rbind]. rewrite E3. cbn [rbind]. cbv zeta. apply IH; [assumption|assumption|nia].
Qed.
Lemma last_pos vs v : Forall (fun w => (0 < hw w)%Z) (v :: vs) -> (0 < hw (last vs v))%Z.
Proof. revert v. induction vs as [|w vs IH]; intros v F; inversion F; subst; [exact H1|]. rewrite last_cons. apply IH. assumption. Qed.
Lemma weights_pos {A} (p : poly A) : Forall (fun e => (0 < hw (pv e))%Z) (pedges p) -> Forall (fun w => (0 < hw w)%Z) (map pv (pedges p)).
Proof. intros F. induction F; constructor; assumption. Qed.
Lemma area_total {A} gcd (p : poly A) d : gcd_pos gcd -> Forall (fun e => (0 < hw (pv e))%Z) (pedges p) -> exists r, projected_area gcd p d = Ok r.
Proof.
  intros G F. apply weights_pos in F. unfold projected_area. destruct (pcount p <? 3)%nat eqn:C; [eexists; reflexivity|]. assert (L : length (map pv (pedges p)) = pcount p) by apply map_length.
  destruct (map pv (pedges p)) as [|v vs]; [cbn in L; lia|]. destruct (area_loop_total gcd d G vs v (cross_term (last vs v) v d) (hw (last vs v))) as [r E]; [inversion F; assumption|inversion F; assumption|apply last_pos, F|].
  rewrite E. eexists. reflexivity.
Qed.
Lemma centroid_total {A} gcd (p : poly A) d : gcd_pos gcd -> Forall (fun e => (0 < hw (pv e))%Z) (pedges p) -> exists r, projected_centroid gcd p d = Ok r.
Proof.
  intros G F. apply weights_pos in F. unfold projected_centroid. destruct (map pv (pedges p)) as [|v vs]; [eexists; reflexivity|]. cbv zeta.
  match goal with |- context [centroid_loop gcd d v vs ?a ?b ?c ?e] => destruct (centroid_loop_total gcd d G vs v a b c e) as [[[[x y] z] u] E] end; [inversion F; assumption|inversion F; assumption|apply last_pos, F|].
  rewrite E. eexists. reflexivity.
Qed.
(** ** Sign of the area, position of the centroid *)
Lemma qsum_nonneg l : Forall (fun x => 0 <= x) l -> 0 <= qsum l.
Proof. intros F. induction F; cbn; [lra|]. fold (qsum l). lra. Qed.
Lemma qsum_pos l x : Forall (fun x => 0 <= x) l -> In x l -> 0 < x -> 0 < qsum l.
Proof.
  intros F I P. induction F as [|y l Y F IH]; [destruct I|]. cbn. fold (qsum l). destruct I as [->|I]; [pose proof (qsum_nonneg l F); lra|]. specialize (IH I). lra.
Qed.
Lemma nth_error_app_cases {B} (l : list B) x i y : nth_error (l ++ [x]) i = Some y -> (i < length l)%nat /\ nth_error l i = Some y \/ i = length l /\ y = x.
Proof.
  intros E. destruct (Nat.lt_ge_cases i (length l)) as [L|L]; [left; rewrite nth_error_app1 in E by exact L; auto|]. right. rewrite nth_error_app2 in E by exact L. destruct (i - length l)%nat as [|k] eqn:K; [|destruct k; discriminate]. cbn in E. injection E as <-. split; [lia|reflexivity].
Qed.
(** The sides of a list are its consecutive pairs. *)
Lemma sides_at {B} (x : B) l i : (i < length l)%nat -> nth_error (sides l) i = Some (cyc x l i, cyc x l (S i)).
Proof.
  intros L. destruct l as [|a r]; [cbn in L; lia|]. unfold sides.
  assert (C : forall (l l' : list B) i u v, nth_error l i = Some u -> nth_error l' i = Some v -> nth_error (combine l l') i = Some (u, v)).
  { clear. induction l as [|b l IH]; intros l' i u v E E'; [destruct i; discriminate|]. destruct l' as [|b' l']; [destruct i; discriminate|]. destruct i as [|i]; cbn in *; [congruence|]. apply IH; assumption. }
  apply C; [apply cyc_nth_error; exact L|]. cbn [length] in L. destruct (Nat.eq_dec i (length r)) as [->|N].
  - rewrite nth_error_app2 by lia. rewrite Nat.sub_diag. unfold cyc. cbn [length]. rewrite Nat.mod_same by lia. reflexivity.
  - rewrite nth_error_app1 by lia. assert (E : nth_error (a :: r) (S i) = Some (cyc x (a :: r) (S i))) by (apply cyc_nth_error; cbn [length]; lia). exact E.
Qed.
Lemma sides_length {B} (l : list B) : length (sides l) = length l.
Proof. destruct l as [|a r]; [reflexivity|]. unfold sides. rewrite combine_length, app_length. cbn [length]. lia. Qed.
Lemma sides_In {B} (x : B) l s : In s (sides l) -> exists i, (i < length l)%nat /\ s = (cyc x l i, cyc x l (S i)).
Proof.
  intros I. apply In_nth_error in I as [i E]. assert (L : (i < length l)%nat) by (rewrite <- sides_length; apply nth_error_Some; congruence). exists i. split; [exact L|]. rewrite (sides_at x) in E by exact L. congruence.
Qed.
Lemma cycle_nonempty s l : ~ s == 0 -> convex_cycle s l -> (0 < length l)%nat.
Proof. intros N C. apply (c_n _ _ _ (cycle_cvx s l N C)). Qed.
Lemma half s x : s * (x / 2) == (1 # 2) * (s * x).
Proof. field. Qed.
Lemma third s x : s * (x / 3) == (1 # 3) * (s * x).
Proof. field. Qed.
(** Every triangle of the fan from a vertex is counter-clockwise (for s > 0). *)
Lemma fan_triangle s l o u : ~ s == 0 -> convex_cycle s l -> In o l -> In u (sides l) -> 0 <= s * tri_area o (fst u) (snd u).
Proof.
  intros N C Io Iu. pose proof (cycle_cvx s l N C) as V. destruct (In_cyc o2 l o Io) as (m & _ & ->). destruct (sides_In o2 l u Iu) as (i & _ & ->). cbn [fst snd].
  pose proof (edge_side _ _ _ V i m) as E. unfold tri_area. rewrite (turn_rot (cyc o2 l m)), half. lra.
Qed.
Lemma convex_area s l o : ~ s == 0 -> convex_cycle s l -> 0 < s * fan_area o l.
Proof.
  intros N C. pose proof (cycle_cvx s l N C) as V. pose proof (cycle_nonempty s l N C) as L. destruct (off_line _ _ _ V (cyc o2 l 0) (cyc o2 l 1)) as [m M]; [apply (c_edge _ _ _ V)|].
  assert (E : fan_area o l == fan_area (cyc o2 l m) l) by (rewrite !fan_area_any; reflexivity). rewrite E. unfold fan_area. rewrite <- (sum_scale (fun u => s * tri_area (cyc o2 l m) (fst u) (snd u))) by (intros; reflexivity).
  apply (qsum_pos _ (s * tri_area (cyc o2 l m) (cyc o2 l 0) (cyc o2 l 1))).
  - apply Forall_forall. intros x I. apply in_map_iff in I as (u & <- & I). apply (fan_triangle s l); [exact N|exact C|apply cyc_In, L|exact I].
  - apply in_map_iff. exists (cyc o2 l 0, cyc o2 l 1). split; [reflexivity|]. apply (nth_error_In _ 0). apply sides_at. exact L.
  - pose proof (edge_side _ _ _ V 0 m) as G. unfold tri_area. rewrite (turn_rot (cyc o2 l m)), half. assert (~ s * turn (cyc o2 l 0) (cyc o2 l 1) (cyc o2 l m) == 0) by (intros Z; apply Qmult_integral in Z as [Z|Z]; contradiction). lra.
Qed.
Lemma moment_ev g o l c : is_centroid l c -> fan_area o l * ev g c == qsum (map (fun u => tri_area o (fst u) (snd u) * ev g (tri_center o (fst u) (snd u))) (sides l)).
Proof.
  intros C. destruct (C o) as [X Y]. unfold ev. setoid_replace (fan_area o l * (fa g * qx2 c + fb g * qy2 c + fc g)) with (fa g * (fan_area o l * qx2 c) + fb g * (fan_area o l * qy2 c) + fc g * fan_area o l) by ring.
  rewrite X, Y. unfold fan_moment, fan_area. cbn [qx2 qy2]. clear. induction (sides l) as [|u r IH]; cbn [map qsum fold_right]; [ring|]. fold (qsum (map (fun u => tri_area o (fst u) (snd u)) r)).
  unfold qsum in *. rewrite <- IH. ring.
Qed.
(** The centroid of a convex polygon is strictly inside every side. *)
Lemma centroid_interior s l c i : ~ s == 0 -> convex_cycle s l -> is_centroid l c -> 0 < s * turn (cyc o2 l i) (cyc o2 l (S i)) c.
Proof.
  intros N C K. pose proof (cycle_cvx s l N C) as V. pose proof (cycle_nonempty s l N C) as L. destruct (off_line _ _ _ V (cyc o2 l i) (cyc o2 l (S i))) as [m M]; [apply (c_edge _ _ _ V)|].
  set (o := cyc o2 l m) in *. set (a := cyc o2 l i) in *. set (b := cyc o2 l (S i)) in *. pose proof (convex_area s l o N C) as P. pose proof (moment_ev (turn_aff a b) o l c K) as E. rewrite turn_aff_ev in E.
  assert (T : forall u, In u (sides l) -> 0 <= s * turn a b (tri_center o (fst u) (snd u))).
  { intros u I. destruct (sides_In o2 l u I) as (j & _ & ->). cbn [fst snd]. pose proof (edge_side _ _ _ V i j) as G1. pose proof (edge_side _ _ _ V i (S j)) as G2. pose proof (edge_side _ _ _ V i m) as G3. fold a b in G1, G2, G3. fold o in G3.
    setoid_replace (turn a b (tri_center o (cyc o2 l j) (cyc o2 l (S j)))) with ((turn a b o + turn a b (cyc o2 l j) + turn a b (cyc o2 l (S j))) / 3) by (unfold tri_center, turn, qcross2, qsub2; cbn [qx2 qy2]; field). rewrite third. lra. }
  assert (Q : 0 < s * (s * (fan_area o l * turn a b c))).
  { rewrite E.
    setoid_replace (s * (s * qsum (map (fun u => tri_area o (fst u) (snd u) * ev (turn_aff a b) (tri_center o (fst u) (snd u))) (sides l)))) with ((s * s) * qsum (map (fun u => tri_area o (fst u) (snd u) * ev (turn_aff a b) (tri_center o (fst u) (snd u))) (sides l))) by ring.
    rewrite <- (sum_scale (fun u => (s * tri_area o (fst u) (snd u)) * (s * turn a b (tri_center o (fst u) (snd u))))) by (intros; rewrite turn_aff_ev; ring).
    apply (qsum_pos _ ((s * tri_area o a b) * (s * turn a b (tri_center o a b)))).
    - apply Forall_forall. intros x I. apply in_map_iff in I as (u & <- & I). apply Qmult_le_0_compat; [apply (fan_triangle s l); [exact N|exact C|apply cyc_In, L|exact I]|apply T, I].
    - apply in_map_iff. assert (I : In (cyc o2 l (i mod length l), cyc o2 l (S (i mod length l))) (sides l)) by (apply (nth_error_In _ (i mod length l)), sides_at, Nat.mod_upper_bound; lia).
      exists (a, b). split; [reflexivity|]. rewrite cyc_mod in I by exact L. rewrite <- (cyc_mod o2 l (S (i mod length l))) in I by exact L. rewrite mod_succ in I by exact L. rewrite cyc_mod in I by exact L. exact I.
    - pose proof (edge_side _ _ _ V i m) as G. fold a b o in G. assert (~ s * turn a b o == 0) by (intros Z; apply Qmult_integral in Z as [Z|Z]; contradiction).
      assert (X1 : 0 < s * tri_area o a b) by (unfold tri_area; rewrite turn_rot, half; lra).
      assert (X2 : 0 < s * turn a b (tri_center o a b)). { setoid_replace (turn a b (tri_center o a b)) with (turn a b o / 3) by (unfold tri_center, turn, qcross2, qsub2; cbn [qx2 qy2]; field). rewrite third. lra. }
      rewrite <- (Qmult_0_r (s * tri_area o a b)). apply Qmult_lt_l; assumption. }
  assert (Q' : 0 < (s * fan_area o l) * (s * turn a b c)) by (setoid_replace ((s * fan_area o l) * (s * turn a b c)) with (s * (s * (fan_area o l * turn a b c))) by ring; exact Q).
  destruct (Qlt_le_dec 0 (s * turn a b c)) as [Y|Y]; [exact Y|]. exfalso. assert (0 <= (s * fan_area o l) * - (s * turn a b c)) by (apply Qmult_le_0_compat; lra). lra.
Qed.
(** ** Stored polygons *)
Lemma poly_area_sign {A} gcd (p : poly A) qs n m : gcd_ok gcd -> poly_ok p qs -> projected_area gcd p (pdrop p) = Ok (n, m) -> (m <> 0 /\ 0 < pnormal_drop p * (n * m))%Z.
Proof.
  intros G H E. destruct (po_drop _ _ H) as [L N]. destruct (area_ok gcd p qs _ n m G L (po_vertices _ _ H) E) as [M F]. split; [exact M|].
  apply inject_Z_neq0 in N. pose proof (convex_area _ _ o2 N (po_convex _ _ H)) as P. rewrite <- F in P. apply inject_Z_neq0 in M.
  assert (S : 0 < inject_Z m * inject_Z m) by nra. assert (X : 0 < (inject_Z (pnormal_drop p) * (inject_Z n / inject_Z m)) * (inject_Z m * inject_Z m)) by nra.
  setoid_replace ((inject_Z (pnormal_drop p) * (inject_Z n / inject_Z m)) * (inject_Z m * inject_Z m)) with (inject_Z (pnormal_drop p * (n * m))) in X by (rewrite !inject_Z_mult; field; exact M).
  change 0 with (inject_Z 0) in X. rewrite <- Zlt_Qlt in X. exact X.
Qed.
Lemma poly_centroid {A} gcd (p : poly A) qs c : gcd_ok gcd -> poly_ok p qs -> centroid gcd p = Ok c ->
  exists q, denotes c q /\ side (pplane p) q == 0 /\ is_centroid (map (qdrop (pdrop p)) qs) (qdrop (pdrop p) q) /\
    forall i a b, nth_error qs i = Some a -> nth_error qs (S i mod length qs) = Some b -> 0 < inject_Z (pnormal_drop p) * turn (qdrop (pdrop p) a) (qdrop (pdrop p) b) (qdrop (pdrop p) q).
Proof.
  intros G H E. destruct (po_drop _ _ H) as [L N]. unfold centroid in E. destruct (projected_centroid gcd p (pdrop p)) as [c2| | |] eqn:E2; try discriminate. cbn [rbind] in E. injection E as <-.
  pose proof (inject_Z_neq0 _ N) as N'. pose proof (po_convex _ _ H) as C. destruct (centroid_2d gcd p qs _ c2 G L (po_vertices _ _ H) E2) as (q2 & D2 & K).
  { exists o2. intros Z. pose proof (convex_area _ _ o2 N' C) as P. rewrite Z in P. lra. }
  destruct (hs_project_onto_spec (pplane p) c2 (pdrop p) q2 L N D2) as (q & D & S0 & Eq). exists q. split; [exact D|]. split; [exact S0|].
  assert (K' : is_centroid (map (qdrop (pdrop p)) qs) (qdrop (pdrop p) q)). { intros o. destruct (K o) as [K1 K2]. destruct Eq as [Eq1 Eq2]. rewrite Eq1, Eq2. split; assumption. }
  split; [exact K'|]. intros i a b Ea Eb. assert (Li : (i < length qs)%nat) by (apply nth_error_Some; congruence).
  pose proof (centroid_interior _ _ _ i N' C K') as I. rewrite !(cyc_map (qdrop (pdrop p)) o3) in I || idtac.
  assert (Ca : cyc o2 (map (qdrop (pdrop p)) qs) i = qdrop (pdrop p) a). { apply (map_nth_error (qdrop (pdrop p))) in Ea. rewrite (cyc_nth_error o2) in Ea by (rewrite map_length; exact Li). congruence. }
  assert (Cb : cyc o2 (map (qdrop (pdrop p)) qs) (S i) = qdrop (pdrop p) b). { apply (map_nth_error (qdrop (pdrop p))) in Eb. rewrite <- (map_length (qdrop (pdrop p))) in Eb. rewrite (cyc_nth_error_mod o2) in Eb by (rewrite map_length; lia). congruence. }
  rewrite Ca, Cb in I. exact I.
Qed.
Lemma pos_nat b : (0 < Z.abs b)%Z -> exists f, Z.to_nat (Z.abs b) = S f.
Proof. intros H. exists (pred (Z.to_nat (Z.abs b))). lia. Qed.
Lemma zgcd_ub : zgcd (- 2 ^ 63 - 1) (- 2 ^ 63) = UB.
Proof.
  unfold zgcd. assert (E : forall f, gcd (S (S f)) false (canon (- 2 ^ 63 - 1)) (canon (- 2 ^ 63)) = UB) by (intros f; vm_compute; reflexivity).
  destruct (pos_nat (- 2 ^ 63) eq_refl) as [f F]. rewrite F, E. reflexivity.
Qed.
