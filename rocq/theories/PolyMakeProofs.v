(** Constructing polygons, and IsValidState. *)
From Coq Require Import List ZArith QArith Lqa Lia Arith ZifyBool.
From Verif Require Import BigUIntModel GeoModel GeoSpec GeoProofs GeoPlaneProofs GeoPluckerProofs GeoDirProofs CvxSpec CvxProofs CvxSeqProofs CvxCapProofs PolyModel PolySpec PolyBridgeProofs PolyInfoProofs PolyCapProofs.
Import ListNotations.
Open Scope Q_scope.
Lemma Forall2_len {B C} (R : B -> C -> Prop) l l' : Forall2 R l l' -> length l = length l'.
Proof. induction 1; cbn; congruence. Qed.
Lemma cyc_nth {B} (x : B) l i y : nth_error l (i mod length l) = Some y -> cyc x l i = y.
Proof. unfold cyc. apply nth_error_nth. Qed.
(** ** Constructors *)
Lemma chain_nth {A} (d0 : A) vs : forall prev i v, nth_error vs i = Some v -> exists w, nth_error (prev :: vs) i = Some w /\ nth_error (chain_edges d0 prev vs) i = Some (PE w (pl_of_hpoints w v) d0).
Proof.
  induction vs as [|x vs IH]; intros prev i v E; [destruct i; discriminate|]. destruct i as [|i]; cbn [nth_error] in E.
  - injection E as <-. exists prev. split; reflexivity.
  - destruct (IH x i v E) as (w & W1 & W2). exists w. split; [exact W1|exact W2].
Qed.
Lemma chain_length {A} (d0 : A) vs : forall prev, length (chain_edges d0 prev vs) = length vs.
Proof. induction vs as [|v vs IH]; intros prev; [reflexivity|]. cbn. rewrite IH. reflexivity. Qed.
Lemma chain_pt_eq {A} (d0 : A) vs : forall prev, chain_edges_pt d0 prev vs = chain_edges d0 (HP prev 1) (map (fun v => HP v 1) vs).
Proof.
  induction vs as [|v vs IH]; intros prev; [reflexivity|]. cbn [chain_edges_pt chain_edges map]. rewrite IH. do 2 f_equal.
  unfold pl_of_points, pl_of_hpoints. cbn [hv hw]. change (zabs_mult2 1 1) with 1%Z. unfold v3_scale, v3_sub, v3_cross. cbn [vx vy vz]. f_equal; (f_equal; ring).
Qed.
Lemma array_nth {A} (d0 : A) vs : forall first i v, nth_error vs i = Some v -> exists w, (nth_error vs (S i) = Some w \/ nth_error vs (S i) = None /\ w = first) /\ nth_error (array_edges d0 first vs) i = Some (PE v (pl_of_hpoints v w) d0).
Proof.
  induction vs as [|x vs IH]; intros first i v E; [destruct i; discriminate|]. destruct i as [|i]; cbn [nth_error array_edges] in *.
  - injection E as <-. destruct vs as [|w vs]; eexists; (split; [|reflexivity]); [right; split; reflexivity|left; reflexivity].
  - exact (IH first i v E).
Qed.
Lemma array_length {A} (d0 : A) vs first : length (array_edges d0 first vs) = length vs.
Proof. induction vs as [|v vs IH]; [reflexivity|]. cbn. rewrite IH. reflexivity. Qed.
Lemma last_nth {B} (l : list B) x : nth_error l (length l - 1) = match l with [] => None | _ => Some (last l x) end.
Proof. induction l as [|y l IH]; [reflexivity|]. destruct l as [|z l]; [reflexivity|]. cbn [length] in *. replace (S (S (length l)) - 1)%nat with (S (S (length l) - 1)) by lia. cbn [nth_error]. rewrite IH. reflexivity. Qed.
Section Make.
Context {A : Type} (d0 : A) (h : hspace3) (d : nat) (vs : list hpoint3) (qs : list qpoint).
Context (Dn : Forall2 denotes vs qs) (Dl : (d < 3)%nat) (Dc : comp (hn h) d <> 0%Z) (On : Forall (fun q => side h q == 0) qs) (Cx : convex_cycle (inject_Z (comp (hn h) d)) (map (qdrop d) qs)).
Lemma make_n : (0 < length qs)%nat.
Proof using Cx. destruct Cx as (_ & _ & (x & _ & _ & I & _)). apply in_map_iff in I as (y & _ & I). destruct (length qs) eqn:E; [|apply Nat.lt_0_succ]. apply length_zero_iff_nil in E. rewrite E in I. destruct I. Qed.
Lemma make_cvx : cvx (length qs) (inject_Z (comp (hn h) d)) (fun i => qdrop d (cyc o3 qs i)).
Proof using All.
  pose proof make_n as N. pose proof (cycle_cvx _ _ (inject_Z_neq0 _ Dc) Cx) as C. rewrite map_length in C.
  assert (X : forall i, cyc o2 (map (qdrop d) qs) i = qdrop d (cyc o3 qs i)).
  { intros i. rewrite <- (cyc_map (qdrop d) o3 qs i). unfold cyc. rewrite map_length. apply nth_indep. rewrite map_length. apply Nat.mod_upper_bound. lia. }
  destruct C as [N' S0 Pe T E Fu]. split; [exact N'|exact S0|intros i; rewrite <- !X; apply Pe|intros i j k Hij Hjk Hk; rewrite <- !X; apply T; assumption|intros i; rewrite <- !X; apply E|].
  destruct Fu as (i & j & k & Fu). exists i, j, k. rewrite <- !X. exact Fu.
Qed.
Lemma make_vertex i : exists v, nth_error vs (i mod length qs) = Some v /\ denotes v (cyc o3 qs i).
Proof using All.
  pose proof make_n as N. pose proof (Forall2_len _ _ _ Dn) as L. destruct (nth_error vs (i mod length qs)) as [v|] eqn:E.
  - exists v. split; [reflexivity|]. apply (Forall2_at _ _ _ _ _ _ Dn E). apply cyc_nth_error_mod. exact N.
  - apply nth_error_None in E. pose proof (Nat.mod_upper_bound i (length qs) ltac:(lia)). lia.
Qed.
Lemma make_at k es : length es = length qs -> (forall i, (i < length qs)%nat -> exists v w, nth_error vs ((k + i) mod length qs) = Some v /\ nth_error vs (S (k + i) mod length qs) = Some w /\ nth_error es i = Some (PE v (pl_of_hpoints v w) d0)) ->
  (k <= length qs)%nat -> poly_ok (Poly h d es) (rotate k qs).
Proof using All.
  intros L E K. pose proof make_n as N. rewrite (rotate_fmap o3 k qs K). apply poly_ok_intro; [exact L|exact N|exact Dl|exact Dc| | |].
  - intros i _. rewrite Forall_forall in On. apply On. apply cyc_In. exact N.
  - intros i Li. destruct (E i Li) as (v & w & E1 & E2 & E3). exists (PE v (pl_of_hpoints v w) d0). split; [exact E3|].
    destruct (make_vertex (k + i)) as (v' & F1 & D1). destruct (make_vertex (S (k + i))) as (w' & F2 & D2). rewrite E1 in F1. injection F1 as <-. rewrite E2 in F2. injection F2 as <-. split; [exact D1|].
    replace (cyc o3 qs (k + S i mod length qs)) with (cyc o3 qs (S (k + i))).
    + destruct (pl_of_hpoints_repr v w _ _ D1 D2) as (kk & Kk & Di & Lp). split; [exact Lp|]. exists kk. split; assumption.
    + rewrite <- (cyc_mod o3 qs (S _)), <- (cyc_mod o3 qs (k + _)) by exact N. f_equal. rewrite Nat.add_mod_idemp_r by lia. f_equal. lia.
  - rewrite map_map. apply (cvx_cycle_of _ _ (fun i => qdrop d (cyc o3 qs (k + i)))). apply (cvx_shift _ _ _ k make_cvx).
Qed.
Lemma make_array : exists p, poly_of_array d0 h d vs = Ok p /\ poly_ok p qs.
Proof using All.
  pose proof make_n as N. pose proof (Forall2_len _ _ _ Dn) as L. unfold poly_of_array. destruct vs as [|v0 vs'] eqn:Ev; [cbn in L; lia|]. rewrite <- Ev in *. eexists. split; [reflexivity|].
  replace qs with (rotate 0 qs) by (unfold rotate; rewrite skipn_O, firstn_O, app_nil_r; reflexivity). apply make_at; [rewrite array_length; exact L| |lia].
  intros i Li. cbn [Nat.add]. rewrite Nat.mod_small by exact Li. destruct (nth_error vs i) as [v|] eqn:E; [|apply nth_error_None in E; lia]. exists v.
  destruct (array_nth d0 vs v0 i v E) as (w & W1 & W2). exists w. split; [reflexivity|]. split; [|exact W2]. destruct W1 as [W1|[W1 ->]].
  - rewrite Nat.mod_small; [exact W1|]. rewrite <- L. apply nth_error_Some. congruence.
  - apply nth_error_None in W1. replace (S i) with (length qs) by lia. rewrite Nat.mod_same by lia. rewrite Ev. reflexivity.
Qed.
Lemma make_hpoints : exists p, poly_of_hpoints d0 h d vs = Ok p /\ poly_ok p (rotate (length qs - 1) qs).
Proof using All.
  pose proof make_n as N. pose proof (Forall2_len _ _ _ Dn) as L. unfold poly_of_hpoints. destruct vs as [|v0 vs'] eqn:Ev; [cbn in L; lia|]. rewrite <- Ev in *. eexists. split; [reflexivity|].
  apply make_at; [rewrite chain_length; exact L| |lia]. intros i Li.
  destruct (nth_error vs i) as [v|] eqn:E; [|apply nth_error_None in E; lia]. destruct (chain_nth d0 vs (last vs v0) i v E) as (w & W1 & W2). exists w, v. split; [|split; [|exact W2]].
  - destruct i as [|i].
    + cbn in W1. injection W1 as <-. rewrite Nat.add_0_r, Nat.mod_small by lia. rewrite <- L, (last_nth vs v0), Ev. reflexivity.
    + cbn [nth_error] in W1. replace (length qs - 1 + S i)%nat with (i + 1 * length qs)%nat by lia. rewrite Nat.mod_add by lia. rewrite Nat.mod_small by lia. exact W1.
  - replace (S (length qs - 1 + i)) with (i + 1 * length qs)%nat by lia. rewrite Nat.mod_add by lia. rewrite Nat.mod_small by lia. exact E.
Qed.
End Make.
Lemma make_points {A} (d0 : A) h d vs : (d < 3)%nat -> comp (hn h) d <> 0%Z -> Forall (fun v => side h (qpt v) == 0) vs -> convex_cycle (inject_Z (comp (hn h) d)) (map (qdrop d) (map qpt vs)) ->
  exists p, poly_of_points d0 h d vs = Ok p /\ poly_ok p (rotate (length vs - 1) (map qpt vs)).
Proof.
  intros Dl Dc On Cx. assert (Dn : Forall2 denotes (map (fun v => HP v 1) vs) (map qpt vs)).
  { clear. induction vs as [|v vs IH]; [constructor|]. cbn [map]. constructor; [|exact IH]. unfold denotes. cbn [hw hv qpt qx qy qz]. change (inject_Z 1) with 1. split; [discriminate|]. repeat split; ring. }
  assert (On' : Forall (fun q => side h q == 0) (map qpt vs)) by (rewrite Forall_map; exact On).
  destruct (make_hpoints d0 h d _ _ Dn Dl Dc On' Cx) as (p & E & P). rewrite map_length in P. exists p. split; [|exact P].
  unfold poly_of_points. unfold poly_of_hpoints in E. destruct vs as [|v vs]; [discriminate|]. rewrite chain_pt_eq. rewrite <- E. cbn [map]. do 3 f_equal.
  change (HP v 1 :: map (fun v => HP v 1) vs) with (map (fun v => HP v 1) (v :: vs)). generalize (v :: vs) as l. intros l. clear. revert v. induction l as [|x l IH]; intros v; [reflexivity|]. destruct l as [|y l]; [reflexivity|]. exact (IH v).
Qed.
