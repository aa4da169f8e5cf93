(** Properties C29 and C30: queries about a mesh. *)
From Coq Require Import List Bool Arith ZArith QArith Lqa Lia Permutation.
From Verif Require Import BigUIntModel BigIntModel BigIntSpec GeoModel GeoSpec GeoProofs GeoBridge AreaSpec AreaProofs AreaTopProofs CvxMergeProofs MergeProofs SolidModel SolidSpec SolidProofs SolidCloseProofs.
Import ListNotations.
Open Scope Q_scope.

(** ** C29 *)
Lemma flat_denotes ms ps : Forall2 (Forall2 denotes) ms ps -> Forall2 denotes (concat ms) (concat ps).
Proof. induction 1; cbn [concat]; [constructor|]. apply Forall2_app; assumption. Qed.
(** GetTopPoint returns a vertex, and no vertex is above it. *)
Theorem C29_top : forall ms ps, Forall2 (Forall2 denotes) ms ps -> concat ms <> [] -> exists q, In (top_point ms, q) (combine (concat ms) (concat ps)) /\ denotes (top_point ms) q /\ forall x, In x (concat ps) -> ~ qtop_lt q x.
Proof.
  intros ms ps F N. apply flat_denotes in F. unfold top_point, mesh_vertices. destruct F as [|v x l qs D F]; [contradiction|]. cbn [fold_left combine]. change (top_step _ v) with v.
  destruct (top_fold l qs F v x D) as (r & Dr & I & Nr & M). exists r. split; [destruct I as [[-> ->]|I]; [left; reflexivity|right; exact I]|]. split; [exact Dr|]. intros y [<-|Y]; [exact Nr|apply M; exact Y].
Qed.
Print Assumptions C29_top.
(** GetFarthest returns a vertex, and no vertex is farther in the direction v. *)
Theorem C29_farthest : forall ms ps v, Forall2 (Forall2 denotes) ms ps -> concat ms <> [] ->
  exists q, In (farthest ms v, q) (combine (concat ms) (concat ps)) /\ denotes (farthest ms v) q /\ forall x, In x (concat ps) -> qdot x (qpt v) <= qdot q (qpt v).
Proof.
  intros ms ps v F N. apply flat_denotes in F. unfold farthest, mesh_vertices. destruct F as [|w x l qs D F]; [contradiction|]. cbn [fold_left combine]. change (far_step v _ w) with (w, v3_dot (hv w) v).
  destruct (far_fold v l qs F w x D) as (r & Dr & I & Nr & M). exists r. split; [destruct I as [[-> ->]|I]; [left; reflexivity|right; exact I]|]. split; [exact Dr|]. intros y [<-|Y]; [exact Nr|apply M; exact Y].
Qed.
Print Assumptions C29_farthest.
(** An empty mesh has no top: the result has weight 0. *)
Theorem C29_empty : forall ms v, concat ms = [] -> hw (top_point ms) = 0%Z /\ hw (farthest ms v) = 0%Z.
Proof. intros ms v E. unfold top_point, farthest, mesh_vertices. rewrite E. split; reflexivity. Qed.
Print Assumptions C29_empty.

(** ** C30 *)
(** The documented formula, whatever the mesh and the weights are. *)
Theorem C30_formula : forall dbg gcd ms ps c, gcd_ok gcd -> Forall2 (Forall2 denotes) ms ps -> mesh_centroid dbg gcd ms = Ok c -> let v := solid_volume origin ps in
  if Qeq_bool v 0 then hw c = 0%Z
  else exists q, denotes c q /\ 48 * v * qx q == normal_sum qx ps /\ 48 * v * qy q == normal_sum qy ps /\ 48 * v * qz q == normal_sum qz ps.
Proof.
  intros dbg gcd ms ps c G F E. cbv zeta. destruct (denom_loop gcd (Denoms [] [] [] 1) (map tri_key (flat_map fan ms))) as [s| | |] eqn:Es; [|unfold mesh_centroid in E; rewrite Es in E; discriminate..].
  destruct (mesh_centroid_spec dbg gcd ms ps G F s Es) as (c' & L & E' & N & W & X & Y & Z). rewrite E in E'. injection E' as <-. assert (V : solid_volume origin ps == qsum (map det_term (flat_map triangles ps)) / 6) by (unfold solid_volume; apply qsum_det).
  pose proof (inject_Z_neq0 _ N) as N'. set (l := inject_Z L) in *. set (v := solid_volume origin ps) in *. assert (W' : inject_Z (hw c) == 48 * (l * l * l) * v) by (rewrite W, V; field). destruct (Qeq_bool v 0) eqn:Z0.
  - apply Qeq_bool_iff in Z0. apply inject_Z_injective. rewrite W', Z0. ring.
  - apply Qeq_bool_neq in Z0. assert (Nw : ~ inject_Z (hw c) == 0). { rewrite W'. intros A. repeat (apply Qmult_integral in A as [A|A]; [|contradiction]). apply Qmult_integral in A as [A|A]; [lra|]. repeat (apply Qmult_integral in A as [A|A]; [|contradiction]). contradiction. }
    exists (QP (normal_sum qx ps / (48 * v)) (normal_sum qy ps / (48 * v)) (normal_sum qz ps / (48 * v))). cbn [qx qy qz]. split; [|repeat split; field; exact Z0].
    split; [intros A; apply Nw; rewrite A; reflexivity|]. cbn [qx qy qz]. change (qsum (map (norm_term qx) (flat_map triangles ps))) with (normal_sum qx ps) in X. change (qsum (map (norm_term qy) (flat_map triangles ps))) with (normal_sum qy ps) in Y. change (qsum (map (norm_term qz) (flat_map triangles ps))) with (normal_sum qz ps) in Z.
    rewrite W', X, Y, Z. repeat split; field; exact Z0.
Qed.
Print Assumptions C30_formula.
(** If the polygons are the closed surface of a solid this is its centroid: the
    point whose product with the volume is the sum over tetrahedra, from any
    point o, of volume times centroid. *)
Theorem C30_centroid : forall dbg gcd ms ps c, gcd_ok gcd -> Forall2 (Forall2 denotes) ms ps -> closed_surface ps -> mesh_centroid dbg gcd ms = Ok c -> ~ solid_volume origin ps == 0 ->
  exists q, denotes c q /\ solid_centroid ps (solid_volume origin ps) q.
Proof.
  intros dbg gcd ms ps c G F C E V. pose proof (C30_formula dbg gcd ms ps c G F E) as R. cbv zeta in R. destruct (Qeq_bool _ 0) eqn:Z; [apply Qeq_bool_iff in Z; contradiction|]. destruct R as (q & D & X & Y & Z'). exists q. split; [exact D|].
  intros o. split; [rewrite (solid_volume_any o ps C), (solid_volume_any origin ps C); reflexivity|]. destruct (solid_moments o ps C) as (Mx & My & Mz). rewrite Mx, My, Mz, <- X, <- Y, <- Z'. repeat split; field.
Qed.
Print Assumptions C30_centroid.
(** It returns if the weights are positive. *)
Lemma denom_loop_total gcd : gcd_pos gcd -> forall ks s, Forall (fun k => (0 < key_product k)%Z) ks -> (0 < dn_lcm s)%Z -> exists s', denom_loop gcd s ks = Ok s'.
Proof.
  intros G. induction ks as [|k ks IH]; intros s F P; cbn [denom_loop]; [eauto|]. inversion F as [|? ? F1 F2]; subst.
  assert (St : exists s', denom_step gcd s k = Ok s' /\ (0 < dn_lcm s')%Z).
  { unfold denom_step. destruct (map_find (dn_map s) k); [eexists; split; [reflexivity|exact P]|]. cbv zeta. assert (New : forall mp, exists s', (let '(w0, w1, w2) := k in g <- gcd (dn_lcm s) (w0 * w1 * w2)%Z ;; contribution <- zdivide (w0 * w1 * w2) g ;; multiple <- zdivide (dn_lcm s) g ;;
          Ok (Denoms mp (dn_values s ++ [(contribution, multiple)]) (dn_indices s ++ [Some (length (dn_values s))]) (dn_lcm s * contribution))) = Ok s' /\ (0 < dn_lcm s')%Z).
    { intros mp. destruct k as [[w0 w1] w2]. cbn [key_product] in F1. set (p := (w0 * w1 * w2)%Z) in *. destruct (pos_step gcd (dn_lcm s) p G P F1) as (g & nc & tc & Eg & E1 & E2 & T). rewrite Eg. cbn [rbind]. rewrite E1. cbn [rbind]. rewrite E2. cbn [rbind]. eexists. split; [reflexivity|]. cbn [dn_lcm].
      rewrite G in Eg by lia. injection Eg as Eg. pose proof (Z.gcd_nonneg (dn_lcm s) p) as Ng. destruct (zdivide_exact p g nc) as [Q Q']; [rewrite <- Eg; apply Z.gcd_divide_r|exact E1|]. nia. }
    destruct (map_find _ (canonical_key k)) as [[i|]|]; [eexists; split; [reflexivity|exact P]|apply New|apply New]. }
  destruct St as (s' & -> & P'). cbn [rbind]. apply IH; assumption.
Qed.
Lemma fan_in {B} (vs : list B) t : In t (fan vs) -> let '(a, b, c) := t in In a vs /\ In b vs /\ In c vs.
Proof.
  destruct vs as [|x r]; [intros []|]. cbn [fan]. intros I. apply in_map_iff in I as ([y z] & <- & I). cbn [fst snd]. split; [left; reflexivity|]. split; right; [apply in_combine_l in I; exact I|]. apply in_combine_r in I. destruct r; [destruct I|right; exact I].
Qed.
Theorem C30_returns : forall dbg ms, Forall (Forall (fun v => (0 < hw v)%Z)) ms -> exists c, mesh_centroid dbg zgcd ms = Ok c.
Proof.
  intros dbg ms F. assert (D : exists ps, Forall2 (Forall2 denotes) ms ps).
  { clear - F. induction F as [|l ms Fl F [ps IH]]; [exists []; constructor|]. assert (X : exists qs, Forall2 denotes l qs); [|destruct X as [qs X]; exists (qs :: ps); constructor; assumption]. clear - Fl. induction Fl as [|v l P Fl [qs IH]]; [exists []; constructor|]. assert (N : hw v <> 0%Z) by lia. pose proof (inject_Z_neq0 _ N) as N'.
    exists (QP (inject_Z (vx (hv v)) / inject_Z (hw v)) (inject_Z (vy (hv v)) / inject_Z (hw v)) (inject_Z (vz (hv v)) / inject_Z (hw v)) :: qs). constructor; [|exact IH]. split; [exact N|]. cbn [qx qy qz]. repeat split; field; exact N'. }
  destruct D as [ps D]. destruct (denom_loop_total zgcd zgcd_pos (map tri_key (flat_map fan ms)) (Denoms [] [] [] 1)) as [s E]; [|cbn; lia|].
  - rewrite Forall_forall in *. intros k I. apply in_map_iff in I as (t & <- & I). apply in_flat_map in I as (l & Il & It). pose proof (fan_in l t It) as X. destruct t as [[a b] c]. destruct X as (A & B & C). specialize (F l Il). rewrite Forall_forall in F. pose proof (F a A). pose proof (F b B). pose proof (F c C). unfold key_product, tri_key. nia.
  - destruct (mesh_centroid_spec dbg zgcd ms ps zgcd_ok D s E) as (c & _ & Ec & _). eauto.
Qed.
Print Assumptions C30_returns.
(** A tetrahedron whose vertices have different weights, two of them negative. *)
Definition tetra : list (list hpoint3) :=
  let o := HP (V3 0 0 0) 3 in let a := HP (V3 8 0 0) 2 in let b := HP (V3 0 (-4) 0) (-1) in let c := HP (V3 0 0 (-16)) (-4) in
  [[o; b; a]; [o; a; c]; [o; c; b]; [a; b; c]].
Definition tetra_points : list (list qpoint) :=
  let o := QP 0 0 0 in let a := QP 4 0 0 in let b := QP 0 4 0 in let c := QP 0 0 4 in [[o; b; a]; [o; a; c]; [o; c; b]; [a; b; c]].
Example tetra_denotes : Forall2 (Forall2 denotes) tetra tetra_points.
Proof. repeat constructor; discriminate. Qed.
Example tetra_closed : closed_surface tetra_points.
Proof.
  set (o := QP 0 0 0). set (a := QP 4 0 0). set (b := QP 0 4 0). set (c := QP 0 0 4). exists (map (fun s => (snd s, fst s)) (flat_map sides tetra_points)). split.
  - change (flat_map sides tetra_points) with [(o, b); (b, a); (a, o); (o, a); (a, c); (c, o); (o, c); (c, b); (b, o); (a, b); (b, c); (c, a)]. cbn [map fst snd].
    apply Permutation_sym. repeat (match goal with |- Permutation (?x :: ?l) ?r => let rec go p q := match q with x :: ?q' => apply (Permutation_cons_app p q' x) | ?y :: ?q' => go (p ++ [y]) q' end in go (@nil (qpoint * qpoint)) r end; cbn [app]). constructor.
  - generalize (flat_map sides tetra_points). intros l. induction l as [|[x y] l IH]; constructor; [split; reflexivity|exact IH].
Qed.
Example tetra_centroid : exists c, mesh_centroid true zgcd tetra = Ok c /\ ~ solid_volume origin tetra_points == 0 /\ denotes c (QP 1 1 1).
Proof. eexists. split; [vm_compute; reflexivity|]. split; [vm_compute; discriminate|]. split; [discriminate|]. repeat split; vm_compute; reflexivity. Qed.
Example tetra_top : hv (top_point tetra) = V3 0 0 (-16) /\ hv (farthest tetra (V3 1 3 2)) = V3 0 (-4) 0.
Proof. split; vm_compute; reflexivity. Qed.
(** With negative weights GetCentroid need not return: the same tetrahedron with
    other weights makes GetGreatestCommonDivisor divide -2^63 by -1. *)
Definition far_tetra : list (list hpoint3) :=
  let o := HP (V3 0 0 0) 1 in let a := HP (V3 1 0 0) 1 in let b := HP (V3 0 (- 2 ^ 63 - 1) 0) (- 2 ^ 63 - 1) in let c := HP (V3 0 0 (- 2 ^ 63)) (- 2 ^ 63) in
  [[o; b; a]; [o; a; c]; [o; c; b]; [a; b; c]].
Lemma zgcd_one : zgcd 1 (- 2 ^ 63 - 1) = Ok 1%Z.
Proof.
  unfold zgcd. assert (E : forall f, rbind (gcd (S (S (S f))) false (canon 1) (canon (- 2 ^ 63 - 1))) (fun x => Ok (value x)) = Ok 1%Z) by (intros f; vm_compute; reflexivity).
  assert (F : exists f, Z.to_nat (Z.abs (- 2 ^ 63 - 1)) = S (S f)) by (exists (pred (pred (Z.to_nat (Z.abs (- 2 ^ 63 - 1))))); lia). destruct F as [f F]. rewrite F. exact (E f).
Qed.
Theorem C30_negative_weights_refuted : mesh_centroid false zgcd far_tetra = UB.
Proof.
  pose proof zgcd_one as G. pose proof zgcd_ub as U. change (- 2 ^ 63 - 1)%Z with (-9223372036854775809)%Z in *. change (- 2 ^ 63)%Z with (-9223372036854775808)%Z in *.
  unfold mesh_centroid, far_tetra. cbn [flat_map fan map combine tl app fst snd tri_key hw]. change (- 2 ^ 63 - 1)%Z with (-9223372036854775809)%Z. change (- 2 ^ 63)%Z with (-9223372036854775808)%Z.
  cbn [denom_loop]. unfold denom_step at 1. cbn. rewrite G. cbn. rewrite U. reflexivity.
Qed.
Print Assumptions C30_negative_weights_refuted.
