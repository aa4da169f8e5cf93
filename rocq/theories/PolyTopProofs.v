(** Splitting as a whole, and a test for convex cycles to build examples with. *)
From Coq Require Import List ZArith QArith Lqa Lia Arith ZifyBool.
From Verif Require Import BigUIntModel GeoModel GeoSpec GeoProofs GeoPlaneProofs GeoPluckerProofs CvxSpec CvxProofs CvxSeqProofs CvxCapProofs PolyModel PolySpec PolyBridgeProofs PolyInfoProofs PolyCapProofs PolyChildProofs.
Import ListNotations.
Open Scope Q_scope.
(** ** Polygons on one side *)
Lemma points_nonneg {A} (p : poly A) qs f : poly_ok p qs -> (forall q, In q qs -> 0 <= ev f (qdrop (pdrop p) q)) -> forall q, polygon_point (pplane p) (pdrop p) qs q -> 0 <= ev f (qdrop (pdrop p) q).
Proof.
  intros H Pos q [_ Q]. pose proof (ok_cvx p qs H) as C. pose proof (ok_n p qs H) as N. pose proof (ok_length p qs H) as Ln.
  assert (E : map (qdrop (pdrop p)) qs = map (flat_at p qs) (seq 0 (pcount p))) by (rewrite (list_as_fmap o3 qs) at 1; rewrite map_map, Ln; reflexivity).
  rewrite E in Q. fold (pnormal_drop p) in Q. apply (inside_nonneg _ _ _ C); [exact (proj1 (fmap_polygon _ _ _ _ C) Q)|].
  intros i. unfold flat_at. apply Pos. apply cyc_In. lia.
Qed.
Lemma side_all {A} (p : poly A) qs h : poly_ok p qs -> (forall q, In q qs -> 0 <= side h q) -> forall q, polygon_point (pplane p) (pdrop p) qs q -> 0 <= side h q.
Proof.
  intros H Pos q Q. destruct (po_drop p qs H) as [Dl Dn]. pose proof (po_plane p qs H) as Pl. rewrite Forall_forall in Pl.
  rewrite <- (flat_side_ok (pplane p) h (pdrop p) q Dl Dn (proj1 Q)). apply (points_nonneg p qs _ H); [|exact Q].
  intros q' I. rewrite (flat_side_ok (pplane p) h (pdrop p) q' Dl Dn (Pl _ I)). apply Pos. exact I.
Qed.
Lemma side_neg h q : side (hs_neg h) q == - side h q.
Proof. destruct h as [[a b c] d]. unfold side, hs_neg, v3_neg, qdot, qpt. cbn [hn hd vx vy vz qx qy qz]. rewrite !inject_Z_opp. ring. Qed.
Lemma not_neg {A} (p : poly A) qs h i : poly_ok p qs -> info_ok p qs h i -> emit_neg (si_ranges i) = false <-> forall q, polygon_point (pplane p) (pdrop p) qs q -> 0 <= side h q.
Proof.
  intros H [R _ _ _]. unfold emit_neg. rewrite Bool.negb_false_iff, Nat.eqb_eq. pose proof (ok_length p qs H) as Ln. pose proof (ok_n p qs H) as N. split.
  - intros E. apply side_all; [exact H|]. intros q I. apply (In_cyc o3) in I as (j & L & ->). destruct (Qlt_le_dec (side h (cyc o3 qs j)) 0) as [X|X]; [|exact X]. apply (re_neg_in _ _ _ R j L) in X as (k & K1 & K2 & _). lia.
  - intros Q. destruct (re_neg _ _ _ R) as [R1 R2]. destruct (Nat.eq_dec (fst (neg_range (si_ranges i))) (snd (neg_range (si_ranges i)))) as [E|NE]; [exact E|exfalso].
    set (k := fst (neg_range (si_ranges i))) in *. assert (Lk : (k mod length qs < length qs)%nat) by (apply Nat.mod_upper_bound; lia).
    assert (X : side h (cyc o3 qs (k mod length qs)) < 0) by (apply (re_neg_in _ _ _ R (k mod length qs)%nat Lk); exists k; repeat split; lia).
    assert (Iv : In (cyc o3 qs (k mod length qs)) qs) by (apply cyc_In; lia). pose proof (po_plane p qs H) as Pl. rewrite Forall_forall in Pl.
    assert (V : polygon_point (pplane p) (pdrop p) qs (cyc o3 qs (k mod length qs))); [|specialize (Q _ V); lra]. split; [apply Pl; exact Iv|].
    assert (E : map (qdrop (pdrop p)) qs = map (flat_at p qs) (seq 0 (pcount p))) by (rewrite (list_as_fmap o3 qs) at 1; rewrite map_map, Ln; reflexivity). rewrite E. pose proof (ok_cvx p qs H) as C.
    apply (fmap_polygon _ _ _ _ C). intros j Lj. apply (edge_side _ _ _ C j (k mod length qs)).
Qed.
Lemma not_pos {A} (p : poly A) qs h i : poly_ok p qs -> info_ok p qs h i -> emit_pos (si_ranges i) = false <-> forall q, polygon_point (pplane p) (pdrop p) qs q -> side h q <= 0.
Proof.
  intros H [R _ _ _]. unfold emit_pos. rewrite Bool.negb_false_iff, Nat.eqb_eq. pose proof (ok_length p qs H) as Ln. pose proof (ok_n p qs H) as N. split.
  - intros E q Q. assert (X : 0 <= side (hs_neg h) q); [|rewrite side_neg in X; lra]. revert q Q. apply side_all; [exact H|]. intros q I. rewrite side_neg. apply (In_cyc o3) in I as (j & L & ->). destruct (Qlt_le_dec 0 (side h (cyc o3 qs j))) as [X|X]; [|lra]. apply (re_pos_in _ _ _ R j L) in X as (k & K1 & K2 & _). lia.
  - intros Q. destruct (re_pos _ _ _ R) as [R1 R2]. destruct (Nat.eq_dec (fst (pos_range (si_ranges i))) (snd (pos_range (si_ranges i)))) as [E|NE]; [exact E|exfalso].
    set (k := fst (pos_range (si_ranges i))) in *. assert (Lk : (k mod length qs < length qs)%nat) by (apply Nat.mod_upper_bound; lia).
    assert (X : 0 < side h (cyc o3 qs (k mod length qs))) by (apply (re_pos_in _ _ _ R (k mod length qs)%nat Lk); exists k; repeat split; lia).
    assert (Iv : In (cyc o3 qs (k mod length qs)) qs) by (apply cyc_In; lia). pose proof (po_plane p qs H) as Pl. rewrite Forall_forall in Pl.
    assert (V : polygon_point (pplane p) (pdrop p) qs (cyc o3 qs (k mod length qs))); [|specialize (Q _ V); lra]. split; [apply Pl; exact Iv|].
    assert (E : map (qdrop (pdrop p)) qs = map (flat_at p qs) (seq 0 (pcount p))) by (rewrite (list_as_fmap o3 qs) at 1; rewrite map_map, Ln; reflexivity). rewrite E. pose proof (ok_cvx p qs H) as C.
    apply (fmap_polygon _ _ _ _ C). intros j Lj. apply (edge_side _ _ _ C j (k mod length qs)).
Qed.
Lemma split_whole {A} dbg E (p : poly A) qs h : poly_ok p qs -> (exists q, polygon_point (pplane p) (pdrop p) qs q /\ side h q < 0) -> (exists q, polygon_point (pplane p) (pdrop p) qs q /\ 0 < side h q) ->
  exists i neg pos qn qp, get_split_info dbg p h = Ok i /\ emit_neg (si_ranges i) = true /\ emit_pos (si_ranges i) = true /\ split_children dbg E p i = Ok (neg, pos) /\ split_ok p qs h neg pos qn qp.
Proof.
  intros H (qn & Q1 & N1) (qp & Q2 & P2). destruct (get_split_info_ok p qs H h dbg) as (i & Ei & I).
  assert (En : emit_neg (si_ranges i) = true) by (destruct (emit_neg (si_ranges i)) eqn:X; [reflexivity|]; apply (proj1 (not_neg p qs h i H I)) with (q := qn) in X; [lra|exact Q1]).
  assert (Ep : emit_pos (si_ranges i) = true) by (destruct (emit_pos (si_ranges i)) eqn:X; [reflexivity|]; apply (proj1 (not_pos p qs h i H I)) with (q := qp) in X; [lra|exact Q2]).
  destruct (split_children_ok dbg E p qs H h i I En Ep) as (neg & pos & Ec & a & b & S). exists i, neg, pos, a, b. repeat (split; [assumption|]). exact S.
Qed.
(** ** A test *)
Definition tri_test (s : Q) (l : list qpoint2) : bool :=
  forallb (fun i => forallb (fun j => forallb (fun k => negb ((i <? j)%nat && (j <? k)%nat) || Qle_bool 0 (s * turn (nth i l o2) (nth j l o2) (nth k l o2))) (seq 0 (length l))) (seq 0 (length l))) (seq 0 (length l)).
Definition edge_test (l : list qpoint2) : bool :=
  forallb (fun i => negb (Qeq_bool (qx2 (nth i l o2)) (qx2 (nth (S i mod length l) l o2)) && Qeq_bool (qy2 (nth i l o2)) (qy2 (nth (S i mod length l) l o2)))) (seq 0 (length l)).
Definition full_test (l : list qpoint2) : bool :=
  existsb (fun a => existsb (fun b => existsb (fun c => negb (Qeq_bool (turn a b c) 0)) l) l) l.
Lemma nth_of {B} (l : list B) i a x : nth_error l i = Some a -> nth i l x = a /\ (i < length l)%nat.
Proof. intros E. split; [|apply nth_error_Some; congruence]. apply nth_error_nth. exact E. Qed.
Lemma convex_test s l : tri_test s l && edge_test l && full_test l = true -> convex_cycle s l.
Proof.
  intros T. apply andb_prop in T as [T F]. apply andb_prop in T as [T Ed]. split; [|split].
  - intros i j k a b c Hij Hjk Ea Eb Ec. apply (nth_of _ _ _ o2) in Ea as [<- Li]. apply (nth_of _ _ _ o2) in Eb as [<- Lj]. apply (nth_of _ _ _ o2) in Ec as [<- Lk].
    unfold tri_test in T. rewrite forallb_forall in T. specialize (T i ltac:(apply in_seq; lia)). rewrite forallb_forall in T. specialize (T j ltac:(apply in_seq; lia)). rewrite forallb_forall in T. specialize (T k ltac:(apply in_seq; lia)).
    replace (i <? j)%nat with true in T by lia. replace (j <? k)%nat with true in T by lia. cbn [andb negb orb] in T. apply Qle_bool_iff. exact T.
  - intros i a b Ea Eb [X Y]. apply (nth_of _ _ _ o2) in Ea as [Ea Li]. apply (nth_of _ _ _ o2) in Eb as [Eb Lj]. unfold edge_test in Ed. rewrite forallb_forall in Ed. specialize (Ed i ltac:(apply in_seq; lia)).
    rewrite Ea, Eb in Ed. apply Qeq_bool_iff in X, Y. rewrite X, Y in Ed. discriminate.
  - unfold full_test in F. apply existsb_exists in F as (a & Ia & F). apply existsb_exists in F as (b & Ib & F). apply existsb_exists in F as (c & Ic & F). exists a, b, c. repeat (split; [assumption|]). intros Z. apply Qeq_bool_iff in Z. rewrite Z in F. discriminate.
Qed.
