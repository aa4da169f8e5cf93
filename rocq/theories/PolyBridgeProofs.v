(** From stored polygons to sequences of values. *)
From Coq Require Import List ZArith QArith Lqa Lia Arith ZifyBool.
From Verif Require Import BigUIntModel GeoModel GeoSpec GeoProofs GeoPlaneProofs GeoPluckerProofs CvxSpec CvxProofs CvxSeqProofs PolyModel PolySpec.
Import ListNotations.
Open Scope Q_scope.
(** ** Cycles as periodic sequences *)
Lemma cyc_nth_error {B} (x : B) l i : (i < length l)%nat -> nth_error l i = Some (cyc x l i).
Proof. intros H. unfold cyc. rewrite Nat.mod_small by exact H. apply nth_error_nth'. exact H. Qed.
Lemma cyc_nth_error_mod {B} (x : B) l i : (0 < length l)%nat -> nth_error l (i mod length l) = Some (cyc x l i).
Proof. intros H. unfold cyc. apply nth_error_nth'. apply Nat.mod_upper_bound. lia. Qed.
Lemma cyc_map {B C} (f : B -> C) x l i : cyc (f x) (map f l) i = f (cyc x l i).
Proof. unfold cyc. rewrite map_length. apply map_nth. Qed.
Lemma cyc_period {B} (x : B) l i : (0 < length l)%nat -> cyc x l (i + length l) = cyc x l i.
Proof. intros H. unfold cyc. f_equal. rewrite <- (Nat.mod_add i 1 (length l)) by lia. f_equal. lia. Qed.
Lemma cyc_mod {B} (x : B) l i : (0 < length l)%nat -> cyc x l (i mod length l) = cyc x l i.
Proof. intros H. unfold cyc. f_equal. apply Nat.mod_mod. lia. Qed.
Lemma cyc_In {B} (x : B) l i : (0 < length l)%nat -> In (cyc x l i) l.
Proof. intros H. unfold cyc. apply nth_In. apply Nat.mod_upper_bound. lia. Qed.
Lemma In_cyc {B} (x : B) l y : In y l -> exists i, (i < length l)%nat /\ y = cyc x l i.
Proof. intros H. destruct (In_nth l y x H) as (i & L & E). exists i. split; [exact L|]. unfold cyc. rewrite Nat.mod_small by exact L. symmetry. exact E. Qed.
Lemma window_mod n i k : (0 < n)%nat -> (k < n)%nat -> ((i + k) mod n = i mod n + k \/ n <= i mod n + k /\ (i + k) mod n + n = i mod n + k)%nat.
Proof.
  intros N K. pose proof (Nat.mod_upper_bound i n ltac:(lia)) as B. rewrite <- (Nat.add_mod_idemp_l i k n) by lia. set (r := (i mod n)%nat) in *.
  destruct (Nat.lt_ge_cases (r + k) n) as [L|L]; [left; apply Nat.mod_small; exact L|right].
  split; [exact L|]. replace (r + k)%nat with ((r + k - n) + 1 * n)%nat at 1 by lia. rewrite Nat.mod_add by lia. rewrite Nat.mod_small by lia. lia.
Qed.
Lemma Forall2_at {B C} (R : B -> C -> Prop) l l' i x y : Forall2 R l l' -> nth_error l i = Some x -> nth_error l' i = Some y -> R x y.
Proof.
  intros F. revert i. induction F as [|a b l l' Hab F IH]; intros i X Y; [destruct i; discriminate|].
  destruct i; cbn [nth_error] in *; [congruence|]. exact (IH i X Y).
Qed.
Lemma cycle_cvx s l : ~ s == 0 -> convex_cycle s l -> cvx (length l) s (cyc o2 l).
Proof.
  intros S0 (T & D & (a & b & c & Ia & Ib & Ic & NZ)). assert (N : (0 < length l)%nat) by (destruct l; [contradiction|cbn; lia]).
  assert (T' : forall i j k, (i < j)%nat -> (j < k)%nat -> (k < length l)%nat -> 0 <= s * turn (cyc o2 l i) (cyc o2 l j) (cyc o2 l k)).
  { intros i j k Hij Hjk Hk. apply (T i j k); [exact Hij|exact Hjk|apply cyc_nth_error; lia|apply cyc_nth_error; lia|apply cyc_nth_error; lia]. }
  split; [exact N|exact S0|intros i; apply cyc_period; exact N| | |].
  - intros i j k Hij Hjk Hk. rewrite <- (cyc_mod o2 l i N), <- (cyc_mod o2 l j N), <- (cyc_mod o2 l k N).
    pose proof (window_mod (length l) i (j - i) N ltac:(lia)) as Wj. pose proof (window_mod (length l) i (k - i) N ltac:(lia)) as Wk.
    replace (i + (j - i))%nat with j in Wj by lia. replace (i + (k - i))%nat with k in Wk by lia.
    pose proof (Nat.mod_upper_bound i (length l) ltac:(lia)) as Bi. pose proof (Nat.mod_upper_bound j (length l) ltac:(lia)) as Bj. pose proof (Nat.mod_upper_bound k (length l) ltac:(lia)) as Bk.
    set (i' := (i mod length l)%nat) in *. set (j' := (j mod length l)%nat) in *. set (k' := (k mod length l)%nat) in *.
    destruct Wj as [Wj|Wj], Wk as [Wk|Wk]; [apply T'; lia| |lia|].
    + rewrite <- turn_rot. apply T'; lia.
    + rewrite turn_rot. apply T'; lia.
  - intros i. rewrite <- (cyc_mod o2 l i N). apply (D (i mod length l)%nat); [apply cyc_nth_error; apply Nat.mod_upper_bound; lia|].
    rewrite (cyc_nth_error_mod o2) by exact N. f_equal. unfold cyc. f_equal.
    replace (S (i mod length l)) with (i mod length l + 1)%nat by lia. rewrite Nat.add_mod_idemp_l by lia. f_equal. lia.
  - destruct (In_cyc o2 l a Ia) as (i & _ & ->), (In_cyc o2 l b Ib) as (j & _ & ->), (In_cyc o2 l c Ic) as (k & _ & ->). exists i, j, k. exact NZ.
Qed.
(** ** What the searches see of a polygon *)
Record sees {A} (p : poly A) (v : vec2) (d : nat) (F : nat -> Q) : Prop := Sees {
  s_uni : uni (pcount p) F;
  s_dir : forall i, (i < pcount p)%nat -> exists z, edge_dir p v d i = Ok z /\ Z.sgn z = qsign (F (S i) - F i);
  s_vertex : forall i, (i < pcount p)%nat -> exists x, pvertex p i = Ok x /\ hw x <> 0%Z /\ F i == inject_Z (v2_dot (drop_dim (hv x) d) v) / inject_Z (hw x) }.
Lemma sees_neg {A} (p : poly A) v d F : sees p v d F -> sees p (v2_neg v) d (fun i => - F i).
Proof.
  intros H. split; [apply uni_opp; apply (s_uni p v d F H)| |].
  - intros i L. destruct (s_dir p v d F H i L) as (z & E & G). unfold edge_dir in *. destruct (pedge_at p i) as [e| | |]; try discriminate. cbn [rbind] in *.
    eexists. split; [reflexivity|]. rewrite zget_sign_sgn. injection E as <-. rewrite zget_sign_sgn in G.
    replace (v2_dot (drop_dim (ld (pl e)) d) (v2_neg v)) with (- v2_dot (drop_dim (ld (pl e)) d) v)%Z by (unfold v2_dot, v2_neg; cbn [x2 y2]; ring).
    rewrite Z.sgn_opp, G. rewrite <- (Z.mul_1_r (qsign (F (S i) - F i))). rewrite Z.mul_comm, <- Z.mul_opp_l. change (- (1))%Z with (qsign (-1)). rewrite <- qsign_mult. apply qsign_comp. ring.
  - intros i L. destruct (s_vertex p v d F H i L) as (x & E & W & G). exists x. split; [exact E|]. split; [exact W|]. rewrite G.
    replace (v2_dot (drop_dim (hv x) d) (v2_neg v)) with (- v2_dot (drop_dim (hv x) d) v)%Z by (unfold v2_dot, v2_neg; cbn [x2 y2]; ring). rewrite inject_Z_opp. field. apply inject_Z_neq0. exact W.
Qed.
Lemma sees_cmp {A} (p : poly A) h d F i : sees p (hn2 h) d F -> (i < pcount p)%nat -> vertex_cmp p h d i = Ok (qsign (F i - inject_Z (hd2 h))).
Proof.
  intros H L. destruct (s_vertex p (hn2 h) d F H i L) as (x & E & W & G). unfold vertex_cmp. rewrite E. cbn [rbind]. f_equal.
  unfold hs2_compare, hp_drop_dim. cbn [hv2 hw2]. rewrite zcompare_sgn, zabs_mult_sgn by exact W.
  assert (Wq := inject_Z_neq0 _ W). set (m := v2_dot (drop_dim (hv x) d) (hn2 h)) in *.
  replace (v2_dot (hn2 h) (drop_dim (hv x) d)) with m by (unfold m, v2_dot; ring).
  rewrite (sgn_of_q (m - hw x * hd2 h) (hw x) (F i - inject_Z (hd2 h))).
  - rewrite <- Z.mul_assoc. destruct (Z.sgn_spec (hw x)) as [[? ->]|[[? ->]|[? ->]]]; lia.
  - rewrite inject_Z_sub, inject_Z_mult, G. field. exact Wq.
Qed.
Section Ok.
Context {A : Type} (p : poly A) (qs : list qpoint) (H : poly_ok p qs).
Lemma ok_length : length qs = pcount p.
Proof using All. symmetry. pose proof (po_vertices p qs H) as V. clear H. unfold pcount. induction V; cbn; congruence. Qed.
Definition flat_at (i : nat) : qpoint2 := qdrop (pdrop p) (cyc o3 qs i).
Lemma ok_cvx : cvx (pcount p) (inject_Z (pnormal_drop p)) flat_at.
Proof using All.
  pose proof (cycle_cvx _ _ (inject_Z_neq0 _ (proj2 (po_drop p qs H))) (po_convex p qs H)) as C. rewrite map_length, ok_length in C.
  destruct C as [N S0 Pe T E Fu].
  assert (X : forall i, cyc o2 (map (qdrop (pdrop p)) qs) i = flat_at i).
  { intros i. unfold flat_at. rewrite <- (cyc_map (qdrop (pdrop p)) o3 qs i). unfold cyc. rewrite map_length. apply nth_indep. rewrite map_length. apply Nat.mod_upper_bound. rewrite ok_length. lia. }
  split; [exact N|exact S0|intros i; rewrite <- !X; apply Pe|intros i j k Hij Hjk Hk; rewrite <- !X; apply T; assumption|intros i; rewrite <- !X; apply E|].
  destruct Fu as (i & j & k & Fu). exists i, j, k. rewrite <- !X. exact Fu.
Qed.
Lemma ok_n : (0 < pcount p)%nat.
Proof using All. exact (c_n _ _ _ ok_cvx). Qed.
Lemma ok_edge i : (i < pcount p)%nat -> exists e, nth_error (pedges p) i = Some e /\ denotes (pv e) (cyc o3 qs i) /\
  line_points (pl e) (cyc o3 qs i) /\ exists k, 0 < k /\ qp_eq (qpt (ld (pl e))) (qscale k (qsub (cyc o3 qs (S i)) (cyc o3 qs i))).
Proof using All.
  intros L. assert (Lq : (i < length qs)%nat) by (rewrite ok_length; exact L).
  destruct (nth_error (pedges p) i) as [e|] eqn:E; [|apply nth_error_None in E; unfold pcount in L; lia].
  exists e. split; [reflexivity|]. pose proof (cyc_nth_error o3 qs i Lq) as Q.
  assert (D : denotes (pv e) (cyc o3 qs i)).
  { exact (Forall2_at _ _ _ _ _ _ (po_vertices p qs H) E Q). }
  split; [exact D|]. apply (po_lines p qs H i e); [exact E|exact Q|]. apply cyc_nth_error_mod. lia.
Qed.
Lemma drop_dot2 (a : vec3) d v : (d < 3)%nat -> inject_Z (v2_dot (drop_dim a d) v) == along2 v (qdrop d (qpt a)).
Proof using.
  intros L. destruct d as [|[|[|d]]]; [| | |lia]; unfold v2_dot, drop_dim, comp, along2, qdrop, qpt; cbn -[inject_Z Qmult Qplus Z.add Z.mul]; rewrite inject_Z_plus, !inject_Z_mult; ring.
Qed.
Lemma ok_sees v : sees p v (pdrop p) (fun i => along2 v (flat_at i)).
Proof using All.
  pose proof (proj1 (po_drop p qs H)) as Dl. split.
  - pose proof (cvx_uni (pcount p) _ _ (Aff (inject_Z (x2 v)) (inject_Z (y2 v)) 0) ok_cvx) as U.
    assert (X : forall i, ev (Aff (inject_Z (x2 v)) (inject_Z (y2 v)) 0) (flat_at i) == along2 v (flat_at i)) by (intros i; unfold ev, along2; cbn [fa fb fc]; ring).
    destruct U as [N Pe Al Fl]. split; [exact N| | |].
    + intros i. f_equal. apply (c_period _ _ _ ok_cvx).
    + intros c i j k l. rewrite <- !X. apply Al.
    + intros i a b. rewrite <- !X. apply Fl.
  - intros i L. destruct (ok_edge i L) as (e & E & D & Lp & (k & K & Dir)). unfold edge_dir, pedge_at. rewrite E. cbn [rbind]. eexists. split; [reflexivity|].
    rewrite zget_sign_sgn, <- qsign_inject. apply (qsign_scale_pos _ _ k K). rewrite (drop_dot2 (ld (pl e)) (pdrop p) v Dl).
    destruct Dir as (X & Y & Z). unfold flat_at, along2. destruct (pdrop p) as [|[|[|d]]]; [| | |lia]; unfold qdrop; cbn [qx2 qy2]; rewrite ?X, ?Y, ?Z; unfold qscale, qsub; cbn [qx qy qz]; ring.
  - intros i L. destruct (ok_edge i L) as (e & E & (W & X & Y & Z) & _). exists (pv e). unfold pvertex, pedge_at. rewrite E. cbn [rbind]. split; [reflexivity|]. split; [exact W|].
    rewrite (drop_dot2 (hv (pv e)) (pdrop p) v Dl). pose proof (inject_Z_neq0 _ W) as W'.
    unfold flat_at, along2. destruct (pdrop p) as [|[|[|d]]]; [| | |lia]; unfold qdrop, qpt; cbn [qx qy qz qx2 qy2]; rewrite ?X, ?Y, ?Z; field; exact W'.
Qed.
End Ok.
