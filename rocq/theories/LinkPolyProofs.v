(** Merging two polygons of a mesh. *)
From Coq Require Import List Bool Arith ZArith QArith Lqa Lia ZifyBool Morphisms Setoid.
From Verif Require Import BigUIntModel GeoModel GeoSpec GeoProofs GeoDirProofs CvxSpec CvxProofs CvxMergeProofs PolyModel PolySpec PolyOpsModel PolyBridgeProofs PolyInfoProofs PolyCapProofs TriSpec BspGeoProofs MergeProofs MergeTopProofs LinkModel LinkSpec LinkProofs LinkMergeProofs LinkGoodProofs LinkSpliceProofs.
Import ListNotations.
Open Scope Q_scope.

Definition like (h0 h : hedge) : Prop := f_id h = f_id h0 /\ f_partner h = f_partner h0 /\ f_from h = f_from h0 /\ f_dir h = f_dir h0 /\ qp_eq (f_to h0) (f_to h).
Section Spliced.
Context (st : mesh) (i j k m : nat) (p o : poly cdata) (ha hb : hedge).
Let o' := redata_poly (set_poly i) o.
Let q := set_edges p (splice k m (pedges p) (pedges o')).
Let st0 := upd (upd st i q) j (set_edges o []).
Context (Gd : good st) (P : nth_error st i = Some p) (Q : nth_error st j = Some o) (IJ : i <> j) (H : poly_ok p (pts p)) (Ho : poly_ok o (pts o)).
Context (Ha : half_at p k ha) (Hb : half_at o m hb) (Pa : f_partner ha = Some (f_id hb)) (Pb : f_partner hb = Some (f_id ha)).
Context (Ea : qp_eq (cyc o3 (pts o) (S m)) (cyc o3 (pts p) k)) (Eb : qp_eq (cyc o3 (pts o) m) (cyc o3 (pts p) (S k))) (Hq : poly_ok q (pts q)).
Lemma st0_nth l : nth_error st0 l = if (l =? j)%nat then Some (set_edges o []) else if (l =? i)%nat then Some q else nth_error st l.
Proof using P Q. pose proof (nth_lt _ _ _ P). pose proof (nth_lt _ _ _ Q). unfold st0. rewrite upd_nth by (rewrite upd_length by assumption; assumption). destruct (Nat.eqb_spec l j); [reflexivity|]. apply upd_nth. assumption. Qed.
Lemma st0_length : length st0 = length st.
Proof using P Q. pose proof (nth_lt _ _ _ P). pose proof (nth_lt _ _ _ Q). unfold st0. rewrite upd_length by (rewrite upd_length by assumption; assumption). apply upd_length. assumption. Qed.
Let ha_in : half_in st i ha := ex_intro _ p (ex_intro _ k (conj P Ha)).
Let hb_in : half_in st j hb := ex_intro _ o (ex_intro _ m (conj Q Hb)).
Lemma o'_pts : pts o' = pts o. Proof using. apply redata_pts. Qed.
Lemma o'_count : pcount o' = pcount o. Proof using. apply redata_count. Qed.
Lemma side_conditions : (k < pcount p)%nat /\ (m < pcount o')%nat /\ (3 <= pcount p)%nat /\ (3 <= pcount o')%nat /\
  qp_eq (cyc o3 (pts o') (S m)) (cyc o3 (pts p) k) /\ qp_eq (cyc o3 (pts o') m) (cyc o3 (pts p) (S k)).
Proof using All.
  rewrite o'_count, o'_pts. split; [apply (half_points p k ha Ha)|]. split; [apply (half_points o m hb Hb)|]. split; [exact (cvx_three _ _ _ (ok_cvx p _ H))|]. split; [exact (cvx_three _ _ _ (ok_cvx o _ Ho))|]. split; [exact Ea|exact Eb].
Qed.
Lemma st0_from l h : half_in st0 l h -> exists l0 h0, half_in st l0 h0 /\ f_id h0 <> f_id ha /\ f_id h0 <> f_id hb /\ l = (if (l0 =? j)%nat then i else l0) /\ f_poly h = l /\ like h0 h.
Proof using All.
  destruct Gd as (M & _). pose proof (mo_once st M) as O. change (once st) in O. destruct side_conditions as (K1 & K2 & K3 & K4 & K5 & K6). intros (r & y & R & Y). rewrite st0_nth in R. destruct (Nat.eqb_spec l j) as [->|NJ].
  { injection R as <-. destruct Y as (e & _ & E & _). destruct y; discriminate. }
  destruct (Nat.eqb_spec l i) as [->|NI].
  - apply Some_inj in R. subst r. destruct (from_splice p o' k m K1 K2 K3 K4 K5 K6 y h Y) as [(x & h0 & X & NX & (S1 & S2 & S3 & S4 & S5 & S6))|(x & h1 & X & NX & (S1 & S2 & S3 & S4 & S5 & S6))].
    + exists i, h0. assert (X' : half_in st i h0) by (exists p, x; auto). split; [exact X'|]. assert (Nk : f_id h0 <> f_id ha). { intros E. destruct (half_in_at st i h0 X') as (x1 & e1 & A1 & I1 & _). destruct X as (e & e' & U1 & U2 & ->). destruct Ha as (f & f' & V1 & V2 & ->). destruct (at_unique st i x e i k f O) as (_ & Z & _); [exists p; auto|exists p; auto|exact E|contradiction]. }
      split; [exact Nk|]. split; [intros E; destruct (half_unique st i j h0 hb O X' hb_in E); contradiction|]. split; [destruct (Nat.eqb_spec i j); [contradiction|reflexivity]|]. split; [rewrite S2; exact (mo_back st M i h0 X')|]. repeat (split; [assumption|]). exact S6.
    + apply half_at_redata in X. destruct X as (h0 & X & ->). exists j, h0. assert (X' : half_in st j h0) by (exists o, x; auto). split; [exact X'|]. assert (Nk : f_id h0 <> f_id hb). { intros E. destruct X as (e & e' & U1 & U2 & ->). destruct Hb as (f & f' & V1 & V2 & ->). destruct (at_unique st j x e j m f O) as (_ & Z & _); [exists o; auto|exists o; auto|exact E|contradiction]. }
      split; [intros E; destruct (half_unique st j i h0 ha O X' ha_in E); congruence|]. split; [exact Nk|]. rewrite Nat.eqb_refl. split; [reflexivity|]. split; [rewrite S2; reflexivity|]. unfold hmap, set_poly, hdata in S1, S3, S4, S5, S6. cbn in S1, S3, S4, S5, S6. repeat (split; [assumption|]). exact S6.
  - exists l, h. assert (X' : half_in st l h) by (exists r, y; auto). split; [exact X'|]. split; [intros E; destruct (half_unique st l i h ha O X' ha_in E); contradiction|]. split; [intros E; destruct (half_unique st l j h hb O X' hb_in E); contradiction|]. split; [destruct (Nat.eqb_spec l j); [contradiction|reflexivity]|]. split; [exact (mo_back st M l h X')|]. repeat (split; [reflexivity|]). reflexivity.
Qed.
Lemma st0_to l0 h0 : half_in st l0 h0 -> f_id h0 <> f_id ha -> f_id h0 <> f_id hb -> exists h, half_in st0 (if (l0 =? j)%nat then i else l0) h /\ like h0 h.
Proof using All.
  destruct side_conditions as (K1 & K2 & K3 & K4 & K5 & K6). intros (r & x & R & X) N1 N2. assert (Ni : nth_error st0 i = Some q) by (rewrite st0_nth; destruct (Nat.eqb_spec i j); [contradiction|]; rewrite Nat.eqb_refl; reflexivity).
  destruct (Nat.eqb_spec l0 j) as [->|NJ]; [|destruct (Nat.eq_dec l0 i) as [->|NI]].
  - assert (r = o) by congruence. subst r. destruct (to_splice_other p o' k m K1 K2 K3 K4 K5 K6 x (hmap (set_poly i) h0)) as (y & h & Y & (S1 & S2 & S3 & S4 & S5 & S6)); [apply half_at_redata; eauto|intros ->; apply N2; f_equal; exact (half_at_fun _ _ _ _ X Hb)|].
    exists h. split; [exists q, y; auto|]. unfold hmap, set_poly, hdata in S1, S3, S4, S5, S6. cbn in S1, S3, S4, S5, S6. repeat (split; [assumption|]). exact S6.
  - assert (r = p) by congruence. subst r. destruct (to_splice_mine p o' k m K1 K2 K3 K4 K5 K6 x h0) as (y & h & Y & (S1 & S2 & S3 & S4 & S5 & S6)); [exact X|intros ->; apply N1; f_equal; exact (half_at_fun _ _ _ _ X Ha)|].
    exists h. split; [exists q, y; auto|]. repeat (split; [assumption|]). exact S6.
  - exists h0. split; [exists r, x; split; [|exact X]; rewrite st0_nth; destruct (Nat.eqb_spec l0 j); [contradiction|]; destruct (Nat.eqb_spec l0 i); [contradiction|]; exact R|]. repeat (split; [reflexivity|]). reflexivity.
Qed.
Lemma q_ids : ids q = splice k m (ids p) (ids o).
Proof using. unfold ids, q, o'. cbn [set_edges pedges redata_poly]. rewrite map_splice, map_map. reflexivity. Qed.
Lemma st0_once : once st0.
Proof using All.
  destruct Gd as (M & _). destruct (mo_once st M) as [A B].
  assert (Z : forall l r, nth_error st0 l = Some r -> (l = j /\ ids r = []) \/ (l = i /\ l <> j /\ ids r = splice k m (ids p) (ids o)) \/ (l <> i /\ l <> j /\ nth_error st l = Some r)).
  { intros l r R. rewrite st0_nth in R. destruct (Nat.eqb_spec l j) as [->|NJ]; [left; injection R as <-; auto|]. destruct (Nat.eqb_spec l i) as [->|NI]; [right; left; apply Some_inj in R; subst r; split; [reflexivity|split; [exact NJ|exact q_ids]]|auto]. }
  assert (Dis : forall x, In x (ids p) -> ~ In x (ids o)) by (intros x; exact (B i j p o x IJ P Q)).
  split.
  - intros l r R. destruct (Z l r R) as [[_ ->]|[(-> & _ & ->)|(_ & _ & S)]]; [constructor|apply NoDup_splice; [exact (A i p P)|exact (A j o Q)|exact Dis]|exact (A l r S)].
  - intros l1 l2 r1 r2 x NE R1 R2 I1 I2. destruct (Z l1 r1 R1) as [[_ E1]|[(E1 & _ & F1)|(N1 & N1' & S1)]], (Z l2 r2 R2) as [[_ E2]|[(E2 & _ & F2)|(N2 & N2' & S2)]]; try (rewrite E1 in I1; contradiction); try (rewrite E2 in I2; contradiction).
    + lia.
    + rewrite F1 in I1. apply splice_In in I1 as [I1|I1]; [exact (B i l2 p r2 x ltac:(congruence) P S2 I1 I2)|exact (B j l2 o r2 x ltac:(congruence) Q S2 I1 I2)].
    + rewrite F2 in I2. apply splice_In in I2 as [I2|I2]; [exact (B l1 i r1 p x N1 S1 P I1 I2)|exact (B l1 j r1 o x N1' S1 Q I1 I2)].
    + exact (B l1 l2 r1 r2 x NE S1 S2 I1 I2).
Qed.
Lemma st0_origin l h : half_in st0 l h -> origin st h.
Proof using All.
  intros X. destruct (st0_from l h X) as (l0 & h0 & X0 & _ & _ & _ & _ & (S1 & S2 & S3 & S4 & S5)). exists l0, h0, l0, h0. split; [exact X0|]. split; [exact X0|]. split; [exact S1|]. split; [rewrite S3; reflexivity|]. split; [symmetry; exact S5|]. split; [exact S4|]. split; [apply same_dir_refl|]. rewrite S2. tauto.
Qed.
Lemma st0_good : good st0.
Proof using All.
  destruct Gd as (M & Ev & Nm). pose proof (mo_once st M) as O. change (once st) in O.
  assert (Cv : convex_at st0). { intros l r R. rewrite st0_nth in R. destruct (Nat.eqb_spec l j); [left; injection R as <-; reflexivity|]. destruct (Nat.eqb_spec l i); [right; apply Some_inj in R; subst r; exact Hq|exact (mo_convex st M l r R)]. }
  split; [|split].
  - split; [exact Cv|exact st0_once| |].
    + intros l h X. destruct (st0_from l h X) as (l0 & h0 & X0 & _ & _ & _ & F & _). exact F.
    + intros l h d X Pd. destruct (st0_from l h X) as (l0 & h0 & X0 & N1 & N2 & L & F & (S1 & S2 & S3 & S4 & S5)). rewrite S2 in Pd. destruct (mo_partner st M l0 h0 d X0 Pd) as (l1 & g0 & G0 & Ig & Pg & E1 & E2).
      destruct (st0_to l1 g0 G0) as (g & G1 & (T1 & T2 & T3 & T4 & T5)).
      * intros E. destruct (half_unique st l1 i g0 ha O G0 ha_in E) as [-> ->]. congruence.
      * intros E. destruct (half_unique st l1 j g0 hb O G0 hb_in E) as [-> ->]. congruence.
      * exists (if (l1 =? j)%nat then i else l1), g. split; [exact G1|]. split; [congruence|]. split; [congruence|]. rewrite S3, T3, <- S5, <- T5. split; [exact E1|exact E2].
  - exact (origin_even st st0 (mo_convex st M) Cv Ev st0_origin).
  - destruct Nm as [Nm1 Nm2]. split.
    + intros l r R. rewrite st0_nth in R. destruct (Nat.eqb_spec l j); [injection R as <-; exact (Nm1 j o Q)|]. destruct (Nat.eqb_spec l i); [apply Some_inj in R; subst r; exact (Nm1 i p P)|exact (Nm1 l r R)].
    + intros l h X. destruct (st0_origin l h X) as (lx & hx & ly & hy & X1 & X2 & X3 & X4 & X5 & X6 & X7 & X8 & X9). rewrite X6. exact (Nm2 lx hx X1).
Qed.
End Spliced.

(** ** TryMergePolygon *)
Definition edge_fixed (b : bool) : einfo cdata := EInfo cdata (fun a _ => a) (fun a _ => a) (fun a _ _ => a) (fun _ _ => b) (fun a _ => a) (fun _ _ => true).
Lemma upd_self {B} (l : list B) k x : nth_error l k = Some x -> firstn k l ++ x :: skipn (S k) l = l.
Proof. revert l. induction k as [|k IH]; intros [|y l] E; try discriminate; [injection E as <-; reflexivity|]. change (y :: (firstn k l ++ x :: skipn (S k) l) = y :: l). rewrite (IH l E). reflexivity. Qed.
Lemma fixed_step dbg b p k a c : nth_error (pedges p) k = Some a -> nth_error (pedges p) (S k mod pcount p) = Some c -> chk a c ->
  try_merge_edge dbg (edge_fixed b) p k = Ok (if b then set_edges p (without (S k mod pcount p) (pedges p)) else p, b).
Proof.
  intros A B C. pose proof (nth_lt _ _ _ A) as L. fold (pcount p) in L. unfold try_merge_edge. rewrite check_true by (apply Nat.ltb_lt; exact L). cbn [rbind]. destruct (Nat.eqb_spec (pcount p) 0) as [Z|Z]; [lia|]. cbv zeta. unfold pedge_at. rewrite A, B. cbn [rbind]. rewrite (chk_run dbg a c C). cbn [rbind edge_fixed ei_can_merge ei_merge]. destruct b; cbn [negb]; [|reflexivity].
  replace (PE (pv a) (pl a) (pd a)) with a by (destruct a; reflexivity). rewrite (upd_self _ _ _ A). reflexivity.
Qed.
Lemma denotes_points (l : list (pedge cdata)) qs qs' : Forall2 (fun e q => denotes (pv e) q) l qs -> Forall2 (fun e q => denotes (pv e) q) l qs' -> Forall2 qp_eq qs qs'.
Proof. intros V. revert qs'. induction V as [|e q l l' D V IH]; intros qs' V'; inversion V'; subst; constructor; [eapply denotes_unique; eassumption|apply IH; assumption]. Qed.
Section Poly.
Context (dbg : bool) (st : mesh) (nz i j : nat) (ha hb : hedge) (p o : poly cdata) (k m : nat).
Context (Gd : good st) (P : nth_error st i = Some p) (Q : nth_error st j = Some o) (Ha : half_at p k ha) (Hb : half_at o m hb) (Pa : f_partner ha = Some (f_id hb)) (Nz : (nz < 3)%nat) (Dz : comp (f_dir ha) nz <> 0%Z).
Definition merged (st st' : mesh) (i j : nat) : Prop := length st' = length st /\ (forall x, shows st' i x <-> shows st i x \/ shows st j x) /\ (forall p', nth_error st' j = Some p' -> pedges p' = []) /\
  (forall p p', nth_error st i = Some p -> nth_error st' i = Some p' -> pplane p' = pplane p /\ pdrop p' = pdrop p /\ pedges p' <> []) /\
  forall l p p', l <> i -> l <> j -> nth_error st l = Some p -> nth_error st' l = Some p' -> view p p'.
Lemma merge_polygon_ok : exists st' b, merge_polygon dbg st nz i k j m = Ok (st', b) /\ good st' /\ kept st st' /\ i <> j /\
  if b then same_direction (l3 (hn (pplane p))) (l3 (hn (pplane o))) /\ merged st st' i j
  else st' = st /\ forall E : einfo cdata, try_merge dbg E p nz k o m = Ok None.
Proof using All.
  pose proof Gd as (M & Ev & Nm). pose proof (mo_once st M) as O. change (once st) in O. assert (Ha' : half_in st i ha) by (exists p, k; auto). assert (Hb' : half_in st j hb) by (exists o, m; auto).
  destruct (half_points p k ha Ha) as (K & Fa & Ta). destruct (half_points o m hb Hb) as (Mm & Fb & Tb).
  destruct (mo_partner st M i ha _ Ha' Pa) as (j1 & g & Gg & Ig & Pg & E1 & E2). destruct (half_unique st j1 j g hb O Gg Hb' Ig) as [-> ->].
  assert (H : poly_ok p (pts p)) by (destruct (mo_convex st M i p P) as [X|X]; [unfold pcount in K; rewrite X in K; cbn in K; lia|exact X]). assert (Ho : poly_ok o (pts o)) by (destruct (mo_convex st M j o Q) as [X|X]; [unfold pcount in Mm; rewrite X in Mm; cbn in Mm; lia|exact X]).
  pose proof (cvx_three _ _ _ (ok_cvx p _ H)) as N3. pose proof (cvx_three _ _ _ (ok_cvx o _ Ho)) as M3.
  assert (Ea : qp_eq (cyc o3 (pts o) (S m)) (cyc o3 (pts p) k)) by (rewrite <- Tb, <- Fa; symmetry; exact E1). assert (Eb : qp_eq (cyc o3 (pts o) m) (cyc o3 (pts p) (S k))) by (rewrite <- Fb, <- Ta; symmetry; exact E2).
  assert (IJ : i <> j).
  { intros <-. assert (o = p) by congruence. subst o. assert (Em : m = (S k mod pcount p)%nat). { apply (points_distinct p (pts p) m _ H Mm); [apply Nat.mod_upper_bound; lia|]. rewrite Eb. rewrite <- (pts_length p), cyc_mod by (rewrite pts_length; lia). reflexivity. }
    apply (proj2 (points_two p (pts p) k H)). rewrite <- Ea, Em. rewrite <- (pts_length p), cyc_succ_mod by (rewrite pts_length; lia). reflexivity. }
  assert (Ne : ~ qcomp (cyc o3 (pts p) k) nz == qcomp (cyc o3 (pts p) (S k)) nz).
  { destruct Ha as (e & e' & A1 & A2 & Eh). destruct (ok_edge_mod p _ k H) as (f & F & _ & _ & c & C & Ld). rewrite Nat.mod_small in F by exact K. assert (f = e) by congruence. subst f. pose proof (comp_scale _ _ _ nz Ld) as Y. rewrite qcomp_sub in Y. intros X. rewrite X in Y. apply Dz. rewrite Eh. cbn [f_dir]. apply (inject_sgn (comp (ld (pl e)) nz) (inject_Z (comp (ld (pl e)) nz)) (Qeq_refl _)). rewrite Y. ring. }
  set (E := edge_fixed true).
  destruct (shared_edge dbg E p o (pts p) (pts o) nz k m H Ho K Mm Nz Ea Eb Ne) as (a & b & a' & b' & G1 & G2 & G3 & G4 & G5 & G6 & G7).
  assert (Nd : forall v, no_min (l3 v) -> no_min [x2 (drop_dim v nz); y2 (drop_dim v nz)]). { intros v X. unfold no_min, l3 in *. rewrite !Forall_cons_iff in X. destruct X as (X & Y & Z & _). unfold drop_dim. destruct nz as [|[|[|?]]]; [| | |lia]; cbn [Nat.add Nat.modulo Nat.divmod fst snd Nat.sub comp x2 y2]; repeat constructor; assumption. }
  destruct (v2_same_dir_total _ _ (Nd _ (proj1 Nm i p P)) (Nd _ (proj1 Nm j o Q))) as (same & Sd).
  unfold merge_polygon, poly_at. rewrite P, Q. cbn [rbind]. assert (Z0 : ((i =? j) || (pcount p =? 0) || (pcount o =? 0))%nat = false) by (destruct (Nat.eqb_spec i j); [contradiction|]; destruct (Nat.eqb_spec (pcount p) 0); [lia|]; destruct (Nat.eqb_spec (pcount o) 0); [lia|reflexivity]). rewrite Z0.
  assert (Tm : forall E : einfo cdata, try_merge dbg E p nz k o m = (if negb same then Ok None else
    my_prev <- pedge_at p ((k + pcount p - 1) mod pcount p) ;; other_next <- pedge_at o ((m + 1 + pcount o) mod pcount o) ;;
    my_next <- pedge_at p ((k + 1 + pcount p) mod pcount p) ;; other_prev <- pedge_at o ((m + pcount o - 1) mod pcount o) ;;
    match merge_twist (pdrop p) nz (pnormal_drop p) (ld (pl my_prev)) (ld (pl other_next)), merge_twist (pdrop p) nz (pnormal_drop p) (ld (pl other_prev)) (ld (pl my_next)) with
    | Some t1, Some t2 =>
        let q := Poly (pplane p) (pdrop p) (firstn k (pedges p) ++ (skipn (S m) (pedges o) ++ firstn m (pedges o)) ++ skipn (S k) (pedges p)) in
        r <- (if (t1 =? 0)%Z then try_merge_edge dbg E q ((k + pcount q - 1) mod pcount q) else Ok (q, false)) ;;
        if (t2 =? 0)%Z then r2 <- try_merge_edge dbg E (fst r) (k + pcount o - 2 - (if snd r then 1 else 0)) ;; Ok (Some (fst r2)) else Ok (Some (fst r))
    | _, _ => Ok None
    end)).
  { intros E0. unfold try_merge. cbv zeta. destruct (Nat.eqb_spec (pcount p) 0); [lia|]. destruct (Nat.eqb_spec (pcount o) 0); [lia|]. cbn [orb]. rewrite G1, G2. cbn [rbind]. rewrite check_true by (apply negb_true_iff, Z.eqb_neq; exact G5). cbn [rbind]. rewrite G3. cbn [rbind]. rewrite (check_true dbg _ G6). cbn [rbind]. rewrite G4. cbn [rbind]. rewrite (check_true dbg _ G7). cbn [rbind]. rewrite Sd. reflexivity. }
  rewrite G1, G2. cbn [rbind]. rewrite check_true by (apply negb_true_iff, Z.eqb_neq; exact G5). cbn [rbind]. rewrite G3. cbn [rbind]. rewrite (check_true dbg _ G6). cbn [rbind]. rewrite G4. cbn [rbind]. rewrite (check_true dbg _ G7). cbn [rbind]. rewrite Sd. cbn [rbind]. apply v2_same_dir_spec in Sd. rewrite (normals_dropped dbg E p o (pts p) (pts o) nz k m H Ho K Mm Nz Ea Eb Ne) in Sd.
  destruct same; cbn [negb] in Tm |- *; [|exists st, false; split; [reflexivity|]; split; [exact Gd|]; split; [apply kept_refl|]; split; [exact IJ|]; split; [reflexivity|exact Tm]].
  pose proof (proj1 Sd eq_refl) as S0. destruct (same_normals dbg E p o (pts p) (pts o) nz k m H Ho K Mm Nz Ea Eb Ne S0) as [O1 Pts]. set (o1 := Poly (pplane p) (pdrop p) (pedges o)) in *. assert (Co : pcount o1 = pcount o) by reflexivity.
  destruct (corner_twist p o1 (pts p) (pts o) k m nz H O1 eq_refl eq_refl Ea Eb Ne) as (e1 & e2 & L1 & L2 & T1). destruct (corner_twist o1 p (pts o) (pts p) m k nz O1 H eq_refl eq_refl) as (e3 & e4 & L3 & L4 & T2); [symmetry; exact Eb|symmetry; exact Ea|exact (swapped_corner dbg E p o (pts p) (pts o) nz k m H Ho K Mm Nz Ea Eb Ne)|].
  rewrite Co in L2, L3. change (pedge_at o1) with (pedge_at o) in L2, L3. rewrite L1, L2, L4, L3 in Tm. cbn [rbind] in Tm. rewrite L1, L2, L4, L3. cbn [rbind]. change (pdrop o1) with (pdrop p) in T2. change (pnormal_drop o1) with (pnormal_drop p) in T2.
  destruct (merge_twist (pdrop p) nz (pnormal_drop p) (ld (pl e1)) (ld (pl e2))) as [t1|]; [|exists st, false; split; [reflexivity|]; split; [exact Gd|]; split; [apply kept_refl|]; split; [exact IJ|]; split; [reflexivity|exact Tm]].
  destruct (merge_twist (pdrop p) nz (pnormal_drop p) (ld (pl e3)) (ld (pl e4))) as [t2|]; [|exists st, false; split; [reflexivity|]; split; [exact Gd|]; split; [apply kept_refl|]; split; [exact IJ|]; split; [reflexivity|exact Tm]].
  clear Tm. destruct T1 as [C1 Z1]. destruct T2 as [C2 Z2]. cbv zeta.
  set (o' := redata_poly (set_poly i) o).
  assert (Mv : firstn k (pedges p) ++ map (fun e => PE (pv e) (pl e) (set_poly i (pd e))) (skipn (S m) (pedges o) ++ firstn m (pedges o)) ++ skipn (S k) (pedges p) = splice k m (pedges p) (pedges o')).
  { unfold splice, o'. cbn [redata_poly set_edges pedges]. rewrite map_app, skipn_map, firstn_map. reflexivity. }
  rewrite Mv. set (q := set_edges p (splice k m (pedges p) (pedges o'))).
  (* the spliced polygon *)
  assert (O2 : poly_ok (Poly (pplane p) (pdrop p) (pedges o')) (pts o)). { apply (poly_ok_shape o1 (pts o) (pedges o') O1). unfold o'. cbn [redata_poly set_edges pedges o1]. rewrite map_map. reflexivity. }
  set (o2 := Poly (pplane p) (pdrop p) (pedges o')) in *. assert (Co2 : pcount o2 = pcount o) by (unfold pcount, o2, o'; cbn [pedges redata_poly set_edges]; apply map_length).
  assert (Fo : forall x, flat_at o2 (pts o) x = flat_at o1 (pts o) x) by reflexivity.
  assert (C1' : corner_ok p o2 (pts p) (pts o) k m) by exact C1. assert (C2' : corner_ok o2 p (pts o) (pts p) m k) by (unfold corner_ok in *; rewrite Co2; exact C2).
  assert (Z2' : t2 = 0%Z -> turn (flat_at o2 (pts o) (m + pcount o2 - 1)) (flat_at o2 (pts o) m) (flat_at p (pts p) (S (S k))) == 0) by (rewrite Co2; exact (proj1 Z2)).
  assert (M2 : (m < pcount o2)%nat) by (rewrite Co2; exact Mm).
  destruct (splice_ok p o2 (pts p) (pts o) k m H O2 eq_refl eq_refl K M2 Ea Eb C1' C2') as [Sp1 Sp2]. change (Poly (pplane p) (pdrop p) (splice k m (pedges p) (pedges o2))) with q in Sp1.
  assert (Pq : pts q = splice k m (pts p) (pts o)). { unfold pts, q, o'. cbn [set_edges pedges redata_poly]. rewrite map_splice, map_map. reflexivity. }
  assert (Hq : poly_ok q (pts q)) by (rewrite Pq; exact Sp1).
  set (st0 := upd (upd st i q) j (set_edges o [])).
  assert (G0 : good st0) by exact (st0_good st i j k m p o ha hb Gd P Q IJ H Ho Ha Hb Pa Pg Ea Eb Hq).
  assert (K0 : kept st st0) by (apply origin_kept; exact (st0_origin st i j k m p o ha hb Gd P Q IJ H Ho Ha Hb Pa Pg Ea Eb Hq)).
  assert (N0 : forall l, nth_error st0 l = if (l =? j)%nat then Some (set_edges o []) else if (l =? i)%nat then Some q else nth_error st l) by exact (st0_nth st i j k m p o P Q).
  assert (Ln : length st0 = length st) by exact (st0_length st i j k m p o P Q).
  assert (Ni : nth_error st0 i = Some q) by (rewrite N0; destruct (Nat.eqb_spec i j); [contradiction|]; rewrite Nat.eqb_refl; reflexivity).
  assert (Nej : pedges p <> []) by (intros X; unfold pcount in N3; rewrite X in N3; cbn in N3; lia). assert (Neo : pedges o <> []) by (intros X; unfold pcount in M3; rewrite X in M3; cbn in M3; lia).
  assert (Cq : pcount q = (pcount p + pcount o - 2)%nat) by (unfold pcount at 1, q; cbn [set_edges pedges]; rewrite splice_length; [unfold o'; cbn [redata_poly set_edges pedges]; rewrite map_length; reflexivity|exact K|exact M2]).
  assert (Neq : pedges q <> []) by (intros X; unfold pcount at 1 in Cq; rewrite X in Cq; cbn [length] in Cq; lia).
  assert (Fin : forall st', views st0 st' -> merged st st' i j).
  { intros st' [Lv V]. assert (At : forall l, (l < length st)%nat -> exists r, nth_error st' l = Some r). { intros l L. destruct (nth_error st' l) as [r|] eqn:R; [eauto|]. apply nth_error_None in R. lia. }
    destruct (At i (nth_lt _ _ _ P)) as (p' & Pi). destruct (At j (nth_lt _ _ _ Q)) as (o'' & Oj). assert (Nj : nth_error st0 j = Some (set_edges o [])) by (rewrite N0, Nat.eqb_refl; reflexivity).
    destruct (V i q p' Ni Pi) as (V1 & V2 & V3 & V4). destruct (V j _ o'' Nj Oj) as (_ & _ & W3 & _). cbn [q set_edges pplane pdrop] in V1, V2, V4.
    split; [congruence|]. split; [|split; [|split]].
    - intros x. unfold shows. split.
      + intros (r & R & _ & X). assert (r = p') by congruence. subst r. rewrite V1, V2 in X. apply V4 in X. change (pts (set_edges p (splice k m (pedges p) (pedges o')))) with (pts q) in X. rewrite Pq in X. apply Sp2 in X as [X|X]; [left; exists p; auto|right; exists o; split; [exact Q|split; [exact Neo|apply Pts; exact X]]].
      + intros X. exists p'. split; [exact Pi|]. split; [intros Z; apply V3 in Z; contradiction|]. rewrite V1, V2. apply V4. change (pts (set_edges p (splice k m (pedges p) (pedges o')))) with (pts q). rewrite Pq. apply Sp2. destruct X as [(r & R & _ & X)|(r & R & _ & X)]; [left|right; apply Pts]; congruence.
    - intros r R. assert (r = o'') by congruence. subst r. apply W3. reflexivity.
    - intros r r' R R'. assert (r = p) by congruence. assert (r' = p') by congruence. subst. split; [exact V1|]. split; [exact V2|]. intros Z. apply V3 in Z. contradiction.
    - intros l r r' N1 N2 R R'. apply (V l r r'); [|exact R']. rewrite N0. destruct (Nat.eqb_spec l j); [contradiction|]. destruct (Nat.eqb_spec l i); [contradiction|]. exact R. }
  (* the steps *)
  pose proof (fun b => finish_steps dbg (edge_fixed b) p o2 (pts p) (pts o) k m t1 t2 H O2 eq_refl eq_refl K M2 Ea Eb C1' C2' (proj1 Z1) Z2') as FS. cbv zeta in FS. change (Poly (pplane p) (pdrop p) (splice k m (pedges p) (pedges o2))) with q in FS. rewrite Co2 in FS.
  assert (First : exists st1 b1, (if (t1 =? 0)%Z then merge_edge 1 dbg st0 i ((k + pcount q - 1) mod pcount q) else Ok (st0, false)) = Ok (st1, b1) /\ good st1 /\ kept st st1 /\ views st0 st1 /\
    exists r1 p1, nth_error st1 i = Some p1 /\ map shape (pedges p1) = map shape (pedges r1) /\ pcount p1 = pcount r1 /\ (if (t1 =? 0)%Z then try_merge_edge dbg (edge_fixed b1) q ((k + pcount q - 1) mod pcount q) else Ok (q, false)) = Ok (r1, b1)).
  { destruct (Z.eqb_spec t1 0) as [Et|Et].
    - set (k1 := ((k + pcount q - 1) mod pcount q)%nat). assert (K1 : (k1 < pcount q)%nat) by (apply Nat.mod_upper_bound; lia).
      assert (St : straight_at q k1).
      { apply (turn_straight q (pts q)); [exact Hq|]. unfold k1. rewrite (flat_mod q _ _ Hq), (proj1 (flat_succ q _ _ Hq)), (proj2 (flat_succ q _ _ Hq)).
        pose proof (proj1 Z1 Et) as T. pose proof (ok_cvx q _ Hq) as Cx. replace (S (k + pcount q - 1)) with (k + pcount q)%nat by lia. change (S (k + pcount q)) with (S k + pcount q)%nat. rewrite !(c_period _ _ _ Cx).
        unfold flat_at in *. cbn [q set_edges pdrop]. rewrite Pq. change (pdrop o1) with (pdrop p) in T.
        replace (k + pcount q - 1)%nat with (k + (length (pts o) - 1) + (pcount p - 2))%nat by (rewrite pts_length; lia). rewrite splice_mine by (rewrite ?pts_length; lia). replace (S k) with (k + 1)%nat by lia. replace (cyc o3 (splice k m (pts p) (pts o)) k) with (cyc o3 (splice k m (pts p) (pts o)) (k + 0)) by (f_equal; lia). rewrite !splice_other by (rewrite ?pts_length; lia).
        replace (S m + 0)%nat with (S m) by lia. rewrite Ea. replace (S m + 1)%nat with (S (S m)) by lia. replace (S k + (pcount p - 2))%nat with (k + pcount p - 1)%nat by lia. replace (k + 1 + (pcount p - 2))%nat with (k + pcount p - 1)%nat by lia. exact T. }
      destruct (merge_edge_ok dbg st0 i k1 q G0 Ni K1 St) as (st1 & b1 & R1 & R2 & R3 & R4 & R5). exists st1, b1. split; [exact R1|]. split; [exact R2|]. split; [exact (kept_trans _ _ _ K0 R3)|]. split; [exact R4|].
      destruct (pair_halves st0 i q k1 (proj1 G0) Ni K1) as (x & y & hx & hy & _ & _ & Qx & Qy & _ & _ & Ix & Iy & _ & _ & _ & _ & Dx & Dy & _).
      destruct (straight_chk q k1 x y Hq Qx Qy St) as [Ck _]; [rewrite <- Dx; exact (proj2 (proj2 (proj2 G0)) i hx Ix)|rewrite <- Dy; exact (proj2 (proj2 (proj2 G0)) i hy Iy)|].
      rewrite (fixed_step dbg b1 q k1 x y Qx Qy Ck). destruct b1.
      + destruct R5 as (p1 & Np1 & Sh). exists (set_edges q (without (S k1 mod pcount q) (pedges q))), p1. split; [exact Np1|]. split; [exact Sh|]. split; [|reflexivity]. unfold pcount. apply (f_equal (@length _)) in Sh. rewrite !map_length in Sh. exact Sh.
      + subst st1. exists q, q. auto.
    - exists st0, false. split; [reflexivity|]. split; [exact G0|]. split; [exact K0|]. split; [apply views_refl|]. exists q, q. auto. }
  destruct First as (st1 & b1 & R1 & R2 & R3 & R4 & (r1 & p1 & R5 & R6 & R6' & R7)). rewrite R1. cbn [rbind fst snd].
  destruct (Z.eqb_spec t2 0) as [Et|Et].
  2: { exists st1, true. split; [reflexivity|]. split; [exact R2|]. split; [exact R3|]. split; [exact IJ|]. split; [exact S0|apply Fin; exact R4]. }
  destruct (proj2 (FS b1) _ R7) as (rs & W1 & W2 & W3 & _ & _ & W6 & W7). cbn [fst snd] in W1, W2, W3, W6, W7. specialize (W7 Et). set (k2 := (k + pcount o - 2 - (if b1 then 1 else 0))%nat) in *.
  assert (K2 : (k2 < pcount p1)%nat) by (rewrite R6'; exact W6).
  assert (H1 : poly_ok p1 (pts p1)) by (destruct (mo_convex st1 (proj1 R2) i p1 R5) as [X|X]; [unfold pcount in K2; rewrite X in K2; cbn in K2; lia|exact X]).
  assert (St : straight_at p1 k2).
  { pose proof (turn_straight r1 rs k2 W1 W7) as W8. pose proof (poly_ok_shape p1 (pts p1) (pedges r1) H1 (eq_sym R6)) as V. pose proof (denotes_points _ _ _ (po_vertices r1 rs W1) (po_vertices _ _ V)) as F.
    unfold straight_at. rewrite <- !(same_cyc _ _ _ F). exact W8. }
  destruct (merge_edge_ok dbg st1 i k2 p1 R2 R5 K2 St) as (st2 & b2 & U1 & U2 & U3 & U4 & U5). rewrite U1. cbn [rbind fst].
  exists st2, true. split; [reflexivity|]. split; [exact U2|]. split; [exact (kept_trans _ _ _ R3 U3)|]. split; [exact IJ|]. split; [exact S0|apply Fin; exact (views_trans _ _ _ R4 U4)].
Qed.
End Poly.
