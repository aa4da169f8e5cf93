(** Proofs about ConvexVertexAABBTracker. *)
From Coq Require Import ZArith QArith List Bool Lia Lqa ZifyBool.
From Verif Require Import BigUIntModel GeoModel GeoSpec GeoProofs AabbModel AabbSpec AabbProofs.
Import ListNotations.
Open Scope Z_scope.

Lemma rbind_ok {A B} (r : res A) (f : A -> res B) x : rbind r f = Ok x -> exists a, r = Ok a /\ f a = Ok x.
Proof. destruct r; cbn; try discriminate. intros H. exists a. split; [reflexivity|exact H]. Qed.
Lemma denotes_value p : hw p <> 0 -> denotes p (value p).
Proof. intros H. pose proof (inject_Z_neq0 _ H). unfold denotes, value; cbn [qx qy qz]. repeat split; [exact H| | |]; field; assumption. Qed.
Lemma qcomp_value p i : qcomp (value p) i = (inject_Z (comp (hv p) i) / inject_Z (hw p))%Q.
Proof. destruct i as [|[|i]]; reflexivity. Qed.

(** ** The scan *)
Lemma iget_imake f i : (i < 3)%nat -> iget (imake f) i = f i.
Proof. intros H. destruct i as [|[|[|i]]]; try reflexivity; lia. Qed.
Lemma scan_fold_min vs i l st : (i < 3)%nat -> iget (fst (fold_left (scan_step vs) l st)) i = fold_left (fun old pos => scan_min vs pos i old) l (iget (fst st) i).
Proof. intros H. revert st. induction l as [|p l IH]; intros st; [reflexivity|]. cbn [fold_left]. rewrite IH. f_equal. unfold scan_step; cbn [fst]. rewrite iget_imake by exact H. reflexivity. Qed.
Lemma scan_fold_max vs i l st : (i < 3)%nat -> iget (snd (fold_left (scan_step vs) l st)) i = fold_left (fun old pos => scan_max vs pos i old) l (iget (snd st) i).
Proof. intros H. revert st. induction l as [|p l IH]; intros st; [reflexivity|]. cbn [fold_left]. rewrite IH. f_equal. unfold scan_step; cbn [snd]. rewrite iget_imake by exact H. reflexivity. Qed.
Definition cq_at (vs : list hpoint3) (i k : nat) : Q := qcomp (value (vat vs k)) i.
Lemma vat_finite vs k : finite vs -> (k < length vs)%nat -> hw (vat vs k) <> 0.
Proof. intros F H. unfold finite in F. rewrite Forall_forall in F. apply F. apply nth_In, H. Qed.
Lemma compare_at vs i j k : finite vs -> (j < length vs)%nat -> (k < length vs)%nat ->
  hp_compare_comp i (vat vs j) (vat vs k) = qsign (cq_at vs i j - cq_at vs i k).
Proof. intros F Hj Hk. unfold cq_at. apply hp_compare_comp_spec; apply denotes_value, vat_finite; assumption. Qed.
Lemma argmin vs i n : finite vs -> (n < length vs)%nat ->
  let m := fold_left (fun old pos => scan_min vs pos i old) (seq 1 n) 0%nat in
  (m <= n)%nat /\ forall j, (j <= n)%nat -> (cq_at vs i m <= cq_at vs i j)%Q.
Proof.
  intros F. induction n as [|n IH]; intros H.
  - cbn. split; [lia|]. intros j Hj. replace j with 0%nat by lia. apply Qle_refl.
  - rewrite seq_S, fold_left_app. cbn [fold_left]. destruct (IH ltac:(lia)) as [B M]. clear IH.
    set (m := fold_left _ (seq 1 n) 0%nat) in *. change (1 + n)%nat with (S n). cbn zeta. unfold scan_min at 1 2.
    rewrite compare_at by (assumption || lia). pose proof (qsign_range (cq_at vs i (S n) - cq_at vs i m)) as R.
    destruct (Z.ltb_spec (qsign (cq_at vs i (S n) - cq_at vs i m)) 0) as [L|L].
    + assert (X : qsign (cq_at vs i (S n) - cq_at vs i m) = -1) by lia. apply qsign_sub_lt in X. split; [lia|]. intros j Hj. destruct (Nat.eq_dec j (S n)) as [->|N]; [apply Qle_refl|].
      apply Qlt_le_weak, (Qlt_le_trans _ _ _ X). apply M. lia.
    + split; [lia|]. intros j Hj. destruct (Nat.eq_dec j (S n)) as [->|N]; [|apply M; lia].
      apply Qnot_lt_le. intros X. apply qsign_sub_lt in X. lia.
Qed.
Lemma argmax vs i n : finite vs -> (n < length vs)%nat ->
  let m := fold_left (fun old pos => scan_max vs pos i old) (seq 1 n) 0%nat in
  (m <= n)%nat /\ forall j, (j <= n)%nat -> (cq_at vs i j <= cq_at vs i m)%Q.
Proof.
  intros F. induction n as [|n IH]; intros H.
  - cbn. split; [lia|]. intros j Hj. replace j with 0%nat by lia. apply Qle_refl.
  - rewrite seq_S, fold_left_app. cbn [fold_left]. destruct (IH ltac:(lia)) as [B M]. clear IH.
    set (m := fold_left _ (seq 1 n) 0%nat) in *. change (1 + n)%nat with (S n). cbn zeta. unfold scan_max at 1 2.
    rewrite compare_at by (assumption || lia). pose proof (qsign_range (cq_at vs i (S n) - cq_at vs i m)) as R.
    destruct (Z.ltb_spec 0 (qsign (cq_at vs i (S n) - cq_at vs i m))) as [L|L].
    + assert (X : qsign (cq_at vs i (S n) - cq_at vs i m) = 1) by lia. apply qsign_sub_gt in X. split; [lia|]. intros j Hj. destruct (Nat.eq_dec j (S n)) as [->|N]; [apply Qle_refl|].
      apply Qlt_le_weak, (Qle_lt_trans _ (cq_at vs i m)); [|exact X]. apply M. lia.
    + split; [lia|]. intros j Hj. destruct (Nat.eq_dec j (S n)) as [->|N]; [|apply M; lia].
      apply Qnot_lt_le. intros X. apply qsign_sub_gt in X. lia.
Qed.
Lemma vat_nth_error vs k : (k < length vs)%nat -> nth_error vs k = Some (vat vs k).
Proof. intros H. apply nth_error_nth'. exact H. Qed.
Lemma in_vat vs v : In v vs -> exists k, (k < length vs)%nat /\ vat vs k = v.
Proof. intros H. apply In_nth with (d := HP (V3 0 0 0) 0) in H. exact H. Qed.
Lemma scan_spec vs i : finite vs -> vs <> [] -> (i < 3)%nat ->
  let mi := iget (fst (scan vs)) i in let ma := iget (snd (scan vs)) i in
  (mi < length vs)%nat /\ (ma < length vs)%nat /\
  forall v, In v vs -> (qcomp (value (vat vs mi)) i <= qcomp (value v) i /\ qcomp (value v) i <= qcomp (value (vat vs ma)) i)%Q.
Proof.
  intros F N Hi mi ma. assert (L : (0 < length vs)%nat) by (destruct vs; [congruence|cbn; lia]).
  unfold mi, ma, scan. rewrite (scan_fold_min vs i _ _ Hi), (scan_fold_max vs i _ _ Hi).
  replace (iget (fst (I3 0 0 0, I3 0 0 0)) i) with 0%nat by (destruct i as [|[|i]]; reflexivity).
  replace (iget (snd (I3 0 0 0, I3 0 0 0)) i) with 0%nat by (destruct i as [|[|i]]; reflexivity).
  destruct (argmin vs i (length vs - 1) F ltac:(lia)) as [B1 M1]. destruct (argmax vs i (length vs - 1) F ltac:(lia)) as [B2 M2].
  split; [lia|]. split; [lia|]. intros v Hv. destruct (in_vat vs v Hv) as (k & Hk & <-). split; [apply M1|apply M2]; lia.
Qed.

(** ** Bounds *)
Lemma round_down_frac num od nd r : od <> 0 -> 0 < nd -> round_down num od nd = Ok r -> floor_frac (inject_Z num / inject_Z od) nd r.
Proof.
  intros Ho Hn E. destruct (Z.eq_dec (num * nd) (- 2 ^ 63)) as [A|A]; [destruct (Z.eq_dec od (-1)) as [B|B]|].
  - unfold round_down, zdiv_rem in E. rewrite A, B in E. cbn in E. discriminate E.
  - destruct (round_down_spec num od nd Ho ltac:(lia) ltac:(tauto)) as (r' & E' & S1 & S2). rewrite E in E'. injection E' as <-. split; [exact S1|].
    intros m Hm. specialize (S2 m Hm). rewrite same_den_le in S2 by lia. nia.
  - destruct (round_down_spec num od nd Ho ltac:(lia) ltac:(tauto)) as (r' & E' & S1 & S2). rewrite E in E'. injection E' as <-. split; [exact S1|].
    intros m Hm. specialize (S2 m Hm). rewrite same_den_le in S2 by lia. nia.
Qed.
Lemma round_up_frac num od nd r : od <> 0 -> 0 < nd -> round_up num od nd = Ok r -> ceil_frac (inject_Z num / inject_Z od) nd r.
Proof.
  intros Ho Hn E. destruct (Z.eq_dec (num * nd) (- 2 ^ 63)) as [A|A]; [destruct (Z.eq_dec od (-1)) as [B|B]|].
  - unfold round_up, zdiv_rem in E. rewrite A, B in E. cbn in E. discriminate E.
  - destruct (round_up_spec num od nd Ho ltac:(lia) ltac:(tauto)) as (r' & E' & S1 & S2). rewrite E in E'. injection E' as <-. split; [exact S1|].
    intros m Hm. specialize (S2 m Hm). rewrite same_den_le in S2 by lia. nia.
  - destruct (round_up_spec num od nd Ho ltac:(lia) ltac:(tauto)) as (r' & E' & S1 & S2). rewrite E in E'. injection E' as <-. split; [exact S1|].
    intros m Hm. specialize (S2 m Hm). rewrite same_den_le in S2 by lia. nia.
Qed.
Lemma bound_min_frac vs den i k r : finite vs -> (k < length vs)%nat -> 0 < den -> bound_min vs den i k = Ok r -> floor_frac (qcomp (value (vat vs k)) i) den r.
Proof. intros F H D E. rewrite qcomp_value. apply round_down_frac; [apply vat_finite; assumption|exact D|exact E]. Qed.
Lemma bound_max_frac vs den i k r : finite vs -> (k < length vs)%nat -> 0 < den -> bound_max vs den i k = Ok r -> ceil_frac (qcomp (value (vat vs k)) i) den r.
Proof. intros F H D E. rewrite qcomp_value. apply round_up_frac; [apply vat_finite; assumption|exact D|exact E]. Qed.
Definition idx_ok (t : idx3) (n : nat) : Prop := forall i, (i < 3)%nat -> (iget t i < n)%nat.
Lemma idx_ok_elim t n : idx_ok t n -> (i0 t < n)%nat /\ (i1 t < n)%nat /\ (i2 t < n)%nat.
Proof. intros H. exact (conj (H 0%nat ltac:(lia)) (conj (H 1%nat ltac:(lia)) (H 2%nat ltac:(lia)))). Qed.
Lemma max_denominator_spec mins maxs vs den : finite vs -> idx_ok mins (length vs) -> idx_ok maxs (length vs) ->
  max_denominator mins maxs vs = Ok den -> 0 < den /\ exists v, In v vs /\ den = Z.abs (hw v).
Proof.
  intros F H1 H2 E. apply idx_ok_elim in H1, H2. destruct H1 as (A0 & A1 & A2), H2 as (B0 & B1 & B2).
  assert (K : forall k a, (k < length vs)%nat -> zabs (hw (vat vs k)) = Ok a -> 0 < a /\ exists v, In v vs /\ a = Z.abs (hw v)).
  { intros k a Hk Ea. apply zabs_inv in Ea. subst a. pose proof (vat_finite vs k F Hk). split; [lia|]. exists (vat vs k). split; [apply nth_In, Hk|reflexivity]. }
  assert (M : forall a b, (0 < a /\ exists v, In v vs /\ a = Z.abs (hw v)) -> (0 < b /\ exists v, In v vs /\ b = Z.abs (hw v)) -> 0 < Z.max a b /\ exists v, In v vs /\ Z.max a b = Z.abs (hw v)).
  { intros a b Ha Hb. destruct (Z.max_spec a b) as [[_ ->]|[_ ->]]; assumption. }
  unfold max_denominator in E. cbv zeta in E.
  apply rbind_ok in E. destruct E as (a & Ea & E). apply rbind_ok in E. destruct E as (b & Eb & E). apply rbind_ok in E. destruct E as (c & Ec & E).
  apply rbind_ok in E. destruct E as (d & Ed & E). apply rbind_ok in E. destruct E as (e & Ee & E). apply rbind_ok in E. destruct E as (f & Ef & E).
  injection E as <-. apply K in Ea, Eb, Ec, Ed, Ee, Ef; try assumption. repeat apply M; assumption.
Qed.
Lemma max_denominator_total mins maxs vs : idx_ok mins (length vs) -> idx_ok maxs (length vs) -> Forall (safe_vertex vs) vs ->
  exists den, max_denominator mins maxs vs = Ok den.
Proof.
  intros H1 H2 S. apply idx_ok_elim in H1, H2. destruct H1 as (A0 & A1 & A2), H2 as (B0 & B1 & B2).
  assert (K : forall k, (k < length vs)%nat -> zabs (hw (vat vs k)) = Ok (Z.abs (hw (vat vs k)))).
  { intros k Hk. apply zabs_ok. rewrite Forall_forall in S. exact (proj1 (S (vat vs k) (nth_In _ _ Hk))). }
  unfold max_denominator. rewrite !K by assumption. cbn [rbind]. eexists. reflexivity.
Qed.
Lemma bound_total vs den i k : finite vs -> (k < length vs)%nat -> 0 < den -> Forall (safe_vertex vs) vs ->
  (exists v, In v vs /\ den = Z.abs (hw v)) -> (exists r, bound_min vs den i k = Ok r) /\ (exists r, bound_max vs den i k = Ok r).
Proof.
  intros F H D S (u & Hu & E). unfold bound_min, bound_max.
  assert (NB : ~ (comp (hv (vat vs k)) i * den = - 2 ^ 63 /\ hw (vat vs k) = -1)).
  { intros [A B]. rewrite Forall_forall in S. destruct (S (vat vs k) (nth_In _ _ H)) as [_ S2]. apply (S2 u i Hu B). rewrite <- E. exact A. }
  split.
  - destruct (round_down_spec (comp (hv (vat vs k)) i) (hw (vat vs k)) den (vat_finite vs k F H) ltac:(lia) NB) as (r & R & _). exists r. exact R.
  - destruct (round_up_spec (comp (hv (vat vs k)) i) (hw (vat vs k)) den (vat_finite vs k F H) ltac:(lia) NB) as (r & R & _). exists r. exact R.
Qed.
Lemma approximate_extremes_spec mins maxs den vs b : finite vs -> idx_ok mins (length vs) -> idx_ok maxs (length vs) -> 0 < den ->
  approximate_extremes mins maxs den vs = Ok b ->
  bden b = den /\ forall i, (i < 3)%nat -> floor_frac (qcomp (value (vat vs (iget mins i))) i) den (comp (bmin b) i) /\
                                           ceil_frac (qcomp (value (vat vs (iget maxs i))) i) den (comp (bmax b) i).
Proof.
  intros F H1 H2 D E. apply idx_ok_elim in H1, H2. destruct H1 as (A0 & A1 & A2), H2 as (B0 & B1 & B2).
  unfold approximate_extremes in E.
  apply rbind_ok in E. destruct E as (x0 & E0 & E). apply rbind_ok in E. destruct E as (x1 & E1 & E). apply rbind_ok in E. destruct E as (x2 & E2 & E).
  apply rbind_ok in E. destruct E as (y0 & F0 & E). apply rbind_ok in E. destruct E as (y1 & F1 & E). apply rbind_ok in E. destruct E as (y2 & F2 & E).
  injection E as <-. unfold bx_make. rewrite zget_sign_neg. replace (den <? 0) with false by lia. cbn [bden bmin bmax].
  split; [reflexivity|]. intros i Hi. destruct i as [|[|[|i]]]; [| | |lia]; cbn [iget comp vx vy vz]; split;
  (apply bound_min_frac || apply bound_max_frac); assumption.
Qed.
Lemma approximate_extremes_total mins maxs den vs : finite vs -> idx_ok mins (length vs) -> idx_ok maxs (length vs) -> 0 < den ->
  Forall (safe_vertex vs) vs -> (exists v, In v vs /\ den = Z.abs (hw v)) -> exists b, approximate_extremes mins maxs den vs = Ok b.
Proof.
  intros F H1 H2 D S V. apply idx_ok_elim in H1, H2. destruct H1 as (A0 & A1 & A2), H2 as (B0 & B1 & B2).
  assert (K1 : forall i k, (k < length vs)%nat -> exists r, bound_min vs den i k = Ok r) by (intros i k Hk; apply bound_total; assumption).
  assert (K2 : forall i k, (k < length vs)%nat -> exists r, bound_max vs den i k = Ok r) by (intros i k Hk; apply bound_total; assumption).
  unfold approximate_extremes.
  destruct (K1 0%nat _ A0) as [x0 ->]. destruct (K1 1%nat _ A1) as [x1 ->]. destruct (K1 2%nat _ A2) as [x2 ->].
  destruct (K2 0%nat _ B0) as [y0 ->]. destruct (K2 1%nat _ B1) as [y1 ->]. destruct (K2 2%nat _ B2) as [y2 ->].
  cbn [rbind]. eexists. reflexivity.
Qed.

(** ** The constructor *)
Lemma track_nonempty vs : vs <> [] -> track vs = (let '(mins, maxs) := scan vs in
      den <- max_denominator mins maxs vs ;; b <- approximate_extremes mins maxs den vs ;; Ok (Tr mins maxs b)).
Proof. destruct vs; [congruence|reflexivity]. Qed.
Lemma scan_idx_ok vs : finite vs -> vs <> [] -> idx_ok (fst (scan vs)) (length vs) /\ idx_ok (snd (scan vs)) (length vs).
Proof. intros F N. split; intros i Hi; apply (scan_spec vs i F N Hi). Qed.
Lemma track_spec vs t : finite vs -> vs <> [] -> track vs = Ok t -> tracks t vs.
Proof.
  intros F N E. rewrite (track_nonempty vs N) in E. pose proof (scan_idx_ok vs F N) as [O1 O2]. pose proof (fun i => scan_spec vs i F N) as SC.
  destruct (scan vs) as [mins maxs]. cbn [fst snd] in *. apply rbind_ok in E. destruct E as (den & E1 & E). apply rbind_ok in E. destruct E as (b & E2 & E). injection E as <-.
  destruct (max_denominator_spec _ _ _ _ F O1 O2 E1) as [D _]. destruct (approximate_extremes_spec _ _ _ _ _ F O1 O2 D E2) as [B1 B2].
  unfold tracks. cbn [tbox tmin tmax]. split; [unfold box_wf; rewrite B1; exact D|]. intros i Hi. destruct (SC i Hi) as (M1 & M2 & M3). destruct (B2 i Hi) as [C1 C2].
  exists (vat vs (iget mins i)), (vat vs (iget maxs i)). cbn [tbox tmin tmax]. rewrite B1. repeat split; try (apply vat_nth_error; assumption); try apply M3; try assumption; apply C1 || apply C2.
Qed.
Lemma track_total vs : finite vs -> Forall (safe_vertex vs) vs -> exists t, track vs = Ok t.
Proof.
  intros F S. destruct vs as [|v vs'] eqn:EV; [eexists; reflexivity|]. rewrite <- EV in *. assert (N : vs <> []) by (rewrite EV; discriminate).
  rewrite (track_nonempty vs N). pose proof (scan_idx_ok vs F N) as [O1 O2]. destruct (scan vs) as [mins maxs]. cbn [fst snd] in *.
  destruct (max_denominator_total mins maxs vs O1 O2 S) as [den E]. destruct (max_denominator_spec _ _ _ _ F O1 O2 E) as [D V].
  destruct (approximate_extremes_total mins maxs den vs F O1 O2 D S V) as [b E2]. rewrite E. cbn [rbind]. rewrite E2. eexists. reflexivity.
Qed.
Lemma tracks_box t vs v : tracks t vs -> In v vs -> in_box (tbox t) (value v).
Proof.
  intros [_ T] H i Hi. destruct (T i Hi) as (lo & hi & _ & _ & M & [L _] & [U _]). destruct (M v H) as [M1 M2]. unfold box_lo, box_hi. split.
  - exact (Qle_trans _ _ _ L M1).
  - exact (Qle_trans _ _ _ M2 U).
Qed.
Lemma tracks_valid t vs : tracks t vs -> tr_valid t (length vs) = true.
Proof.
  intros [_ T]. unfold tr_valid. apply all3_true. intros i Hi. destruct (T i Hi) as (lo & hi & A & B & _).
  assert (A' : (iget (tmin t) i < length vs)%nat) by (apply nth_error_Some; rewrite A; discriminate).
  assert (B' : (iget (tmax t) i < length vs)%nat) by (apply nth_error_Some; rewrite B; discriminate).
  replace (Nat.eqb (length vs) 0) with false by lia. lia.
Qed.

(** ** RotateIndices *)
Lemma rotate_nth {A} (l : list A) off k x : (off <= length l)%nat -> (k < length l)%nat -> nth_error l k = Some x ->
  nth_error (skipn off l ++ firstn off l) ((k + length l - off) mod length l) = Some x.
Proof.
  intros Ho Hk E. assert (Ls : length (skipn off l) = (length l - off)%nat) by apply skipn_length.
  destruct (Nat.lt_ge_cases k off) as [L|L].
  - rewrite Nat.mod_small by lia. rewrite nth_error_app2 by lia. rewrite Ls. replace (k + length l - off - (length l - off))%nat with k by lia.
    rewrite <- E. rewrite <- (firstn_skipn off l) at 2. rewrite nth_error_app1; [reflexivity|]. rewrite firstn_length. lia.
  - replace (k + length l - off)%nat with (k - off + 1 * length l)%nat by lia. rewrite Nat.mod_add, Nat.mod_small by lia.
    rewrite nth_error_app1 by lia. rewrite <- E. rewrite <- (firstn_skipn off l) at 2. rewrite nth_error_app2; rewrite firstn_length; [|lia]. f_equal. lia.
Qed.
Lemma rotate_in {A} (l : list A) off x : In x (skipn off l ++ firstn off l) <-> In x l.
Proof. rewrite <- (firstn_skipn off l) at 3. rewrite !in_app_iff. tauto. Qed.
Lemma tr_rotate_spec t vs off : tracks t vs -> (off <= length vs)%nat ->
  exists t', tr_rotate t off (length vs) = Ok t' /\ tracks t' (skipn off vs ++ firstn off vs).
Proof.
  intros [W T] H. pose proof (T 0%nat ltac:(lia)) as (lo & hi & A & _). assert (L : (0 < length vs)%nat) by (assert (nth_error vs (iget (tmin t) 0) <> None) as X by (rewrite A; discriminate); apply nth_error_Some in X; lia).
  unfold tr_rotate. replace (Nat.eqb (length vs) 0) with false by lia. eexists. split; [reflexivity|]. unfold tracks. cbn [tbox]. split; [exact W|].
  intros i Hi. clear A lo hi. destruct (T i Hi) as (lo & hi & A & B & M & C & D). exists lo, hi. cbn [tmin tmax tbox]. rewrite !iget_imake by exact Hi.
  assert (A' : (iget (tmin t) i < length vs)%nat) by (apply nth_error_Some; rewrite A; discriminate).
  assert (B' : (iget (tmax t) i < length vs)%nat) by (apply nth_error_Some; rewrite B; discriminate).
  split; [apply rotate_nth; assumption|]. split; [apply rotate_nth; assumption|]. split; [|split; assumption].
  intros v Hv. apply (M v). apply (rotate_in vs off v). exact Hv.
Qed.
