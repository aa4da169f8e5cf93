(** PlanarRange: loops, output and boundary. *)
From Coq Require Import List Bool Arith ZArith Lia ZifyBool ZifyNat.
From Verif Require Import BigUIntModel GeoModel GeoSpec ConcatModel ConcatSpec ConcatProofs PlanarModel PlanarSpec.
Import ListNotations.
Open Scope nat_scope.

Lemma get_ok {A} (v : list A) i : i < length v -> exists x, nth_error v i = Some x /\ get v i = Ok x.
Proof. intros H. unfold get. destruct (nth_error v i) as [x|] eqn:E; [exists x; split; reflexivity|]. apply nth_error_None in E. lia. Qed.
Definition at_all (v : list vec3) (a b : nat) (P : vec3 -> Prop) : Prop := forall i x, a <= i < b -> nth_error v i = Some x -> P x.
Lemma at_all_cons v a b (P : vec3 -> Prop) x : nth_error v a = Some x -> P x -> at_all v (S a) b P -> at_all v a b P.
Proof. intros E H A i y R Y. destruct (Nat.eq_dec i a) as [->|N]; [rewrite E in Y; injection Y as <-; exact H|]. apply (A i y); [lia|exact Y]. Qed.
Lemma at_all_snoc v a b (P : vec3 -> Prop) x : nth_error v b = Some x -> P x -> at_all v a b P -> at_all v a (S b) P.
Proof. intros E H A i y R Y. destruct (Nat.eq_dec i b) as [->|N]; [rewrite E in Y; injection Y as <-; exact H|]. apply (A i y); [lia|exact Y]. Qed.
Lemma at_all_empty v a b P : b <= a -> at_all v a b P.
Proof. intros H i x R. lia. Qed.
Lemma find_plane_spec v p1 p2 : forall fuel rb re size, rb <= re <= length v -> re - rb < fuel ->
  (find_plane fuel v p1 p2 rb re size = Ok (None, re, size + (re - rb)) /\ at_all v rb re (fun x => hs_valid (hs_of_points p1 p2 x) = false)) \/
  (exists k x, rb <= k < re /\ nth_error v k = Some x /\ hs_valid (hs_of_points p1 p2 x) = true /\
     at_all v rb k (fun x => hs_valid (hs_of_points p1 p2 x) = false) /\
     find_plane fuel v p1 p2 rb re size = Ok (Some (hs_of_points p1 p2 x), S k, size + (S k - rb))).
Proof.
  induction fuel as [|f IH]; intros rb re size L F; [lia|]. cbn [find_plane]. destruct (Nat.eqb_spec rb re) as [->|N].
  - left. split; [rewrite Nat.sub_diag, Nat.add_0_r; reflexivity|apply at_all_empty; lia].
  - destruct (get_ok v rb) as (x & X & G); [lia|]. rewrite G. cbn [rbind]. cbv zeta. destruct (hs_valid (hs_of_points p1 p2 x)) eqn:V.
    + right. exists rb, x. split; [lia|]. split; [exact X|]. split; [exact V|]. split; [apply at_all_empty; lia|]. repeat f_equal. lia.
    + destruct (IH (S rb) re (S size) ltac:(lia) ltac:(lia)) as [[E A]|(k & y & R & Y & VY & A & E)].
      * left. split; [rewrite E; f_equal; f_equal; lia|]. exact (at_all_cons _ _ _ _ x X V A).
      * right. exists k, y. split; [lia|]. split; [exact Y|]. split; [exact VY|]. split; [exact (at_all_cons _ _ _ _ x X V A)|]. rewrite E. f_equal. f_equal. lia.
Qed.
Lemma take_front_spec v pl : forall fuel rb re size, rb <= re <= length v -> re - rb < fuel ->
  exists k, rb <= k <= re /\ at_all v rb k (fun x => coincident_pt pl x = true) /\ take_front fuel v pl rb re size = Ok (k =? re, k, size + (k - rb)) /\
    (k < re -> exists x, nth_error v k = Some x /\ coincident_pt pl x = false).
Proof.
  induction fuel as [|f IH]; intros rb re size L F; [lia|]. cbn [take_front]. destruct (Nat.eqb_spec rb re) as [->|N].
  - exists re. split; [lia|]. split; [apply at_all_empty; lia|]. split; [rewrite Nat.sub_diag, Nat.add_0_r, Nat.eqb_refl; reflexivity|lia].
  - destruct (get_ok v rb) as (x & X & G); [lia|]. rewrite G. cbn [rbind]. destruct (coincident_pt pl x) eqn:V; cbn [negb].
    + destruct (IH (S rb) re (S size) ltac:(lia) ltac:(lia)) as (k & R & A & E & NX). exists k. split; [lia|]. split; [exact (at_all_cons _ _ _ _ x X V A)|]. split; [rewrite E; f_equal; f_equal; lia|exact NX].
    + exists rb. split; [lia|]. split; [apply at_all_empty; lia|]. split; [|intros _; exists x; split; assumption].
      destruct (Nat.eqb_spec rb re); [lia|]. rewrite Nat.sub_diag, Nat.add_0_r. reflexivity.
Qed.
Lemma take_back_spec dbg v pl : forall fuel rb re size x, rb < re <= length v -> re - rb <= fuel -> nth_error v rb = Some x -> coincident_pt pl x = false ->
  exists j y, rb <= j < re /\ nth_error v j = Some y /\ coincident_pt pl y = false /\ at_all v (S j) re (fun x => coincident_pt pl x = true) /\
    take_back dbg fuel v pl rb re size = Ok (S j, size + (re - S j)).
Proof.
  induction fuel as [|f IH]; intros rb re size x L F X C; [lia|]. cbn [take_back]. destruct (Nat.eqb_spec rb re); [lia|]. cbn [negb]. unfold check. rewrite andb_false_r. cbn [rbind].
  destruct re as [|re]; [lia|]. destruct (get_ok v re) as (y & Y & G); [lia|]. rewrite G. cbn [rbind]. destruct (coincident_pt pl y) eqn:V; cbn [negb].
  - destruct (Nat.eq_dec rb re) as [->|N]; [congruence|]. destruct (IH rb re (S size) x ltac:(lia) ltac:(lia) X C) as (j & z & R & Z & CZ & A & E).
    exists j, z. split; [lia|]. split; [exact Z|]. split; [exact CZ|]. split; [exact (at_all_snoc _ _ _ _ y Y V A)|]. rewrite E. f_equal. f_equal. lia.
  - exists re, y. split; [lia|]. split; [exact Y|]. split; [exact V|]. split; [apply at_all_empty; lia|]. rewrite Nat.sub_diag, Nat.add_0_r. reflexivity.
Qed.
Lemma coincident_iff pl x : coincident_pt pl x = true <-> on_plane pl x.
Proof.
  unfold coincident_pt, hs_compare_pt, zcompare, on_plane. destruct (Z.compare_spec (v3_dot (hn pl) x) (hd pl)) as [E|E|E]; cbn; lia.
Qed.
Lemma valid_iff h : hs_valid h = false <-> zero_normal h.
Proof.
  unfold hs_valid, zero_normal, v3_is_zero. destruct h as [[x y z] d]. cbn [hn vx vy vz]. split.
  - intros H. f_equal; lia.
  - intros H. injection H as -> -> ->. reflexivity.
Qed.
Lemma in_line_iff p1 p2 x : zero_normal (hs_of_points p1 p2 x) <-> in_line p1 p2 x.
Proof.
  unfold zero_normal, hs_of_points, in_line, v3_cross, v3_sub. destruct p1 as [a b c], p2 as [d e f], x as [g h i]. cbn [hn vx vy vz].
  split; intros H; injection H as H1 H2 H3; f_equal; nia.
Qed.
Lemma on_own_plane p1 p2 p3 : on_plane (hs_of_points p1 p2 p3) p1 /\ on_plane (hs_of_points p1 p2 p3) p2 /\ on_plane (hs_of_points p1 p2 p3) p3.
Proof.
  unfold on_plane, hs_of_points, v3_cross, v3_sub, v3_dot. destruct p1 as [a b c], p2 as [d e f], p3 as [g h i]. cbn [hn hd vx vy vz]. repeat split; ring.
Qed.
(** A point in line with p1 and p2 (p1 <> p2) is on every plane through both. *)
Lemma line_on_plane p1 p2 x pl : in_line p1 p2 x -> p1 <> p2 -> on_plane pl p1 -> on_plane pl p2 -> on_plane pl x.
Proof.
  unfold in_line, on_plane, v3_cross, v3_sub, v3_dot. destruct p1 as [a b c], p2 as [d e f], x as [g h i], pl as [[n1 n2 n3] k]. cbn [hn hd vx vy vz]. intros H NE P1 P2. injection H as H1 H2 H3.
  assert (D : (d - a <> 0 \/ e - b <> 0 \/ f - c <> 0)%Z).
  { destruct (Z.eq_dec (d - a) 0); [|tauto]. destruct (Z.eq_dec (e - b) 0); [|tauto]. destruct (Z.eq_dec (f - c) 0); [|tauto]. exfalso. apply NE. f_equal; lia. }
  assert (Q : (n1 * (d - a) + n2 * (e - b) + n3 * (f - c) = 0)%Z) by lia.
  set (u1 := (d - a)%Z) in *. set (u2 := (e - b)%Z) in *. set (u3 := (f - c)%Z) in *. set (w1 := (g - a)%Z) in *. set (w2 := (h - b)%Z) in *. set (w3 := (i - c)%Z) in *.
  assert (R1 : (u1 * (n1 * w1 + n2 * w2 + n3 * w3) = 0)%Z).
  { transitivity (w1 * (n1 * u1 + n2 * u2 + n3 * u3) + n2 * (u1 * w2 - u2 * w1) - n3 * (u3 * w1 - u1 * w3))%Z; [ring|]. rewrite Q, H2, H3. ring. }
  assert (R2 : (u2 * (n1 * w1 + n2 * w2 + n3 * w3) = 0)%Z).
  { transitivity (w2 * (n1 * u1 + n2 * u2 + n3 * u3) - n1 * (u1 * w2 - u2 * w1) + n3 * (u2 * w3 - u3 * w2))%Z; [ring|]. rewrite Q, H1, H3. ring. }
  assert (R3 : (u3 * (n1 * w1 + n2 * w2 + n3 * w3) = 0)%Z).
  { transitivity (w3 * (n1 * u1 + n2 * u2 + n3 * u3) + n1 * (u3 * w1 - u1 * w3) - n2 * (u2 * w3 - u3 * w2))%Z; [ring|]. rewrite Q, H1, H2. ring. }
  assert (S : (n1 * w1 + n2 * w2 + n3 * w3 = 0)%Z).
  { destruct D as [D|[D|D]]; [apply Z.mul_eq_0 in R1|apply Z.mul_eq_0 in R2|apply Z.mul_eq_0 in R3]; tauto. }
  unfold w1, w2, w3 in S. lia.
Qed.
(** What one Build call does. *)
Record built (v : list vec3) (b e : nat) (r : planar) (i j : nat) : Prop := {
  bu_range : (i = j /\ i = e /\ pr_range r = cr_append cr_new (At 0 b) (At 0 e) /\ pr_begin r = pr_end r /\ b <= pr_begin r < e) \/
             (b + 2 <= i /\ i < j /\ S j <= e /\ pr_range r = cr_append (cr_append cr_new (At 0 b) (At 0 i)) (At 0 j) (At 0 e) /\
              pr_begin r = i - 1 /\ pr_end r = S j /\ ~ zero_normal (pr_plane r) /\
              (exists x, nth_error v i = Some x /\ ~ on_plane (pr_plane r) x) /\ (exists y, nth_error v (j - 1) = Some y /\ ~ on_plane (pr_plane r) y));
  bu_size : pr_size r = (i - b) + (e - j);
  bu_on : at_all v b i (on_plane (pr_plane r)) /\ at_all v j e (on_plane (pr_plane r));
  bu_zero : zero_normal (pr_plane r) <-> (forall first last_, nth_error v b = Some first -> nth_error v (e - 1) = Some last_ -> at_all v b e (fun x => in_line last_ first x))
}.
Lemma zero_on x : on_plane hs_zero x.
Proof. unfold on_plane, hs_zero, v3_dot. cbn [hn hd vx vy vz]. lia. Qed.
Lemma in_line_12 p q : in_line p q q /\ in_line p q p.
Proof. unfold in_line, v3_cross, v3_sub. destruct p as [a b c], q as [d e f]. cbn [vx vy vz]. split; f_equal; ring. Qed.
Lemma pr_build_spec dbg v b e : b < e <= length v -> exists r i j, pr_build dbg v b e = Ok r /\ built v b e r i j.
Proof.
  intros L. unfold pr_build. destruct (Nat.eqb_spec b e); [lia|]. destruct e as [|re]; [lia|]. destruct (get_ok v re) as (p1 & P1 & G1); [lia|]. rewrite G1. cbn [rbind].
  destruct (Nat.eqb_spec b re) as [->|NB].
  { eexists _, (S re), (S re). split; [reflexivity|]. constructor; cbn [pr_range pr_begin pr_end pr_size pr_plane].
    - left. repeat split; lia.
    - lia.
    - split; intros k x _ _; apply zero_on.
    - split; [|reflexivity]. intros _ f l F La k x R X. replace (S re - 1) with re in La by lia. assert (k = re) as -> by lia. rewrite F in X. injection X as ->. apply in_line_12. }
  destruct (get_ok v b) as (p2 & P2 & G2); [lia|]. rewrite G2. cbn [rbind].
  destruct (find_plane_spec v p1 p2 (S (length v)) (S b) re 2 ltac:(lia) ltac:(lia)) as [[E A]|(k & x & R & X & VX & A & E)]; rewrite E; cbn [rbind].
  { eexists _, (S re), (S re). split; [reflexivity|]. constructor; cbn [pr_range pr_begin pr_end pr_size pr_plane].
    - left. repeat split; lia.
    - lia.
    - split; intros k x _ _; apply zero_on.
    - split; [|reflexivity]. intros _ f l F La k x R X. replace (S re - 1) with re in La by lia. rewrite P1 in La. injection La as <-. rewrite P2 in F. injection F as <-.
      destruct (Nat.eq_dec k b) as [->|K1]; [rewrite P2 in X; injection X as <-; apply in_line_12|]. destruct (Nat.eq_dec k re) as [->|K2]; [rewrite P1 in X; injection X as <-; apply in_line_12|].
      apply (proj1 (in_line_iff _ _ _)), (proj1 (valid_iff _)). apply (A k x); [lia|exact X]. }
  set (pl := hs_of_points p1 p2 x) in *.
  assert (NZ : ~ zero_normal pl) by (intros Z; apply (proj2 (valid_iff _)) in Z; congruence).
  assert (NE : p1 <> p2).
  { intros ->. apply NZ. apply (proj2 (in_line_iff _ _ _)). unfold in_line, v3_cross, v3_sub. destruct p2 as [a1 a2 a3], x as [d1 d2 d3]. cbn [vx vy vz]. f_equal; ring. }
  destruct (on_own_plane p1 p2 x) as (O1 & O2 & O3). fold pl in O1, O2, O3.
  assert (OK : at_all v b (S k) (on_plane pl)).
  { intros i y I Y. destruct (Nat.eq_dec i b) as [->|I1]; [rewrite P2 in Y; injection Y as <-; exact O2|]. destruct (Nat.eq_dec i k) as [->|I2]; [rewrite X in Y; injection Y as <-; exact O3|].
    apply (line_on_plane p1 p2 y pl); [|exact NE|exact O1|exact O2]. apply (proj1 (in_line_iff _ _ _)), (proj1 (valid_iff _)). apply (A i y); [lia|exact Y]. }
  assert (ZI : zero_normal pl <-> (forall first last_, nth_error v b = Some first -> nth_error v (S re - 1) = Some last_ -> at_all v b (S re) (fun x => in_line last_ first x))).
  { split; [intros Z; contradiction|]. intros H. specialize (H p2 p1 P2). replace (S re - 1) with re in H by lia. specialize (H P1 k x ltac:(lia) X). apply (proj2 (in_line_iff _ _ _)). exact H. }
  destruct (take_front_spec v pl (S (length v)) (S k) re (2 + (S k - S b)) ltac:(lia) ltac:(lia)) as (m & RM & AM & EM & NM). rewrite EM. cbn [rbind].
  assert (OM : at_all v b m (on_plane pl)).
  { intros i y I Y. destruct (Nat.lt_ge_cases i (S k)) as [I1|I1]; [apply (OK i y); [lia|exact Y]|]. apply coincident_iff. apply (AM i y); [lia|exact Y]. }
  destruct (Nat.eqb_spec m re) as [->|NE2].
  { eexists _, (S re), (S re). split; [reflexivity|]. constructor; cbn [pr_range pr_begin pr_end pr_size pr_plane].
    - left. repeat split; lia.
    - lia.
    - split; [|apply at_all_empty; lia]. apply (at_all_snoc v b re (on_plane pl) p1 P1 O1 OM).
    - exact ZI. }
  destruct (NM ltac:(lia)) as (z & Z & CZ).
  destruct (take_back_spec dbg v pl (S (length v)) m re (2 + (S k - S b) + (m - S k)) z ltac:(lia) ltac:(lia) Z CZ) as (j & y & RJ & Y & CY & AJ & EJ). rewrite EJ. cbn [rbind].
  eexists _, m, (S j). split; [reflexivity|]. constructor; cbn [pr_range pr_begin pr_end pr_size pr_plane].
  - right. split; [lia|]. split; [lia|]. split; [lia|]. split; [reflexivity|]. split; [reflexivity|]. split; [reflexivity|]. split; [exact NZ|]. split.
    + exists z. split; [exact Z|]. intros O. apply coincident_iff in O. congruence.
    + exists y. replace (S j - 1) with j by lia. split; [exact Y|]. intros O. apply coincident_iff in O. congruence.
  - lia.
  - split; [exact OM|]. apply (at_all_snoc v (S j) re (on_plane pl) p1 P1 O1). intros i w I W. apply coincident_iff. exact (AJ i w I W).
  - exact ZI.
Qed.
(** ** Lists *)
Lemma skipn_skipn {A} (l : list A) : forall a b, skipn a (skipn b l) = skipn (a + b) l.
Proof.
  intros a b. revert l. induction b as [|b IH]; intros l; [rewrite Nat.add_0_r; reflexivity|]. rewrite Nat.add_succ_r. destruct l as [|x l]; [rewrite !skipn_nil; reflexivity|]. apply IH.
Qed.
Lemma slice_split {A} (v : list A) a b c : a <= b <= c -> slice v a c = slice v a b ++ slice v b c.
Proof.
  intros H. unfold slice. replace (c - a) with ((b - a) + (c - b)) by lia. rewrite <- (firstn_skipn (b - a) (skipn a v)) at 1. rewrite firstn_app. rewrite firstn_firstn. replace (Nat.min (b - a + (c - b)) (b - a)) with (b - a) by lia. f_equal.
  rewrite skipn_skipn. replace (b - a + a) with b by lia. rewrite firstn_length, skipn_length. destruct (Nat.le_gt_cases (length v) b) as [Q|Q].
  - rewrite !skipn_all2 by lia. rewrite !firstn_nil. reflexivity.
  - f_equal. lia.
Qed.
Lemma slice_len {A} (v : list A) a b : b <= length v -> length (slice v a b) = b - a.
Proof. intros H. unfold slice. rewrite firstn_length, skipn_length. lia. Qed.
Lemma slice_one {A} (v : list A) a x : nth_error v a = Some x -> slice v a (S a) = [x].
Proof.
  intros H. apply nth_error_split in H as (l & r & -> & <-). unfold slice. rewrite skipn_app, skipn_all, Nat.sub_diag. cbn [app skipn]. replace (S (length l) - length l) with 1 by lia. reflexivity.
Qed.
Lemma nth_firstn {A} n (l : list A) k x : nth_error (firstn n l) k = Some x -> nth_error l k = Some x.
Proof. intros H. rewrite <- (firstn_skipn n l). rewrite nth_error_app1; [exact H|]. apply nth_error_Some. congruence. Qed.
Lemma nth_skipn {A} n (l : list A) k x : nth_error (skipn n l) k = Some x -> nth_error l (n + k) = Some x.
Proof.
  intros H. destruct (Nat.le_gt_cases (length l) n) as [L|L]; [rewrite skipn_all2 in H by exact L; destruct k; discriminate|].
  rewrite <- (firstn_skipn n l). rewrite nth_error_app2 by (rewrite firstn_length; lia). rewrite firstn_length. replace (n + k - Nat.min n (length l)) with k by lia. exact H.
Qed.
Lemma slice_in {A} (v : list A) a b x : In x (slice v a b) -> exists i, a <= i < b /\ nth_error v i = Some x.
Proof.
  unfold slice. intros H. apply In_nth_error in H as [k K]. assert (KL : k < length (firstn (b - a) (skipn a v))) by (apply nth_error_Some; congruence). rewrite firstn_length in KL.
  exists (a + k). split; [lia|]. apply nth_skipn. exact (nth_firstn _ _ _ _ K).
Qed.
Lemma at_all_slice v a b P : at_all v a b P -> Forall P (slice v a b).
Proof. intros H. apply Forall_forall. intros x I. apply slice_in in I as (i & R & X). exact (H i x R X). Qed.
Lemma slice_at_all v a b (P : vec3 -> Prop) : b <= length v -> Forall P (slice v a b) -> at_all v a b P.
Proof.
  intros L H i x R X. rewrite Forall_forall in H. apply H. rewrite (slice_split v a i b) by lia. rewrite (slice_split v i (S i) b) by lia. rewrite (slice_one v i x X). apply in_or_app. right. left. reflexivity.
Qed.
Definition refers (v : list vec3) (p : nat * nat) (x : vec3) : Prop := fst p = O /\ nth_error v (snd p) = Some x.
Lemma elements_refer v a b : a <= b <= length v -> Forall2 (refers v) (elements 0 a b) (slice v a b).
Proof.
  intros H. remember (b - a) as n eqn:N. revert a H N. induction n as [|n IH]; intros a H N.
  - replace b with a by lia. rewrite elements_nil. unfold slice. rewrite Nat.sub_diag. constructor.
  - destruct (get_ok v a) as (x & X & _); [lia|]. rewrite (elements_app 0 a (S a) b) by lia. rewrite (slice_split v a (S a) b) by lia. rewrite (slice_one v a x X). unfold elements at 1. replace (S a - a) with 1 by lia. cbn [seq map app].
    constructor; [split; [reflexivity|exact X]|apply IH; lia].
Qed.
Lemma range_outputs v b i j e : b <= i <= j -> j <= e <= length v -> outputs v (cr_append (cr_append cr_new (At 0 b) (At 0 i)) (At 0 j) (At 0 e)) (slice v b i ++ slice v j e).
Proof.
  intros H L. set (h := HAppend (HAppend HNew 0 b i) 0 j e). destruct (run_all (fun _ => length v) h) as (l & E & W & S & _); [cbn [h valid]; repeat split; lia|].
  exists (shown h). split; [|cbn [h shown app]; apply Forall2_app; apply elements_refer; lia].
  cbn [h run rbind] in E. injection E as E. rewrite E. rewrite <- (S ltac:(cbn; auto)). exact (img_shows l _ W).
Qed.
Lemma range_outputs_full v b e : b <= e <= length v -> outputs v (cr_append cr_new (At 0 b) (At 0 e)) (slice v b e).
Proof.
  intros H. set (h := HAppend HNew 0 b e). destruct (run_all (fun _ => length v) h) as (l & E & W & S & _); [cbn [h valid]; repeat split; lia|].
  exists (shown h). split; [|cbn [h shown app]; apply elements_refer; lia].
  cbn [h run rbind] in E. injection E as E. rewrite E. rewrite <- (S ltac:(cbn; auto)). exact (img_shows l _ W).
Qed.
Lemma outputs_inj_run v h r l l' : valid (fun _ => length v) h -> run (fun _ => length v) h = Ok r -> outputs v r l -> outputs v r l' -> l = l'.
Proof.
  intros V E (a & SA & FA) (b & SB & FB). destruct (run_all _ h V) as (pl & E' & W & _ & _). rewrite E in E'. injection E' as ->.
  rewrite (shows_inj _ _ _ W SA) in FA. rewrite (shows_inj _ _ _ W SB) in FB. clear - FA FB. revert l' FB. induction FA as [|p x refs l [_ R] F IH]; intros l' FB; inversion FB as [|p' y refs' l2 [_ R'] F']; subst; [reflexivity|].
  f_equal; [congruence|apply IH; assumption].
Qed.
(** The public form of one call. *)
Lemma pr_build_facts dbg v b e : b < e <= length v -> exists r pre mid suf, pr_build dbg v b e = Ok r /\ slice v b e = pre ++ mid ++ suf /\
  outputs v (pr_range r) (pre ++ suf) /\ pr_size r = length (pre ++ suf) /\ Forall (on_plane (pr_plane r)) (pre ++ suf) /\
  b <= pr_begin r <= pr_end r /\ pr_end r <= e /\ pr_end r - pr_begin r < e - b /\
  ((mid = [] /\ suf = [] /\ pr_begin r = pr_end r) \/
   (exists pre' x y suf' m1 m2 z1 z2, pre = pre' ++ [x] /\ suf = y :: suf' /\ mid = z1 :: m1 /\ mid = m2 ++ [z2] /\ ~ on_plane (pr_plane r) z1 /\ ~ on_plane (pr_plane r) z2 /\
      ~ zero_normal (pr_plane r) /\ slice v (pr_begin r) (pr_end r) = x :: mid ++ [y])).
Proof.
  intros L. destruct (pr_build_spec dbg v b e L) as (r & i & j & E & [R SZ [ON1 ON2] Z]). exists r. destruct R as [(-> & -> & R & PB & PE)|(I1 & I2 & I3 & R & PB & PE & NZ & (x1 & X1 & C1) & (x2 & X2 & C2))].
  - exists (slice v b e), [], []. rewrite !app_nil_r. split; [exact E|]. split; [reflexivity|]. split; [rewrite R; apply range_outputs_full; lia|]. split; [rewrite SZ, slice_len by lia; lia|].
    split; [apply at_all_slice; exact ON1|]. split; [lia|]. split; [lia|]. split; [lia|]. left. repeat split. exact PB.
  - exists (slice v b i), (slice v i j), (slice v j e). split; [exact E|]. split; [rewrite (slice_split v b i e), (slice_split v i j e) by lia; reflexivity|]. split; [rewrite R; apply range_outputs; lia|].
    split; [rewrite app_length, !slice_len by lia; exact SZ|]. split; [apply Forall_app; split; apply at_all_slice; assumption|]. split; [lia|]. split; [lia|]. split; [lia|]. right.
    destruct (get_ok v (i - 1)) as (x & X & _); [lia|]. destruct (get_ok v j) as (y & Y & _); [lia|].
    exists (slice v b (i - 1)), x, y, (slice v (S j) e), (slice v (S i) j), (slice v i (j - 1)), x1, x2.
    split; [rewrite (slice_split v b (i - 1) i) by lia; f_equal; replace i with (S (i - 1)) at 2 by lia; apply slice_one; exact X|].
    split; [rewrite (slice_split v j (S j) e) by lia; rewrite (slice_one v j y Y); reflexivity|].
    split; [rewrite (slice_split v i (S i) j) by lia; rewrite (slice_one v i x1 X1); reflexivity|].
    split; [rewrite (slice_split v i (j - 1) j) by lia; f_equal; replace j with (S (j - 1)) at 2 by lia; apply slice_one; exact X2|].
    split; [exact C1|]. split; [exact C2|]. split; [exact NZ|]. rewrite PB, PE. rewrite (slice_split v (i - 1) i (S j)), (slice_split v i j (S j)) by lia.
    rewrite (slice_one v j y Y). replace i with (S (i - 1)) at 2 by lia. rewrite (slice_one v (i - 1) x X). reflexivity.
Qed.
(** ** Zero plane *)
Lemma hd_nth {A} (v : list A) b e x t : slice v b e = x :: t -> b < e /\ nth_error v b = Some x.
Proof.
  intros H. assert (I : b < e). { destruct (Nat.lt_ge_cases b e) as [Q|Q]; [exact Q|]. unfold slice in H. replace (e - b) with 0 in H by lia. discriminate. }
  split; [exact I|]. unfold slice in H. assert (N : nth_error (firstn (e - b) (skipn b v)) 0 = Some x) by (rewrite H; reflexivity). apply nth_firstn, nth_skipn in N. rewrite Nat.add_0_r in N. exact N.
Qed.
Lemma zero_plane_iff dbg v b e r : b < e <= length v -> pr_build dbg v b e = Ok r ->
  (zero_normal (pr_plane r) <-> forall first last_, nth_error v b = Some first -> nth_error v (e - 1) = Some last_ -> Forall (in_line last_ first) (slice v b e)).
Proof.
  intros L E. destruct (pr_build_spec dbg v b e L) as (r' & i & j & E' & [_ _ _ Z]). rewrite E in E'. injection E' as <-. rewrite Z. split; intros H f l F La; specialize (H f l F La).
  - apply at_all_slice. exact H.
  - apply slice_at_all; [lia|exact H].
Qed.
Lemma cross_of_parallel (u a b : vec3) : u <> V3 0 0 0 -> v3_cross u a = V3 0 0 0 -> v3_cross u b = V3 0 0 0 -> v3_cross a b = V3 0 0 0.
Proof.
  destruct u as [u1 u2 u3], a as [a1 a2 a3], b as [b1 b2 b3]. unfold v3_cross. cbn [vx vy vz]. intros NZ A B. injection A as A1 A2 A3. injection B as B1 B2 B3.
  assert (K : forall p q r ap aq ar bp bq br : Z, (p <> 0 -> p * aq = q * ap -> p * ar = r * ap -> p * bq = q * bp -> p * br = r * bp ->
     ap * bq - aq * bp = 0 /\ aq * br - ar * bq = 0 /\ ar * bp - ap * br = 0)%Z).
  { clear. intros p q r ap aq ar bp bq br P A1 A2 B1 B2.
    assert (C1 : (p * (ap * bq - aq * bp) = 0)%Z) by (transitivity (ap * (p * bq) - (p * aq) * bp)%Z; [ring|]; rewrite A1, B1; ring).
    assert (C3 : (p * (ar * bp - ap * br) = 0)%Z) by (transitivity ((p * ar) * bp - ap * (p * br))%Z; [ring|]; rewrite A2, B2; ring).
    assert (C2 : (p * (p * (aq * br - ar * bq)) = 0)%Z) by (transitivity ((p * aq) * (p * br) - (p * ar) * (p * bq))%Z; [ring|]; rewrite A1, A2, B1, B2; ring).
    apply Z.mul_eq_0 in C1, C2, C3. destruct C2 as [C2|C2]; [tauto|]. apply Z.mul_eq_0 in C2. tauto. }
  destruct (Z.eq_dec u1 0) as [U1|U1]; [destruct (Z.eq_dec u2 0) as [U2|U2]; [destruct (Z.eq_dec u3 0) as [U3|U3]; [exfalso; apply NZ; f_equal; assumption|]|]|].
  - destruct (K u3 u1 u2 a3 a1 a2 b3 b1 b2 U3) as (K1 & K2 & K3); try lia. f_equal; lia.
  - destruct (K u2 u3 u1 a2 a3 a1 b2 b3 b1 U2) as (K1 & K2 & K3); try lia. f_equal; lia.
  - destruct (K u1 u2 u3 a1 a2 a3 b1 b2 b3 U1) as (K1 & K2 & K3); try lia. f_equal; lia.
Qed.
Lemma cross_sub u a b : v3_cross u a = V3 0 0 0 -> v3_cross u b = V3 0 0 0 -> v3_cross u (v3_sub a b) = V3 0 0 0.
Proof.
  destruct u as [u1 u2 u3], a as [a1 a2 a3], b as [b1 b2 b3]. unfold v3_cross, v3_sub. cbn [vx vy vz]. intros A B. injection A as A1 A2 A3. injection B as B1 B2 B3. f_equal; lia.
Qed.
Lemma sub_sub a b c : v3_sub (v3_sub a c) (v3_sub b c) = v3_sub a b.
Proof. destruct a, b, c. unfold v3_sub. cbn. f_equal; lia. Qed.
Lemma sub_zero a b : v3_sub a b = V3 0 0 0 -> a = b.
Proof. destruct a as [a1 a2 a3], b as [b1 b2 b3]. unfold v3_sub. cbn [vx vy vz]. intros H. injection H as H1 H2 H3. f_equal; lia. Qed.
Lemma all_in_line_of l f w : l <> f -> Forall (in_line l f) w -> all_in_line w.
Proof.
  intros NE H p q r P Q R. rewrite Forall_forall in H. unfold in_line in *.
  apply (cross_of_parallel (v3_sub f l)); [intros Z; apply sub_zero in Z; congruence| |].
  - rewrite <- (sub_sub q p l). apply cross_sub; apply H; assumption.
  - rewrite <- (sub_sub r p l). apply cross_sub; apply H; assumption.
Qed.
Lemma in_line_same p x : in_line p p x.
Proof. unfold in_line, v3_cross, v3_sub. destruct p as [a b c], x as [d e f]. cbn [vx vy vz]. f_equal; ring. Qed.
(** ** Boundary *)
Open Scope Z_scope.
Lemma path_app {A} f (a : list A) x b : path_sum f (a ++ x :: b) = path_sum f (a ++ [x]) + path_sum f (x :: b).
Proof.
  induction a as [|y a IH]; [cbn [app path_sum]; lia|]. destruct a as [|z a]; [cbn [app path_sum]; lia|]. cbn [app] in *. change (path_sum f (y :: z :: a ++ x :: b)) with (f y z + path_sum f (z :: a ++ x :: b)). rewrite IH.
  change (path_sum f (y :: z :: a ++ [x])) with (f y z + path_sum f (z :: a ++ [x])). lia.
Qed.
Lemma cycle_split {A} f (pre : list A) x mid y suf : antisymmetric f ->
  cycle_sum f ((pre ++ [x]) ++ mid ++ y :: suf) = cycle_sum f ((pre ++ [x]) ++ y :: suf) + cycle_sum f (x :: mid ++ [y]).
Proof.
  intros F. pose proof (F x y) as XY.
  assert (H : forall d, last ((pre ++ [x]) ++ mid ++ y :: suf) d = last (y :: suf) d /\ last ((pre ++ [x]) ++ y :: suf) d = last (y :: suf) d).
  { intros d. assert (L : forall l : list A, last (l ++ y :: suf) d = last (y :: suf) d).
    { induction l as [|z l IH]; [reflexivity|]. cbn [app]. destruct (l ++ y :: suf) eqn:E; [destruct l; discriminate|]. exact IH. }
    split; [rewrite app_assoc|]; apply L. }
  assert (P1 : path_sum f ((pre ++ [x]) ++ mid ++ y :: suf) = path_sum f (pre ++ [x]) + path_sum f (x :: mid ++ [y]) + path_sum f (y :: suf)).
  { rewrite <- app_assoc. cbn [app]. rewrite path_app. change (x :: mid ++ y :: suf) with ((x :: mid) ++ y :: suf). rewrite (path_app f (x :: mid)). cbn [app]. lia. }
  assert (P2 : path_sum f ((pre ++ [x]) ++ y :: suf) = path_sum f (pre ++ [x]) + f x y + path_sum f (y :: suf)).
  { rewrite <- app_assoc. cbn [app]. rewrite path_app. cbn [path_sum]. lia. }
  assert (P3 : cycle_sum f (x :: mid ++ [y]) = path_sum f (x :: mid ++ [y]) + f y x).
  { unfold cycle_sum. f_equal. f_equal. change (x :: mid ++ [y]) with ((x :: mid) ++ [y]). apply last_last. }
  rewrite P3. unfold cycle_sum. destruct pre as [|p pre].
  - cbn [app] in *. destruct (H x) as [H1 H2]. rewrite H1, H2, P1, P2. lia.
  - cbn [app] in *. destruct (H p) as [H1 H2]. rewrite H1, H2, P1, P2. lia.
Qed.
Open Scope nat_scope.
Lemma fac_build_spec dbg v f : antisymmetric f -> forall fuel b e, b <= e <= length v -> e - b <= fuel ->
  exists rs ls, fac_build dbg fuel v b e = Ok rs /\ length rs <= e - b /\ Forall2 (fun r l => outputs v (pr_range r) l /\ Forall (on_plane (pr_plane r)) l) rs ls /\
    sum_z (map (cycle_sum f) ls) = cycle_sum f (slice v b e).
Proof.
  intros F. induction fuel as [|fuel IH]; intros b e L FU.
  - assert (b = e) as -> by lia. cbn [fac_build]. rewrite Nat.eqb_refl. exists [], []. split; [reflexivity|]. split; [cbn; lia|]. split; [constructor|]. unfold slice. rewrite Nat.sub_diag. reflexivity.
  - cbn [fac_build]. destruct (Nat.eqb_spec b e) as [->|N].
    + exists [], []. split; [reflexivity|]. split; [cbn; lia|]. split; [constructor|]. unfold slice. rewrite Nat.sub_diag. reflexivity.
    + destruct (pr_build_facts dbg v b e ltac:(lia)) as (r & pre & mid & suf & E & SL & O & SZ & ON & B1 & B2 & B3 & C). rewrite E. cbn [rbind].
      destruct (IH (pr_begin r) (pr_end r) ltac:(lia) ltac:(lia)) as (rs & ls & ER & LR & FR & S). rewrite ER. cbn [rbind]. exists (r :: rs), ((pre ++ suf) :: ls).
      split; [reflexivity|]. split; [cbn [length]; lia|]. split; [constructor; [split; assumption|exact FR]|]. cbn [map sum_z fold_right]. unfold sum_z in S. rewrite S, SL. destruct C as [(-> & -> & PE)|(pre' & x & y & suf' & m1 & m2 & z1 & z2 & -> & -> & _ & _ & _ & _ & _ & SL')].
      * rewrite PE. unfold slice. rewrite Nat.sub_diag. cbn [firstn cycle_sum app]. rewrite !app_nil_r. lia.
      * rewrite SL'. symmetry. apply cycle_split. exact F.
Qed.
