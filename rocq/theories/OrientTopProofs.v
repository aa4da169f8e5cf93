(** The polygons emitted by OrientingMonotoneDecomposer. *)
From Coq Require Import List Bool Arith ZArith QArith Lqa Lia ZifyBool.
From Verif Require Import BigUIntModel GeoModel GeoSpec CvxSpec GeoProofs GeoPluckerProofs TriModel TriSpec TriProofs TriGeoProofs TriTileProofs MonoRangeModel MonoRangeSpec MonoChainProofs MonoLoopProofs
  DecModel DecSpec DecProofs DecOrdProofs DecInvProofs DecTopProofs OrientModel OrientSpec OrientProofs.
Import ListNotations.
Open Scope Q_scope.
(** ** Reversed polygons *)
Lemma convex_rev s l : convex_cycle s l -> convex_cycle (- s) (rev l).
Proof.
  intros (C & N & W). split; [|split].
  - intros i j n a b c IJ JN A B D. assert (L1 : (i < length (rev l))%nat) by (apply nth_error_Some; congruence). assert (L2 : (j < length (rev l))%nat) by (apply nth_error_Some; congruence). assert (L3 : (n < length (rev l))%nat) by (apply nth_error_Some; congruence).
    rewrite rev_length in *. rewrite nth_error_rev in A, B, D by assumption.
    specialize (C _ _ _ c b a ltac:(instantiate (1 := (length l - 1 - j)%nat); instantiate (1 := (length l - 1 - n)%nat); lia) ltac:(instantiate (1 := (length l - 1 - i)%nat); lia) D B A).
    assert (E : - s * turn a b c == s * turn c b a) by (unfold turn, qcross2, qsub2; cbn; ring). rewrite E. exact C.
  - intros i a b A B. assert (L1 : (i < length (rev l))%nat) by (apply nth_error_Some; congruence). rewrite rev_length in *. assert (LB : (S i mod length l < length l)%nat) by (apply Nat.mod_upper_bound; lia).
    rewrite nth_error_rev in A, B by assumption. intros (Q1 & Q2). apply (N (length l - 1 - (S i mod length l))%nat b a B); [|split; symmetry; assumption]. rewrite <- A. f_equal.
    destruct (Nat.eq_dec (S i) (length l)) as [EQ|NE].
    + rewrite EQ, Nat.mod_same by lia. replace (S (length l - 1 - 0)) with (length l) by lia. rewrite Nat.mod_same by lia. lia.
    + rewrite (Nat.mod_small (S i)) by lia. rewrite Nat.mod_small by lia. lia.
  - destruct W as (a & b & c & H1 & H2 & H3 & H4). exists a, b, c. rewrite <- !in_rev. repeat split; assumption.
Qed.
Lemma flat_rev l : flat l -> flat (rev l).
Proof. intros F a b c. rewrite <- !in_rev. apply F. Qed.
Lemma oriented_flip {P} (pos : P -> qpoint2) (e : Z * list P) : oriented (fst e) (map pos (snd e)) -> oriented (fst (od_flip e)) (map pos (snd (od_flip e))).
Proof.
  unfold od_flip. cbn [fst snd]. rewrite map_rev. intros [(-> & C)|[(-> & C)|(-> & F)]].
  - right. left. split; [reflexivity|]. apply (convex_rev 1). exact C.
  - left. split; [reflexivity|]. apply (convex_rev (-1)) in C. exact C.
  - right. right. split; [reflexivity|]. apply flat_rev. exact F.
Qed.
Section Sum.
Context {A : Type} (f : A -> A -> Q) (AN : forall a b, f b a == - f a b).
Lemma psum_rev a l : edge_sum f (path_edges (rev (a :: l))) == - edge_sum f (path_edges (a :: l)).
Proof.
  revert a. induction l as [|b l IH]; intros a; [reflexivity|]. cbn [rev]. specialize (IH b). cbn [rev] in IH.
  assert (SN : forall l' (x y : A), edge_sum f (path_edges ((l' ++ [x]) ++ [y])) == edge_sum f (path_edges (l' ++ [x])) + f x y).
  { clear IH. intros l' x y. induction l' as [|u l' IH']; [unfold edge_sum, path_edges; cbn; ring|]. destruct l' as [|w l'].
    - unfold edge_sum, path_edges; cbn; ring.
    - cbn [app] in *. unfold path_edges in *. cbn [tl combine] in *. unfold edge_sum in *. cbn [fold_right fst snd] in *. rewrite IH'. ring. }
  rewrite SN, IH. unfold path_edges, edge_sum. cbn [tl combine fold_right fst snd]. rewrite AN. ring.
Qed.
Lemma cyc_rev l : cyc f (rev l) == - cyc f l.
Proof.
  destruct l as [|a l]; [reflexivity|]. transitivity (cyc f (a :: rev l)).
  - apply cyc_rotation. exists (rev l), [a]. split; reflexivity.
  - pose proof (psum_rev a (l ++ [a])) as H. cbn [rev] in H. rewrite rev_app_distr in H. cbn [rev app] in H. exact H.
Qed.
End Sum.
Lemma cyc_sum_flip {P A} (pos : P -> A) f (AN : forall a b, f b a == - f a b) out :
  fold_right (fun l s => cyc f l + s) 0 (map (fun e => map pos (snd e)) (map od_flip out)) == - fold_right (fun l s => cyc f l + s) 0 (map (fun e => map pos (snd e)) out).
Proof. induction out as [|e out IH]; [reflexivity|]. cbn [map fold_right]. rewrite IH. unfold od_flip at 1. cbn [snd]. rewrite map_rev, (cyc_rev f AN). ring. Qed.
(** ** The boundary *)
Theorem od_boundary {P A} dbg (k : kind P) drop mono c1 c2 out (pos : P -> A) (good : P -> Prop) :
  (forall a b, good a -> good b -> k_equal k a b = true -> pos a = pos b) -> Forall good c1 -> Forall good c2 -> same_ends c1 c2 -> od_build dbg k drop mono c1 c2 = Ok out ->
  same_boundary (map (fun e => map pos (snd e)) out) [map pos (loop_of c1 c2)] \/ exists l, out = [(0%Z, l)] /\ rotation l (rev (loop_of c1 c2)).
Proof.
  intros EQ G1 G2 (a & z & A1 & A2 & Z1 & Z2) E. unfold od_build in E. destruct (od_detect dbg k drop mono c1 c2) as [d| | |] eqn:ED; cbn [rbind] in E; try discriminate.
  assert (S1 : exists x, c1 = a :: x) by (destruct c1; [discriminate|]; cbn in A1; injection A1 as <-; eexists; reflexivity). destruct S1 as (x1 & ->).
  assert (S2 : exists x, c2 = a :: x) by (destruct c2; [discriminate|]; cbn in A2; injection A2 as <-; eexists; reflexivity). destruct S2 as (x2 & ->).
  destruct x1 as [|b1 x1]; [cbn in ED; destruct dbg, (k_equal k a a); cbn in ED; discriminate|]. destruct x2 as [|b2 x2]; [cbn in ED; destruct dbg, (k_equal k a a); cbn in ED; discriminate|].
  destruct (@exists_last _ (b1 :: x1) ltac:(discriminate)) as (y1 & w1 & Y1). destruct (@exists_last _ (b2 :: x2) ltac:(discriminate)) as (y2 & w2 & Y2). rewrite Y1, Y2 in *. clear Y1 Y2 x1 x2 b1 b2.
  cbn [rev] in Z1, Z2. rewrite rev_app_distr in Z1, Z2. cbn in Z1, Z2. injection Z1 as ->. injection Z2 as ->.
  assert (RL : forall l : list P, removelast (a :: l ++ [z]) = a :: l) by (intros l; apply (removelast_last (a :: l) z)).
  assert (LO : loop_of (a :: y1 ++ [z]) (a :: y2 ++ [z]) = a :: y1 ++ z :: rev y2).
  { unfold loop_of. cbn [rev]. rewrite rev_app_distr. cbn [rev app tl]. rewrite removelast_last. rewrite <- app_assoc. reflexivity. }
  rewrite LO, !RL in *. cbn [tl] in E.
  assert (GG : forall l l' : list P, Forall good (a :: l ++ [z]) -> Forall good (a :: l' ++ [z]) -> Forall good ((a :: l) ++ l' ++ [z])).
  { intros l l' H1 H2. apply Forall_app. split; [apply (Forall_app good (a :: l) [z]); exact H1|inversion H2; assumption]. }
  destruct d as [[|]|].
  - left. destruct (md_build dbg k drop mono (a :: y1) (y2 ++ [z])) as [o| | |] eqn:EM; cbn [rbind] in E; try discriminate. injection E as <-.
    intros f AN. rewrite !edge_sum_flat. cbn [fold_right]. rewrite (cyc_sum_flip pos f AN). pose proof (md_boundary dbg k drop mono _ _ o pos good EQ (GG _ _ G1 G2) EM f AN) as MB.
    rewrite !edge_sum_flat in MB. cbn [fold_right] in MB. rewrite MB. unfold polygon_of.
    assert (RV : map pos (a :: y1 ++ z :: rev y2) = rev (map pos ((y2 ++ [z]) ++ rev (a :: y1)))). { rewrite <- map_rev. f_equal. rewrite rev_app_distr, rev_involutive, rev_app_distr. cbn [rev app]. reflexivity. }
    rewrite RV, (cyc_rev f AN). ring.
  - left. intros f AN. rewrite !edge_sum_flat. cbn [fold_right]. pose proof (md_boundary dbg k drop mono _ _ out pos good EQ (GG _ _ G2 G1) E f AN) as MB.
    rewrite !edge_sum_flat in MB. cbn [fold_right] in MB. rewrite MB. unfold polygon_of.
    assert (RO : cyc f (map pos ((y1 ++ [z]) ++ rev (a :: y2))) == cyc f (map pos (a :: y1 ++ z :: rev y2))).
    { apply cyc_rotation. exists (map pos (y1 ++ z :: rev y2)), (map pos [a]). split; [rewrite <- map_app; f_equal; cbn [rev]; rewrite <- !app_assoc; reflexivity|reflexivity]. }
    rewrite RO. reflexivity.
  - right. injection E as <-. eexists. split; [reflexivity|]. exists (rev (a :: y1)), (y2 ++ [z]). split; [reflexivity|].
    replace (a :: y1 ++ z :: rev y2) with ((a :: y1) ++ z :: rev y2) by reflexivity. rewrite rev_app_distr. cbn [rev]. rewrite rev_involutive. rewrite <- !app_assoc. reflexivity.
Qed.
(** ** Convex polygons *)
Lemma snoc_head {A} (l : list A) z : exists f r, l ++ [z] = f :: r.
Proof. destruct l as [|a l]; [exists z, []|exists a, (l ++ [z])]; reflexivity. Qed.
Lemma turn_scale m t b p : turn m t b == 0 -> (qx2 t - qx2 m) * turn m b p == (qx2 b - qx2 m) * turn m t p.
Proof.
  intros T. assert (H : (qx2 t - qx2 m) * (qy2 b - qy2 m) == (qx2 b - qx2 m) * (qy2 t - qy2 m)). { unfold turn, qcross2, qsub2 in T; cbn in T. lra. }
  unfold turn, qcross2, qsub2; cbn.
  transitivity ((qx2 t - qx2 m) * (qx2 b - qx2 m) * (qy2 p - qy2 m) - ((qx2 t - qx2 m) * (qy2 b - qy2 m)) * (qx2 p - qx2 m)); [ring|]. rewrite H. ring.
Qed.
Section Convex.
Context {P : Type} (k : kind P) (drop mono : nat) (good : P -> Prop) (pos : P -> qpoint2) (K : kind_ok k drop mono good pos) (KD : kind_dec k drop good pos) (KR : kind_orient k mono good pos).
Notation X p := (qx2 (pos p)).
Notation Y p := (qy2 (pos p)).
Notation tn a b c := (turn (pos a) (pos b) (pos c)).
Context (m mx : P) (top bottom : list P).
Notation tops := (m :: top ++ [mx]).
Notation bottoms := (m :: bottom ++ [mx]).
Lemma detect_told dbg (top_first : bool) : Forall good tops -> Forall good bottoms -> chains_ok (map pos tops) (map pos bottoms) -> told (map pos tops) (map pos bottoms) top_first ->
  od_detect dbg k drop mono (if top_first then tops else bottoms) (if top_first then bottoms else tops) = Ok (Some top_first).
Proof.
  intros GT GB CO TD. destruct (snoc_head top mx) as (t & tr & ET). destruct (snoc_head bottom mx) as (b & br & EB).
  pose proof (rightwards_pairs pos _ (co_top _ _ CO)) as ST. pose proof (rightwards_pairs pos _ (co_bottom _ _ CO)) as SB.
  destruct (role_good good m mx t b top bottom tr br ET EB GT GB) as (Gm & Gt & Gb & Gtr & Gbr).
  assert (ST' : starts (map pos tops) (map pos bottoms) (pos m) (pos t) (pos b)). { exists (map pos tr), (map pos br). rewrite ET, EB. split; reflexivity. }
  assert (UN : forall m' t' b', starts (map pos tops) (map pos bottoms) m' t' b' -> m' = pos m /\ t' = pos t /\ b' = pos b).
  { intros m' t' b' (x & y & H1 & H2). rewrite ET in H1. rewrite EB in H2. cbn in H1, H2. repeat split; congruence. }
  assert (LAST : last (map pos tops) (pos m) = pos mx). { rewrite (map_app pos (m :: top) [mx] : map pos tops = _). apply last_last. }
  destruct TD as [(m' & t' & b' & SS & NZ)|[(m' & t' & b' & SS & X1 & X2 & T0 & AT & AB & v & V1 & V2 & V3)|((m' & t' & b' & SS & X1 & X2 & Y1 & Y2) & FR)]];
    destruct (UN _ _ _ SS) as (-> & -> & ->).
  - assert (TS : tn m t b <= 0).
    { destruct (Qlt_le_dec (X b) (X t)) as [L|L].
      - apply (co_below _ _ CO); [rewrite ET; left; reflexivity|apply in_map; rewrite EB; right; left; reflexivity| |lra]. apply (sorted_head pos _ _ _ SB). rewrite EB. right. left. reflexivity.
      - assert (H : 0 <= tn m b t). { apply (co_above _ _ CO); [rewrite EB; left; reflexivity|apply in_map; rewrite ET; right; left; reflexivity| |exact L]. apply (sorted_head pos _ _ _ ST). rewrite ET. right. left. reflexivity. }
        rewrite turn_flip2 in H. lra. }
    destruct top_first; rewrite ET, EB; rewrite (detect_apart k drop mono good pos KD KR); try assumption; try (rewrite turn_flip2; lra); do 2 f_equal.
    + apply Z.ltb_lt. apply (twist_neg k drop good pos KD); try assumption. lra.
    + apply Z.ltb_ge. apply (kd_nonneg _ _ _ _ KD); try assumption. rewrite turn_flip2. lra.
  - assert (V : exists u, (In u (top ++ [mx]) \/ In u (bottom ++ [mx])) /\ ~ tn m t u == 0 /\ (X u < X mx \/ u = mx)).
    { rewrite LAST in V3. destruct V3 as [V3|V3].
      - rewrite <- map_app in V1. apply in_map_iff in V1. destruct V1 as (u & <- & Hu). exists u. split; [|split; [exact V2|left; exact V3]].
        assert (NM : u <> m). { intros ->. apply V2. unfold turn, qcross2, qsub2; cbn. ring. }
        apply in_app_iff in Hu. destruct Hu as [[Hu|Hu]|[Hu|Hu]]; try congruence; [left|right]; exact Hu.
      - subst v. exists mx. split; [left; apply in_or_app; right; left; reflexivity|]. split; [exact V2|right; reflexivity]. }
    destruct V as (u & U1 & U2 & U3). destruct top_first.
    + apply (role_split k drop mono good pos KD KR m mx t b top bottom tr br ET EB GT GB ST SB dbg true u); try assumption.
      * intros p Hp. apply AT. apply in_map. right. exact Hp.
      * intros p Hp. apply AB. apply in_map. right. exact Hp.
    + pose proof (fun p => turn_scale (pos m) (pos t) (pos b) (pos p) T0) as SC. cbv beta in SC.
      apply (role_split k drop mono good pos KD KR m mx b t bottom top br tr EB ET GB GT SB ST dbg false u); try assumption; try tauto.
      * rewrite turn_flip2, T0. reflexivity.
      * intros p Hp. specialize (SC p). assert (H : tn m t p <= 0) by (apply AB; apply in_map; right; exact Hp). nra.
      * intros p Hp. specialize (SC p). assert (H : 0 <= tn m t p) by (apply AT; apply in_map; right; exact Hp). nra.
      * intros C. specialize (SC u). rewrite C, Qmult_0_r in SC. apply U2. assert (Z : (X b - X m) * tn m t u == 0) by (rewrite <- SC; reflexivity). apply Qmult_integral in Z. destruct Z; [lra|assumption].
  - destruct top_first.
    + apply (role_vertical k drop mono good pos KD KR m mx t b top bottom tr br ET EB GT GB ST SB dbg true false); [exact X1|exact X2|exact Y2|lra|exact FR].
    + apply (role_vertical k drop mono good pos KD KR m mx b t bottom top br tr EB ET GB GT SB ST dbg false false); [exact X2|exact X1|exact Y1|lra|exact FR].
Qed.
(** Otherwise it is wrong. *)
Lemma detect_wrong dbg (top_first : bool) : Forall good tops -> Forall good bottoms -> rightwards (map pos tops) -> rightwards (map pos bottoms) -> upright_start (map pos tops) (map pos bottoms) ->
  (if top_first then first_right (map pos tops) (map pos bottoms) false else first_right (map pos bottoms) (map pos tops) false) ->
  od_detect dbg k drop mono (if top_first then tops else bottoms) (if top_first then bottoms else tops) = Ok (Some (negb top_first)).
Proof.
  intros GT GB RT RB (m' & t' & b' & (x & y & H1 & H2) & X1 & X2 & Y1 & Y2) FR. destruct (snoc_head top mx) as (t & tr & ET). destruct (snoc_head bottom mx) as (b & br & EB).
  pose proof (rightwards_pairs pos _ RT) as ST. pose proof (rightwards_pairs pos _ RB) as SB. rewrite ET in H1. rewrite EB in H2. cbn in H1, H2. injection H1 as <- <- _. injection H2 as <- _.
  destruct top_first.
  - apply (role_vertical k drop mono good pos KD KR m mx t b top bottom tr br ET EB GT GB ST SB dbg true true); [exact X1|exact X2|exact Y2|lra|exact FR].
  - apply (role_vertical k drop mono good pos KD KR m mx b t bottom top br tr EB ET GB GT SB ST dbg false true); [exact X2|exact X1|exact Y1|lra|exact FR].
Qed.
Lemma build_of_detect dbg (top_first d : bool) : od_detect dbg k drop mono (if top_first then tops else bottoms) (if top_first then bottoms else tops) = Ok (Some d) ->
  od_build dbg k drop mono (if top_first then tops else bottoms) (if top_first then bottoms else tops) =
  rbind (md_build dbg k drop mono (m :: if Bool.eqb d top_first then top else bottom) ((if Bool.eqb d top_first then bottom else top) ++ [mx])) (fun out => Ok (if d then map od_flip out else out)).
Proof.
  intros E. unfold od_build. rewrite E. cbn [rbind].
  assert (RT : removelast tops = m :: top) by (apply (removelast_last (m :: top) mx)). assert (RB : removelast bottoms = m :: bottom) by (apply (removelast_last (m :: bottom) mx)).
  destruct top_first, d; cbn [Bool.eqb]; rewrite ?RT, ?RB; cbn [tl]; try reflexivity; destruct (md_build _ _ _ _ _ _); reflexivity.
Qed.
Theorem od_convex dbg (top_first : bool) : Forall good tops -> Forall good bottoms -> chains_ok (map pos tops) (map pos bottoms) -> told (map pos tops) (map pos bottoms) top_first ->
  (1 <= length top + length bottom)%nat -> all_distinct (map pos (polygon_of (m :: top) (bottom ++ [mx]))) -> straight_runs (map pos tops) -> straight_runs (map pos bottoms) ->
  upright_chains (map pos tops) (map pos bottoms) -> twists_fit k drop (polygon_of (m :: top) (bottom ++ [mx])) ->
  exists out, od_build dbg k drop mono (if top_first then tops else bottoms) (if top_first then bottoms else tops) = Ok out /\
    Forall (fun e => oriented (fst e) (map pos (snd e)) /\ (fst e = 0 \/ fst e = if top_first then 1 else -1)%Z) out.
Proof.
  intros GT GB CO TD Len AD VT VB W F. destruct (build_convex k drop mono good pos K KD dbg m mx top bottom GT GB CO Len AD VT VB W F) as (out & E & O).
  rewrite (build_of_detect dbg top_first top_first (detect_told dbg top_first GT GB CO TD)). rewrite Bool.eqb_reflx, E. cbn [rbind]. eexists. split; [reflexivity|].
  destruct top_first; [|exact O]. rewrite Forall_map. eapply Forall_impl; [|exact O]. intros e (H1 & H2). split; [apply oriented_flip; exact H1|]. unfold od_flip. cbn [fst]. lia.
Qed.
End Convex.
(** ** Points on one line, chains that cross *)
Section Flat.
Context {P : Type} (k : kind P) (drop mono : nat) (good : P -> Prop) (pos : P -> qpoint2) (K : kind_ok k drop mono good pos) (KD : kind_dec k drop good pos) (KR : kind_orient k mono good pos).
Notation X p := (qx2 (pos p)).
Notation tn a b c := (turn (pos a) (pos b) (pos c)).
Notation sorted := (ForallOrdPairs (fun a b => X a <= X b)).
Lemma skip_snoc m mx : k_equal k mx m = false -> forall c, exists c', od_skip k m (c ++ [mx]) = c' ++ [mx] /\ exists d, c = d ++ c'.
Proof.
  intros N. induction c as [|p c IH]; cbn [app od_skip].
  - rewrite N. exists []. split; [reflexivity|exists []; reflexivity].
  - destruct (k_equal k p m); [destruct IH as (c' & E & d & ->); exists c'; split; [exact E|exists (p :: d); reflexivity]|exists (p :: c); split; [reflexivity|exists []; reflexivity]].
Qed.
Lemma od_flat m mx c1 c2 : Forall good (m :: c1 ++ [mx]) -> Forall good (m :: c2 ++ [mx]) -> rightwards (map pos (m :: c1 ++ [mx])) -> rightwards (map pos (m :: c2 ++ [mx])) ->
  ~ qp2_eq (pos m) (pos mx) -> flat (map pos (m :: c1 ++ c2 ++ [mx])) ->
  od_build false k drop mono (m :: c1 ++ [mx]) (m :: c2 ++ [mx]) = Ok [(0%Z, rev (m :: c1) ++ c2 ++ [mx])].
Proof.
  intros G1 G2 R1 R2 NE FL. pose proof (rightwards_pairs pos _ R1) as S1. pose proof (rightwards_pairs pos _ R2) as S2.
  destruct (snoc_head c1 mx) as (f1 & r1 & E1). destruct (snoc_head c2 mx) as (f2 & r2 & E2). destruct (role_good good m mx f1 f2 c1 c2 r1 r2 E1 E2 G1 G2) as (Gm & Gf1 & Gf2 & F1 & F2).
  assert (IN : forall p, In p (c1 ++ [mx]) \/ In p (c2 ++ [mx]) -> In (pos p) (map pos (m :: c1 ++ c2 ++ [mx])) /\ good p).
  { intros p Hp. split; [apply in_map; right; rewrite !in_app_iff in *; tauto|]. rewrite Forall_forall in F1, F2. destruct Hp; auto. }
  assert (TZ : forall p q, In p (c1 ++ [mx]) \/ In p (c2 ++ [mx]) -> In q (c1 ++ [mx]) \/ In q (c2 ++ [mx]) -> k_twist k drop m p q = 0%Z).
  { intros p q Hp Hq. destruct (IN p Hp), (IN q Hq). apply (twist_zero k drop good pos KD); try assumption. apply FL; try assumption. left. reflexivity. }
  assert (NK : k_equal k mx m = false). { destruct (k_equal k mx m) eqn:E; [|reflexivity]. exfalso. apply NE. apply (kd_equal _ _ _ _ KD) in E; [destruct E; split; symmetry; assumption| |exact Gm]. apply (IN mx). left. apply in_or_app. right. left. reflexivity. }
  destruct (skip_snoc m mx NK c1) as (c1' & K1 & d1 & D1). destruct (skip_snoc m mx NK c2) as (c2' & K2 & d2 & D2).
  assert (I1 : forall p, In p (c1' ++ [mx]) -> In p (c1 ++ [mx])). { intros p Hp. rewrite D1, <- app_assoc. apply in_or_app. right. exact Hp. }
  assert (I2 : forall p, In p (c2' ++ [mx]) -> In p (c2 ++ [mx])). { intros p Hp. rewrite D2, <- app_assoc. apply in_or_app. right. exact Hp. }
  assert (DE : od_detect false k drop mono (m :: c1 ++ [mx]) (m :: c2 ++ [mx]) = Ok None).
  { unfold od_detect. cbn [check rbind]. rewrite K1, K2. rewrite E1, E2. cbv iota. rewrite (TZ f1 f2) by (rewrite E1, E2; cbn [In]; tauto). cbn [Z.eqb negb].
    destruct (snoc_head c1' mx) as (g1 & s1 & EG1). destruct (snoc_head c2' mx) as (g2 & s2 & EG2). rewrite EG1, EG2.
    assert (H1 : In g1 (c1 ++ [mx])) by (apply I1; rewrite EG1; left; reflexivity). assert (H2 : In g2 (c2 ++ [mx])) by (apply I2; rewrite EG2; left; reflexivity).
    rewrite (TZ g1 g2) by tauto. destruct (k_equal k f1 m || k_equal k f2 m); cbn [Z.eqb negb]; rewrite <- EG1, <- EG2.
    all: apply (loop_flat k drop mono good pos KR); [apply Forall_forall; intros p Hp; apply (IN p); auto|apply Forall_forall; intros p Hp; apply (IN p); auto| | |intros v Hv; apply TZ; [tauto|destruct Hv; auto]].
    all: pose proof (sorted_tail pos _ _ S1) as T1; pose proof (sorted_tail pos _ _ S2) as T2; rewrite D1, <- app_assoc in T1; rewrite D2, <- app_assoc in T2; eapply pairs_tail; eassumption. }
  unfold od_build. rewrite DE. cbn [rbind]. rewrite (removelast_last (m :: c1) mx : removelast (m :: c1 ++ [mx]) = m :: c1). reflexivity.
Qed.
(** With assertions, for chains without vertical edges. *)
Lemma loop_flat_strict dbg m col mx : forall c1 c2, Forall good (c1 ++ [mx]) -> Forall good (c2 ++ [mx]) -> sorted (c1 ++ [mx]) -> sorted (c2 ++ [mx]) -> (forall p, In p c2 -> X p < X mx) ->
  (forall v, In v (c1 ++ [mx]) \/ In v (c2 ++ [mx]) -> k_twist k drop m col v = 0%Z) -> od_loop dbg k drop mono m col (c1 ++ [mx]) (c2 ++ [mx]) = Ok None.
Proof.
  induction c1 as [|p1 c1 IH1]; induction c2 as [|p2 c2 IH2]; intros G1 G2 S1 S2 LT F; cbn [app] in *; rewrite loop_step.
  - rewrite !F by (left; left; reflexivity). assert (Gm : good mx) by (inversion G1; assumption). pose proof (proj2 (kr_le _ _ _ _ KR mx mx Gm Gm) (Qle_refl _)) as L. assert (C : (k_compare k mono mx mx <=? 0)%Z = true) by lia. rewrite C. reflexivity.
  - rewrite (F mx), (F p2) by (cbn [In]; tauto). assert (Gm : good mx) by (inversion G1; assumption). assert (Gp : good p2) by (inversion G2; assumption).
    pose proof (kr_le _ _ _ _ KR mx p2 Gm Gp) as LE. specialize (LT p2 ltac:(left; reflexivity)) as L2. assert (C : (k_compare k mono mx p2 <=? 0)%Z = false). { apply Z.leb_gt. apply Z.nle_gt. intros C. apply LE in C. lra. }
    rewrite C. apply IH2; [exact G1|inversion G2; assumption|exact S1|eapply sorted_tail; exact S2|intros p Hp; apply LT; right; exact Hp|]. intros v Hv. apply F. cbn [In]. tauto.
  - assert (Gm : good mx) by (inversion G2; assumption). assert (Gp1 : good p1) by (inversion G1; assumption).
    pose proof (kr_le _ _ _ _ KR p1 mx Gp1 Gm) as LE. assert (L : X p1 <= X mx) by (apply (sorted_last pos (p1 :: c1) mx); [exact S1|left; reflexivity]).
    apply LE in L. assert (C : (k_compare k mono p1 mx <=? 0)%Z = true) by lia. rewrite C, (F p1) by (cbn [In]; tauto). apply (IH1 []); [inversion G1; assumption|exact G2|eapply sorted_tail; exact S1|exact S2|exact LT|]. intros v Hv. apply F. cbn [In app] in *. tauto.
  - rewrite (F p1), (F p2) by (cbn [In]; tauto). destruct (_ <=? 0)%Z.
    + apply (IH1 (p2 :: c2)); [inversion G1; assumption|exact G2|eapply sorted_tail; exact S1|exact S2|exact LT|]. intros v Hv. apply F. cbn [In app] in *. tauto.
    + apply IH2; [exact G1|inversion G2; assumption|exact S1|eapply sorted_tail; exact S2|intros p Hp; apply LT; right; exact Hp|]. intros v Hv. apply F. cbn [In]. tauto.
Qed.
Lemma strict_order m mx c : strictly_rightwards (map pos (m :: c ++ [mx])) -> sorted (m :: c ++ [mx]) /\ (forall p, In p (c ++ [mx]) -> X m < X p) /\ (forall p, In p c -> X p < X mx).
Proof.
  intros S. split; [apply rightwards_pairs, strictly_rightwards_weak; exact S|]. apply strictly_pairs in S. inversion S as [|? ? F PS]; subst. rewrite Forall_forall in F. split; [exact F|].
  clear S F. induction c as [|a c IH]; intros p Hp; [destruct Hp|]. cbn [app] in PS. inversion PS as [|? ? F PS']; subst. rewrite Forall_forall in F. destruct Hp as [<-|Hp]; [apply F; apply in_or_app; right; left; reflexivity|apply IH; assumption].
Qed.
Theorem od_crossing dbg m mx c1 c2 : Forall good (m :: c1 ++ [mx]) -> Forall good (m :: c2 ++ [mx]) -> strictly_rightwards (map pos (m :: c1 ++ [mx])) -> strictly_rightwards (map pos (m :: c2 ++ [mx])) ->
  all_distinct (map pos (m :: c1 ++ c2 ++ [mx])) -> twists_fit k drop (m :: c1 ++ c2 ++ [mx]) ->
  exists out, od_build dbg k drop mono (m :: c1 ++ [mx]) (m :: c2 ++ [mx]) = Ok out /\ Forall (fun e => oriented (fst e) (map pos (snd e))) out.
Proof.
  intros G1 G2 R1 R2 AD FT. destruct (strict_order _ _ _ R1) as (S1 & M1 & L1). destruct (strict_order _ _ _ R2) as (S2 & M2 & L2).
  destruct (snoc_head c1 mx) as (f1 & r1 & E1). destruct (snoc_head c2 mx) as (f2 & r2 & E2). destruct (role_good good m mx f1 f2 c1 c2 r1 r2 E1 E2 G1 G2) as (Gm & Gf1 & Gf2 & F1 & F2).
  assert (Hf1 : In f1 (c1 ++ [mx])) by (rewrite E1; left; reflexivity). assert (Hf2 : In f2 (c2 ++ [mx])) by (rewrite E2; left; reflexivity).
  assert (IN : forall p, In p (c1 ++ [mx]) \/ In p (c2 ++ [mx]) -> In p (m :: c1 ++ c2 ++ [mx]) /\ good p).
  { intros p Hp. split; [right; rewrite !in_app_iff in *; tauto|]. rewrite Forall_forall in F1, F2. destruct Hp; auto. }
  assert (ND : NoDup (map key (map pos (m :: c1 ++ c2 ++ [mx])))) by (apply distinct_keys; exact AD).
  (* whatever is found, the decomposer emits convex polygons *)
  assert (SOME : forall d, (1 <= length c1 + length c2)%nat -> od_detect dbg k drop mono (m :: c1 ++ [mx]) (m :: c2 ++ [mx]) = Ok (Some d) ->
    exists out, od_build dbg k drop mono (m :: c1 ++ [mx]) (m :: c2 ++ [mx]) = Ok out /\ Forall (fun e => oriented (fst e) (map pos (snd e))) out).
  { intros d Len D. rewrite (build_of_detect k drop mono m mx c1 c2 dbg true d D).
    assert (PE : Permutation.Permutation (m :: c1 ++ c2 ++ [mx]) (polygon_of (m :: c1) (c2 ++ [mx]))). { eapply Permutation.perm_trans; [apply (Permutation.Permutation_app_comm (m :: c1) (c2 ++ [mx]))|]. apply Permutation.Permutation_app_head, Permutation.Permutation_rev. }
    assert (PE' : Permutation.Permutation (m :: c1 ++ c2 ++ [mx]) (polygon_of (m :: c2) (c1 ++ [mx]))).
    { eapply Permutation.perm_trans; [|eapply Permutation.perm_trans; [apply (Permutation.Permutation_app_comm (m :: c2) (c1 ++ [mx]))|apply Permutation.Permutation_app_head, Permutation.Permutation_rev]].
      cbn [app]. constructor. rewrite !app_assoc. apply Permutation.Permutation_app_tail, Permutation.Permutation_app_comm. }
    assert (AD' : forall l, Permutation.Permutation (m :: c1 ++ c2 ++ [mx]) l -> all_distinct (map pos l)). { intros l PL. apply distinct_keys. eapply Permutation.Permutation_NoDup; [|exact ND]. apply Permutation.Permutation_map, Permutation.Permutation_map. exact PL. }
    assert (FT' : forall l, Permutation.Permutation (m :: c1 ++ c2 ++ [mx]) l -> twists_fit k drop l). { intros l PL a b c Ha Hb Hc. apply FT; eapply Permutation.Permutation_in; try (apply Permutation.Permutation_sym; exact PL); assumption. }
    assert (B : exists out, md_build dbg k drop mono (m :: if Bool.eqb d true then c1 else c2) ((if Bool.eqb d true then c2 else c1) ++ [mx]) = Ok out /\ Forall (fun e => oriented (fst e) (map pos (snd e))) out).
    { destruct d; cbn [Bool.eqb]; apply (build_convex_crossing k drop mono good pos K KD); try assumption; try lia; auto. }
    destruct B as (out & B1 & B2). rewrite B1. cbn [rbind]. destruct d; (eexists; split; [reflexivity|]); [|exact B2]. rewrite Forall_map. eapply Forall_impl; [|exact B2]. intros e He. apply oriented_flip. exact He. }
  destruct (Qeq_dec (tn m f1 f2) 0) as [T0|T0].
  - assert (N1 : ~ qp2_eq (pos f1) (pos m)) by (intros (C & _); specialize (M1 _ Hf1); lra). assert (N2 : ~ qp2_eq (pos f2) (pos m)) by (intros (C & _); specialize (M2 _ Hf2); lra).
    pose proof (detect_loop k drop mono good pos KD KR dbg m f1 f2 r1 r2 Gm Gf1 Gf2 T0 N1 N2) as DL. rewrite <- E1, <- E2 in DL.
    destruct (Exists_dec (fun v => k_twist k drop m f1 v <> 0%Z) ((c1 ++ [mx]) ++ c2 ++ [mx])) as [EX|NX]; [intros v; destruct (Z.eq_dec (k_twist k drop m f1 v) 0); [right|left]; tauto| |].
    + apply Exists_exists in EX. destruct EX as (v & Hv & Nv). apply in_app_iff in Hv.
      destruct (loop_finds k drop mono good pos KR dbg m f1 mx v Nv) with (c1 := c1) (c2 := c2) as (b & B); try assumption; try (eapply sorted_tail; eassumption).
      { rewrite !in_app_iff in Hv. destruct Hv as [[Hv|[Hv|[]]]|[Hv|[Hv|[]]]]; auto. }
      apply (SOME b); [|rewrite DL; exact B]. destruct c1; [destruct c2|]; cbn [length]; try lia. exfalso. cbn in E1, E2, Hv. injection E1 as <- _. assert (v = mx) as -> by intuition congruence.
      apply Nv. apply (twist_zero k drop good pos KD); try assumption. unfold turn, qcross2, qsub2; cbn. ring.
    + assert (Z : forall v, In v (c1 ++ [mx]) \/ In v (c2 ++ [mx]) -> k_twist k drop m f1 v = 0%Z). { intros v Hv. destruct (Z.eq_dec (k_twist k drop m f1 v) 0) as [Q|Q]; [exact Q|]. exfalso. apply NX. apply Exists_exists. exists v. split; [apply in_app_iff; exact Hv|exact Q]. }
      rewrite (loop_flat_strict dbg m f1 mx c1 c2 F1 F2 (sorted_tail pos _ _ S1) (sorted_tail pos _ _ S2) L2 Z) in DL.
      unfold od_build. rewrite DL. cbn [rbind]. eexists. split; [reflexivity|]. constructor; [|constructor]. cbn [fst snd]. right. right. split; [reflexivity|].
      rewrite (removelast_last (m :: c1) mx : removelast (m :: c1 ++ [mx]) = m :: c1). cbn [tl]. intros a b c Ha Hb Hc.
      assert (ON : forall q, In q (map pos (rev (m :: c1) ++ c2 ++ [mx])) -> turn (pos m) (pos f1) q == 0).
      { intros q Hq. apply in_map_iff in Hq. destruct Hq as (p & <- & Hp). apply in_app_iff in Hp. rewrite <- in_rev in Hp. destruct Hp as [[<-|Hp]|Hp].
        - unfold turn, qcross2, qsub2; cbn. ring.
        - apply (twist_zero k drop good pos KD); try assumption; [apply (IN p); left; apply in_or_app; left; exact Hp|apply Z; left; apply in_or_app; left; exact Hp].
        - apply (twist_zero k drop good pos KD); try assumption; [apply (IN p); right; exact Hp|apply Z; right; exact Hp]. }
      specialize (M1 _ Hf1). pose proof (ON a Ha) as A. pose proof (ON b Hb) as B. pose proof (ON c Hc) as C. unfold turn, qcross2, qsub2 in A, B, C |- *; cbn in A, B, C |- *.
      set (dx := X f1 - X m) in *. set (dy := qy2 (pos f1) - qy2 (pos m)) in *.
      assert (YE : forall q, dx * (qy2 q - qy2 (pos m)) - dy * (qx2 q - qx2 (pos m)) == 0 -> dx * qy2 q == dx * qy2 (pos m) + dy * (qx2 q - qx2 (pos m))) by (intros q; lra).
      pose proof (YE a A) as YA. pose proof (YE b B) as YB. pose proof (YE c C) as YC.
      assert (RES : dx * ((qx2 b - qx2 a) * (qy2 c - qy2 a) - (qy2 b - qy2 a) * (qx2 c - qx2 a)) == 0).
      { transitivity ((qx2 b - qx2 a) * (dx * qy2 c - dx * qy2 a) - (dx * qy2 b - dx * qy2 a) * (qx2 c - qx2 a)); [ring|]. rewrite YA, YB, YC. ring. }
      apply Qmult_integral in RES. destruct RES as [RES|RES]; [unfold dx in RES; lra|exact RES].
  - pose proof (detect_apart k drop mono good pos KD KR dbg m f1 f2 r1 r2 Gm Gf1 Gf2 T0) as DL. rewrite <- E1, <- E2 in DL. apply (SOME _) in DL; [exact DL|].
    destruct c1; [destruct c2|]; cbn [length]; try lia. exfalso. cbn in E1, E2. injection E1 as <- _. injection E2 as <- _. apply T0. unfold turn, qcross2, qsub2; cbn. ring.
Qed.
End Flat.
(** ** The point types *)
Lemma keyed_le {P} (k : kind P) mono v key a b : keyed k mono v key -> In a v -> In b v -> (k_compare k mono a b <= 0)%Z <-> key a <= key b.
Proof. intros K A B. specialize (K a b A B). unfold Z.le. rewrite K, <- Qle_alt. reflexivity. Qed.
Lemma kind_orient_point3 drop mono : (drop < 3)%nat -> (mono < 3)%nat -> mono <> drop -> kind_orient kind_point3 mono (fun _ => True) (fun p => seen drop mono (qpt p)).
Proof.
  intros H1 H2 H3. constructor.
  - intros a b _ _. rewrite !seen_x by assumption. rewrite (keyed_le _ mono [a; b] _ a b (keyed_point3 mono [a; b])) by (cbn; tauto). destruct mono as [|[|[|]]]; try lia; reflexivity.
  - intros a _. apply v3_eq_true. repeat split.
Qed.
Lemma kind_orient_homo3 drop mono (s : Z) : (drop < 3)%nat -> (mono < 3)%nat -> mono <> drop -> kind_orient kind_homo3 mono (fun p => 0 < s * hw p)%Z (fun p => seen drop mono (hp_point p)).
Proof.
  intros H1 H2 H3. constructor.
  - intros a b Ga Gb. rewrite !seen_x by assumption. apply (keyed_le kind_homo3 mono [a; b] (fun p => qcomp (hp_point p) mono) a b); [|left; reflexivity|right; left; reflexivity]. apply keyed_homo3. intros p [<-|[<-|[]]]; nia.
  - intros a Ga. apply (hp_eq_spec a a (hp_point a) (hp_point a)); try (apply hp_point_denotes; nia). repeat split; reflexivity.
Qed.
(** ** Copies of the minimum *)
Lemma twist_min_l drop m p : k_twist kind_point3 drop m m p = 0%Z.
Proof. cbn [k_twist kind_point3]. unfold p3_twist, p2_twist. match goal with |- zget_sign ?e = _ => replace e with 0%Z by (unfold v2_cross, v2_sub; cbn [x2 y2]; ring) end. reflexivity. Qed.
Lemma twist_min_r drop m p : k_twist kind_point3 drop m p m = 0%Z.
Proof. cbn [k_twist kind_point3]. unfold p3_twist, p2_twist. match goal with |- zget_sign ?e = _ => replace e with 0%Z by (unfold v2_cross, v2_sub; cbn [x2 y2]; ring) end. reflexivity. Qed.
Lemma v3_differ a b : a <> b -> v3_eq a b = false.
Proof. intros N. destruct (v3_eq a b) eqn:E; [|reflexivity]. apply v3_eq_true in E. destruct a, b; cbn in E. destruct E as (-> & -> & ->). congruence. Qed.
Lemma v3_same a : v3_eq a a = true.
Proof. apply v3_eq_true. repeat split. Qed.
Lemma skip_repeat m n f r : f <> m -> od_skip kind_point3 m (repeat m n ++ f :: r) = f :: r.
Proof. intros N. induction n as [|n IH]; cbn [repeat app od_skip k_equal kind_point3]; [rewrite (v3_differ _ _ N); reflexivity|]. rewrite v3_same. exact IH. Qed.
Lemma detect_repeated dbg drop mono m n1 n2 f1 r1 f2 r2 : f1 <> m -> f2 <> m ->
  od_detect dbg kind_point3 drop mono (m :: repeat m n1 ++ f1 :: r1) (m :: repeat m n2 ++ f2 :: r2) = od_detect dbg kind_point3 drop mono (m :: f1 :: r1) (m :: f2 :: r2).
Proof.
  intros N1 N2. destruct n1 as [|n1]; [destruct n2 as [|n2]; [reflexivity|]|].
  all: unfold od_detect; cbn [k_equal kind_point3]; rewrite v3_same.
  - cbn [repeat app]. rewrite twist_min_r. cbn [Z.eqb negb]. change (m :: repeat m n2 ++ f2 :: r2) with (repeat m (S n2) ++ f2 :: r2). rewrite (skip_repeat m (S n2) f2 r2 N2).
    cbn [od_skip k_equal kind_point3]. rewrite (v3_differ _ _ N1), (v3_differ _ _ N2), v3_same. cbn [orb]. destruct (k_twist kind_point3 drop m f1 f2 =? 0)%Z eqn:T; destruct dbg; reflexivity.
  - destruct n2 as [|n2].
    + cbn [repeat app]. rewrite twist_min_l. cbn [Z.eqb negb]. change (m :: repeat m n1 ++ f1 :: r1) with (repeat m (S n1) ++ f1 :: r1). rewrite (skip_repeat m (S n1) f1 r1 N1).
      cbn [od_skip k_equal kind_point3]. rewrite (v3_differ _ _ N1), (v3_differ _ _ N2), v3_same. cbn [orb]. destruct (k_twist kind_point3 drop m f1 f2 =? 0)%Z eqn:T; destruct dbg; reflexivity.
    + cbn [repeat app]. rewrite twist_min_l. cbn [Z.eqb negb]. change (m :: repeat m n1 ++ f1 :: r1) with (repeat m (S n1) ++ f1 :: r1). change (m :: repeat m n2 ++ f2 :: r2) with (repeat m (S n2) ++ f2 :: r2). rewrite (skip_repeat m (S n1) f1 r1 N1), (skip_repeat m (S n2) f2 r2 N2).
      cbn [od_skip k_equal kind_point3]. rewrite (v3_differ _ _ N1), (v3_differ _ _ N2), v3_same. cbn [orb]. destruct (k_twist kind_point3 drop m f1 f2 =? 0)%Z eqn:T; destruct dbg; reflexivity.
Qed.

Lemma twist_same drop m x : k_twist kind_point3 drop m m x = 0%Z.
Proof. cbn [k_twist kind_point3]. unfold p3_twist, p2_twist, v2_cross, v2_sub. cbn [x2 y2]. match goal with |- zget_sign ?e = _ => replace e with 0%Z by ring end. reflexivity. Qed.
Lemma detect_constant dbg drop mono m n c2 : od_detect dbg kind_point3 drop mono (m :: repeat m (S n)) (m :: c2 ++ [m]) = Ok None.
Proof.
  unfold od_detect. cbn [repeat]. assert (E : k_equal kind_point3 m m = true) by apply v3_same. rewrite E. assert (N : exists f r, c2 ++ [m] = f :: r) by (destruct c2; eexists; eexists; reflexivity). destruct N as (f & r & ->).
  rewrite twist_same. cbn [od_skip]. rewrite E. replace (od_skip kind_point3 m (repeat m n)) with (@nil vec3) by (induction n as [|n IH]; [reflexivity|cbn [repeat od_skip]; rewrite E; exact IH]). destruct dbg; reflexivity.
Qed.
