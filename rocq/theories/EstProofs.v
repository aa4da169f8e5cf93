(** MLogNEstimator: no history, lower and upper bounds. *)
From Coq Require Import ZArith List Bool Lia ZifyBool.
From Verif Require Import WordModel BigUIntModel EstModel EstSpec.
Import ListNotations.
Open Scope Z_scope.

Definition good_state (last : Z) : Prop := 0 <= last.
Lemma last_bits last n : good_state last -> 0 < n ->
  (if negb (Z.shiftr n last =? 1) then whighest_set_bit n - 1 else last) = Z.log2 n.
Proof.
  intros G H. unfold good_state in G. destruct (Z.eqb_spec (Z.shiftr n last) 1) as [E|E]; cbn [negb].
  - rewrite Z.shiftr_div_pow2 in E by exact G. symmetry. apply Z.log2_unique; [exact G|].
    pose proof (Z.pow_pos_nonneg 2 last ltac:(lia) G) as P. pose proof (Z.div_mod n (2 ^ last) ltac:(lia)) as D. pose proof (Z.mod_pos_bound n (2 ^ last) P). rewrite Z.pow_succ_r by exact G. nia.
  - unfold whighest_set_bit. destruct (Z.eqb_spec n 0); lia.
Qed.
Lemma estimate_eq wide last m n : good_state last -> 0 <= m < 2 ^ 64 -> 0 < n < 2 ^ 64 -> wide = true \/ m * n < 2 ^ 64 ->
  estimate wide last m n = Ok (Z.log2 n, (interpolation m n) mod 2 ^ 64).
Proof.
  intros G M N W. unfold estimate. cbv zeta. rewrite (last_bits last n G (proj1 N)). pose proof (Z.log2_nonneg n) as L. destruct (Z.ltb_spec (Z.log2 n) 0); [lia|].
  replace (if wide then m * n else size_mod (m * n)) with (m * n) by (destruct W as [->|W]; [reflexivity|destruct wide; [reflexivity|unfold size_mod; rewrite Z.mod_small; [reflexivity|nia]]]).
  f_equal. f_equal. unfold size_mod, interpolation. rewrite Z.shiftr_div_pow2 by exact L. rewrite Z.mul_mod_idemp_r by discriminate. rewrite <- Z.add_mod by discriminate. reflexivity.
Qed.
Lemma estimate_zero wide last m : good_state last -> estimate wide last m 0 = UB.
Proof. intros G. unfold estimate. cbv zeta. rewrite Z.shiftr_0_l. reflexivity. Qed.
(** The interpolation value. *)
Lemma log2_bounds n : 0 < n -> 2 ^ Z.log2 n <= n < 2 * 2 ^ Z.log2 n.
Proof. intros H. pose proof (Z.log2_spec n H) as S. rewrite Z.pow_succ_r in S by apply Z.log2_nonneg. exact S. Qed.
Lemma interpolation_nonneg m n : 0 <= m -> 0 < n -> 0 <= interpolation m n.
Proof.
  intros M N. unfold interpolation. pose proof (log2_bounds n N) as B. pose proof (Z.log2_nonneg n) as L. pose proof (Z.pow_pos_nonneg 2 (Z.log2 n) ltac:(lia) L) as P.
  assert (m <= m * n / 2 ^ Z.log2 n) by (apply Z.div_le_lower_bound; nia). nia.
Qed.
Lemma interpolation_floor m n : 0 <= m -> 0 < n -> let k := Z.log2 n in let v := interpolation m n in
  2 ^ k * v <= m * n + m * (k - 1) * 2 ^ k < 2 ^ k * (v + 1).
Proof.
  intros M N k v. unfold v, interpolation. fold k. assert (P : 0 < 2 ^ k) by (apply Z.pow_pos_nonneg; [lia|apply Z.log2_nonneg]).
  pose proof (Z.div_mod (m * n) (2 ^ k) ltac:(lia)) as D. pose proof (Z.mod_pos_bound (m * n) (2 ^ k) P). nia.
Qed.
Lemma interpolation_pow2 m k : 0 <= m -> 0 <= k -> interpolation m (2 ^ k) = m * k.
Proof. intros M K. unfold interpolation. rewrite Z.log2_pow2 by exact K. rewrite Z.div_mul by (apply Z.pow_nonzero; lia). ring. Qed.

(** Upper bound.  The integer form of 2^f <= 1 + f for 0 <= f = a/P <= 1 is
    2^a P^P <= (P + a)^P.  The quotient of consecutive right-hand sides is
    decreasing in a and both sides agree at a = 0 and a = P. *)
Definition grows (P a : Z) : Prop := 2 * (P + a) ^ P <= (P + a + 1) ^ P.
Lemma grows_mono P a : 0 < P -> 0 <= a -> grows P (a + 1) -> grows P a.
Proof.
  intros HP HA D. unfold grows in *. set (x := P + a) in *. replace (P + (a + 1)) with (x + 1) in D by (unfold x; ring).
  assert (X : 0 < x) by (unfold x; lia). assert (X1 : 0 < (x + 1) ^ P) by (apply Z.pow_pos_nonneg; lia).
  assert (M : (x + 1 + 1) ^ P * x ^ P <= (x + 1) ^ P * (x + 1) ^ P) by (rewrite <- !Z.pow_mul_l; apply Z.pow_le_mono_l; nia).
  assert (Y : 0 <= x ^ P) by (apply Z.pow_nonneg; lia). nia.
Qed.
Lemma grows_below P a b : 0 < P -> 0 <= b <= a -> grows P a -> grows P b.
Proof.
  intros HP [HB HA] D. replace a with (b + (a - b)) in D by ring. assert (H : 0 <= a - b) by lia. revert D. generalize (a - b), H. clear HA H.
  refine (natlike_ind _ _ _); [rewrite Z.add_0_r; tauto|]. intros d Hd IH D. apply IH. apply grows_mono; [exact HP|lia|]. replace (b + d + 1) with (b + Z.succ d) by ring. exact D.
Qed.
Lemma climb P a : 0 < P -> 0 <= a -> (forall b, 0 <= b < a -> grows P b) -> 2 ^ a * P ^ P <= (P + a) ^ P.
Proof.
  intros HP HA. revert a HA. refine (natlike_ind _ _ _); [intros _; rewrite Z.add_0_r; change (2 ^ 0) with 1; lia|].
  intros a HA IH H. specialize (IH (fun b Hb => H b ltac:(lia))). pose proof (H a ltac:(lia)) as D. unfold grows in D. rewrite Z.pow_succ_r by exact HA. replace (P + Z.succ a) with (P + a + 1) by ring. nia.
Qed.
Lemma descend P d : 0 < P -> 0 <= d -> d <= P -> (forall b, P - d <= b < P -> ~ grows P b) -> 2 ^ (P - d) * P ^ P <= (P + (P - d)) ^ P.
Proof.
  intros HP HD. revert d HD. refine (natlike_ind _ _ _).
  - intros _ _. rewrite Z.sub_0_r. replace (P + P) with (2 * P) by ring. rewrite Z.pow_mul_l. lia.
  - intros d HD IH LE H. specialize (IH ltac:(lia) (fun b Hb => H b ltac:(lia))). pose proof (H (P - Z.succ d) ltac:(lia)) as D. unfold grows in D.
    replace (P + (P - Z.succ d) + 1) with (P + (P - d)) in D by lia. replace (P - d) with (Z.succ (P - Z.succ d)) in IH at 1 by lia. rewrite Z.pow_succ_r in IH by lia. lia.
Qed.
Lemma two_power P a : 0 < P -> 0 <= a <= P -> 2 ^ a * P ^ P <= (P + a) ^ P.
Proof.
  intros HP HA. destruct (Z_le_gt_dec (2 * (P + a) ^ P) ((P + a + 1) ^ P)) as [D|D].
  - apply climb; [exact HP|lia|]. intros b Hb. apply (grows_below P a b HP); [lia|exact D].
  - replace a with (P - (P - a)) by ring. apply descend; try lia. intros b Hb G. apply (grows_below P b a HP) in G; [|lia]. unfold grows in G. lia.
Qed.
Lemma pow_cancel x y P : 0 <= x -> 0 <= y -> 0 < P -> x ^ P <= y ^ P -> x <= y.
Proof. intros HX HY HP H. apply Z.le_ngt. intros L. pose proof (Z.pow_lt_mono_l y x P HP (conj HY L)). lia. Qed.
Lemma concave_step P n m j : 0 < P -> P <= n <= 2 * P -> 0 <= m -> 0 <= j -> j * P <= m * (n - P) -> 2 ^ j * P ^ m <= n ^ m.
Proof.
  intros HP HN HM HJ H. apply (pow_cancel _ _ P); [apply Z.mul_nonneg_nonneg; apply Z.pow_nonneg; lia|apply Z.pow_nonneg; lia|exact HP|].
  rewrite Z.pow_mul_l, <- !Z.pow_mul_r by lia.
  pose proof (two_power P (n - P) HP ltac:(lia)) as T. replace (P + (n - P)) with n in T by ring.
  assert (T2 : (2 ^ (n - P) * P ^ P) ^ m <= (n ^ P) ^ m).
  { apply Z.pow_le_mono_l. split; [apply Z.mul_nonneg_nonneg; apply Z.pow_nonneg; lia|exact T]. }
  rewrite Z.pow_mul_l, <- !Z.pow_mul_r in T2 by lia. replace (m * P) with (P * m) by ring.
  assert (T3 : 2 ^ (j * P) <= 2 ^ ((n - P) * m)) by (apply Z.pow_le_mono_r; lia).
  assert (T4 : 0 <= P ^ (P * m)) by (apply Z.pow_nonneg; lia). nia.
Qed.
Lemma interpolation_at_most m n : 0 <= m -> 0 < n -> at_most_mlogn (interpolation m n) m n.
Proof.
  intros M N. unfold at_most_mlogn. pose proof (interpolation_floor m n M N) as F. cbv zeta in F. pose proof (log2_bounds n N) as B. pose proof (Z.log2_nonneg n) as L.
  set (k := Z.log2 n) in *. set (P := 2 ^ k) in *. assert (HP : 0 < P) by (apply Z.pow_pos_nonneg; lia).
  assert (LB : m * k <= interpolation m n).
  { unfold interpolation. fold k P. assert (m <= m * n / P) by (apply Z.div_le_lower_bound; nia). nia. }
  pose proof (concave_step P n m (interpolation m n - m * k) HP ltac:(lia) M ltac:(lia) ltac:(nia)) as C.
  replace (interpolation m n) with ((interpolation m n - m * k) + k * m) by ring. rewrite Z.pow_add_r by nia. rewrite (Z.pow_mul_r 2 k m) by lia. exact C.
Qed.

(** ** Lower bound *)
(** For 1 + j/40 <= n/2^k < 1 + (j+1)/40:
    n^967 <= 2^(967 k + 25 j + 99). *)
(** Large powers are compared through small ones, so that the kernel evaluates
    only the latter. *)
Lemma via_small e x f c b a : 0 <= e -> 0 < b -> 0 <= a -> 0 <= c -> 0 < x -> 0 < f -> x ^ b <= f ^ b * 2 ^ a -> e * a <= b * c -> x ^ e <= f ^ e * 2 ^ c.
Proof.
  intros E B A C X F H L. apply (pow_cancel _ _ b); [apply Z.pow_nonneg; lia|apply Z.mul_nonneg_nonneg; apply Z.pow_nonneg; lia|exact B|].
  rewrite Z.pow_mul_l, <- !Z.pow_mul_r by lia. replace (e * b) with (b * e) by ring. rewrite (Z.pow_mul_r x), (Z.pow_mul_r f) by lia.
  assert (T : (x ^ b) ^ e <= (f ^ b * 2 ^ a) ^ e) by (apply Z.pow_le_mono_l; split; [apply Z.pow_nonneg; lia|exact H]).
  rewrite Z.pow_mul_l, <- (Z.pow_mul_r 2) in T by lia. apply (Z.le_trans _ _ _ T). apply Z.mul_le_mono_nonneg_l; [apply Z.pow_nonneg, Z.pow_nonneg; lia|]. apply Z.pow_le_mono_r; lia.
Qed.
Lemma via_small_two e x c b a : 0 <= e -> 0 < b -> 0 <= a -> 0 <= c -> 0 < x -> (x ^ b <=? 2 ^ a) = true -> e * a <= b * c -> x ^ e <= 2 ^ c.
Proof.
  intros E B A C X H L. apply Z.leb_le in H. pose proof (via_small e x 1 c b a E B A C X ltac:(lia)) as V. rewrite !Z.pow_1_l, !Z.mul_1_l in V by lia. exact (V H L).
Qed.
Definition table_list : list (Z * Z) := [(10, 1); (8, 1); (7, 1); (6, 1); (5, 1); (9, 2); (4, 1); (11, 3); (10, 3); (3, 1); (14, 5); (13, 5); (17, 7); (16, 7); (13, 6); (35, 17); (33, 17); (13, 7); (16, 9); (17, 10); (13, 8); (11, 7); (3, 2); (13, 9); (7, 5); (11, 8); (4, 3); (5, 4); (5, 4); (6, 5); (6, 5); (7, 6); (8, 7); (9, 8); (11, 10); (1, 1); (1, 1); (1, 1); (1, 1); (1, 1)].
Definition table_entry (e : Z) (j : nat) (ba : Z * Z) : bool :=
  let (b, a) := ba in (0 <? b) && (0 <=? a) && ((41 + Z.of_nat j) ^ b <=? 40 ^ b * 2 ^ a) && (e * a <=? b * (25 * Z.of_nat j + 99)).
Fixpoint table_check (e : Z) (j : nat) (l : list (Z * Z)) : bool := match l with [] => true | ba :: l => table_entry e j ba && table_check e (S j) l end.
Lemma table : table_check 967 0 table_list = true.
Proof. vm_compute. reflexivity. Qed.
Lemma table_nth e l : forall k j, table_check e k l = true -> (j < length l)%nat -> exists ba, table_entry e (k + j) ba = true.
Proof.
  induction l as [|ba l IH]; intros k j H L; [cbn in L; lia|]. cbn [table_check] in H. apply andb_true_iff in H. destruct H as [A B]. destruct j as [|j]; [exists ba; rewrite Nat.add_0_r; exact A|].
  destruct (IH (S k) j B) as [ba' Q]; [cbn in L; lia|]. exists ba'. replace (k + S j)%nat with (S k + j)%nat by lia. exact Q.
Qed.
Lemma table_at j : 0 <= j < 40 -> (41 + j) ^ 967 <= 40 ^ 967 * 2 ^ (25 * j + 99).
Proof.
  intros H. destruct (table_nth 967 table_list 0 (Z.to_nat j) table) as [[b a] Q]; [change (length table_list) with 40%nat; lia|].
  unfold table_entry in Q. rewrite Nat.add_0_l, Z2Nat.id in Q by lia. rewrite !andb_true_iff, Z.ltb_lt, !Z.leb_le in Q. destruct Q as [[[B A] T] L].
  apply (via_small 967 (41 + j) 40 (25 * j + 99) b a); lia || exact T || exact L.
Qed.
Lemma cancel_table f p c t x : 0 < f -> 0 <= p -> t <= f * c -> f * x <= t * p -> x <= p * c.
Proof. intros F P T X. nia. Qed.
(** The exponent is kept abstract so that no tactic evaluates the powers. *)
Lemma power_bound e P n j : 0 <= e -> (41 + j) ^ e <= 40 ^ e * 2 ^ (25 * j + 99) -> 0 < P -> 0 < n -> 0 <= j < 40 -> 40 * n <= (41 + j) * P ->
  n ^ e <= P ^ e * 2 ^ (25 * j + 99).
Proof.
  intros E T HP HN HJ H. assert (A : (40 * n) ^ e <= ((41 + j) * P) ^ e) by (apply Z.pow_le_mono_l; lia). rewrite !Z.pow_mul_l in A.
  apply (cancel_table (40 ^ e) (P ^ e) _ ((41 + j) ^ e)); [apply Z.pow_pos_nonneg; lia|apply Z.pow_nonneg; lia|exact T|exact A].
Qed.
Lemma scaled_bound e b m n v : 0 <= e -> 0 < n -> 0 <= m -> 0 <= b -> n ^ e <= 2 ^ b -> b * m <= 1000 * (v + 1) -> n ^ (e * m) <= 2 ^ (1000 * (v + 1)).
Proof.
  intros E HN HM HB H L. rewrite Z.pow_mul_r by lia. apply Z.le_trans with ((2 ^ b) ^ m).
  - apply Z.pow_le_mono_l. split; [apply Z.pow_nonneg; lia|exact H].
  - rewrite <- Z.pow_mul_r by lia. apply Z.pow_le_mono_r; lia.
Qed.
Lemma interpolation_near_large e m n : 0 <= e <= 967 -> (forall j, 0 <= j < 40 -> (41 + j) ^ e <= 40 ^ e * 2 ^ (25 * j + 99)) ->
  0 <= m -> 0 < n -> 3 <= Z.log2 n -> n ^ (e * m) <= 2 ^ (1000 * (interpolation m n + 1)).
Proof.
  intros E TB M N K. pose proof (interpolation_floor m n M N) as F. cbv zeta in F. pose proof (log2_bounds n N) as B.
  set (k := Z.log2 n) in *. set (v := interpolation m n) in *.
  remember (2 ^ k) as P eqn:EP. assert (HP : 0 < P) by (rewrite EP; apply Z.pow_pos_nonneg; lia).
  set (j := 40 * (n - P) / P). assert (J : j * P <= 40 * (n - P) < (j + 1) * P) by (unfold j; pose proof (Z.div_mod (40 * (n - P)) P); pose proof (Z.mod_pos_bound (40 * (n - P)) P); nia).
  assert (J0 : 0 <= j < 40) by (split; [unfold j; apply Z.div_pos; lia|nia]).
  pose proof (power_bound e P n j (proj1 E) (TB j J0) HP N J0 ltac:(nia)) as T. rewrite EP in T. rewrite <- Z.pow_mul_r, <- Z.pow_add_r in T by nia.
  apply (scaled_bound e (k * e + (25 * j + 99)) m n v); [lia|exact N|exact M|nia|exact T|].
  assert (A : m * (j * P) <= m * (40 * (n - P))) by (apply Z.mul_le_mono_nonneg_l; lia).
  assert (C : m * j <= 40 * (v + 1 - m * k)) by (apply Z.le_ngt; intros Q; nia).
  assert (D : (k * e + (25 * j + 99)) * m <= (1000 * k + 25 * j) * m) by (apply Z.mul_le_mono_nonneg_r; [exact M|nia]). lia.
Qed.
Lemma interpolation_near_small e m n b : 0 <= e -> n ^ e <= 2 ^ b -> 0 <= m -> 0 < n -> 0 <= b ->
  b * 2 ^ Z.log2 n <= 1000 * (n + (Z.log2 n - 1) * 2 ^ Z.log2 n) -> n ^ (e * m) <= 2 ^ (1000 * (interpolation m n + 1)).
Proof.
  intros E T M N B0 L. apply (scaled_bound e b m n (interpolation m n)); try assumption. pose proof (interpolation_floor m n M N) as F. cbv zeta in F.
  pose proof (Z.pow_pos_nonneg 2 (Z.log2 n) ltac:(lia) (Z.log2_nonneg n)) as P. generalize dependent (2 ^ Z.log2 n). intros p L F P.
  apply (Z.mul_le_mono_nonneg_r _ _ m M) in L. apply Z.le_ngt. intros Q. nia.
Qed.
Lemma interpolation_three m : 0 <= m -> interpolation m 3 = m + m / 2.
Proof. intros M. unfold interpolation. change (2 ^ Z.log2 3) with 2. change (Z.log2 3 - 1) with 0. Z.div_mod_to_equations. lia. Qed.
Lemma near_three e m : 0 <= e -> 3 ^ e <= 2 ^ 1533 -> 0 <= m <= 15 -> 3 ^ (e * m) <= 2 ^ (1000 * (interpolation m 3 + 1)).
Proof. intros E T M. rewrite interpolation_three by lia. apply (scaled_bound e 1533 m 3 _ E); [lia|lia|lia|exact T|clear T; Z.div_mod_to_equations; lia]. Qed.
Lemma small_cases n : 0 < n -> Z.log2 n < 3 -> n = 1 \/ n = 2 \/ n = 3 \/ n = 4 \/ n = 5 \/ n = 6 \/ n = 7.
Proof. intros N K. pose proof (proj2 (Z.log2_lt_pow2 n 3 N) K) as Q. change (2 ^ 3) with 8 in Q. lia. Qed.
Lemma range967 : 0 <= 967 <= 967.
Proof. lia. Qed.
Lemma interpolation_near m n : 0 <= m -> 0 < n -> (n = 3 -> m <= 15) -> fraction_mlogn_at_most 967 1000 m n (interpolation m n + 1).
Proof.
  intros M N H3. unfold fraction_mlogn_at_most. destruct (Z_le_gt_dec 3 (Z.log2 n)) as [K|K].
  - exact (interpolation_near_large 967 m n range967 table_at M N K).
  - apply Z.gt_lt in K. destruct (small_cases n N K) as [->|[->|[->|[->|[->|[->| ->]]]]]].
    + apply (interpolation_near_small 967 m 1 0 (proj1 range967)); [apply (via_small_two 967 1 0 1 0); (discriminate || reflexivity)|exact M|exact N|discriminate|discriminate].
    + apply (interpolation_near_small 967 m 2 1000 (proj1 range967)); [apply (via_small_two 967 2 1000 1 1); (discriminate || reflexivity)|exact M|exact N|discriminate|discriminate].
    + apply (near_three 967 m (proj1 range967)); [apply (via_small_two 967 3 1533 94 149); (discriminate || reflexivity)|exact (conj M (H3 eq_refl))].
    + apply (interpolation_near_small 967 m 4 2000 (proj1 range967)); [apply (via_small_two 967 4 2000 1 2); (discriminate || reflexivity)|exact M|exact N|discriminate|discriminate].
    + apply (interpolation_near_small 967 m 5 2250 (proj1 range967)); [apply (via_small_two 967 5 2250 31 72); (discriminate || reflexivity)|exact M|exact N|discriminate|discriminate].
    + apply (interpolation_near_small 967 m 6 2500 (proj1 range967)); [apply (via_small_two 967 6 2500 94 243); (discriminate || reflexivity)|exact M|exact N|discriminate|discriminate].
    + apply (interpolation_near_small 967 m 7 2750 (proj1 range967)); [apply (via_small_two 967 7 2750 6 17); (discriminate || reflexivity)|exact M|exact N|discriminate|discriminate].
Qed.
(** ** Any history *)
Definition call_ok (c : Z * Z) : Prop := 0 <= fst c < 2 ^ 64 /\ 0 < snd c < 2 ^ 64.
Lemma estimates_eq calls : forall last, good_state last -> Forall call_ok calls ->
  exists last', good_state last' /\ estimates true last calls = Ok (last', map (fun c => interpolation (fst c) (snd c) mod 2 ^ 64) calls).
Proof.
  induction calls as [|[m n] r IH]; intros last G H; [exists last; split; [exact G|reflexivity]|].
  apply Forall_cons_iff in H as [[Hm Hn] H]. cbn [fst snd] in *. cbn [estimates map fst snd]. rewrite (estimate_eq true last m n G Hm Hn (or_introl eq_refl)). cbn [rbind fst snd].
  destruct (IH (Z.log2 n) (Z.log2_nonneg n) H) as (l & GL & E). rewrite E. cbn [rbind fst snd]. exists l. split; [exact GL|reflexivity].
Qed.
Lemma estimates_zero calls m r : forall last, good_state last -> Forall call_ok calls -> estimates true last (calls ++ (m, 0) :: r) = UB.
Proof.
  induction calls as [|[m' n'] t IH]; intros last G H.
  - cbn [app estimates]. rewrite estimate_zero by exact G. reflexivity.
  - apply Forall_cons_iff in H as [[Hm Hn] H]. cbn [fst snd] in *. cbn [app estimates]. rewrite (estimate_eq true last m' n' G Hm Hn (or_introl eq_refl)). cbn [rbind fst snd]. rewrite (IH _ (Z.log2_nonneg n') H). reflexivity.
Qed.
Lemma estimates_app a : forall last b, estimates true last (a ++ b) = x <- estimates true last a ;; y <- estimates true (fst x) b ;; Ok (fst y, snd x ++ snd y).
Proof.
  induction a as [|[m n] a IH]; intros last b.
  - cbn [app estimates rbind fst snd]. destruct (estimates true last b) as [[l v]| | |]; reflexivity.
  - cbn [app estimates]. destruct (estimate true last m n) as [[l v]| | |]; cbn [rbind fst snd]; try reflexivity. rewrite IH.
    destruct (estimates true l a) as [[l' v']| | |]; cbn [rbind fst snd]; try reflexivity. destruct (estimates true l' b) as [[l2 v2]| | |]; reflexivity.
Qed.
(** ** GetSplitCost *)
Definition split_ok (total exclude : Z) : Prop := 0 <= exclude <= total /\ total < 2 ^ 64 - 1.
Lemma split_count total exclude : split_ok total exclude -> size_mod (size_mod (total - exclude) + 1) = total - exclude + 1.
Proof. intros [H L]. unfold size_mod. rewrite (Z.mod_small (total - exclude)) by lia. apply Z.mod_small. lia. Qed.
Lemma split_cost_eq nt ne pt pe : split_ok nt ne -> split_ok pt pe ->
  split_cost true nt ne pt pe = Ok ((interpolation nt (nt - ne + 1) + interpolation pt (pt - pe + 1)) mod 2 ^ 64).
Proof.
  intros N P. unfold split_cost. rewrite !split_count by assumption. destruct N as [N N'], P as [P P'].
  rewrite estimate_eq; [|unfold good_state, estimator_init; lia|lia|lia|left; reflexivity]. cbn [rbind fst snd].
  rewrite estimate_eq; [|apply Z.log2_nonneg|lia|lia|left; reflexivity]. cbn [rbind fst snd]. unfold size_mod. rewrite <- Z.add_mod by discriminate. reflexivity.
Qed.
Lemma split_cost_ub nt ne pt pe : 0 <= nt < 2 ^ 64 -> 0 <= ne < 2 ^ 64 -> 0 <= pt < 2 ^ 64 -> 0 <= pe < 2 ^ 64 ->
  (split_cost true nt ne pt pe = UB <-> (nt - ne + 1) mod 2 ^ 64 = 0 \/ (pt - pe + 1) mod 2 ^ 64 = 0).
Proof.
  intros N NE P PE. unfold split_cost.
  assert (S : forall a b, size_mod (size_mod (a - b) + 1) = (a - b + 1) mod 2 ^ 64) by (intros a b; unfold size_mod; rewrite Z.add_mod_idemp_l by discriminate; reflexivity).
  rewrite !S. pose proof (Z.mod_pos_bound (nt - ne + 1) (2 ^ 64) ltac:(lia)) as B1. pose proof (Z.mod_pos_bound (pt - pe + 1) (2 ^ 64) ltac:(lia)) as B2.
  generalize dependent ((nt - ne + 1) mod 2 ^ 64). generalize dependent ((pt - pe + 1) mod 2 ^ 64). intros b B2 a B1.
  destruct (Z.eq_dec a 0) as [->|A0].
  { rewrite estimate_zero by (unfold good_state, estimator_init; lia). cbn [rbind]. tauto. }
  rewrite estimate_eq; [|unfold good_state, estimator_init; lia|lia|lia|left; reflexivity]. cbn [rbind fst snd].
  destruct (Z.eq_dec b 0) as [->|B0].
  { rewrite estimate_zero by apply Z.log2_nonneg. cbn [rbind]. tauto. }
  rewrite estimate_eq; [|apply Z.log2_nonneg|lia|lia|left; reflexivity]. cbn [rbind fst snd]. split; [discriminate|lia].
Qed.
(** Comparing large powers through smaller ones. *)
Lemma power_gap e b r n t : (0 <=? e) && (0 <=? b) && (0 <? r) && (0 <? n) = true -> (2 ^ b <? n ^ e) = true -> (t <=? b * r) = true -> 2 ^ t < n ^ (e * r).
Proof.
  rewrite !andb_true_iff, !Z.leb_le, !Z.ltb_lt. intros [[[E B] R] N] H T. apply Z.le_lt_trans with (2 ^ (b * r)); [apply Z.pow_le_mono_r; lia|].
  rewrite !Z.pow_mul_r by lia. apply Z.pow_lt_mono_l; [exact R|]. split; [apply Z.pow_nonneg; lia|exact H].
Qed.
Lemma three_gap e b m v : 0 <= e -> 0 <= b -> 0 < m -> 2 ^ b < 3 ^ e -> 1000 * v <= b * m -> 2 ^ (1000 * v) < 3 ^ (e * m).
Proof.
  intros E B M H T. apply power_gap with b; [rewrite !andb_true_iff, !Z.leb_le, !Z.ltb_lt; repeat split; lia|apply Z.ltb_lt; exact H|apply Z.leb_le; exact T].
Qed.
Lemma three_power : 2 ^ 1532 < 3 ^ 967.
Proof.
  assert (G : forall e c, 0 <= e -> 0 <= c -> 53 * c <= 84 * e -> 0 < e -> 2 ^ c < 3 ^ e).
  { intros e c E C L E0. apply Z.nle_gt. intros H.
    assert (H2 : (3 ^ e) ^ 53 <= (2 ^ c) ^ 53) by (apply Z.pow_le_mono_l; split; [apply Z.pow_nonneg; lia|exact H]).
    rewrite <- !Z.pow_mul_r in H2 by lia. replace (e * 53) with (53 * e) in H2 by ring. rewrite (Z.pow_mul_r 3) in H2 by lia.
    assert (H3 : 2 ^ (c * 53) <= 2 ^ (84 * e)) by (apply Z.pow_le_mono_r; lia). rewrite (Z.pow_mul_r 2 84 e) in H3 by lia.
    assert (H4 : (2 ^ 84) ^ e < (3 ^ 53) ^ e) by (apply Z.pow_lt_mono_l; [exact E0|split; [apply Z.pow_nonneg; lia|reflexivity]]). lia. }
  apply G; reflexivity || discriminate.
Qed.
Lemma three_far m : 32 <= m -> ~ fraction_mlogn_at_most 967 1000 m 3 (interpolation m 3 + 1).
Proof.
  intros M. unfold fraction_mlogn_at_most. apply Z.nle_gt. rewrite interpolation_three by (apply Z.le_trans with 32; [discriminate|exact M]).
  apply (three_gap 967 1532 m (m + m / 2 + 1)); [discriminate|discriminate|apply Z.lt_le_trans with 32; [reflexivity|exact M]|exact three_power|Z.div_mod_to_equations; lia].
Qed.
