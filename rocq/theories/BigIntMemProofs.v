(** In-place operators: refinement of the storage-level code to the list-level
    model, and exactness. *)
From Coq Require Import ZArith List Bool Lia ZifyBool.
From Verif Require Import WordModel BigIntSpec WordProofs BigIntModel BigIntProofs BigIntMulProofs BigIntCmpProofs
  BigUIntModel BigUIntProofs BigUIntDivProofs BigIntMemModel BigIntMemSpec.
Import ListNotations.
Open Scope Z_scope.
Ltac Zify.zify_post_hook ::= idtac.

Lemma nth_mid (d : list Z) x t : nth_error (map Some d ++ Some x :: t) (length d) = Some (Some x).
Proof. rewrite nth_error_app2; rewrite map_length; [|lia]. rewrite Nat.sub_diag. reflexivity. Qed.

Lemma rd_mid dbg m (d : list Z) x t : cells m = map Some d ++ Some x :: t -> (length d < mused m)%nat -> rd dbg m (length d) = Ok x.
Proof.
  intros E H. unfold rd, check. destruct (Nat.ltb_spec (length d) (mused m)); [|lia].
  cbn [negb]. rewrite andb_false_r. cbn [rbind]. rewrite E, nth_mid. reflexivity.
Qed.
Lemma wr_mid dbg m (d : list Z) y t w : cells m = map Some d ++ y :: t -> (length d < mused m)%nat ->
  wr dbg m (length d) w = Ok (Mem (map Some (d ++ [w]) ++ t) (mused m)).
Proof.
  intros E H. unfold wr, check. destruct (Nat.ltb_spec (length d) (mused m)); [|lia].
  cbn [negb]. rewrite andb_false_r. cbn [rbind]. rewrite E, app_length, map_length.
  destruct (Nat.ltb_spec (length d) (length d + length (y :: t))); [|cbn [length] in *; lia].
  unfold set_cell. rewrite E. f_equal. f_equal.
  rewrite firstn_app, map_length, Nat.sub_diag, firstn_all2 by (rewrite map_length; lia).
  cbn [firstn]. rewrite app_nil_r. rewrite skipn_app, map_length, skipn_all2 by (rewrite map_length; lia).
  replace (S (length d) - length d)%nat with 1%nat by lia. cbn [skipn app].
  rewrite map_app, <- app_assoc. reflexivity.
Qed.
Lemma rd_op_mid dbg m (b1 : list Z) y b2 i : length b1 = i -> rd_op dbg m (Other (b1 ++ y :: b2)) i = Ok y.
Proof. intros <-. cbn [rd_op]. rewrite nth_error_app2, Nat.sub_diag by lia. reflexivity. Qed.

(** ** Loops of += and -= *)

Lemma ip_common_ok f dbg u b xs : forall d b1 zs b2 t c, length zs = length xs -> length b1 = length d ->
  (length d + length xs <= u)%nat -> b = b1 ++ zs ++ b2 ->
  exists r c', length r = length xs /\
    ip_common f dbg (length xs) (length d) (Mem (map Some (d ++ xs) ++ t) u) (Other b) c =
      Ok ((length d + length xs)%nat, Mem (map Some (d ++ r) ++ t) u, c') /\
    forall ys ea eb, word_loop f (xs ++ ys) (zs ++ b2) ea eb c = r ++ word_loop f ys b2 ea eb c'.
Proof.
  induction xs as [|x xs IH]; intros d b1 zs b2 t c Hz Hb Hu ->.
  - destruct zs; [|discriminate]. exists [], c. cbn [length ip_common app]. rewrite Nat.add_0_r. auto.
  - destruct zs as [|z zs]; [discriminate|]. cbn [length] in *. cbn [ip_common].
    rewrite (rd_mid dbg _ d x (map Some xs ++ t)) by (cbn [cells mused]; try (rewrite map_app, <- app_assoc; reflexivity); lia).
    cbn [rbind app]. rewrite (rd_op_mid dbg _ b1 z (zs ++ b2)) by assumption. cbn [rbind].
    rewrite (wr_mid dbg _ d (Some x) (map Some xs ++ t)) by (cbn [cells mused]; try (rewrite map_app, <- app_assoc; reflexivity); lia).
    cbn [rbind mused].
    set (w := fst (f x z c)). set (cc := snd (f x z c)).
    destruct (IH (d ++ [w]) (b1 ++ [z]) zs b2 t cc) as (r & c' & R1 & R2 & R3).
    + lia.
    + rewrite !app_length. cbn [length]. lia.
    + rewrite app_length. cbn [length]. lia.
    + rewrite <- app_assoc. reflexivity.
    + exists (w :: r), c'. split; [cbn [length]; lia|]. split.
      * rewrite app_length in R2. cbn [length] in R2. replace (length d + 1)%nat with (S (length d)) in R2 by lia.
        rewrite app_assoc, <- map_app. cbn [app] in R2. rewrite R2. f_equal. f_equal. f_equal; [lia|].
        rewrite <- app_assoc. reflexivity.
      * intros ys ea eb. cbn [app word_loop]. subst w cc. destruct (f x z c) as [w1 c1]. cbn [fst snd] in *. rewrite R3. reflexivity.
Qed.

Lemma ip_mine_ok f dbg u eb xs : forall d t c, (length d + length xs <= u)%nat ->
  exists r c', length r = length xs /\
    ip_mine f dbg (length xs) (length d) (Mem (map Some (d ++ xs) ++ t) u) eb c =
      Ok ((length d + length xs)%nat, Mem (map Some (d ++ r) ++ t) u, c') /\
    forall ea, word_loop f xs [] ea eb c = r ++ word_loop f [] [] ea eb c'.
Proof.
  induction xs as [|x xs IH]; intros d t c Hu.
  - exists [], c. cbn [length ip_mine app]. rewrite Nat.add_0_r. auto.
  - cbn [length] in *. cbn [ip_mine].
    rewrite (rd_mid dbg _ d x (map Some xs ++ t)) by (cbn [cells mused]; try (rewrite map_app, <- app_assoc; reflexivity); lia).
    cbn [rbind].
    rewrite (wr_mid dbg _ d (Some x) (map Some xs ++ t)) by (cbn [cells mused]; try (rewrite map_app, <- app_assoc; reflexivity); lia).
    cbn [rbind mused].
    set (w := fst (f x eb c)). set (cc := snd (f x eb c)).
    destruct (IH (d ++ [w]) t cc) as (r & c' & R1 & R2 & R3); [rewrite app_length; cbn [length]; lia|].
    exists (w :: r), c'. split; [cbn [length]; lia|]. split.
    + rewrite app_length in R2. cbn [length] in R2. replace (length d + 1)%nat with (S (length d)) in R2 by lia.
      rewrite app_assoc, <- map_app. rewrite R2. f_equal. f_equal. f_equal; [lia|].
      rewrite <- app_assoc. reflexivity.
    + intros ea. cbn [app word_loop]. subst w cc. destruct (f x eb c) as [w1 c1]. cbn [fst snd] in *. rewrite R3. reflexivity.
Qed.

Lemma ip_other_ok f dbg u b ea zs : forall d b1 t c, length b1 = length d -> b = b1 ++ zs ->
  (length d + length zs <= u)%nat -> (length zs <= length t)%nat ->
  exists r c', length r = length zs /\
    ip_other f dbg (length zs) (length d) (Mem (map Some d ++ t) u) (Other b) ea c =
      Ok ((length d + length zs)%nat, Mem (map Some (d ++ r) ++ skipn (length zs) t) u, c') /\
    forall eb, word_loop f [] zs ea eb c = r ++ word_loop f [] [] ea eb c'.
Proof.
  induction zs as [|z zs IH]; intros d b1 t c Hb -> Hu Ht.
  - exists [], c. cbn [length ip_other app skipn]. rewrite Nat.add_0_r, app_nil_r. auto.
  - cbn [length] in *. cbn [ip_other]. destruct t as [|y t]; [cbn [length] in Ht; lia|]. cbn [length] in Ht.
    rewrite (rd_op_mid dbg _ b1 z zs) by assumption. cbn [rbind].
    rewrite (wr_mid dbg _ d y t) by (cbn [cells mused]; try reflexivity; lia).
    cbn [rbind mused].
    set (w := fst (f ea z c)). set (cc := snd (f ea z c)).
    destruct (IH (d ++ [w]) (b1 ++ [z]) t cc) as (r & c' & R1 & R2 & R3).
    + rewrite !app_length. cbn [length]. lia.
    + rewrite <- app_assoc. reflexivity.
    + rewrite app_length. cbn [length]. lia.
    + lia.
    + exists (w :: r), c'. split; [cbn [length]; lia|]. split.
      * rewrite app_length in R2. cbn [length] in R2. replace (length d + 1)%nat with (S (length d)) in R2 by lia.
        cbn [app] in R2. rewrite R2. f_equal. f_equal. f_equal; [lia|].
        rewrite <- (app_assoc d). reflexivity.
      * intros eb. cbn [app word_loop rest_loop]. subst w cc. destruct (f ea z c) as [w1 c1]. cbn [fst snd] in *.
        specialize (R3 eb). cbn [word_loop] in R3. rewrite R3. reflexivity.
Qed.

(** ** Trim *)
Lemma strim_used_step cs n : strim_used cs (S (S n)) =
  match nth_error cs (S n), nth_error cs n with
  | Some (Some hi), Some (Some lo) => if can_trim lo hi then strim_used cs (S n) else Ok (S (S n))
  | _, _ => UB
  end.
Proof. reflexivity. Qed.
Lemma strim_used_ok r t : r <> [] ->
  strim_used (map Some (rev r) ++ t) (length r) = Ok (length (trim_rev r)).
Proof.
  revert t. induction r as [|hi r IH]; [congruence|]. intros t _. destruct r as [|lo r]; [reflexivity|].
  rewrite trim_rev_eq. cbn [length]. rewrite strim_used_step.
  replace (nth_error (map Some (rev (hi :: lo :: r)) ++ t) (S (length r))) with (Some (Some hi)).
  2: { cbn [rev]. rewrite map_app. cbn [map]. rewrite <- app_assoc. cbn [app].
       pose proof (nth_mid (rev r ++ [lo]) hi t) as N. rewrite app_length, rev_length in N. cbn [length] in N.
       replace (length r + 1)%nat with (S (length r)) in N by lia. rewrite N. reflexivity. }
  replace (nth_error (map Some (rev (hi :: lo :: r)) ++ t) (length r)) with (Some (Some lo)).
  2: { cbn [rev]. rewrite map_app. rewrite map_app. cbn [map]. rewrite <- !app_assoc. cbn [app].
       pose proof (nth_mid (rev r) lo (Some hi :: t)) as N. rewrite rev_length in N. rewrite N. reflexivity. }
  destruct (can_trim lo hi); [|reflexivity].
  specialize (IH (Some hi :: t) ltac:(discriminate)). cbn [length] in IH.
  cbn [rev] in *. rewrite (map_app _ (rev r ++ [lo])). cbn [map]. rewrite <- app_assoc. cbn [app]. exact IH.
Qed.

Lemma trim_prefix a : exists s, a = trim a ++ s.
Proof.
  unfold trim.
  assert (G : forall r, exists s, r = s ++ trim_rev r).
  { induction r as [|hi r IH]; [exists []; reflexivity|]. destruct r as [|lo r]; [exists []; reflexivity|].
    rewrite trim_rev_eq. destruct (can_trim lo hi); [|exists []; reflexivity].
    destruct IH as (s & E). exists (hi :: s). cbn [app]. f_equal. exact E. }
  destruct (G (rev a)) as (s & E). exists (rev s). rewrite <- rev_app_distr, <- E. symmetry. apply rev_involutive.
Qed.
Lemma strim_ok m a : a <> [] -> stored m a -> exists m', strim m = Ok m' /\ stored m' (trim a).
Proof.
  intros Hn (Hu & t & E). unfold strim. rewrite E, Hu.
  pose proof (strim_used_ok (rev a) t) as S. rewrite rev_involutive, rev_length in S.
  rewrite S by (intros X; apply Hn; rewrite <- (rev_involutive a), X; reflexivity). cbn [rbind].
  eexists. split; [reflexivity|]. split; cbn [mused cells].
  - unfold trim. rewrite rev_length. reflexivity.
  - destruct (trim_prefix a) as (s & Es). exists (map Some s ++ t). rewrite Es at 1. rewrite map_app, <- app_assoc. reflexivity.
Qed.

Lemma resize_grow m a n : stored m a -> (length a <= n)%nat ->
  exists t, resize m n = Mem (map Some a ++ t) n /\ (n <= length a + length t)%nat.
Proof.
  intros (Hu & t & E) Hn. unfold resize. destruct (Nat.ltb_spec (length (cells m)) n) as [H|H].
  - exists (repeat None (n - mused m)). split; [|rewrite repeat_length; lia].
    f_equal. f_equal. rewrite E, Hu, firstn_app, map_length, Nat.sub_diag, firstn_all2 by (rewrite map_length; lia).
    cbn [firstn]. apply app_nil_r.
  - exists t. rewrite E in *. split; [reflexivity|]. rewrite app_length, map_length in H. lia.
Qed.

Lemma stored_first dbg m a : a <> [] -> stored m a -> rd dbg m 0 = Ok (first a).
Proof.
  intros Hn (Hu & t & E). destruct a as [|x a]; [congruence|].
  apply (rd_mid dbg m [] x (map Some a ++ t)); [exact E|rewrite Hu; cbn [length]; lia].
Qed.
Lemma stored_top dbg m a : a <> [] -> stored m a -> rd dbg m (mused m - 1) = Ok (top a).
Proof.
  intros Hn (Hu & t & E). destruct (snoc_case a Hn) as (l & x & ->). rewrite top_snoc, Hu, app_length. cbn [length].
  replace (length l + 1 - 1)%nat with (length l) by lia.
  apply (rd_mid dbg m l x t); [rewrite E, map_app, <- app_assoc; reflexivity|rewrite Hu, app_length; cbn [length]; lia].
Qed.
Lemma op_top_other dbg m b : b <> [] -> op_top dbg m (Other b) = Ok (top b).
Proof.
  intros Hn. unfold op_top. cbn [used_op rd_op]. destruct (snoc_case b Hn) as (l & x & ->).
  rewrite top_snoc, app_length. cbn [length]. replace (length l + 1 - 1)%nat with (length l) by lia.
  rewrite nth_error_app2, Nat.sub_diag by lia. reflexivity.
Qed.

Lemma split_at {A} (n : nat) (l : list A) : (n <= length l)%nat -> exists x y, l = x ++ y /\ length x = n.
Proof. intros H. exists (firstn n l), (skipn n l). rewrite firstn_skipn, firstn_length_le by assumption. auto. Qed.

Lemma ip_slow_ok f dbg m a b : a <> [] -> b <> [] -> stored m a ->
  exists m', ip_slow f dbg m (Other b) = Ok m' /\
    stored m' (trim (word_loop f a b (sign_ext a) (sign_ext b) false)).
Proof.
  intros Ha Hb Hs. unfold ip_slow. cbv zeta. rewrite (stored_top dbg m a Ha Hs), (op_top_other dbg m b Hb). cbn [rbind used_op].
  fold (sign_ext a). fold (sign_ext b). set (ea := sign_ext a). set (eb := sign_ext b).
  pose proof (proj1 Hs) as Hu. rewrite Hu.
  destruct (resize_grow m a (Nat.max (length a) (length b) + 1) Hs ltac:(lia)) as (t & Er & Ht). rewrite Er.
  destruct (split_at (Nat.min (length a) (length b)) a ltac:(lia)) as (xs & ys & Ea & Lx).
  destruct (split_at (Nat.min (length a) (length b)) b ltac:(lia)) as (zs & b2 & Eb & Lz).
  replace (ip_common f dbg (Nat.min (length a) (length b))) with (ip_common f dbg (length xs)) by (rewrite Lx; reflexivity).
  set (u := (Nat.max (length a) (length b) + 1)%nat) in *.
  assert (Lc : length zs = length xs) by lia.
  assert (La : length a = (length xs + length ys)%nat) by (rewrite Ea, app_length; reflexivity).
  assert (Lb : length b = (length xs + length b2)%nat) by (rewrite Eb, app_length; lia).
  destruct (ip_common_ok f dbg u b xs [] [] zs b2 (map Some ys ++ t) false Lc eq_refl) as (r1 & c1 & R1 & R2 & R3);
    [cbn [length]; lia|exact Eb|].
  cbn [app length] in R2. rewrite Nat.add_0_l in R2.
  replace (map Some a ++ t) with (map Some xs ++ map Some ys ++ t) by (rewrite Ea, map_app, <- app_assoc; reflexivity).
  rewrite R2. cbn [rbind].
  assert (Ew : word_loop f a b ea eb false = r1 ++ word_loop f ys b2 ea eb c1) by (rewrite Ea, Eb; apply R3).
  (* mine *)
  destruct (ip_mine_ok f dbg u eb ys r1 t c1) as (r2 & c2 & S1 & S2 & S3); [lia|].
  replace (length a - length xs)%nat with (length ys) by lia.
  rewrite <- R1. rewrite app_assoc, <- map_app. rewrite S2. cbn [rbind used_op].
  assert (Hcase : ys = [] \/ b2 = []).
  { destruct ys; [auto|]. destruct b2; [auto|]. cbn [length] in *. lia. }
  (* other *)
  assert (HT : exists r3 c3, length r3 = length b2 /\
    ip_other f dbg (length b2) (length (r1 ++ r2)) (Mem (map Some (r1 ++ r2) ++ t) u) (Other b) ea c2 =
      Ok ((length (r1 ++ r2) + length b2)%nat, Mem (map Some ((r1 ++ r2) ++ r3) ++ skipn (length b2) t) u, c3) /\
    forall eb, word_loop f [] b2 ea eb c2 = r3 ++ word_loop f [] [] ea eb c3).
  { destruct Hcase as [Ey|Eb2].
    - apply ip_other_ok with (b1 := zs).
      + rewrite app_length, S1, Ey. cbn [length]. lia.
      + exact Eb.
      + rewrite app_length, S1, Ey. cbn [length]. unfold u. lia.
      + unfold u in Ht. rewrite Ey in *. cbn [length] in *. lia.
    - rewrite Eb2. exists [], c2. cbn [length ip_other skipn app]. rewrite Nat.add_0_r, app_nil_r. auto. }
  destruct HT as (r3 & c3 & T1 & T2 & T3).
  assert (Li2 : (length r1 + length ys)%nat = length (r1 ++ r2)) by (rewrite app_length; lia).
  rewrite Li2.
  replace (length b - length (r1 ++ r2))%nat with (length b2) by
    (rewrite app_length; destruct Hcase as [-> | ->]; cbn [length] in *; lia).
  rewrite T2. cbn [rbind].
  assert (Li3 : (length (r1 ++ r2) + length b2)%nat = length ((r1 ++ r2) ++ r3)) by (rewrite !app_length; lia).
  rewrite Li3.
  assert (Lu : u = S (length ((r1 ++ r2) ++ r3))).
  { rewrite <- Li3, app_length. unfold u. destruct Hcase as [-> | ->]; cbn [length] in *; lia. }
  assert (Hsk : exists y t', skipn (length b2) t = y :: t').
  { assert (1 <= length (skipn (length b2) t))%nat.
    { rewrite skipn_length. rewrite <- Li3, app_length in Lu. destruct Hcase as [-> | ->]; cbn [length] in *; lia. }
    destruct (skipn (length b2) t) as [|y t'] ; [cbn [length] in *; lia|eauto]. }
  destruct Hsk as (y & t' & Esk). rewrite Esk.
  rewrite (wr_mid dbg _ ((r1 ++ r2) ++ r3) y t') by (cbn [cells mused]; try reflexivity; lia).
  cbn [rbind mused]. unfold check. rewrite Lu, Nat.eqb_refl. cbn [negb]. rewrite andb_false_r. cbn [rbind].
  set (w := fst (f ea eb c3)).
  assert (Efin : word_loop f a b ea eb false = ((r1 ++ r2) ++ r3) ++ [w]).
  { rewrite Ew. destruct Hcase as [Ey|Eb2].
    - subst ys. destruct r2; [|cbn [length] in S1; lia]. rewrite app_nil_r.
      specialize (S3 ea). cbn [word_loop rest_loop app] in S3. injection S3 as S3.
      cbn [ip_mine length] in S2. injection S2 as S2a S2b. subst c2.
      rewrite (T3 eb). cbn [word_loop rest_loop]. rewrite app_assoc. reflexivity.
    - subst b2. destruct r3; [|cbn [length] in T1; lia]. rewrite app_nil_r.
      cbn [ip_other length] in T2. injection T2 as T2a T2b. subst c3.
      rewrite (S3 ea). cbn [word_loop rest_loop]. rewrite app_assoc. reflexivity. }
  rewrite Efin. apply strim_ok.
  - destruct ((r1 ++ r2) ++ r3); discriminate.
  - split; cbn [mused cells]; [rewrite app_length with (l := (r1 ++ r2) ++ r3); cbn [length]; lia|]. exists t'. reflexivity.
Qed.

Lemma op_half_other dbg m a b : a <> [] -> b <> [] -> stored m a ->
  op_half dbg m (Other b) = Ok (all_half_words2 a b).
Proof.
  intros Ha Hb Hs. unfold op_half. rewrite (stored_first dbg m a Ha Hs). cbn [rbind rd_op used_op].
  destruct b as [|y b]; [congruence|]. cbn [nth_error rbind]. rewrite (proj1 Hs). reflexivity.
Qed.
Lemma wr_first dbg m a w : (length a = 1)%nat -> stored m a -> exists m', wr dbg m 0 w = Ok m' /\ stored m' [w].
Proof.
  intros L (Hu & t & E). destruct a as [|x [|? ?]]; try discriminate.
  rewrite (wr_mid dbg m [] (Some x) t) by (try exact E; rewrite Hu; cbn [length]; lia).
  eexists. split; [reflexivity|]. split; [exact Hu|]. exists t. reflexivity.
Qed.
Lemma rd_op_first dbg m b : b <> [] -> rd_op dbg m (Other b) 0 = Ok (first b).
Proof. destruct b; [congruence|reflexivity]. Qed.
Lemma half_len a b : wf a -> wf b -> all_half_words2 a b = true -> (length a = 1)%nat.
Proof. intros Ha Hb E. apply all_half2_spec in E as [(x & -> & _) _]; try assumption. reflexivity. Qed.

Lemma plus_assign_ok dbg m a b : wf a -> wf b -> stored m a ->
  exists m', plus_assign dbg m (Other b) = Ok m' /\ stored m' (add_assign a b).
Proof.
  intros Ha Hb Hs. unfold plus_assign, add_assign. rewrite (op_half_other dbg m a b) by (try apply Ha; try apply Hb; assumption).
  cbn [rbind]. destruct (all_half_words2 a b) eqn:E.
  - rewrite (stored_first dbg m a) by (try apply Ha; assumption). cbn [rbind].
    rewrite rd_op_first by apply Hb. cbn [rbind]. apply wr_first with a; [apply (half_len a b); assumption|assumption].
  - apply ip_slow_ok; try apply Ha; try apply Hb; assumption.
Qed.
Lemma minus_assign_ok dbg m a b : wf a -> wf b -> stored m a ->
  exists m', minus_assign dbg m (Other b) = Ok m' /\ stored m' (sub_assign a b).
Proof.
  intros Ha Hb Hs. unfold minus_assign, sub_assign. rewrite (op_half_other dbg m a b) by (try apply Ha; try apply Hb; assumption).
  cbn [rbind]. destruct (all_half_words2 a b) eqn:E.
  - rewrite (stored_first dbg m a) by (try apply Ha; assumption). cbn [rbind].
    rewrite rd_op_first by apply Hb. cbn [rbind]. apply wr_first with a; [apply (half_len a b); assumption|assumption].
  - apply ip_slow_ok; try apply Ha; try apply Hb; assumption.
Qed.

(** ** Half words, += int *)
Lemma half_last_spec x : is_word x -> can_trim_last_half x = true <-> half_range (sgn x).
Proof.
  intros H. pose proof (sgn_range x H) as Hr. unfold can_trim_last_half, sgn32, half_range. set (v := sgn x) in *. clearbody v. clear H.
  pose proof (Z.div_mod v HALF ltac:(unfold HALF; lia)) as D. pose proof (Z.mod_pos_bound v HALF ltac:(unfold HALF; lia)) as B.
  unfold HALF, HW in *. rewrite Z.eqb_eq. destruct (Z.ltb_spec (v mod 4294967296) 2147483648); split; intros; try lia.
Qed.
Lemma mis_half_ok dbg m a : wf a -> stored m a -> exists h, mis_half dbg m = Ok h /\ (h = true <-> half a).
Proof.
  intros Ha Hs. unfold mis_half. rewrite (proj1 Hs). destruct (Nat.eqb_spec (length a) 1) as [E|E].
  - rewrite (stored_first dbg m a) by (try apply Ha; assumption). cbn [rbind]. eexists. split; [reflexivity|].
    rewrite half_last_spec by (apply wf_first, Ha). destruct a as [|x [|? ?]]; try discriminate. cbn [first hd]. split.
    + intros H. exists x. auto.
    + intros (w & X & H). injection X as ->. assumption.
  - exists false. split; [reflexivity|]. split; [discriminate|]. intros (w & -> & _). cbn [length] in E. lia.
Qed.

Lemma half_add1 a w : half a -> is_word w -> (exists v, w = wrap v /\ half_range v) ->
  canonical [wadd (first a) w] /\ value [wadd (first a) w] = value a + sgn w /\
  canonical [wsub (first a) w] /\ value [wsub (first a) w] = value a - sgn w.
Proof.
  intros Ha Hw (v & -> & Hv).
  destruct (half_value a Ha) as [E1 R1]. 
  assert (Hf : is_word (first a) \/ True) by auto. clear Hf.
  rewrite sgn_wrap_id by (unfold half_range, HW in *; lia).
  unfold half_range in *.
  assert (X1 : [wadd (first a) (wrap v)] = of_int (value a + v)).
  { unfold of_int. f_equal. rewrite E1. unfold wadd, wrap. rewrite Zplus_mod_idemp_r.
    unfold sgn. destruct (first a <? HW); [reflexivity|].
    replace (first a - W + v) with (first a + v + (-1) * W) by lia. rewrite Z.mod_add by (unfold W; lia). reflexivity. }
  assert (X2 : [wsub (first a) (wrap v)] = of_int (value a - v)).
  { unfold of_int. f_equal. rewrite E1. unfold wsub, wrap. rewrite Zminus_mod_idemp_r.
    unfold sgn. destruct (first a <? HW); [reflexivity|].
    replace (first a - W - v) with (first a - v + (-1) * W) by lia. rewrite Z.mod_add by (unfold W; lia). reflexivity. }
  rewrite X1, X2. destruct (of_int_canonical (value a + v)) as [C1 C2]; [unfold HW in *; lia|].
  destruct (of_int_canonical (value a - v)) as [C3 C4]; [unfold HW in *; lia|]. auto.
Qed.

Lemma plus_assign_int_ok dbg m a v : canonical a -> stored m a -> half_range v ->
  exists m' r, plus_assign_int dbg m v = Ok m' /\ stored m' r /\ canonical r /\ value r = value a + v.
Proof.
  intros Ha Hs Hv. pose proof (proj1 Ha) as Hw. unfold plus_assign_int.
  destruct (mis_half_ok dbg m a Hw Hs) as (h & E & Hh). rewrite E. cbn [rbind]. destruct h.
  - assert (H : half a) by tauto. rewrite (stored_first dbg m a) by (try apply Hw; assumption). cbn [rbind].
    destruct (wr_first dbg m a (wadd (first a) (wrap v))) as (m' & E' & S'); [destruct H as (w & -> & _); reflexivity|assumption|].
    destruct (half_add1 a (wrap v) H (wrap_word v) (ex_intro _ v (conj eq_refl Hv))) as (C1 & C2 & _).
    rewrite sgn_wrap_id in C2 by (unfold half_range, HW in *; lia). eauto 10.
  - destruct (of_int_canonical v) as [C1 C2]; [unfold half_range, HW in *; lia|].
    destruct (plus_assign_ok dbg m a (of_int v) Hw (proj1 C1) Hs) as (m' & E' & S').
    destruct (add_assign_spec a (of_int v) Hw (proj1 C1)) as [A1 A2]. exists m', (add_assign a (of_int v)).
    rewrite A2, C2. auto.
Qed.
Lemma minus_assign_int_ok dbg m a v : canonical a -> stored m a -> half_range v ->
  exists m' r, minus_assign_int dbg m v = Ok m' /\ stored m' r /\ canonical r /\ value r = value a - v.
Proof.
  intros Ha Hs Hv. pose proof (proj1 Ha) as Hw. unfold minus_assign_int.
  destruct (mis_half_ok dbg m a Hw Hs) as (h & E & Hh). rewrite E. cbn [rbind]. destruct h.
  - assert (H : half a) by tauto. rewrite (stored_first dbg m a) by (try apply Hw; assumption). cbn [rbind].
    destruct (wr_first dbg m a (wsub (first a) (wrap v))) as (m' & E' & S'); [destruct H as (w & -> & _); reflexivity|assumption|].
    destruct (half_add1 a (wrap v) H (wrap_word v) (ex_intro _ v (conj eq_refl Hv))) as (_ & _ & C1 & C2).
    rewrite sgn_wrap_id in C2 by (unfold half_range, HW in *; lia). eauto 10.
  - destruct (of_int_canonical v) as [C1 C2]; [unfold half_range, HW in *; lia|].
    destruct (minus_assign_ok dbg m a (of_int v) Hw (proj1 C1) Hs) as (m' & E' & S').
    destruct (sub_assign_spec a (of_int v) Hw (proj1 C1)) as [A1 A2]. exists m', (sub_assign a (of_int v)).
    rewrite A2, C2. auto.
Qed.

(** ** ++ and -- *)
Lemma wadd1 x : is_word x -> wadd x 1 = if x =? W - 1 then 0 else x + 1.
Proof.
  intros H. apply word_range in H. unfold wadd, wrap. destruct (Z.eqb_spec x (W - 1)) as [->|].
  - reflexivity.
  - apply Z.mod_small. lia.
Qed.
Lemma wsub1 x : is_word x -> wsub x 1 = if x =? 0 then W - 1 else x - 1.
Proof.
  intros H. apply word_range in H. unfold wsub, wrap. destruct (Z.eqb_spec x 0) as [->|].
  - reflexivity.
  - apply Z.mod_small. lia.
Qed.
Lemma incr_low_ok dbg u l : forall d t, (length d + length l <= u)%nat -> Forall is_word l ->
  exists l', Forall is_word l' /\ length l' = length l /\
  ((incr_low dbg (length l) (length d) (Mem (map Some (d ++ l) ++ t) u) = Ok (inl (Mem (map Some (d ++ l') ++ t) u)) /\
      uvalue l' = uvalue l + 1) \/
   (incr_low dbg (length l) (length d) (Mem (map Some (d ++ l) ++ t) u) = Ok (inr (Mem (map Some (d ++ l') ++ t) u)) /\
      uvalue l' = 0 /\ uvalue l = W ^ Z.of_nat (length l) - 1)).
Proof.
  induction l as [|x l IH]; intros d t Hu Hf.
  - exists []. split; [constructor|]. split; [reflexivity|]. right. auto.
  - inversion Hf as [|? ? Hx Hl]; subst. cbn [length] in *. cbn [incr_low].
    rewrite (rd_mid dbg _ d x (map Some l ++ t)) by (cbn [cells mused]; try (rewrite map_app, <- app_assoc; reflexivity); lia).
    cbn [rbind].
    rewrite (wr_mid dbg _ d (Some x) (map Some l ++ t)) by (cbn [cells mused]; try (rewrite map_app, <- app_assoc; reflexivity); lia).
    cbn [rbind mused]. rewrite app_assoc, <- map_app. rewrite (wadd1 x Hx). pose proof (word_range x Hx) as Hr.
    destruct (Z.eqb_spec x (W - 1)) as [Ex|Nx]; cbn [negb Z.eqb].
    + destruct (IH (d ++ [0]) t) as (l' & F & L & D); [rewrite app_length; cbn [length]; lia|assumption|].
      rewrite app_length in D. cbn [length] in D. replace (length d + 1)%nat with (S (length d)) in D by lia.
      exists (0 :: l'). split; [constructor; [apply word0|assumption]|]. split; [cbn [length]; lia|].
      rewrite <- !app_assoc in D. cbn [app] in D. rewrite <- !app_assoc. cbn [app].
      cbn [uvalue]. rewrite <- W_eq. rewrite Wpow_S. destruct D as [[D1 D2]|(D1 & D2 & D3)]; [left|right]; (split; [exact D1|]); nia.
    + destruct (Z.eqb_spec (x + 1) 0); [lia|]. cbn [negb]. exists ((x + 1) :: l). split; [constructor; [apply is_word_W; lia|assumption]|].
      split; [reflexivity|]. left. rewrite <- app_assoc. cbn [app uvalue]. split; [reflexivity|lia].
Qed.
Lemma decr_low_ok dbg u l : forall d t, (length d + length l <= u)%nat -> Forall is_word l ->
  exists l', Forall is_word l' /\ length l' = length l /\
  ((decr_low dbg (length l) (length d) (Mem (map Some (d ++ l) ++ t) u) = Ok (inl (Mem (map Some (d ++ l') ++ t) u)) /\
      uvalue l' = uvalue l - 1) \/
   (decr_low dbg (length l) (length d) (Mem (map Some (d ++ l) ++ t) u) = Ok (inr (Mem (map Some (d ++ l') ++ t) u)) /\
      uvalue l = 0 /\ uvalue l' = W ^ Z.of_nat (length l) - 1)).
Proof.
  induction l as [|x l IH]; intros d t Hu Hf.
  - exists []. split; [constructor|]. split; [reflexivity|]. right. auto.
  - inversion Hf as [|? ? Hx Hl]; subst. cbn [length] in *. cbn [decr_low].
    rewrite (rd_mid dbg _ d x (map Some l ++ t)) by (cbn [cells mused]; try (rewrite map_app, <- app_assoc; reflexivity); lia).
    cbn [rbind].
    rewrite (wr_mid dbg _ d (Some x) (map Some l ++ t)) by (cbn [cells mused]; try (rewrite map_app, <- app_assoc; reflexivity); lia).
    cbn [rbind mused]. rewrite app_assoc, <- map_app. rewrite (wsub1 x Hx). pose proof (word_range x Hx) as Hr.
    destruct (Z.eqb_spec x 0) as [Ex|Nx].
    + rewrite sgn_ones. cbn [negb Z.eqb]. change (-1 =? -1) with true. cbn [negb].
      destruct (IH (d ++ [W - 1]) t) as (l' & F & L & D); [rewrite app_length; cbn [length]; lia|assumption|].
      rewrite app_length in D. cbn [length] in D. replace (length d + 1)%nat with (S (length d)) in D by lia.
      exists ((W - 1) :: l'). split; [constructor; [apply is_word_W; unfold W; lia|assumption]|]. split; [cbn [length]; lia|].
      rewrite <- !app_assoc in D. cbn [app] in D. rewrite <- !app_assoc. cbn [app].
      cbn [uvalue]. rewrite <- W_eq. rewrite Wpow_S. destruct D as [[D1 D2]|(D1 & D2 & D3)]; [left|right]; (split; [exact D1|]); nia.
    + assert (Hw : is_word (x - 1)) by (apply is_word_W; lia).
      destruct (Z.eqb_spec (sgn (x - 1)) (-1)) as [E|N]; [apply sgn_m1 in E; [lia|assumption]|]. cbn [negb].
      exists ((x - 1) :: l). split; [constructor; assumption|].
      split; [reflexivity|]. left. rewrite <- app_assoc. cbn [app uvalue]. split; [reflexivity|lia].
Qed.

Lemma pow63 n : 2 ^ (64 * Z.of_nat n + 63) = HW * W ^ Z.of_nat n.
Proof. rewrite Z.pow_add_r, Z.pow_mul_r by lia. rewrite Z.mul_comm. reflexivity. Qed.
Lemma small_out a : wf a -> (2 <= length a)%nat -> (forall n, (n <= length a - 2)%nat -> ~ (- (HW * W ^ Z.of_nat n) <= value a < HW * W ^ Z.of_nat n)) -> canonical a.
Proof.
  intros Hw Hl Ho. split; [assumption|]. intros b Hb Ev. destruct (Nat.le_gt_cases (length a) (length b)); [assumption|exfalso].
  pose proof (value_range b Hb) as R. rewrite Ev in R.
  apply (Ho (length b - 1)%nat); [lia|assumption].
Qed.
Lemma HWpow_le n m : (n <= m)%nat -> HW * W ^ Z.of_nat n <= HW * W ^ Z.of_nat m.
Proof. intros H. apply Z.mul_le_mono_nonneg_l; [unfold HW; lia|apply Wpow_le; assumption]. Qed.

Lemma half_small a : half a -> forall n, - (HW * W ^ Z.of_nat n) <= value a < HW * W ^ Z.of_nat n - 1.
Proof.
  intros H n. destruct (half_value a H) as [_ R]. pose proof (Wpow_pos n). unfold half_range, HW in *.
  set (p := W ^ Z.of_nat n) in *. clearbody p. lia.
Qed.

Lemma Sm1 n : (S n - 1 = n)%nat. Proof. lia. Qed.
Lemma Sm2 n : (S n - 2 = n - 1)%nat. Proof. lia. Qed.
Lemma no_multiple P Y s : P * s = - Y -> 0 < Y < P -> False.
Proof. intros H1 H2. assert (s <= -1 \/ 0 <= s) as [|] by lia; nia. Qed.
Lemma half_lt_pow k n : (k < n)%nat -> 0 < HW * W ^ Z.of_nat k < W ^ Z.of_nat n.
Proof.
  intros H. pose proof (Wpow_le (S k) n H) as B. rewrite Wpow_S in B. pose proof (Wpow_pos k).
  set (p := W ^ Z.of_nat k) in *. set (q := W ^ Z.of_nat n) in *. clearbody p q. unfold HW, W in *. lia.
Qed.
(** [k] is at most the index of the top word when - HW * W^k is in range. *)
Lemma pow_in_range k n x : - (HW * W ^ Z.of_nat n) <= x -> x = - (HW * W ^ Z.of_nat k) - 1 -> (k < n)%nat.
Proof.
  intros H1 H2. destruct (Nat.lt_ge_cases k n) as [|G]; [assumption|]. pose proof (HWpow_le _ _ G). lia.
Qed.

(** What ++ does, for every stored canonical number. *)
Lemma incr_ok dbg m a : canonical a -> stored m a -> value a <> 2 ^ (64 * (used a - 1) + 63) - 1 ->
  exists m' r, incr dbg m = Ok m' /\ stored m' r /\ wf r /\ value r = value a + 1 /\
    (canonical r <-> forall k, 0 <= k -> value a <> - 2 ^ (64 * k + 63) - 1).
Proof.
  intros Ha Hs Hov. pose proof (proj1 Ha) as Hw. unfold incr.
  destruct (mis_half_ok dbg m a Hw Hs) as (h & E & Hh). rewrite E. cbn [rbind]. destruct h.
  { assert (H : half a) by tauto. rewrite (stored_first dbg m a) by (try apply Hw; assumption). cbn [rbind].
    destruct (wr_first dbg m a (wadd (first a) 1)) as (m' & E' & S'); [destruct H as (w & -> & _); reflexivity|assumption|].
    destruct (half_add1 a 1 H ltac:(apply is_word_W; unfold W; lia)) as (C1 & C2 & _); [exists 1; split; [reflexivity|unfold half_range; lia]|].
    change (sgn 1) with 1 in C2. exists m', [wadd (first a) 1]. split; [assumption|]. split; [assumption|]. split; [apply C1|].
    split; [assumption|]. split; [|auto]. intros _ k Hk X. pose proof (half_small a H (Z.to_nat k)) as B.
    rewrite <- pow63, Z2Nat.id in B by assumption. lia. }
  clear E Hh. destruct (snoc_case a (proj1 Hw)) as (l & tp & El).
  pose proof (proj2 Hw) as Hf. rewrite El in Hf. apply Forall_app in Hf as [Hf Ht]. inversion Ht as [|? ? Ht' _]; subst x l0.
  pose proof (proj1 Hs) as Hu. destruct (proj2 Hs) as (t & Ec).
  assert (La : length a = S (length l)) by (rewrite El, app_length; cbn [length]; lia).
  assert (Em : m = Mem (map Some ([] ++ l) ++ Some tp :: t) (length a)).
  { destruct m as [cs u]. cbn [mused cells] in *. rewrite Hu, Ec, El. f_equal. rewrite map_app, <- app_assoc. reflexivity. }
  cbv zeta. replace (mused m - 1)%nat with (length l) by lia. rewrite Em.
  destruct (incr_low_ok dbg (length a) l [] (Some tp :: t) ltac:(cbn [length]; lia) Hf) as (l' & F & L & D).
  cbn [length] in D. cbn [app] in *.
  assert (Va : value a = uvalue l + W ^ Z.of_nat (length l) * sgn tp) by (rewrite El; apply value_snoc).
  destruct D as [[D1 D2]|(D1 & D2 & D3)]; rewrite D1; cbn [rbind].
  - set (r := l' ++ [tp]). assert (Wr : wf r) by (apply wf_snoc; split; assumption).
    assert (Vr : value r = value a + 1) by (unfold r; rewrite value_snoc, L, Va; lia).
    eexists. exists r. split; [reflexivity|]. split; [|split; [exact Wr|split; [exact Vr|]]].
    { split; cbn [mused cells]; [unfold r; rewrite app_length; cbn [length]; lia|]. exists t. unfold r. rewrite map_app, <- app_assoc. reflexivity. }
    destruct l as [|x0 l0] eqn:Ell; [cbn [length] in L; destruct l'; [|discriminate]; cbn [uvalue] in D2; lia|]. rewrite <- Ell in *.
    assert (Ll : (1 <= length l)%nat) by (rewrite Ell; cbn [length]; lia).
    assert (Lr : length r = S (length l)) by (unfold r; rewrite app_length; cbn [length]; lia).
    split.
    + intros Cr k Hk X.
      assert (Rr : value r = - (HW * W ^ Z.of_nat (Z.to_nat k))) by (rewrite Vr, X, <- pow63, Z2Nat.id by assumption; lia).
      pose proof (big_canonical_range r Cr) as B1. 
      destruct Cr as [_ Cr]. destruct (canonical_exists (value r)) as (c & Cc & Vc).
      specialize (Cr c (proj1 Cc) Vc).
      assert (Ra : canonical a) by assumption. 
      assert (K : (Z.to_nat k < length l)%nat).
      { pose proof (value_range a Hw) as R. rewrite La, Sm1 in R. apply (pow_in_range _ _ (value a) (proj1 R)). rewrite Vr in Rr. clear - Rr. lia. }
      assert (Z0 : wf (repeat 0 (Z.to_nat k) ++ [HW])) by (apply wf_snoc; split; [apply repeat0_words|apply is_word_W; unfold HW, W; lia]).
      assert (V0 : value (repeat 0 (Z.to_nat k) ++ [HW]) = value r).
      { rewrite value_snoc, uvalue_zeros, repeat_length, Rr. change (sgn HW) with (- HW). lia. }
      pose proof (proj2 Cc _ Z0 (eq_trans V0 (eq_sym Vc))) as LL. rewrite app_length, repeat_length in LL. cbn [length] in LL. lia.
    + intros Hno. apply small_out; [assumption|lia|]. intros n Hn Hr. rewrite Vr in Hr.
      assert (Hnn : (n <= length l - 1)%nat) by lia.
      pose proof (HWpow_le n (length l - 1) Hnn) as Hm.
      pose proof (tight_range a Hw (canonical_tight a Ha) ltac:(lia)) as T.
      rewrite La in T. rewrite Sm2 in T.
      specialize (Hno (Z.of_nat (length l - 1)) (Nat2Z.is_nonneg _)). rewrite pow63 in Hno. lia.
  - rewrite <- (app_nil_r l'). 
    replace (length l) with (length l') by assumption.
    rewrite app_nil_r.
    rewrite (rd_mid dbg _ l' tp t) by (cbn [cells mused]; try reflexivity; lia). cbn [rbind].
    rewrite (wr_mid dbg _ l' (Some tp) t) by (cbn [cells mused]; try reflexivity; lia). cbn [rbind mused].
    pose proof (word_range tp Ht') as Hr.
    assert (Hne : tp <> HW - 1).
    { intros X. apply Hov. unfold used. rewrite La. replace (Z.of_nat (S (length l)) - 1) with (Z.of_nat (length l)) by lia.
      rewrite pow63, Va, D3, X. replace (sgn (HW - 1)) with (HW - 1) by reflexivity. lia. }
    assert (Ew : (wadd tp 1 =? HW) = false).
    { rewrite (wadd1 tp Ht'). destruct (Z.eqb_spec tp (W - 1)); [reflexivity|]. lia. }
    rewrite Ew.
    set (r := l' ++ [wadd tp 1]). assert (Wr : wf r) by (apply wf_snoc; split; [assumption|apply wadd_word]).
    destruct (strim_ok (Mem (map Some r ++ t) (length a)) r) as (m' & E' & S'); [apply Wr| |].
    { split; cbn [mused cells]; [unfold r; rewrite app_length; cbn [length]; lia|]. exists t. reflexivity. }
    destruct (trim_canonical r Wr) as [T1 T2].
    assert (Vr : value r = value a + 1).
    { unfold r. rewrite value_snoc, L, Va, D2, D3. rewrite (wadd1 tp Ht').
      assert (sgn (if tp =? W - 1 then 0 else tp + 1) = sgn tp + 1); [|nia].
      unfold sgn. destruct (Z.eqb_spec tp (W - 1)) as [->|]; [reflexivity|].
      destruct (Z.ltb_spec (tp + 1) HW), (Z.ltb_spec tp HW); lia. }
    exists m', (trim r). split; [exact E'|]. split; [exact S'|]. split; [apply T1|]. split; [lia|].
    split; [|auto]. intros _ k Hk X.
    (* value a + 1 is a multiple of W^n, so a has more words than -2^(64k+63) needs *)
    assert (Rr : value r = - (HW * W ^ Z.of_nat (Z.to_nat k))) by (rewrite Vr, X, <- pow63, Z2Nat.id by assumption; lia).
    assert (K : (Z.to_nat k < length l)%nat).
    { pose proof (value_range a Hw) as R. rewrite La, Sm1 in R. apply (pow_in_range _ _ (value a) (proj1 R)). rewrite Vr in Rr. clear - Rr. lia. }
    rewrite Vr, Va, D3 in Rr.
    apply (no_multiple (W ^ Z.of_nat (length l)) (HW * W ^ Z.of_nat (Z.to_nat k)) (sgn tp + 1)).
    + clear - Rr. lia.
    + apply half_lt_pow. assumption.
Qed.

(** What -- does, for every stored canonical number. *)
Lemma pow_in_range_pos k n x : x < HW * W ^ Z.of_nat n -> x = HW * W ^ Z.of_nat k -> (k < n)%nat.
Proof.
  intros H1 H2. destruct (Nat.lt_ge_cases k n) as [|G]; [assumption|]. pose proof (HWpow_le _ _ G). lia.
Qed.
Lemma decr_ok dbg m a : canonical a -> stored m a ->
  exists m' r, decr dbg m = Ok m' /\ stored m' r /\ wf r /\ value r = value a - 1 /\
    (canonical r <-> forall k, 0 <= k -> value a <> 2 ^ (64 * k + 63)).
Proof.
  intros Ha Hs. pose proof (proj1 Ha) as Hw. unfold decr.
  destruct (mis_half_ok dbg m a Hw Hs) as (h & E & Hh). rewrite E. cbn [rbind]. destruct h.
  { assert (H : half a) by tauto. rewrite (stored_first dbg m a) by (try apply Hw; assumption). cbn [rbind].
    destruct (wr_first dbg m a (wsub (first a) 1)) as (m' & E' & S'); [destruct H as (w & -> & _); reflexivity|assumption|].
    destruct (half_add1 a 1 H ltac:(apply is_word_W; unfold W; lia)) as (_ & _ & C1 & C2); [exists 1; split; [reflexivity|unfold half_range; lia]|].
    change (sgn 1) with 1 in C2. exists m', [wsub (first a) 1]. split; [assumption|]. split; [assumption|]. split; [apply C1|].
    split; [assumption|]. split; [|auto]. intros _ k Hk X. pose proof (half_small a H (Z.to_nat k)) as B.
    rewrite <- pow63, Z2Nat.id in B by assumption. lia. }
  clear E Hh. destruct (snoc_case a (proj1 Hw)) as (l & tp & El).
  pose proof (proj2 Hw) as Hf. rewrite El in Hf. apply Forall_app in Hf as [Hf Ht]. inversion Ht as [|? ? Ht' _]; subst x l0.
  pose proof (proj1 Hs) as Hu. destruct (proj2 Hs) as (t & Ec).
  assert (La : length a = S (length l)) by (rewrite El, app_length; cbn [length]; lia).
  assert (Em : m = Mem (map Some ([] ++ l) ++ Some tp :: t) (length a)).
  { destruct m as [cs u]. cbn [mused cells] in *. rewrite Hu, Ec, El. f_equal. rewrite map_app, <- app_assoc. reflexivity. }
  cbv zeta. replace (mused m - 1)%nat with (length l) by lia. rewrite Em.
  destruct (decr_low_ok dbg (length a) l [] (Some tp :: t) ltac:(cbn [length]; lia) Hf) as (l' & F & L & D).
  cbn [length] in D. cbn [app] in *.
  assert (Va : value a = uvalue l + W ^ Z.of_nat (length l) * sgn tp) by (rewrite El; apply value_snoc).
  destruct D as [[D1 D2]|(D1 & D2 & D3)]; rewrite D1; cbn [rbind].
  - set (r := l' ++ [tp]). assert (Wr : wf r) by (apply wf_snoc; split; assumption).
    assert (Vr : value r = value a - 1) by (unfold r; rewrite value_snoc, L, Va; lia).
    eexists. exists r. split; [reflexivity|]. split; [|split; [exact Wr|split; [exact Vr|]]].
    { split; cbn [mused cells]; [unfold r; rewrite app_length; cbn [length]; lia|]. exists t. unfold r. rewrite map_app, <- app_assoc. reflexivity. }
    destruct l as [|x0 l0] eqn:Ell; [cbn [length] in L; destruct l'; [|discriminate]; cbn [uvalue] in D2; lia|]. rewrite <- Ell in *.
    assert (Ll : (1 <= length l)%nat) by (rewrite Ell; cbn [length]; lia).
    assert (Lr : length r = S (length l)) by (unfold r; rewrite app_length; cbn [length]; lia).
    split.
    + intros Cr k Hk X.
      assert (Rr : value a = HW * W ^ Z.of_nat (Z.to_nat k)) by (rewrite X, <- pow63, Z2Nat.id by assumption; reflexivity).
      assert (K : (Z.to_nat k < length l)%nat).
      { pose proof (value_range a Hw) as R. rewrite La, Sm1 in R. apply (pow_in_range_pos _ _ (value a) (proj2 R) Rr). }
      destruct Cr as [_ Cr]. 
      assert (Z0 : wf (repeat (W - 1) (Z.to_nat k) ++ [HW - 1])).
      { apply wf_snoc. split; [apply Forall_forall; intros y Hy; apply repeat_spec in Hy; subst y|]; apply is_word_W; unfold HW, W; lia. }
      assert (V0 : value (repeat (W - 1) (Z.to_nat k) ++ [HW - 1]) = value r).
      { rewrite value_snoc, repeat_length, Vr, Rr. replace (sgn (HW - 1)) with (HW - 1) by reflexivity.
        assert (U : forall n, uvalue (repeat (W - 1) n) = W ^ Z.of_nat n - 1).
        { clear. induction n as [|n IH]; [reflexivity|]. rewrite Wpow_S. cbn [repeat uvalue]. rewrite <- W_eq. nia. }
        rewrite U. lia. }
      specialize (Cr _ Z0 V0). rewrite app_length, repeat_length in Cr. cbn [length] in Cr. lia.
    + intros Hno. apply small_out; [assumption|lia|]. intros n Hn Hr. rewrite Vr in Hr.
      assert (Hnn : (n <= length l - 1)%nat) by lia.
      pose proof (HWpow_le n (length l - 1) Hnn) as Hm.
      pose proof (tight_range a Hw (canonical_tight a Ha) ltac:(lia)) as T.
      rewrite La in T. rewrite Sm2 in T.
      specialize (Hno (Z.of_nat (length l - 1)) (Nat2Z.is_nonneg _)). rewrite pow63 in Hno. lia.
  - replace (length l) with (length l') by assumption.
    rewrite (rd_mid dbg _ l' tp t) by (cbn [cells mused]; try reflexivity; lia). cbn [rbind].
    rewrite (wr_mid dbg _ l' (Some tp) t) by (cbn [cells mused]; try reflexivity; lia). cbn [rbind mused].
    pose proof (word_range tp Ht') as Hr.
    set (r := l' ++ [wsub tp 1]). assert (Ww : is_word (wsub tp 1)) by apply wrap_word.
    assert (Wr : wf r) by (apply wf_snoc; split; assumption).
    assert (Sr : stored (Mem (map Some r ++ t) (length a)) r).
    { split; cbn [mused cells]; [unfold r; rewrite app_length; cbn [length]; lia|]. exists t. reflexivity. }
    assert (Lr : length r = length a) by (unfold r; rewrite app_length; cbn [length]; lia).
    assert (Snot : forall k, 0 <= k -> value a <> 2 ^ (64 * k + 63)).
    { intros k Hk X. rewrite <- (Z2Nat.id k Hk), pow63 in X.
      assert (K : (Z.to_nat k < length l)%nat).
      { pose proof (value_range a Hw) as R. rewrite La, Sm1 in R. apply (pow_in_range_pos _ _ (value a) (proj2 R) X). }
      apply (no_multiple (W ^ Z.of_nat (length l)) (HW * W ^ Z.of_nat (Z.to_nat k)) (- sgn tp)); [|apply half_lt_pow; assumption].
      rewrite Va, D2 in X. clear - X. lia. }
    destruct (Z.eq_dec tp HW) as [Etp|Ntp].
    + assert (Ew : (sgn (wsub tp 1) =? HW - 1) = true) by (rewrite Etp; reflexivity). rewrite Ew.
      destruct (resize_grow _ r (S (length a)) Sr ltac:(lia)) as (t2 & Er & Lt2). rewrite Er.
      destruct t2 as [|y t2]; [cbn [length] in Lt2; lia|].
      replace (S (length l')) with (length r) by lia.
      rewrite (wr_mid dbg _ r y t2) by (cbn [cells mused]; try reflexivity; lia). cbn [mused].
      set (r2 := r ++ [wrap (-1)]). assert (W2 : wf r2) by (apply wf_snoc; split; [apply Wr|apply wrap_word]).
      assert (V2 : value r2 = value a - 1).
      { unfold r2. rewrite value_snoc. change (sgn (wrap (-1))) with (-1). unfold r. rewrite uvalue_app, app_length. cbn [length uvalue].
        rewrite Nat.add_1_r, Wpow_S, D3, Va, D2, Etp, L. change (wsub HW 1) with (HW - 1). change (sgn HW) with (- HW). rewrite <- W_eq.
        change W with (2 * HW) at 4. set (p := W ^ Z.of_nat (length l)). clearbody p. lia. }
      eexists. exists r2. split; [reflexivity|]. split; [split; cbn [mused cells]; [unfold r2; rewrite app_length; cbn [length]; lia|exists t2; reflexivity]|].
      split; [assumption|]. split; [assumption|]. split; [auto|]. intros _. apply small_out; [assumption|unfold r2; rewrite app_length; cbn [length]; lia|].
      intros n Hn Hx. unfold r2 in Hn. rewrite app_length in Hn. cbn [length] in Hn. rewrite V2, Va, D2, Etp in Hx. change (sgn HW) with (- HW) in Hx.
      pose proof (HWpow_le n (length l) ltac:(lia)). lia.
    + assert (Ew : (sgn (wsub tp 1) =? HW - 1) = false).
      { rewrite (wsub1 tp Ht'). destruct (Z.eqb_spec tp 0); [reflexivity|].
        unfold sgn. destruct (Z.ltb_spec (tp - 1) HW); unfold HW, W in *; lia. }
      rewrite Ew.
      destruct (strim_ok (Mem (map Some r ++ t) (length a)) r) as (m' & E' & S'); [apply Wr|assumption|].
      destruct (trim_canonical r Wr) as [T1 T2].
      assert (Vr : value r = value a - 1).
      { unfold r. rewrite value_snoc, L, Va, D2, D3. rewrite (wsub1 tp Ht').
        assert (sgn (if tp =? 0 then W - 1 else tp - 1) = sgn tp - 1); [|nia].
        unfold sgn. destruct (Z.eqb_spec tp 0) as [->|]; [reflexivity|].
        destruct (Z.ltb_spec (tp - 1) HW), (Z.ltb_spec tp HW); lia. }
      exists m', (trim r). split; [exact E'|]. split; [exact S'|]. split; [apply T1|]. split; [lia|]. split; auto.
Qed.

(** ** Where ++ goes wrong *)
Lemma incr_overflow m a : canonical a -> stored m a -> value a = 2 ^ (64 * (used a - 1) + 63) - 1 ->
  incr true m = AssertFail /\
  (incr false m = UB \/ exists m' r, incr false m = Ok m' /\ stored m' r /\ value r = - value a - 1).
Proof.
  intros Ha Hs Hov. pose proof (proj1 Ha) as Hw. unfold incr.
  destruct (snoc_case a (proj1 Hw)) as (l & tp & El).
  pose proof (proj2 Hw) as Hf. rewrite El in Hf. apply Forall_app in Hf as [Hf Ht]. inversion Ht as [|? ? Ht' _]; subst x l0.
  pose proof (proj1 Hs) as Hu. destruct (proj2 Hs) as (t & Ec).
  assert (La : length a = S (length l)) by (rewrite El, app_length; cbn [length]; lia).
  unfold used in Hov. rewrite La in Hov. replace (Z.of_nat (S (length l)) - 1) with (Z.of_nat (length l)) in Hov by lia. rewrite pow63 in Hov.
  assert (Nh : forall dbg, mis_half dbg m = Ok false).
  { intros dbg. destruct (mis_half_ok dbg m a Hw Hs) as (h & E & Hh). rewrite E. f_equal. destruct h; [|reflexivity].
    exfalso. pose proof (half_small a (proj1 Hh eq_refl) (length l)). lia. }
  rewrite !Nh. cbn [rbind].
  assert (Em : m = Mem (map Some ([] ++ l) ++ Some tp :: t) (length a)).
  { destruct m as [cs u]. cbn [mused cells] in *. rewrite Hu, Ec, El. f_equal. rewrite map_app, <- app_assoc. reflexivity. }
  cbv zeta. replace (mused m - 1)%nat with (length l) by lia. rewrite Em.
  assert (Va : value a = uvalue l + W ^ Z.of_nat (length l) * sgn tp) by (rewrite El; apply value_snoc).
  pose proof (uvalue_range l Hf) as Rl. pose proof (sgn_range tp Ht') as Rt.
  assert (Et : sgn tp = HW - 1 /\ uvalue l = W ^ Z.of_nat (length l) - 1).
  { rewrite Va in Hov. set (p := W ^ Z.of_nat (length l)) in *. clearbody p. set (s := sgn tp) in *. clearbody s. set (q := uvalue l) in *. clearbody q.
    clear - Hov Rl Rt. assert (s = HW - 1); [|subst s; split; [reflexivity|lia]]. nia. }
  destruct Et as [Et Eu].
  assert (Etp : tp = HW - 1).
  { apply sgn_inj; [assumption|apply is_word_W; unfold HW, W; lia|]. rewrite Et. reflexivity. }
  assert (G : forall dbg, exists l', Forall is_word l' /\ length l' = length l /\ uvalue l' = 0 /\
    incr_low dbg (length l) 0 (Mem (map Some ([] ++ l) ++ Some tp :: t) (length a)) = Ok (inr (Mem (map Some l' ++ Some tp :: t) (length a)))).
  { intros dbg. destruct (incr_low_ok dbg (length a) l [] (Some tp :: t) ltac:(cbn [length]; lia) Hf) as (l' & F & L & D).
    exists l'. split; [assumption|]. split; [assumption|]. destruct D as [[D1 D2]|(D1 & D2 & D3)].
    - exfalso. pose proof (uvalue_range l' F) as R'. rewrite L in R'. lia.
    - split; [assumption|]. exact D1. }
  split.
  - destruct (G true) as (l' & F & L & U & E). rewrite E. cbn [rbind]. rewrite <- L.
    rewrite (rd_mid true _ l' tp t) by (cbn [cells mused]; try reflexivity; lia). cbn [rbind].
    rewrite (wr_mid true _ l' (Some tp) t) by (cbn [cells mused]; try reflexivity; lia). cbn [rbind mused].
    rewrite Etp. change (wadd (HW - 1) 1 =? HW) with true. cbn iota.
    unfold wr, check. cbn [mused]. destruct (Nat.ltb_spec (S (length l')) (length a)); [lia|]. reflexivity.
  - destruct (G false) as (l' & F & L & U & E). rewrite E. cbn [rbind]. rewrite <- L.
    rewrite (rd_mid false _ l' tp t) by (cbn [cells mused]; try reflexivity; lia). cbn [rbind].
    rewrite (wr_mid false _ l' (Some tp) t) by (cbn [cells mused]; try reflexivity; lia). cbn [rbind mused].
    rewrite Etp. change (wadd (HW - 1) 1) with HW. change (HW =? HW) with true. cbn iota.
    unfold wr, check. cbn [andb rbind mused cells]. destruct (Nat.ltb_spec (S (length l')) (length (map Some (l' ++ [HW]) ++ t))) as [Hc|Hc]; [right|left; reflexivity].
    assert (Lr : length (l' ++ [HW]) = S (length l')) by (rewrite app_length; cbn [length]; lia).
    eexists. exists (l' ++ [HW]). split; [reflexivity|]. split.
    + split; cbn [set_cell mused cells]; [lia|].
      rewrite app_length, map_length, Lr in Hc. destruct t as [|y t]; [cbn [length] in Hc; lia|].
      exists (Some 0 :: t). rewrite firstn_app, map_length, Lr, Nat.sub_diag, firstn_all2 by (rewrite map_length; lia).
      cbn [firstn]. rewrite app_nil_r. rewrite skipn_app, map_length, Lr, skipn_all2 by (rewrite map_length; lia).
      replace (S (S (length l')) - S (length l'))%nat with 1%nat by lia. reflexivity.
    + rewrite value_snoc, U, L, Hov. change (sgn HW) with (- HW). lia.
Qed.

(** ** Self-assignment operands *)
Lemma half_self dbg m a : wf a -> stored m a -> half a ->
  exists m', plus_assign dbg m Self = Ok m' /\ stored m' [wadd (first a) (first a)].
Proof.
  intros Hw Hs Hh. destruct Hh as (w & -> & Hr). unfold plus_assign, op_half. cbn [rd_op used_op].
  rewrite (stored_first dbg m [w]) by (try discriminate; assumption). cbn [rbind first hd]. rewrite (proj1 Hs).
  assert (E : all_half_words2 [w] [w] = true) by (apply all_half2_spec; try assumption; split; exists w; auto).
  unfold all_half_words2, extra_size in E. cbn [first hd] in E. rewrite E.
  apply (wr_first dbg m [w]); [reflexivity|assumption].
Qed.
Lemma half_self_minus dbg m a : wf a -> stored m a -> half a ->
  exists m', minus_assign dbg m Self = Ok m' /\ stored m' [wsub (first a) (first a)].
Proof.
  intros Hw Hs Hh. destruct Hh as (w & -> & Hr). unfold minus_assign, op_half. cbn [rd_op used_op].
  rewrite (stored_first dbg m [w]) by (try discriminate; assumption). cbn [rbind first hd]. rewrite (proj1 Hs).
  assert (E : all_half_words2 [w] [w] = true) by (apply all_half2_spec; try assumption; split; exists w; auto).
  unfold all_half_words2, extra_size in E. cbn [first hd] in E. rewrite E.
  apply (wr_first dbg m [w]); [reflexivity|assumption].
Qed.
Lemma half_range_small a : canonical a -> half_range (value a) -> half a.
Proof.
  intros Ha Hr. destruct (single_or_more a (proj1 Ha)) as [(x & -> & Hx)|L].
  - rewrite value_single in Hr. exists x. auto.
  - pose proof (big_canonical_range a Ha L). unfold half_range, HW in *. lia.
Qed.
Lemma plus_self_ok dbg m a : canonical a -> stored m a -> half_range (value a) ->
  exists m' r, plus_assign dbg m Self = Ok m' /\ stored m' r /\ canonical r /\ value r = value a + value a.
Proof.
  intros Ha Hs Hr. pose proof (half_range_small a Ha Hr) as Hh. destruct (half_self dbg m a (proj1 Ha) Hs Hh) as (m' & E & S').
  exists m', [wadd (first a) (first a)]. split; [assumption|]. split; [assumption|].
  destruct (half_value a Hh) as [Ev _].
  destruct (half_add1 a (first a) Hh) as (C1 & C2 & _).
  { apply wf_first, Ha. }
  { exists (value a). split; [|assumption]. rewrite Ev. destruct Hh as (w & -> & _). cbn [first hd].
    pose proof (proj2 (proj1 Ha)) as X. inversion X as [|? ? Xw _]; subst. symmetry. apply wrap_sgn. assumption. }
  rewrite <- Ev in C2. auto.
Qed.
Lemma minus_self_ok dbg m a : canonical a -> stored m a -> half_range (value a) ->
  exists m' r, minus_assign dbg m Self = Ok m' /\ stored m' r /\ canonical r /\ value r = 0.
Proof.
  intros Ha Hs Hr. pose proof (half_range_small a Ha Hr) as Hh. destruct (half_self_minus dbg m a (proj1 Ha) Hs Hh) as (m' & E & S').
  exists m', [wsub (first a) (first a)]. split; [assumption|]. split; [assumption|].
  unfold wsub. rewrite Z.sub_diag. split; [|reflexivity]. apply single_canonical. apply word0.
Qed.

(** Outside that range, with no spare capacity, the loop over [other] reads a
    word that was never written. *)
Lemma ip_self_ub f m a : wf a -> stored m a -> no_spare m -> forall dbg, ip_slow f dbg m Self = UB.
Proof.
  intros Hw Hs Hn dbg. unfold ip_slow, op_top. cbv zeta. cbn [used_op rd_op].
  rewrite !(stored_top dbg m a) by (try apply Hw; assumption). cbn [rbind].
  set (ea := wsign_ext (top a)). clearbody ea.
  pose proof (proj1 Hs) as Hu. rewrite Hu, Nat.min_id, Nat.max_id.
  assert (Er : resize m (length a + 1) = Mem (map Some ([] ++ a) ++ [None]) (length a + 1)).
  { unfold resize. unfold no_spare in Hn. destruct (Nat.ltb_spec (length (cells m)) (length a + 1)); [|lia].
    f_equal. destruct (proj2 Hs) as (t & E). rewrite E, Hu, firstn_app, map_length, Nat.sub_diag, firstn_all2 by (rewrite map_length; lia).
    cbn [firstn app]. rewrite app_nil_r. replace (length a + 1 - length a)%nat with 1%nat by lia. reflexivity. }
  rewrite Er.
  assert (G : forall xs d c, (length d + length xs + 1 = length a + 1)%nat ->
    exists r c', length r = length xs /\ ip_common f dbg (length xs) (length d) (Mem (map Some (d ++ xs) ++ [None]) (length a + 1)) Self c =
      Ok ((length d + length xs)%nat, Mem (map Some (d ++ r) ++ [None]) (length a + 1), c')).
  { induction xs as [|x xs IH]; intros d c Hl.
    - exists [], c. cbn [length ip_common]. rewrite Nat.add_0_r. auto.
    - cbn [length] in *. cbn [ip_common rd_op].
      rewrite !(rd_mid dbg _ d x (map Some xs ++ [None])) by (cbn [cells mused]; try (rewrite map_app, <- app_assoc; reflexivity); lia).
      cbn [rbind].
      rewrite (wr_mid dbg _ d (Some x) (map Some xs ++ [None])) by (cbn [cells mused]; try (rewrite map_app, <- app_assoc; reflexivity); lia).
      cbn [rbind mused]. destruct (IH (d ++ [fst (f x x c)]) (snd (f x x c))) as (r & c' & R1 & R2).
      + rewrite app_length. cbn [length]. lia.
      + exists (fst (f x x c) :: r), c'. split; [cbn [length]; lia|].
        rewrite app_length in R2. cbn [length] in R2. replace (length d + 1)%nat with (S (length d)) in R2 by lia.
        rewrite app_assoc, <- map_app. rewrite R2. f_equal. f_equal. f_equal; [lia|]. rewrite <- app_assoc. reflexivity. }
  destruct (G a [] false ltac:(cbn [length]; lia)) as (r & c' & R1 & R2). cbn [length] in R2. cbn [app] in *. rewrite Nat.add_0_l in R2.
  rewrite R2. cbn [rbind]. rewrite Nat.sub_diag. cbn [ip_mine rbind used_op mused].
  replace (length a + 1 - length a)%nat with 1%nat by lia. cbn [ip_other rd_op].
  unfold rd, check. cbn [mused cells]. destruct (Nat.ltb_spec (length a) (length a + 1)); [|lia]. cbn [negb]. rewrite andb_false_r. cbn [rbind].
  rewrite nth_error_app2 by (rewrite map_length; lia). rewrite map_length, R1, Nat.sub_diag. reflexivity.
Qed.
Lemma self_not_half dbg m a : canonical a -> stored m a -> ~ half_range (value a) -> op_half dbg m Self = Ok false.
Proof.
  intros Ha Hs Hr. pose proof (proj1 Ha) as Hw. unfold op_half. cbn [rd_op used_op].
  rewrite !(stored_first dbg m a) by (try apply Hw; assumption). cbn [rbind]. rewrite (proj1 Hs).
  destruct (all_half_words2 a a) eqn:E; [|unfold all_half_words2, extra_size in E; rewrite E; reflexivity].
  exfalso. apply Hr. apply all_half2_spec in E as [E _]; try assumption. apply half_value. assumption.
Qed.
Lemma plus_self_ub dbg m a : canonical a -> stored m a -> no_spare m -> ~ half_range (value a) ->
  plus_assign dbg m Self = UB /\ minus_assign dbg m Self = UB.
Proof.
  intros Ha Hs Hn Hr. unfold plus_assign, minus_assign. rewrite (self_not_half dbg m a Ha Hs Hr). cbn [rbind].
  split; apply (ip_self_ub _ m a); try assumption; apply Ha.
Qed.
