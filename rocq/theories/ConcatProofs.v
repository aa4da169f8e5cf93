(** ConcatRange: representation invariant and iterator positions. *)
From Coq Require Import List Bool Arith Lia ZifyBool ZifyNat.
From Verif Require Import BigUIntModel ConcatModel ConcatSpec.
Import ListNotations.

Definition piece : Type := nat * nat * nat.
Definition p_len (t : piece) : nat := let '(c, i, j) := t in j - i.
Definition p_rng (t : piece) : range := let '(c, i, j) := t in (At c i, At c j).
Definition p_els (t : piece) : list (nat * nat) := let '(c, i, j) := t in elements c i j.
Definition p_ok (size : nat -> nat) (t : piece) : Prop := let '(c, i, j) := t in i < j <= size c.
Definition img (l : list piece) : concat_range := map p_rng l ++ [(Null, Null)].
Definition flat (l : list piece) : list (nat * nat) := flat_map p_els l.
Fixpoint loc (l : list piece) (n : nat) : cit :=
  match l with
  | [] => CIt 0 Null
  | (c, i, j) :: t => if n <? j - i then CIt 0 (At c (i + n)) else let a := loc t (n - (j - i)) in CIt (S (ci_range a)) (ci_pos a)
  end.

Lemma iter_eqb_spec a b : reflect (a = b) (iter_eqb a b).
Proof.
  destruct a as [|c i], b as [|c' i']; cbn [iter_eqb]; try (constructor; congruence).
  destruct (Nat.eqb_spec c c') as [->|N], (Nat.eqb_spec i i') as [->|M]; cbn [andb]; constructor; congruence.
Qed.
Lemma iter_eqb_refl a : iter_eqb a a = true.
Proof. destruct (iter_eqb_spec a a); congruence. Qed.
Lemma ci_eqb_spec a b : reflect (a = b) (ci_eqb a b).
Proof.
  destruct a as [k p], b as [k' p']. unfold ci_eqb. cbn [ci_range ci_pos].
  destruct (Nat.eqb_spec k k') as [->|N], (iter_eqb_spec p p') as [->|M]; cbn [andb]; constructor; congruence.
Qed.
Lemma elements_len c i j : length (elements c i j) = j - i.
Proof. unfold elements. rewrite map_length, seq_length. reflexivity. Qed.
Lemma p_els_len t : length (p_els t) = p_len t.
Proof. destruct t as [[c i] j]. apply elements_len. Qed.
Lemma flat_cons t l : flat (t :: l) = p_els t ++ flat l.
Proof. reflexivity. Qed.
Lemma flat_app l l' : flat (l ++ l') = flat l ++ flat l'.
Proof. apply flat_map_app. Qed.
Lemma flat_len_cons t l : length (flat (t :: l)) = p_len t + length (flat l).
Proof. rewrite flat_cons, app_length, p_els_len. reflexivity. Qed.
Lemma img_len l : length (img l) = S (length l).
Proof. unfold img. rewrite app_length, map_length. cbn [length]. lia. Qed.
Lemma img_cons t l : img (t :: l) = p_rng t :: img l.
Proof. reflexivity. Qed.
Lemma img_removelast l : removelast (img l) = map p_rng l.
Proof. unfold img. apply removelast_last. Qed.
Lemma img_last l d : last (img l) d = (Null, Null).
Proof. unfold img. apply last_last. Qed.

(** ** Shifting by one range *)
Definition shift (a : cit) : cit := CIt (S (ci_range a)) (ci_pos a).
Lemma range_at_S x r k : range_at (x :: r) (S k) = range_at r k.
Proof. reflexivity. Qed.
Lemma advance_shift x r a : advance_range (x :: r) (shift a) = b <- advance_range r a ;; Ok (shift b).
Proof. unfold advance_range, shift. cbn [ci_range ci_pos]. rewrite range_at_S. destruct (range_at r (S (ci_range a))); reflexivity. Qed.
Lemma ci_inc_shift size x r a : ci_inc size (x :: r) (shift a) = b <- ci_inc size r a ;; Ok (shift b).
Proof.
  unfold ci_inc. cbn [shift ci_range ci_pos]. destruct (in_inc size (ci_pos a)) as [p| | |]; cbn [rbind]; try reflexivity.
  rewrite range_at_S. destruct (range_at r (ci_range a)) as [q| | |]; cbn [rbind]; try reflexivity.
  destruct (iter_eqb p (snd q)); [|reflexivity]. exact (advance_shift x r (CIt (ci_range a) p)).
Qed.
Lemma loc_0 l size : Forall (p_ok size) l -> loc l 0 = CIt 0 (fst (hd (Null, Null) (img l))).
Proof.
  destruct l as [|[[c i] j] t]; intros H; [reflexivity|]. apply Forall_cons_iff in H as [H _]. cbn [p_ok] in H. cbn [loc].
  destruct (Nat.ltb_spec 0 (j - i)); [|lia]. rewrite Nat.add_0_r. reflexivity.
Qed.
Lemma begin_eq l size : Forall (p_ok size) l -> cr_begin (img l) = Ok (loc l 0).
Proof. intros H. rewrite (loc_0 l size H). unfold cr_begin, range_at. destruct l; reflexivity. Qed.
Lemma advance_eq l size t : Forall (p_ok size) l -> forall p, advance_range (p_rng t :: img l) (CIt 0 p) = Ok (shift (loc l 0)).
Proof.
  intros H p. rewrite (loc_0 l size H). unfold advance_range. cbn [ci_range]. rewrite range_at_S. unfold range_at, shift. destruct l; reflexivity.
Qed.
Lemma loc_ge c i j t n : j - i <= n -> loc ((c, i, j) :: t) n = shift (loc t (n - (j - i))).
Proof. intros H. cbn [loc]. destruct (Nat.ltb_spec n (j - i)); [lia|reflexivity]. Qed.
Lemma loc_lt c i j t n : n < j - i -> loc ((c, i, j) :: t) n = CIt 0 (At c (i + n)).
Proof. intros H. cbn [loc]. destruct (Nat.ltb_spec n (j - i)); [reflexivity|lia]. Qed.
Lemma inc_eq l size : Forall (p_ok size) l -> forall n, n < length (flat l) -> ci_inc size (img l) (loc l n) = Ok (loc l (S n)).
Proof.
  induction l as [|[[c i] j] t IH]; intros H n L; [cbn in L; lia|]. apply Forall_cons_iff in H as [H1 H]. cbn [p_ok] in H1. rewrite flat_len_cons in L. cbn [p_len] in L. rewrite img_cons.
  destruct (Nat.lt_ge_cases n (j - i)) as [A|A].
  - rewrite (loc_lt _ _ _ _ _ A). unfold ci_inc, in_inc. cbn [ci_pos ci_range]. destruct (Nat.ltb_spec (i + n) (size c)); [|lia]. cbn [rbind range_at nth_error p_rng snd iter_eqb]. rewrite Nat.eqb_refl. cbn [andb].
    destruct (Nat.eqb_spec (S (i + n)) j) as [E|E].
    + change (At c i, At c j) with (p_rng (c, i, j)). rewrite (advance_eq t size (c, i, j) H). rewrite loc_ge by lia. replace (S n - (j - i)) with 0 by lia. reflexivity.
    + rewrite loc_lt by lia. f_equal. f_equal. f_equal. lia.
  - rewrite (loc_ge _ _ _ _ _ A). rewrite ci_inc_shift. rewrite (IH H) by lia. cbn [rbind]. rewrite loc_ge by lia. repeat f_equal. lia.
Qed.
Lemma loc_end l size : Forall (p_ok size) l -> loc l (length (flat l)) = CIt (length l) Null.
Proof.
  induction l as [|[[c i] j] t IH]; intros H; [reflexivity|]. apply Forall_cons_iff in H as [H1 H]. rewrite flat_len_cons. cbn [p_len]. rewrite loc_ge by lia.
  replace (j - i + length (flat t) - (j - i)) with (length (flat t)) by lia. rewrite (IH H). reflexivity.
Qed.
Lemma end_eq l size : Forall (p_ok size) l -> cr_end (img l) = Ok (loc l (length (flat l))).
Proof.
  intros H. rewrite (loc_end l size H). unfold cr_end. rewrite img_len. replace (S (length l) - 1) with (length l) by lia. unfold range_at, img. rewrite nth_error_app2 by (rewrite map_length; lia). rewrite map_length, Nat.sub_diag. reflexivity.
Qed.
Lemma inc_end l size : Forall (p_ok size) l -> ci_inc size (img l) (loc l (length (flat l))) = UB.
Proof. intros H. rewrite (loc_end l size H). reflexivity. Qed.
Lemma in_range_loc l size : Forall (p_ok size) l -> forall n p, nth_error (flat l) n = Some p -> stands_on (loc l n) p.
Proof.
  induction l as [|[[c i] j] t IH]; intros H n p E; [destruct n; discriminate|]. apply Forall_cons_iff in H as [H1 H]. rewrite flat_cons in E. cbn [p_els] in E.
  destruct (Nat.lt_ge_cases n (j - i)) as [A|A].
  - rewrite nth_error_app1 in E by (rewrite elements_len; exact A). rewrite (loc_lt _ _ _ _ _ A). unfold elements in E. rewrite nth_error_map in E.
    rewrite (nth_error_nth' (seq i (j - i)) 0) in E by (rewrite seq_length; exact A). rewrite seq_nth in E by exact A. injection E as <-. reflexivity.
  - rewrite nth_error_app2 in E by (rewrite elements_len; exact A). rewrite elements_len in E. rewrite (loc_ge _ _ _ _ _ A). exact (IH H _ _ E).
Qed.
(** ** Decrement *)
Lemma ci_dec_shift x r a : ci_range a <> 0 \/ (exists q, range_at r 0 = Ok q /\ iter_eqb (ci_pos a) (fst q) = false) ->
  ci_dec (x :: r) (shift a) = b <- ci_dec r a ;; Ok (shift b).
Proof.
  intros D. unfold ci_dec. cbn [shift ci_range ci_pos]. rewrite range_at_S. destruct (range_at r (ci_range a)) as [q| | |] eqn:Q; cbn [rbind]; try reflexivity.
  destruct (iter_eqb (ci_pos a) (fst q)) eqn:E.
  - destruct (ci_range a) as [|k] eqn:K.
    + destruct D as [D|(q' & D1 & D2)]; [congruence|]. rewrite Q in D1. injection D1 as <-. congruence.
    + rewrite range_at_S. destruct (range_at r k) as [q'| | |]; cbn [rbind ci_pos ci_range]; try reflexivity. destruct (in_dec (snd q')); reflexivity.
  - cbn [rbind shift ci_pos ci_range]. destruct (in_dec (ci_pos a)); reflexivity.
Qed.
Lemma dec_eq l size : Forall (p_ok size) l -> forall n, n < length (flat l) -> ci_dec (img l) (loc l (S n)) = Ok (loc l n).
Proof.
  induction l as [|[[c i] j] t IH]; intros H n L; [cbn in L; lia|]. apply Forall_cons_iff in H as [H1 H]. cbn [p_ok] in H1. rewrite flat_len_cons in L. cbn [p_len] in L. rewrite img_cons.
  destruct (Nat.lt_ge_cases (S n) (j - i)) as [A|A].
  - rewrite (loc_lt _ _ _ _ _ A), loc_lt by lia. unfold ci_dec. cbn [ci_pos ci_range range_at nth_error p_rng rbind fst iter_eqb]. destruct (Nat.eqb_spec (i + S n) i); [lia|]. rewrite andb_false_r. cbn [rbind ci_pos ci_range]. replace (i + S n) with (S (i + n)) by lia. reflexivity.
  - rewrite (loc_ge _ _ _ _ _ A). destruct (Nat.eq_dec (S n) (j - i)) as [E|E].
    + rewrite E, Nat.sub_diag. rewrite loc_lt by lia. rewrite (loc_0 t size H). unfold ci_dec. cbn [shift ci_range ci_pos]. rewrite range_at_S. unfold range_at at 1.
      destruct (img t) as [|q r] eqn:I; [apply (f_equal (@length range)) in I; rewrite img_len in I; discriminate|]. cbn [nth_error rbind hd]. rewrite iter_eqb_refl. cbn [range_at nth_error rbind p_rng snd ci_pos ci_range].
      destruct j as [|j]; [lia|]. cbn [in_dec rbind]. repeat f_equal. lia.
    + replace (S n - (j - i)) with (S (n - (j - i))) by lia. rewrite ci_dec_shift.
      * rewrite (IH H) by lia. cbn [rbind]. rewrite loc_ge by lia. reflexivity.
      * destruct t as [|[[c' i'] j'] t']; [cbn in L; lia|]. apply Forall_cons_iff in H as [H2 H]. cbn [p_ok] in H2. destruct (Nat.lt_ge_cases (S (n - (j - i))) (j' - i')) as [B|B].
        -- right. exists (At c' i', At c' j'). split; [reflexivity|]. rewrite (loc_lt _ _ _ _ _ B). cbn [ci_pos iter_eqb fst]. destruct (Nat.eqb_spec (i' + S (n - (j - i))) i'); [lia|apply andb_false_r].
        -- left. rewrite (loc_ge _ _ _ _ _ B). discriminate.
Qed.
Lemma loc_inj l size : Forall (p_ok size) l -> forall n m, n <= length (flat l) -> m <= length (flat l) -> loc l n = loc l m -> n = m.
Proof.
  induction l as [|[[c i] j] t IH]; intros H n m N M E; [cbn in N, M; lia|]. apply Forall_cons_iff in H as [H1 H]. rewrite flat_len_cons in N, M. cbn [p_len] in N, M.
  destruct (Nat.lt_ge_cases n (j - i)) as [A|A], (Nat.lt_ge_cases m (j - i)) as [B|B].
  - rewrite (loc_lt _ _ _ _ _ A), (loc_lt _ _ _ _ _ B) in E. injection E as E. lia.
  - rewrite (loc_lt _ _ _ _ _ A), (loc_ge _ _ _ _ _ B) in E. discriminate.
  - rewrite (loc_ge _ _ _ _ _ A), (loc_lt _ _ _ _ _ B) in E. discriminate.
  - rewrite (loc_ge _ _ _ _ _ A), (loc_ge _ _ _ _ _ B) in E. injection E as E1 E2.
    assert (n - (j - i) = m - (j - i)); [|lia]. apply (IH H); [lia|lia|]. destruct (loc t (n - (j - i))), (loc t (m - (j - i))). cbn in *. congruence.
Qed.
Lemma inc_n_eq l size : Forall (p_ok size) l -> forall k n, n + k <= length (flat l) -> ci_inc_n k size (img l) (loc l n) = Ok (loc l (n + k)).
Proof.
  intros H. induction k as [|k IH]; intros n L; [rewrite Nat.add_0_r; reflexivity|]. cbn [ci_inc_n]. rewrite (inc_eq l size H) by lia. cbn [rbind]. rewrite IH by lia. f_equal. f_equal. lia.
Qed.
Lemma inc_n_over l size : Forall (p_ok size) l -> forall k n, n <= length (flat l) -> length (flat l) < n + k -> ci_inc_n k size (img l) (loc l n) = UB.
Proof.
  intros H. induction k as [|k IH]; intros n L G; [lia|]. cbn [ci_inc_n]. destruct (Nat.eq_dec n (length (flat l))) as [->|N].
  - rewrite (inc_end l size H). reflexivity.
  - rewrite (inc_eq l size H) by lia. cbn [rbind]. apply IH; lia.
Qed.
Lemma walk_eq l size : Forall (p_ok size) l -> forall k n fuel, n + k = length (flat l) -> k <= fuel ->
  walk fuel size (img l) (loc l n) (loc l (length (flat l))) = Ok (map (loc l) (seq n k)).
Proof.
  intros H. induction k as [|k IH]; intros n fuel L F.
  - rewrite Nat.add_0_r in L. subst n. destruct fuel; cbn [walk]; (destruct (ci_eqb_spec (loc l (length (flat l))) (loc l (length (flat l)))); [reflexivity|congruence]).
  - destruct fuel as [|fuel]; [lia|]. cbn [walk]. destruct (ci_eqb_spec (loc l n) (loc l (length (flat l)))) as [E|E].
    + apply (loc_inj l size H) in E; lia.
    + rewrite (inc_eq l size H) by lia. cbn [rbind]. rewrite IH by lia. reflexivity.
Qed.
Lemma walk_back_eq l size : Forall (p_ok size) l -> forall n fuel, n <= length (flat l) -> n <= fuel ->
  walk_back fuel (img l) (loc l n) (loc l 0) = Ok (map (loc l) (rev (seq 0 n))).
Proof.
  intros H. induction n as [|n IH]; intros fuel L F.
  - destruct fuel; cbn [walk_back]; (destruct (ci_eqb_spec (loc l 0) (loc l 0)); [reflexivity|congruence]).
  - destruct fuel as [|fuel]; [lia|]. cbn [walk_back]. destruct (ci_eqb_spec (loc l (S n)) (loc l 0)) as [E|E].
    + apply (loc_inj l size H) in E; lia.
    + rewrite (dec_eq l size H) by lia. cbn [rbind]. rewrite IH by lia. cbn [rbind]. rewrite seq_S, rev_app_distr. reflexivity.
Qed.
(** ** Taking ranges from another object *)
Lemma slice_nil {A} (n m : nat) : slice (@nil A) n m = [].
Proof. unfold slice. rewrite skipn_nil. apply firstn_nil. Qed.
Lemma slice_app {A} (a b : list A) n m : n <= m -> slice (a ++ b) n m = slice a n m ++ slice b (n - length a) (m - length a).
Proof.
  intros H. unfold slice. rewrite skipn_app, firstn_app, skipn_length. f_equal. f_equal. lia.
Qed.
Lemma elements_app c i j k : i <= j <= k -> elements c i k = elements c i j ++ elements c j k.
Proof. intros H. unfold elements. replace (k - i) with ((j - i) + (k - j)) by lia. rewrite seq_app, map_app. repeat f_equal. lia. Qed.
Lemma elements_slice c i j n m : i <= j -> n <= m <= j - i -> slice (elements c i j) n m = elements c (i + n) (i + m).
Proof.
  intros IJ H. rewrite (elements_app c i (i + n) j) by lia. rewrite (elements_app c (i + n) (i + m) j) by lia. unfold slice.
  rewrite skipn_app, skipn_all2 by (rewrite elements_len; lia). rewrite elements_len. replace (n - (i + n - i)) with 0 by lia. cbn [app skipn]. rewrite firstn_app, elements_len.
  rewrite firstn_all2 by (rewrite elements_len; lia). replace (m - n - (i + m - (i + n))) with 0 by lia. cbn [firstn]. apply app_nil_r.
Qed.
Lemma slice_all {A} (l : list A) m : length l <= m -> slice l 0 m = l.
Proof. intros H. unfold slice. cbn [skipn]. apply firstn_all2. lia. Qed.
Lemma slice_past {A} (l : list A) n m : length l <= n -> slice l n m = [].
Proof. intros H. unfold slice. rewrite skipn_all2 by exact H. apply firstn_nil. Qed.
Lemma append_loop_shift fuel x o : forall a b, append_loop fuel (x :: o) (shift a) (shift b) = append_loop fuel o a b.
Proof.
  induction fuel as [|f IH]; intros a b; [reflexivity|]. cbn [append_loop shift ci_range ci_pos]. cbn [Nat.eqb]. destruct (ci_range a =? ci_range b); [reflexivity|].
  rewrite range_at_S. destruct (range_at o (ci_range a)) as [q| | |]; cbn [rbind]; try reflexivity.
  change (CIt (S (ci_range a)) (ci_pos a)) with (shift a). rewrite advance_shift. destruct (advance_range o a) as [a'| | |]; cbn [rbind]; try reflexivity. change (CIt (S (ci_range b)) (ci_pos b)) with (shift b). rewrite IH. reflexivity.
Qed.
Lemma append_loop_eq size : forall l, Forall (p_ok size) l -> forall n m fuel, n <= m <= length (flat l) -> S (length l) <= fuel ->
  exists t, append_loop fuel (img l) (loc l n) (loc l m) = Ok (map p_rng t) /\ Forall (p_ok size) t /\ flat t = slice (flat l) n m.
Proof.
  induction l as [|[[c i] j] l IH]; intros H n m fuel L F.
  - cbn in L. destruct fuel as [|fuel]; [cbn in F; lia|]. exists []. split; [reflexivity|]. split; [constructor|]. cbn [flat flat_map]. rewrite slice_nil. reflexivity.
  - apply Forall_cons_iff in H as [H1 H]. cbn [p_ok] in H1. rewrite flat_len_cons in L. cbn [p_len] in L. cbn [length] in F. rewrite img_cons, flat_cons. cbn [p_els].
    rewrite slice_app by lia. rewrite elements_len.
    destruct (Nat.lt_ge_cases n (j - i)) as [A|A], (Nat.lt_ge_cases m (j - i)) as [B|B]; try lia.
    + rewrite (loc_lt _ _ _ _ _ A), (loc_lt _ _ _ _ _ B). destruct fuel as [|fuel]; [lia|]. cbn [append_loop ci_range ci_pos]. rewrite Nat.eqb_refl.
      replace (slice (flat l) (n - (j - i)) (m - (j - i))) with (@nil (nat * nat)) by (replace (m - (j - i)) with 0 by lia; replace (n - (j - i)) with 0 by lia; reflexivity). rewrite app_nil_r, elements_slice by lia.
      cbn [iter_eqb]. rewrite Nat.eqb_refl. cbn [andb]. destruct (Nat.eqb_spec (i + n) (i + m)) as [E|E].
      * exists []. split; [reflexivity|]. split; [constructor|]. unfold elements. replace (i + m - (i + n)) with 0 by lia. reflexivity.
      * exists [(c, i + n, i + m)]. split; [reflexivity|]. split; [constructor; [cbn [p_ok]; lia|constructor]|]. cbn [flat flat_map p_els]. apply app_nil_r.
    + rewrite (loc_lt _ _ _ _ _ A), (loc_ge _ _ _ _ _ B). destruct fuel as [|fuel]; [lia|]. cbn [append_loop shift ci_range ci_pos Nat.eqb]. cbn [range_at nth_error rbind].
      rewrite (advance_eq l size (c, i, j) H). cbn [rbind]. fold (shift (loc l (m - (j - i)))). rewrite append_loop_shift.
      destruct (IH H 0 (m - (j - i)) fuel ltac:(lia) ltac:(lia)) as (t & E & T & FL). rewrite E. cbn [rbind]. exists ((c, i + n, j) :: t). split; [reflexivity|]. split; [constructor; [cbn [p_ok]; lia|exact T]|].
      rewrite flat_cons, FL. cbn [p_els]. replace (n - (j - i)) with 0 by lia. f_equal. unfold slice. rewrite firstn_all2 by (rewrite skipn_length, elements_len; lia).
      rewrite (elements_app c i (i + n) j) by lia. rewrite skipn_app, skipn_all2 by (rewrite elements_len; lia). rewrite elements_len. replace (n - (i + n - i)) with 0 by lia. reflexivity.
    + rewrite (loc_ge _ _ _ _ _ A), (loc_ge _ _ _ _ _ B). rewrite append_loop_shift. rewrite (slice_past (elements c i j)) by (rewrite elements_len; lia). cbn [app].
      apply (IH H); lia.
Qed.
(** ** Histories *)
Lemma flat_nil_inv l size : Forall (p_ok size) l -> flat l = [] -> l = [].
Proof.
  destruct l as [|[[c i] j] t]; intros H E; [reflexivity|]. apply Forall_cons_iff in H as [H _]. cbn [p_ok] in H. apply (f_equal (@length _)) in E. rewrite flat_len_cons in E. cbn [p_len length] in E. lia.
Qed.
Lemma elements_nil c i : elements c i i = [].
Proof. unfold elements. rewrite Nat.sub_diag. reflexivity. Qed.
Lemma append_from_eq size l o n m : Forall (p_ok size) o -> n <= m <= length (flat o) ->
  exists t, cr_append_from (img l) (img o) (loc o n) (loc o m) = Ok (img (l ++ t)) /\ Forall (p_ok size) t /\ flat t = slice (flat o) n m /\
    cr_prepend_from (img l) (img o) (loc o n) (loc o m) = Ok (img (rotate (length t) (l ++ t))).
Proof.
  intros O L. destruct (append_loop_eq size o O n m (S (length (img o))) L) as (t & E & T & F); [rewrite img_len; lia|].
  assert (A : cr_append_from (img l) (img o) (loc o n) (loc o m) = Ok (img (l ++ t))).
  { unfold cr_append_from. rewrite E. cbn [rbind]. rewrite img_removelast. unfold img. rewrite map_app, app_assoc. reflexivity. }
  exists t. split; [exact A|]. split; [exact T|]. split; [exact F|]. unfold cr_prepend_from. rewrite A. cbn [rbind]. cbv zeta. rewrite img_removelast, img_last, !img_len, app_length.
  replace (S (length l + length t) - S (length l)) with (length t) by lia. f_equal. unfold img, rotate. rewrite skipn_map, firstn_map, <- map_app. reflexivity.
Qed.
Lemma rotate_ok size l : forall k, Forall (p_ok size) l -> Forall (p_ok size) (rotate k l).
Proof.
  intros k H. rewrite <- (firstn_skipn k l) in H. apply Forall_app in H as [A B]. unfold rotate. apply Forall_app. split; assumption.
Qed.
Lemma run_all size h : valid size h -> exists l, run size h = Ok (img l) /\ Forall (p_ok size) l /\ (no_prepend_from h -> flat l = shown h) /\ length (flat l) = length (shown h).
Proof.
  induction h as [|h IH c i j|h IH c i j|h IH|h IH o IHo n m|h IH o IHo n m]; cbn [valid run shown no_prepend_from].
  - intros _. exists []. repeat split; constructor.
  - intros [V R]. destruct (IH V) as (l & E & W & S & LL). rewrite E. cbn [rbind]. unfold cr_append. cbn [iter_eqb]. rewrite Nat.eqb_refl. cbn [andb]. destruct (Nat.eqb_spec i j) as [->|N].
    + exists l. rewrite elements_nil, app_nil_r. repeat split; assumption.
    + exists (l ++ [(c, i, j)]). split; [rewrite img_removelast; unfold img; rewrite map_app, <- app_assoc; reflexivity|]. split; [apply Forall_app; split; [exact W|constructor; [cbn [p_ok]; lia|constructor]]|].
      rewrite flat_app. cbn [flat flat_map p_els]. rewrite app_nil_r. split; [intros G; rewrite (S G); reflexivity|rewrite !app_length, LL; reflexivity].
  - intros [V R]. destruct (IH V) as (l & E & W & S & LL). rewrite E. cbn [rbind]. unfold cr_prepend. cbn [iter_eqb]. rewrite Nat.eqb_refl. cbn [andb]. destruct (Nat.eqb_spec i j) as [->|N].
    + exists l. rewrite elements_nil. repeat split; assumption.
    + exists ((c, i, j) :: l). split; [reflexivity|]. split; [constructor; [cbn [p_ok]; lia|exact W]|]. rewrite flat_cons. cbn [p_els]. split; [intros G; rewrite (S G); reflexivity|rewrite !app_length, LL; reflexivity].
  - intros V. destruct (IH V) as (l & E & W & S & LL). rewrite E. exists []. repeat split; constructor.
  - intros (V & Vo & L). destruct (IH V) as (l & E & W & S & LL). destruct (IHo Vo) as (lo & Eo & Wo & So & LLo). rewrite E, Eo. cbn [rbind]. rewrite (begin_eq lo size Wo). cbn [rbind].
    rewrite !(inc_n_eq lo size Wo) by lia. cbn [rbind Nat.add]. destruct (append_from_eq size l lo n m Wo ltac:(lia)) as (t & A & T & F & _). rewrite A. exists (l ++ t). split; [reflexivity|]. split; [apply Forall_app; split; assumption|].
    rewrite flat_app, F. split; [intros [G Go]; rewrite (S G), (So Go); reflexivity|]. rewrite !app_length, LL. unfold slice. rewrite !firstn_length, !skipn_length. lia.
  - intros (V & Vo & L). destruct (IH V) as (l & E & W & S & LL). destruct (IHo Vo) as (lo & Eo & Wo & So & LLo). rewrite E, Eo. cbn [rbind]. rewrite (begin_eq lo size Wo). cbn [rbind].
    rewrite !(inc_n_eq lo size Wo) by lia. cbn [rbind Nat.add]. destruct (append_from_eq size l lo n m Wo ltac:(lia)) as (t & _ & T & F & A). rewrite A. exists (rotate (length t) (l ++ t)). split; [reflexivity|].
    split; [apply rotate_ok; apply Forall_app; split; assumption|]. split.
    + intros (G & Go & D). rewrite (S G) in *. assert (D' : l = [] \/ t = []).
      { destruct D as [D| ->].
        - left. apply (flat_nil_inv l size W). rewrite <- D. exact (S G).
        - right. apply (flat_nil_inv t size T). rewrite F. unfold slice. rewrite Nat.sub_diag. reflexivity. }
      rewrite <- (S G), <- (So Go), <- F. unfold rotate. destruct D' as [-> | ->].
      * cbn [app]. rewrite skipn_all, firstn_all. rewrite app_nil_r. reflexivity.
      * cbn [length skipn firstn]. rewrite !app_nil_r. reflexivity.
    + unfold rotate. rewrite flat_app, !app_length. assert (Q : length (flat (l ++ t)) = length (flat (firstn (length t) (l ++ t))) + length (flat (skipn (length t) (l ++ t)))) by (rewrite <- app_length, <- flat_app, firstn_skipn; reflexivity).
      rewrite flat_app, app_length in Q. rewrite F in Q. rewrite <- LL. unfold slice in *. rewrite firstn_length, skipn_length in *. lia.
Qed.
Lemma stands_all l size : Forall (p_ok size) l -> Forall2 stands_on (map (loc l) (seq 0 (length (flat l)))) (flat l).
Proof.
  intros H. assert (G : forall a v, flat l = a ++ v -> Forall2 stands_on (map (loc l) (seq (length a) (length v))) v).
  { intros a v. revert a. induction v as [|p v IH]; intros a E; cbn [length seq map]; constructor.
    - apply (in_range_loc l size H). rewrite E, nth_error_app2 by lia. rewrite Nat.sub_diag. reflexivity.
    - specialize (IH (a ++ [p])). rewrite app_length in IH. cbn [length] in IH. rewrite Nat.add_1_r in IH. apply IH. rewrite <- app_assoc. exact E. }
  exact (G [] (flat l) eq_refl).
Qed.
Lemma Forall2_rev {A B} (R : A -> B -> Prop) l l' : Forall2 R l l' -> Forall2 R (rev l) (rev l').
Proof. induction 1 as [|x y l l' H H2 IH]; [constructor|]. cbn [rev]. apply Forall2_app; [exact IH|constructor; [exact H|constructor]]. Qed.
Lemma img_shows l size : Forall (p_ok size) l -> shows size (img l) (flat l).
Proof.
  intros H. exists (loc l 0), (loc l (length (flat l))), (map (loc l) (seq 0 (length (flat l)))), (map (loc l) (rev (seq 0 (length (flat l))))).
  split; [exact (begin_eq l size H)|]. split; [exact (end_eq l size H)|]. split; [apply (walk_eq l size H); lia|]. split; [exact (stands_all l size H)|].
  split; [apply (walk_back_eq l size H); lia|]. rewrite map_rev. apply Forall2_rev. exact (stands_all l size H).
Qed.
Lemma stands_fun a p q : stands_on a p -> stands_on a q -> p = q.
Proof. unfold stands_on. intros H G. rewrite H in G. destruct p, q. cbn in G. congruence. Qed.
Lemma stands_inj its v w : Forall2 stands_on its v -> Forall2 stands_on its w -> v = w.
Proof.
  intros F. revert w. induction F as [|a p its v S F IH]; intros w G; inversion G; subst; [reflexivity|]. f_equal; [eapply stands_fun; eassumption|apply IH; assumption].
Qed.
Lemma walk_mono size r : forall f a e its d, walk f size r a e = Ok its -> walk (f + d) size r a e = Ok its.
Proof.
  induction f as [|f IH]; intros a e its d; cbn [Nat.add walk].
  - destruct d as [|d]; cbn [walk]; destruct (ci_eqb a e); auto; discriminate.
  - destruct (ci_eqb a e); [auto|]. destruct (ci_inc size r a) as [b| | |]; cbn [rbind]; try discriminate. destruct (walk f size r b e) as [t| | |] eqn:E; cbn [rbind]; try discriminate. rewrite (IH _ _ _ d E). auto.
Qed.
Lemma shows_inj size l v : Forall (p_ok size) l -> shows size (img l) v -> v = flat l.
Proof.
  intros H (b & e & fwd & bwd & B & E & W & F & _ & _). rewrite (begin_eq l size H) in B. injection B as <-. rewrite (end_eq l size H) in E. injection E as <-.
  apply (walk_mono size _ _ _ _ _ (length (flat l))) in W. rewrite (walk_eq l size H (length (flat l))) in W by lia. injection W as <-.
  exact (stands_inj _ _ _ F (stands_all l size H)).
Qed.
(** ** Rotation *)
Lemma flat_hd size t l : p_ok size t -> exists p r, flat (t :: l) = p :: r /\ In p (p_els t).
Proof.
  destruct t as [[c i] j]. intros H. cbn [p_ok] in H. rewrite flat_cons. cbn [p_els]. assert (L : length (elements c i j) = j - i) by apply elements_len.
  destruct (elements c i j) as [|p r]; [cbn in L; lia|]. exists p, (r ++ flat l). split; [reflexivity|left; reflexivity].
Qed.
Lemma rotate_nth {A} k (l : list A) x : nth_error l k = Some x -> exists r, rotate k l = x :: r.
Proof.
  intros H. apply nth_error_split in H as (a & b & -> & <-). unfold rotate. rewrite skipn_app, skipn_all, Nat.sub_diag. cbn [app skipn]. eexists. reflexivity.
Qed.
Lemma nodup_piece l a b : NoDup (flat l) -> forall x y p, nth_error l a = Some x -> nth_error l b = Some y -> In p (p_els x) -> In p (p_els y) -> a = b.
Proof.
  revert a b. induction l as [|t l IH]; intros a b N x y p A B P Q; [destruct a; discriminate|]. rewrite flat_cons in N.
  assert (D : forall q, In q (p_els t) -> In q (flat l) -> False) by (apply NoDup_app_disjoint; exact N) || (intros q Q1 Q2; clear - N Q1 Q2; induction (p_els t) as [|z e IHe]; [contradiction|]; cbn [app] in N; apply NoDup_cons_iff in N as [N1 N2]; destruct Q1 as [->|Q1]; [apply N1, in_or_app; right; exact Q2|exact (IHe N2 Q1)]).
  assert (N2 : NoDup (flat l)) by (clear - N; induction (p_els t) as [|z e IHe]; [exact N|]; cbn [app] in N; apply NoDup_cons_iff in N as [_ N]; exact (IHe N)).
  destruct a as [|a], b as [|b]; [reflexivity| | |].
  - injection A as ->. exfalso. apply (D p P). apply in_flat_map. exists y. split; [exact (nth_error_In l b B)|exact Q].
  - injection B as ->. exfalso. apply (D p Q). apply in_flat_map. exists x. split; [exact (nth_error_In l a A)|exact P].
  - f_equal. exact (IH a b N2 x y p A B P Q).
Qed.
Lemma rotate_right size l t : Forall (p_ok size) (l ++ t) -> NoDup (flat (l ++ t)) -> l <> [] -> t <> [] ->
  (flat (rotate (length t) (l ++ t)) = flat t ++ flat l <-> length l = length t).
Proof.
  intros W N NL NT. split.
  - intros E. assert (R : flat t ++ flat l = flat (rotate (length l) (l ++ t))).
    { unfold rotate. rewrite skipn_app, skipn_all, Nat.sub_diag. rewrite firstn_app, firstn_all, Nat.sub_diag. cbn [app skipn firstn]. rewrite app_nil_r, flat_app. reflexivity. }
    rewrite R in E. assert (L1 : 0 < length l) by (destruct l; [congruence|cbn; lia]). assert (L2 : 0 < length t) by (destruct t; [congruence|cbn; lia]).
    destruct (nth_error (l ++ t) (length t)) as [x|] eqn:X; [|apply nth_error_None in X; rewrite app_length in X; lia].
    destruct (nth_error (l ++ t) (length l)) as [y|] eqn:Y; [|apply nth_error_None in Y; rewrite app_length in Y; lia].
    destruct (rotate_nth _ _ _ X) as [rx RX]. destruct (rotate_nth _ _ _ Y) as [ry RY]. rewrite RX, RY in E. rewrite Forall_forall in W.
    destruct (flat_hd size x rx (W x (nth_error_In _ _ X))) as (p & r & P & IP). destruct (flat_hd size y ry (W y (nth_error_In _ _ Y))) as (q & s & Q & IQ).
    rewrite P, Q in E. injection E as <- _. symmetry. exact (nodup_piece _ _ _ N _ _ _ X Y IP IQ).
  - intros E. rewrite <- E. unfold rotate. rewrite skipn_app, skipn_all, Nat.sub_diag. rewrite firstn_app, firstn_all, Nat.sub_diag. cbn [app skipn firstn]. rewrite app_nil_r, flat_app. reflexivity.
Qed.
(** ** operator+ *)
Fixpoint land (l : list piece) (n k : nat) : nat :=
  match l with
  | [] => 0
  | t :: r => if n <? p_len t then if n + k <? p_len t then n else p_len t + land r 0 (n + k - p_len t) else p_len t + land r (n - p_len t) k
  end.
Lemma plus_shift x r : forall f a k, ci_plus_loop f (x :: r) (shift a) k = b <- ci_plus_loop f r a k ;; Ok (shift b).
Proof.
  induction f as [|f IH]; intros a k; [reflexivity|]. cbn [ci_plus_loop]. change (ci_range (shift a)) with (S (ci_range a)). change (ci_pos (shift a)) with (ci_pos a). rewrite range_at_S.
  destruct (range_at r (ci_range a)) as [q| | |]; cbn [rbind]; try reflexivity. destruct (in_diff (snd q) (ci_pos a)) as [z| | |]; cbn [rbind]; try reflexivity.
  destruct (k <? z); [reflexivity|]. rewrite advance_shift. destruct (advance_range r a) as [b| | |]; cbn [rbind]; try reflexivity. apply IH.
Qed.
Lemma plus_loop_eq size : forall l, Forall (p_ok size) l -> forall f n k, n <= length (flat l) -> S (length l) <= f ->
  ci_plus_loop f (img l) (loc l n) k = if n + k <? length (flat l) then Ok (loc l (land l n k)) else UB.
Proof.
  induction l as [|[[c i] j] l IH]; intros H f n k L F.
  - cbn in L. destruct f as [|f]; [lia|]. cbn. destruct (k <? 0) eqn:K; [lia|]. destruct (n + k <? 0) eqn:K'; [lia|]. reflexivity.
  - apply Forall_cons_iff in H as [H1 H]. cbn [p_ok] in H1. rewrite flat_len_cons in *. cbn [p_len length] in *. rewrite img_cons. cbn [land p_len].
    destruct (Nat.ltb_spec n (j - i)) as [A|A].
    + rewrite (loc_lt _ _ _ _ _ A). destruct f as [|f]; [lia|]. cbn [ci_plus_loop ci_range ci_pos range_at nth_error rbind p_rng snd in_diff]. rewrite Nat.eqb_refl. cbn [andb]. destruct (Nat.leb_spec (i + n) j); [|lia]. cbn [rbind].
      destruct (Nat.ltb_spec (n + k) (j - i)) as [B|B].
      * destruct (Nat.ltb_spec k (j - (i + n))); [|lia]. destruct (Nat.ltb_spec (n + k) (j - i + length (flat l))); [|lia]. rewrite loc_lt by exact A. reflexivity.
      * destruct (Nat.ltb_spec k (j - (i + n))); [lia|]. change (At c i, At c j) with (p_rng (c, i, j)). rewrite (advance_eq l size (c, i, j) H). cbn [rbind]. rewrite plus_shift. rewrite (IH H) by lia.
        replace (0 + (k - (j - (i + n)))) with (n + k - (j - i)) by lia. replace (k - (j - (i + n))) with (n + k - (j - i)) by lia. replace (n + k - (j - i) <? length (flat l)) with (n + k <? j - i + length (flat l)) by lia.
        destruct (n + k <? j - i + length (flat l)); [|reflexivity]. cbn [rbind]. rewrite loc_ge by lia. repeat f_equal. lia.
    + rewrite (loc_ge _ _ _ _ _ A). rewrite plus_shift. rewrite (IH H) by lia. replace (n - (j - i) + k <? length (flat l)) with (n + k <? j - i + length (flat l)) by lia.
      destruct (n + k <? j - i + length (flat l)); [|reflexivity]. cbn [rbind]. rewrite loc_ge by lia. repeat f_equal. lia.
Qed.
Lemma land_facts size : forall l, Forall (p_ok size) l -> forall n k, n + k < length (flat l) ->
  n <= land l n k <= n + k /\ ci_range (loc l (land l n k)) = ci_range (loc l (n + k)) /\
  (land l n k = n \/ exists q, range_at (img l) (ci_range (loc l (n + k))) = Ok q /\ ci_pos (loc l (land l n k)) = fst q) /\
  (ci_range (loc l n) = ci_range (loc l (n + k)) -> land l n k = n).
Proof.
  induction l as [|[[c i] j] l IH]; intros H n k L; [cbn in L; lia|]. apply Forall_cons_iff in H as [H1 H]. cbn [p_ok] in H1. rewrite flat_len_cons in *. cbn [p_len] in *. cbn [land p_len]. rewrite img_cons.
  destruct (Nat.ltb_spec n (j - i)) as [A|A].
  - destruct (Nat.ltb_spec (n + k) (j - i)) as [B|B].
    + rewrite !loc_lt by lia. split; [lia|]. split; [reflexivity|]. split; [left; reflexivity|reflexivity].
    + destruct (IH H 0 (n + k - (j - i)) ltac:(lia)) as (I1 & I2 & I3 & I4). rewrite Nat.add_0_l in *. rewrite (loc_ge _ _ _ _ (n + k) B). rewrite loc_ge by lia. replace (j - i + land l 0 (n + k - (j - i)) - (j - i)) with (land l 0 (n + k - (j - i))) by lia.
      split; [lia|]. split; [cbn [shift ci_range]; f_equal; exact I2|]. split.
      * right. cbn [shift ci_range ci_pos]. rewrite range_at_S. destruct I3 as [I3|I3]; [|exact I3]. rewrite I3 in *. rewrite <- I2. rewrite (loc_0 l size H). cbn [ci_range ci_pos]. unfold range_at. destruct (img l) as [|q r] eqn:I; [apply (f_equal (@length range)) in I; rewrite img_len in I; discriminate|]. exists q. split; reflexivity.
      * rewrite loc_lt by lia. cbn [shift ci_range]. discriminate.
  - destruct (IH H (n - (j - i)) k ltac:(lia)) as (I1 & I2 & I3 & I4). rewrite (loc_ge _ _ _ _ (n + k)), (loc_ge _ _ _ _ n) by lia. rewrite loc_ge by lia.
    replace (n + k - (j - i)) with (n - (j - i) + k) by lia. replace (j - i + land l (n - (j - i)) k - (j - i)) with (land l (n - (j - i)) k) by lia.
    split; [lia|]. split; [cbn [shift ci_range]; f_equal; exact I2|]. split.
    + cbn [shift ci_range ci_pos]. rewrite range_at_S. destruct I3 as [I3|I3]; [left; lia|right; exact I3].
    + cbn [shift ci_range]. intros E. injection E as E. apply I4 in E. lia.
Qed.
