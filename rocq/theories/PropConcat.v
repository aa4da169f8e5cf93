(** Property C23: ConcatRange shows the concatenation of its ranges. *)
From Coq Require Import List Bool Arith Lia.
From Verif Require Import BigUIntModel ConcatModel ConcatSpec ConcatProofs.
Import ListNotations.

(** After any history of Append, Prepend and Clear calls (including appending
    parts of other ConcatRanges), iteration shows the concatenation, forwards
    and backwards. *)
Theorem C23_view : forall size h, valid size h -> no_prepend_from h -> exists r, run size h = Ok r /\ shows size r (shown h).
Proof.
  intros size h V G. destruct (run_all size h V) as (l & E & W & S & _). exists (img l). split; [exact E|]. rewrite <- (S G). exact (img_shows l size W).
Qed.
Print Assumptions C23_view.
(** What iteration shows is unique. *)
Theorem C23_view_unique : forall size h r v w, valid size h -> run size h = Ok r -> shows size r v -> shows size r w -> v = w.
Proof.
  intros size h r v w V E Sv Sw. destruct (run_all size h V) as (l & E' & W & _ & _). rewrite E in E'. injection E' as ->.
  rewrite (shows_inj size l v W Sv), (shows_inj size l w W Sw). reflexivity.
Qed.
Print Assumptions C23_view_unique.
(** Iterators: n increments of begin() reach element n, the total number
    reaches end(), one more is undefined; decrement undoes increment; two are
    equal exactly when they are the same number of increments away. *)
Theorem C23_iterators : forall size h, valid size h -> no_prepend_from h -> exists r b, run size h = Ok r /\ cr_begin r = Ok b /\
  (forall n, n <= length (shown h) -> exists a, ci_inc_n n size r b = Ok a /\
    (forall p, nth_error (shown h) n = Some p -> stands_on a p) /\
    (cr_end r = Ok a <-> n = length (shown h)) /\
    (forall k, n = S k -> exists c, ci_inc_n k size r b = Ok c /\ ci_dec r a = Ok c) /\
    (forall m c, m <= length (shown h) -> ci_inc_n m size r b = Ok c -> ci_eqb a c = (n =? m))) /\
  (forall n, length (shown h) < n -> ci_inc_n n size r b = UB).
Proof.
  intros size h V G. destruct (run_all size h V) as (l & E & W & S & _). specialize (S G). rewrite <- S. exists (img l), (loc l 0). split; [exact E|]. split; [exact (begin_eq l size W)|]. split.
  - intros n L. exists (loc l n). split; [exact (inc_n_eq l size W n 0 L)|]. split; [intros p P; exact (in_range_loc l size W n p P)|]. split; [|split].
    + rewrite (end_eq l size W). split; [intros Q; injection Q as Q; apply (loc_inj l size W) in Q; lia|intros ->; reflexivity].
    + intros k ->. exists (loc l k). split; [exact (inc_n_eq l size W k 0 ltac:(lia))|exact (dec_eq l size W k ltac:(lia))].
    + intros m c M C. rewrite (inc_n_eq l size W m 0 M) in C. injection C as <-. cbn [Nat.add]. destruct (ci_eqb_spec (loc l n) (loc l m)) as [Q|Q], (Nat.eqb_spec n m) as [Q'|Q']; try reflexivity.
      * apply (loc_inj l size W) in Q; lia.
      * subst. congruence.
  - intros n L. apply (inc_n_over l size W); lia.
Qed.
Print Assumptions C23_iterators.
(** Prepending part of another ConcatRange to a non-empty one is wrong unless
    as many ranges are added as were there: with distinct elements the result
    is the concatenation exactly in that case (length counts the terminator). *)
Theorem C23_prepend_from_refuted : forall size h o n m, valid size (HPrependFrom h o n m) -> no_prepend_from h -> no_prepend_from o ->
  shown h <> [] -> n < m -> NoDup (shown h ++ slice (shown o) n m) ->
  exists r r', run size h = Ok r /\ run size (HPrependFrom h o n m) = Ok r' /\
    (shows size r' (shown (HPrependFrom h o n m)) <-> length r' - 1 = 2 * (length r - 1)).
Proof.
  intros size h o n m (V & Vo & L) G Go NE NM ND. cbn [valid run shown]. destruct (run_all size h V) as (l & E & W & S & _). destruct (run_all size o Vo) as (lo & Eo & Wo & So & _). specialize (S G). specialize (So Go).
  destruct (append_from_eq size l lo n m Wo ltac:(rewrite So; lia)) as (t & _ & T & F & A). rewrite E, Eo. cbn [rbind]. rewrite (begin_eq lo size Wo). cbn [rbind]. rewrite !(inc_n_eq lo size Wo) by (rewrite So; lia). cbn [rbind Nat.add]. rewrite A.
  exists (img l), (img (rotate (length t) (l ++ t))). split; [reflexivity|]. split; [reflexivity|].
  assert (NT : t <> []).
  { intros ->. cbn in F. unfold slice in F. symmetry in F. apply (f_equal (@length _)) in F. rewrite firstn_length, skipn_length in F. cbn [length] in F. rewrite So in F. lia. }
  rewrite <- S, <- So, <- F in *.
  assert (WT : Forall (p_ok size) (l ++ t)) by (apply Forall_app; split; assumption).
  assert (RL : length (rotate (length t) (l ++ t)) = length l + length t) by (unfold rotate; rewrite app_length, skipn_length, firstn_length, app_length; lia).
  rewrite !img_len, RL.
  assert (NL : l <> []) by (intros ->; apply NE; reflexivity).
  rewrite <- flat_app in ND. pose proof (rotate_right size l t WT ND NL NT) as R. split.
  - intros SH. apply (shows_inj size _ _ (rotate_ok size _ _ WT)) in SH. symmetry in SH. apply R in SH. lia.
  - intros LE. assert (Q : length l = length t) by lia. apply R in Q. rewrite <- Q. apply img_shows. apply rotate_ok. exact WT.
Qed.
Print Assumptions C23_prepend_from_refuted.
Example C23_prepend_from_wrong :
  let size := fun _ => 10 in
  let h := HPrependFrom (HAppend HNew 0 0 2) (HAppend (HAppend HNew 1 0 1) 2 0 1) 0 2 in
  valid size h /\ exists r, run size h = Ok r /\ shown h = [(1, 0); (2, 0); (0, 0); (0, 1)] /\ shows size r [(2, 0); (0, 0); (0, 1); (1, 0)].
Proof.
  cbv zeta. split; [cbn; lia|]. eexists. split; [reflexivity|]. split; [reflexivity|]. unfold shows. do 4 eexists. split; [reflexivity|]. split; [reflexivity|]. split; [reflexivity|].
  split; [repeat constructor|]. split; [reflexivity|repeat constructor].
Qed.
(** operator+ moves to the right range but not inside it: starting n elements
    after begin(), it + k is the start of the range holding element n + k, or
    it itself when no range boundary is crossed; from n + k = size on it is
    undefined (also end() + 0). *)
Theorem C23_plus : forall size h, valid size h -> no_prepend_from h -> exists r b, run size h = Ok r /\ cr_begin r = Ok b /\
  forall n k a, n <= length (shown h) -> ci_inc_n n size r b = Ok a ->
    (n + k < length (shown h) -> exists t q rg, ci_inc_n (n + k) size r b = Ok t /\ ci_plus r a k = Ok q /\ range_at r (ci_range t) = Ok rg /\
       ci_range q = ci_range t /\ (ci_range a = ci_range t -> q = a) /\ (ci_range a <> ci_range t -> ci_pos q = fst rg)) /\
    (length (shown h) <= n + k -> ci_plus r a k = UB).
Proof.
  intros size h V G. destruct (run_all size h V) as (l & E & W & S & _). specialize (S G). rewrite <- S. exists (img l), (loc l 0). split; [exact E|]. split; [exact (begin_eq l size W)|].
  intros n k a L A. rewrite (inc_n_eq l size W n 0 L) in A. injection A as <-. cbn [Nat.add].
  assert (P : ci_plus (img l) (loc l n) k = if n + k <? length (flat l) then Ok (loc l (land l n k)) else UB) by (apply (plus_loop_eq size l W); [exact L|rewrite img_len; lia]).
  split; intros C; rewrite P; destruct (Nat.ltb_spec (n + k) (length (flat l))) as [Q|Q]; try lia; [|reflexivity].
  destruct (land_facts size l W n k Q) as (F1 & F2 & F3 & F4).
  assert (RG : exists rg, range_at (img l) (ci_range (loc l (n + k))) = Ok rg).
  { pose proof (inc_eq l size W (n + k) Q) as I. unfold ci_inc in I. destruct (in_inc size (ci_pos (loc l (n + k)))); try discriminate. cbn [rbind] in I. destruct (range_at (img l) (ci_range (loc l (n + k)))) as [rg| | |]; try discriminate. exists rg. reflexivity. }
  destruct RG as [rg RG]. exists (loc l (n + k)), (loc l (land l n k)), rg. split; [exact (inc_n_eq l size W (n + k) 0 (Nat.lt_le_incl _ _ C))|]. split; [reflexivity|]. split; [exact RG|]. split; [exact F2|]. split; [intros X; rewrite (F4 X); reflexivity|].
  intros X. destruct F3 as [F3|(q & F3 & F5)]; [rewrite F3 in F2; contradiction|]. rewrite RG in F3. injection F3 as ->. exact F5.
Qed.
Print Assumptions C23_plus.
(** So it + k is not k increments whenever k > 0 stays within one range. *)
Theorem C23_plus_refuted : forall size h, valid size h -> no_prepend_from h -> exists r b, run size h = Ok r /\ cr_begin r = Ok b /\
  forall n k a t, 0 < k -> n + k < length (shown h) -> ci_inc_n n size r b = Ok a -> ci_inc_n k size r a = Ok t -> ci_range a = ci_range t ->
    ci_plus r a k = Ok a /\ ci_eqb a t = false.
Proof.
  intros size h V G. destruct (run_all size h V) as (l & E & W & S & _). specialize (S G). rewrite <- S. exists (img l), (loc l 0). split; [exact E|]. split; [exact (begin_eq l size W)|].
  intros n k a t K L A T R. rewrite (inc_n_eq l size W n 0 ltac:(lia)) in A. injection A as <-. cbn [Nat.add] in *. rewrite (inc_n_eq l size W k n ltac:(lia)) in T. injection T as <-.
  destruct (land_facts size l W n k L) as (_ & _ & _ & F4). split.
  - unfold ci_plus. rewrite (plus_loop_eq size l W) by (rewrite ?img_len; lia). destruct (Nat.ltb_spec (n + k) (length (flat l))); [|lia]. rewrite (F4 R). reflexivity.
  - destruct (ci_eqb_spec (loc l n) (loc l (n + k))) as [Q|Q]; [|reflexivity]. apply (loc_inj l size W) in Q; lia.
Qed.
Print Assumptions C23_plus_refuted.

Example C23_case :
  let size := fun _ => 10 in
  let h := HAppendFrom (HPrepend (HAppend (HAppend HNew 0 0 2) 1 5 7) 2 3 4) (HAppend (HAppend HNew 3 0 2) 4 1 3) 1 3 in
  valid size h /\ no_prepend_from h /\ shown h = [(2, 3); (0, 0); (0, 1); (1, 5); (1, 6); (3, 1); (4, 1)].
Proof. cbn. repeat split; lia. Qed.
