(** Edges by number: where they are, changing them, and removing them. *)
From Coq Require Import List Bool Arith ZArith QArith Lia ZifyBool.
From Verif Require Import BigUIntModel GeoModel GeoSpec PolyModel PolySpec PolyOpsModel TriSpec MergeProofs MergeTopProofs LinkModel LinkSpec.
Import ListNotations.
Open Scope nat_scope.

Definition once (st : mesh) : Prop := (forall i p, nth_error st i = Some p -> NoDup (ids p)) /\
    forall i j p q x, i <> j -> nth_error st i = Some p -> nth_error st j = Some q -> In x (ids p) -> ~ In x (ids q).
Definition at_ (st : mesh) (i k : nat) (e : pedge cdata) : Prop := exists p, nth_error st i = Some p /\ nth_error (pedges p) k = Some e.

(** ** Lists *)
Lemma upd_nth {B} (l : list B) i x j : i < length l -> nth_error (upd l i x) j = if j =? i then Some x else nth_error l j.
Proof.
  intros L. unfold upd. destruct (Nat.eqb_spec j i) as [->|N].
  - rewrite nth_error_app2; rewrite firstn_length; [|lia]. replace (i - Nat.min i (length l)) with 0 by lia. reflexivity.
  - destruct (Nat.lt_ge_cases j i) as [J|J].
    + rewrite nth_error_app1 by (rewrite firstn_length; lia). revert i L N J. induction j as [|j IH] in l |- *; intros [|i]; intros L N J; try lia; destruct l as [|y l]; try reflexivity. cbn. apply IH; cbn in L; lia.
    + rewrite nth_error_app2; rewrite firstn_length; [|lia]. replace (j - Nat.min i (length l)) with (S (j - S i)) by lia. cbn [nth_error]. clear - J N. assert (J' : S i <= j) by lia. clear J N. revert j J'. generalize (S i). clear i. intros i. induction i as [|i IH] in l |- *; intros j J; [f_equal; lia|]. destruct l as [|y l]; [destruct (j - S i), j; reflexivity|]. destruct j as [|j]; [lia|]. cbn. apply IH. lia.
Qed.
Lemma upd_length {B} (l : list B) i x : i < length l -> length (upd l i x) = length l.
Proof. intros L. unfold upd. rewrite app_length, firstn_length. cbn [length]. rewrite skipn_length. lia. Qed.
Lemma nth_lt {B} (l : list B) i x : nth_error l i = Some x -> i < length l.
Proof. intros H. apply nth_error_Some. congruence. Qed.
Lemma without_nth {B} (l : list B) n x : n < length l -> nth_error (firstn n l ++ skipn (S n) l) x = nth_error l (if x <? n then x else S x).
Proof.
  revert n x. induction l as [|a l IH]; intros n x L; [cbn in L; lia|]. destruct n as [|n].
  - destruct x; reflexivity.
  - destruct x as [|x]; [reflexivity|]. change (nth_error (firstn n l ++ skipn (S n) l) x = nth_error (a :: l) (if S x <? S n then S x else S (S x))). rewrite (IH n x) by (cbn in L; lia). change (S x <? S n) with (x <? n). destruct (x <? n); reflexivity.
Qed.
Lemma succ_mod k n : k < n -> S k mod n = if S k =? n then 0 else S k.
Proof. intros L. destruct (Nat.eqb_spec (S k) n) as [->|N]; [apply Nat.mod_same; lia|apply Nat.mod_small; lia]. Qed.

(** ** Places *)
Lemma index_in_some id l k : index_in id l = Some k -> exists e, nth_error l k = Some e /\ eid e = id.
Proof.
  revert k. induction l as [|e l IH]; intros k H; [discriminate|]. cbn in H. destruct (Nat.eqb_spec (eid e) id) as [E|E]; [injection H as <-; exists e; auto|].
  destruct (index_in id l) as [k'|]; [|discriminate]. injection H as <-. destruct (IH k' eq_refl) as (f & F). exists f. exact F.
Qed.
Lemma index_in_none id l : ~ In id (map eid l) -> index_in id l = None.
Proof. induction l as [|e l IH]; intros H; [reflexivity|]. cbn in *. destruct (Nat.eqb_spec (eid e) id) as [E|E]; [tauto|]. rewrite IH by tauto. reflexivity. Qed.
Lemma index_in_nth l k e : NoDup (map eid l) -> nth_error l k = Some e -> index_in (eid e) l = Some k.
Proof.
  revert k. induction l as [|f l IH]; intros k N H; [destruct k; discriminate|]. cbn in N. inversion N as [|? ? Nf Nl]; subst. destruct k as [|k]; cbn in *.
  - injection H as ->. rewrite Nat.eqb_refl. reflexivity.
  - destruct (Nat.eqb_spec (eid f) (eid e)) as [E|E]; [exfalso; apply Nf; rewrite E; apply in_map; exact (nth_error_In _ _ H)|]. rewrite (IH k Nl H). reflexivity.
Qed.
Lemma ids_eid p : ids p = map eid (pedges p).
Proof. reflexivity. Qed.
Lemma at_in st i k e : at_ st i k e -> exists p, nth_error st i = Some p /\ In (eid e) (ids p).
Proof. intros (p & P & E). exists p. split; [exact P|]. rewrite ids_eid. apply in_map. exact (nth_error_In _ _ E). Qed.
Lemma once_tail p st : once (p :: st) -> once st.
Proof. intros [A B]. split; [intros i q Q; exact (A (S i) q Q)|]. intros i j q r x N Q R. exact (B (S i) (S j) q r x ltac:(lia) Q R). Qed.
Lemma place_at st i k e : once st -> at_ st i k e -> place (eid e) st = Some (i, k).
Proof.
  revert i. induction st as [|p st IH]; intros i O (q & Q & E); [destruct i; discriminate|]. cbn [place]. destruct i as [|i].
  - injection Q as ->. destruct O as [A _]. rewrite (index_in_nth _ k e (A 0 q eq_refl) E). reflexivity.
  - rewrite index_in_none; [rewrite (IH i (once_tail _ _ O)); [reflexivity|exists q; auto]|]. intros I. destruct O as [_ B]. apply (B 0 (S i) p q (eid e) ltac:(lia) eq_refl Q I). rewrite ids_eid. apply in_map. exact (nth_error_In _ _ E).
Qed.
Lemma place_some st id i k : place id st = Some (i, k) -> exists e, at_ st i k e /\ eid e = id.
Proof.
  revert i. induction st as [|p st IH]; intros i H; [discriminate|]. cbn [place] in H. destruct (index_in id (pedges p)) as [k'|] eqn:E.
  - injection H as <- <-. destruct (index_in_some _ _ _ E) as (e & N & I). exists e. split; [exists p; auto|exact I].
  - destruct (place id st) as [[i' k']|]; [|discriminate]. injection H as <- <-. destruct (IH i' eq_refl) as (e & (q & Q & N) & I). exists e. split; [exists q; auto|exact I].
Qed.
Lemma at_unique st i k e j m f : once st -> at_ st i k e -> at_ st j m f -> eid e = eid f -> i = j /\ k = m /\ e = f.
Proof.
  intros O A B E. pose proof (place_at _ _ _ _ O A) as P. pose proof (place_at _ _ _ _ O B) as Q. rewrite E in P. assert (X : (i, k) = (j, m)) by congruence. injection X as <- <-. split; [reflexivity|]. split; [reflexivity|].
  destruct A as (p & P1 & P2), B as (q & Q1 & Q2). congruence.
Qed.
Lemma deref_at st i k e : once st -> at_ st i k e -> deref st (eid e) = Ok e.
Proof. intros O A. unfold deref. rewrite (place_at _ _ _ _ O A). destruct A as (p & P & E). unfold poly_at, pedge_at. rewrite P. cbn [rbind]. rewrite E. reflexivity. Qed.
Lemma index_of_at st i k e : once st -> at_ st i k e -> c_poly (pd e) = i -> index_of st (eid e) = Ok (i, k).
Proof. intros O A B. unfold index_of. rewrite (place_at _ _ _ _ O A), (deref_at _ _ _ _ O A). cbn [rbind]. rewrite B, Nat.eqb_refl. reflexivity. Qed.

(** ** Changing the links *)
Definition redata_edge (g : cdata -> cdata) (e : pedge cdata) : pedge cdata := PE (pv e) (pl e) (g (pd e)).
Definition redata_poly (g : cdata -> cdata) (p : poly cdata) : poly cdata := set_edges p (map (redata_edge g) (pedges p)).
Definition redata (g : cdata -> cdata) (st : mesh) : mesh := map (redata_poly g) st.
Definition on_id (id : nat) (f : cdata -> cdata) (d : cdata) : cdata := if c_id d =? id then f d else d.
Lemma redata_nth g st i : nth_error (redata g st) i = option_map (redata_poly g) (nth_error st i).
Proof. apply nth_error_map. Qed.
Lemma redata_at g st i k e' : at_ (redata g st) i k e' <-> exists e, at_ st i k e /\ e' = redata_edge g e.
Proof.
  split.
  - intros (p' & P & E). rewrite redata_nth in P. destruct (nth_error st i) as [p|] eqn:Q; [|discriminate]. injection P as <-. cbn [redata_poly set_edges pedges] in E. rewrite nth_error_map in E. destruct (nth_error (pedges p) k) as [e|] eqn:F; [|discriminate]. injection E as <-. exists e. split; [exists p; auto|reflexivity].
  - intros (e & (p & P & E) & ->). exists (redata_poly g p). rewrite redata_nth, P. split; [reflexivity|]. cbn [redata_poly set_edges pedges]. rewrite nth_error_map, E. reflexivity.
Qed.
Lemma redata_ids g p : (forall d, c_id (g d) = c_id d) -> ids (redata_poly g p) = ids p.
Proof. intros G. unfold ids, redata_poly. cbn [set_edges pedges]. rewrite map_map. apply map_ext. intros e. apply G. Qed.
Lemma redata_once g st : (forall d, c_id (g d) = c_id d) -> once st -> once (redata g st).
Proof.
  intros G [A B]. split.
  - intros i p P. rewrite redata_nth in P. destruct (nth_error st i) as [q|] eqn:Q; [|discriminate]. injection P as <-. rewrite redata_ids by exact G. exact (A i q Q).
  - intros i j p q x N P Q. rewrite redata_nth in P, Q. destruct (nth_error st i) as [p0|] eqn:P0; [|discriminate]. destruct (nth_error st j) as [q0|] eqn:Q0; [|discriminate]. injection P as <-. injection Q as <-. rewrite !redata_ids by exact G. exact (B i j p0 q0 x N P0 Q0).
Qed.
Lemma redata_redata f g st : redata g (redata f st) = redata (fun d => g (f d)) st.
Proof. unfold redata. rewrite map_map. apply map_ext. intros p. unfold redata_poly. cbn [set_edges pedges pplane pdrop]. unfold set_edges. cbn. rewrite map_map. reflexivity. Qed.
Lemma redata_id g st : (forall i k e, at_ st i k e -> g (pd e) = pd e) -> redata g st = st.
Proof.
  intros H. unfold redata. rewrite <- (map_id st) at 2. apply map_ext_in. intros p I. apply In_nth_error in I. destruct I as (i & P). unfold redata_poly, set_edges. destruct p as [pp pr es]. cbn [pplane pdrop pedges] in *. f_equal. rewrite <- (map_id es) at 2. apply map_ext_in. intros e I. apply In_nth_error in I. destruct I as (k & E).
  unfold redata_edge. rewrite (H i k e); [destruct e; reflexivity|]. exists (Poly pp pr es). auto.
Qed.
Lemma modify_redata st id f i k e : once st -> at_ st i k e -> eid e = id -> modify st id f = Ok (redata (on_id id f) st).
Proof.
  intros O A <-. unfold modify. rewrite (place_at _ _ _ _ O A). destruct A as (p & P & E). unfold poly_at, pedge_at. rewrite P. cbn [rbind]. rewrite E. cbn [rbind]. f_equal.
  assert (At : forall j q l g, nth_error st j = Some q -> nth_error (pedges q) l = Some g -> eid g = eid e -> j = i /\ l = k).
  { intros j q l g Q G I. destruct (at_unique st j l g i k e O) as (X & Y & _); [exists q; auto|exists p; auto|exact I|auto]. }
  apply PolyCapProofs.nth_error_ext. intros j. rewrite redata_nth, upd_nth by exact (nth_lt _ _ _ P). destruct (Nat.eqb_spec j i) as [->|N].
  - rewrite P. cbn [option_map]. f_equal. unfold redata_poly, set_edges. cbn [pplane pdrop pedges]. f_equal. apply PolyCapProofs.nth_error_ext. intros l. rewrite nth_error_map, upd_nth by exact (nth_lt _ _ _ E). destruct (Nat.eqb_spec l k) as [->|M].
    + rewrite E. cbn [option_map]. unfold redata_edge, on_id. change (c_id (pd e)) with (eid e). rewrite Nat.eqb_refl. reflexivity.
    + destruct (nth_error (pedges p) l) as [g|] eqn:G; [|reflexivity]. cbn [option_map]. unfold redata_edge, on_id. destruct (Nat.eqb_spec (c_id (pd g)) (eid e)) as [X|X]; [destruct (At i p l g P G X); lia|]. destruct g; reflexivity.
  - destruct (nth_error st j) as [q|] eqn:Q; [|reflexivity]. cbn [option_map]. f_equal. unfold redata_poly, set_edges. destruct q as [pp pr es]. cbn [pplane pdrop pedges]. f_equal. rewrite <- (map_id es) at 1. apply map_ext_in. intros g I. apply In_nth_error in I. destruct I as (l & G). unfold redata_edge, on_id.
    destruct (Nat.eqb_spec (c_id (pd g)) (eid e)) as [X|X]; [destruct (At j _ l g Q G X); lia|]. destruct g; reflexivity.
Qed.

(** ** Half-edges *)
Definition hdata (h : hedge) : cdata := CD (f_id h) (f_poly h) (f_partner h).
Definition hmap (g : cdata -> cdata) (h : hedge) : hedge := let d := g (hdata h) in HE (c_id d) (c_poly d) (c_partner d) (f_from h) (f_to h) (f_dir h).
Definition half_of (e e' : pedge cdata) : hedge := HE (c_id (pd e)) (c_poly (pd e)) (c_partner (pd e)) (hp_point (pv e)) (hp_point (pv e')) (ld (pl e)).
Lemma half_at_redata g p k h' : half_at (redata_poly g p) k h' <-> exists h, half_at p k h /\ h' = hmap g h.
Proof.
  unfold half_at. cbn [redata_poly set_edges pedges]. rewrite map_length. split.
  - intros (e1 & e2 & E1 & E2 & ->). rewrite nth_error_map in E1, E2. destruct (nth_error (pedges p) k) as [a|] eqn:Qa; [|discriminate]. destruct (nth_error (pedges p) (S k mod length (pedges p))) as [b|] eqn:Qb; [|discriminate]. injection E1 as <-. injection E2 as <-.
    exists (half_of a b). split; [exists a, b; auto|]. unfold hmap, hdata, half_of. cbn. destruct (pd a); reflexivity.
  - intros (h & (a & b & Qa & Qb & ->) & ->). exists (redata_edge g a), (redata_edge g b). rewrite !nth_error_map, Qa, Qb. split; [reflexivity|]. split; [reflexivity|]. unfold hmap, hdata. cbn. destruct (pd a); reflexivity.
Qed.
Lemma half_in_redata g st i h' : half_in (redata g st) i h' <-> exists h, half_in st i h /\ h' = hmap g h.
Proof.
  unfold half_in. split.
  - intros (p' & k & P & H). rewrite redata_nth in P. destruct (nth_error st i) as [p|]; [|discriminate]. injection P as <-. apply half_at_redata in H. destruct H as (h & H & ->). exists h. split; [exists p, k; auto|reflexivity].
  - intros (h & (p & k & P & H) & ->). exists (redata_poly g p), k. rewrite redata_nth, P. split; [reflexivity|]. apply half_at_redata. exists h. auto.
Qed.
Lemma half_at_fun p k h g : half_at p k h -> half_at p k g -> h = g.
Proof. intros (a & b & A & B & ->) (c & d & C & D & ->). congruence. Qed.
Lemma half_in_at st i h : half_in st i h -> exists k e, at_ st i k e /\ eid e = f_id h /\ c_poly (pd e) = f_poly h /\ c_partner (pd e) = f_partner h /\ f_from h = hp_point (pv e) /\ f_dir h = ld (pl e).
Proof. intros (p & k & P & (e & e' & E & E' & ->)). exists k, e. split; [exists p; auto|]. repeat split. Qed.
Lemma at_half_in st i k e : at_ st i k e -> exists p e', nth_error st i = Some p /\ nth_error (pedges p) k = Some e /\ nth_error (pedges p) (S k mod length (pedges p)) = Some e' /\ half_at p k (half_of e e') /\ half_in st i (half_of e e').
Proof.
  intros (p & P & E). pose proof (nth_lt _ _ _ E) as L. destruct (nth_error (pedges p) (S k mod length (pedges p))) as [e'|] eqn:E'; [|apply nth_error_None in E'; pose proof (Nat.mod_upper_bound (S k) (length (pedges p))); lia].
  exists p, e'. assert (H : half_at p k (half_of e e')) by (exists e, e'; auto). repeat split; try assumption. exists p, k. auto.
Qed.
Lemma half_unique st i j h g : once st -> half_in st i h -> half_in st j g -> f_id h = f_id g -> i = j /\ h = g.
Proof.
  intros O (p & k & P & A) (q & m & Q & B) E. pose proof A as (a & a' & A1 & A2 & Ah). pose proof B as (b & b' & B1 & B2 & Bh).
  destruct (at_unique st i k a j m b O) as (<- & <- & _); [exists p; auto|exists q; auto|subst; exact E|]. split; [reflexivity|]. assert (p = q) by congruence. subst q. exact (half_at_fun _ _ _ _ A B).
Qed.

(** ** Removing an edge *)
Definition erase (st : mesh) (i n : nat) : mesh := match nth_error st i with Some p => upd st i (set_edges p (firstn n (pedges p) ++ skipn (S n) (pedges p))) | None => st end.
Definition join (h g : hedge) : hedge := HE (f_id h) (f_poly h) (f_partner h) (f_from h) (f_to g) (f_dir h).
Lemma erase_nth st i n p j : nth_error st i = Some p -> nth_error (erase st i n) j = if j =? i then Some (set_edges p (firstn n (pedges p) ++ skipn (S n) (pedges p))) else nth_error st j.
Proof. intros P. unfold erase. rewrite P. apply upd_nth. exact (nth_lt _ _ _ P). Qed.
Lemma without_length {B} (l : list B) n : n < length l -> length (firstn n l ++ skipn (S n) l) = length l - 1.
Proof. intros L. rewrite app_length, firstn_length, skipn_length. lia. Qed.
Lemma half_at_erase p k hk hn n : length (pedges p) >= 3 -> n = S k mod length (pedges p) -> half_at p k hk -> half_at p n hn ->
  forall h, (exists x, half_at (set_edges p (firstn n (pedges p) ++ skipn (S n) (pedges p))) x h) <-> h = join hk hn \/ exists x, half_at p x h /\ x <> k /\ x <> n.
Proof.
  intros L Hn Hk Hn' h. set (l := pedges p) in *. set (N := length l) in *. assert (Kl : k < N) by (destruct Hk as (a & _ & A & _); exact (nth_lt _ _ _ A)). assert (Nl : n < N) by (subst n; apply Nat.mod_upper_bound; lia).
  rewrite (succ_mod k N Kl) in Hn. unfold half_at. cbn [set_edges pedges]. rewrite (without_length l n Nl). fold N.
  assert (Su : forall x, x < N - 1 -> let y := if x <? n then x else S x in let z := S x mod (N - 1) in (if z <? n then z else S z) = if y =? k then S n mod N else S y mod N).
  { intros x X y z. unfold z. rewrite (succ_mod x (N - 1) X), (succ_mod n N Nl). unfold y.
    rewrite (succ_mod (if x <? n then x else S x) N) by (destruct (x <? n) eqn:Q; lia).
    destruct (x <? n) eqn:Q1, (S x =? N - 1) eqn:Q2, (S k =? N) eqn:Q3; subst n;
      repeat match goal with |- context [if ?c then _ else _] => destruct c eqn:? end; lia. }
  split.
  - intros (x & e & e' & E & E' & ->). pose proof (nth_lt _ _ _ E) as X. rewrite (without_length l n Nl) in X. fold N in X. rewrite without_nth in E, E' by exact Nl. rewrite (Su x X) in E'.
    set (y := if x <? n then x else S x) in *. destruct (Nat.eqb_spec y k) as [->|Y].
    + left. destruct Hk as (a & a' & A & A' & ->), Hn' as (b & b' & B & B' & ->). fold l N in A, A', B, B'. assert (a = e) by congruence. assert (b' = e') by congruence. subst. reflexivity.
    + right. exists y. split; [exists e, e'; auto|]. split; [exact Y|]. unfold y. destruct (x <? n) eqn:Q; lia.
  - intros [->|(y & (e & e' & E & E' & ->) & Y1 & Y2)].
    + destruct Hk as (a & a' & A & A' & ->), Hn' as (b & b' & B & B' & ->). fold l N in A, A', B, B'. exists (if k <? n then k else k - 1), a, b'.
      assert (X : (if k <? n then k else k - 1) < N - 1) by (destruct (k <? n) eqn:Q; destruct (S k =? N) eqn:Q2; lia).
      assert (Y : (if (if k <? n then k else k - 1) <? n then (if k <? n then k else k - 1) else S (if k <? n then k else k - 1)) = k) by (destruct (k <? n) eqn:Q; destruct (S k =? N) eqn:Q2; repeat match goal with |- context [if ?c then _ else _] => destruct c eqn:? end; lia).
      rewrite !without_nth by exact Nl. rewrite (Su _ X), Y, Nat.eqb_refl. auto.
    + exists (if y <? n then y else y - 1), e, e'. pose proof (nth_lt _ _ _ E) as Yl. fold l N in Yl, E'.
      assert (X : (if y <? n then y else y - 1) < N - 1) by (destruct (y <? n) eqn:Q; lia).
      assert (Y : (if (if y <? n then y else y - 1) <? n then (if y <? n then y else y - 1) else S (if y <? n then y else y - 1)) = y) by (destruct (y <? n) eqn:Q; repeat match goal with |- context [if ?c then _ else _] => destruct c eqn:? end; lia).
      rewrite !without_nth by exact Nl. rewrite (Su _ X), Y. destruct (Nat.eqb_spec y k); [contradiction|]. auto.
Qed.
Lemma half_in_erase st i p k n hk hn : once st -> nth_error st i = Some p -> length (pedges p) >= 3 -> n = S k mod length (pedges p) -> half_at p k hk -> half_at p n hn ->
  forall j h, half_in (erase st i n) j h <-> (j = i /\ h = join hk hn) \/ (half_in st j h /\ f_id h <> f_id hk /\ f_id h <> f_id hn).
Proof.
  intros O P L Hn Hk Hn' j h. pose proof (half_at_erase p k hk hn n L Hn Hk Hn' h) as C. unfold half_in at 1. rewrite (erase_nth st i n p j P).
  assert (Pos : forall x g, half_at p x g -> forall y f, half_at p y f -> f_id g = f_id f -> x = y).
  { intros x g (a & a' & A & A' & ->) y f (b & b' & B & B' & ->) E. destruct (at_unique st i x a i y b O) as (_ & X & _); [exists p; auto|exists p; auto|exact E|exact X]. }
  destruct (Nat.eqb_spec j i) as [->|N].
  - split.
    + intros (q & x & Q & H). injection Q as <-. destruct (proj1 C (ex_intro _ x H)) as [->|(y & Y & Y1 & Y2)]; [auto|]. right. split; [exists p, y; auto|]. split; intros X; [apply Y1|apply Y2]; eapply Pos; eauto.
    + intros [[_ ->]|((q & x & Q & H) & Y1 & Y2)].
      * destruct (proj2 C (or_introl eq_refl)) as (x & X). eauto.
      * assert (q = p) by congruence. subst q. destruct (proj2 C) as (y & Y); [right; exists x; split; [exact H|]; split; intros ->; [apply Y1|apply Y2]; f_equal; eapply half_at_fun; eauto|]. eauto.
  - split.
    + intros (q & x & Q & H). right. split; [exists q, x; auto|]. destruct Hk as (a & a' & A & A' & ->), Hn' as (b & b' & B & B' & ->), H as (c & c' & C1 & C2 & ->). cbn [f_id]. split; intros X.
      * destruct (at_unique st j x c i k a O) as (Y & _); [exists q; auto|exists p; auto|exact X|contradiction].
      * destruct (at_unique st j x c i n b O) as (Y & _); [exists q; auto|exists p; auto|exact X|contradiction].
    + intros [[E _]|(H & _)]; [contradiction|exact H].
Qed.
Lemma without_incl {B} (l : list B) n x : In x (firstn n l ++ skipn (S n) l) -> In x l.
Proof. exact (without_In n l x). Qed.
Lemma NoDup_without {B} (l : list B) n : NoDup l -> NoDup (firstn n l ++ skipn (S n) l).
Proof.
  revert n. induction l as [|a l IH]; intros n N; [destruct n; exact N|]. inversion N as [|? ? Na Nl]; subst. destruct n as [|n]; [exact Nl|]. change (NoDup (a :: (firstn n l ++ skipn (S n) l))). constructor; [intros I; apply Na; exact (without_incl l n a I)|apply IH; exact Nl].
Qed.
Lemma erase_once st i n : once st -> once (erase st i n).
Proof.
  intros [A B]. destruct (nth_error st i) as [p|] eqn:P; [|unfold erase; rewrite P; split; assumption].
  assert (Ids : ids (set_edges p (firstn n (pedges p) ++ skipn (S n) (pedges p))) = firstn n (ids p) ++ skipn (S n) (ids p)) by (unfold ids; cbn [set_edges pedges]; rewrite map_app, firstn_map, skipn_map; reflexivity).
  pose proof (erase_nth st i n p) as En. remember (set_edges p (firstn n (pedges p) ++ skipn (S n) (pedges p))) as w. clear Heqw.
  split.
  - intros j q Q. rewrite (En j P) in Q. destruct (Nat.eqb_spec j i) as [->|N]; [injection Q as <-; rewrite Ids; apply NoDup_without; exact (A i p P)|exact (A j q Q)].
  - intros j l q r x N Q R I J. rewrite (En j P) in Q. rewrite (En l P) in R. destruct (Nat.eqb_spec j i) as [->|N1], (Nat.eqb_spec l i) as [->|N2]; try lia.
    + injection Q as <-. rewrite Ids in I. apply without_incl in I. exact (B i l p r x N P R I J).
    + injection R as <-. rewrite Ids in J. apply without_incl in J. exact (B j i q p x N Q P I J).
    + exact (B j l q r x N Q R I J).
Qed.
