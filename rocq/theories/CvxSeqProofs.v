(** Values of an affine function around a convex cycle. *)
From Coq Require Import List ZArith QArith Lqa Lia Arith.
From Verif Require Import BigUIntModel GeoModel GeoSpec CvxSpec CvxProofs.
Import ListNotations.
Open Scope Q_scope.
Record uni (n : nat) (F : nat -> Q) : Prop := Uni {
  u_n : (0 < n)%nat;
  u_period : forall i, F (i + n)%nat = F i;
  u_alt : forall c i j k l, (i < j)%nat -> (j < k)%nat -> (k < l)%nat -> (l < i + n)%nat -> c < F i -> F j <= c -> c < F k -> F l <= c -> False;
  u_flat : forall i a b, F i == F (S i) -> F a < F i -> F i < F b -> False }.
Lemma cvx_uni n s P f : cvx n s P -> uni n (fun i => ev f (P i)).
Proof.
  intros C. split; [exact (c_n n s P C)| | |].
  - intros i. f_equal. apply (c_period n s P C).
  - intros c i j k l. apply (no_alternation n s P C).
  - intros i a b. apply (flat_edge n s P C).
Qed.
Section Uni.
Context (n : nat) (F : nat -> Q) (U : uni n F).
Lemma u_mult i t : F (i + t * n)%nat = F i.
Proof using All. induction t as [|t IH]; [f_equal; lia|]. replace (i + S t * n)%nat with ((i + t * n) + n)%nat by lia. rewrite (u_period n F U). exact IH. Qed.
Lemma u_mod i : F (i mod n) = F i.
Proof using All. rewrite <- (u_mult (i mod n) (i / n)). f_equal. pose proof (u_n n F U). pose proof (Nat.div_mod i n ltac:(lia)). nia. Qed.
Lemma u_rep i m : exists m', (i <= m')%nat /\ (m' < i + n)%nat /\ F m' = F m /\ (m' mod n = m mod n)%nat.
Proof using All.
  pose proof (u_n n F U) as N. exists (i + (m + i * n - i) mod n)%nat. pose proof (Nat.mod_upper_bound (m + i * n - i) n ltac:(lia)). split; [lia|]. split; [lia|].
  assert (E : ((i + (m + i * n - i) mod n) mod n = m mod n)%nat).
  { rewrite Nat.add_mod_idemp_r by lia. replace (i + (m + i * n - i))%nat with (m + i * n)%nat by nia. apply Nat.mod_add. lia. }
  split; [|exact E]. rewrite <- u_mod, E. apply u_mod.
Qed.
Lemma uni_opp : uni n (fun i => - F i).
Proof using All.
  split; [exact (u_n n F U)|intros i; rewrite (u_period n F U); reflexivity| |].
  - intros c i j k l Hij Hjk Hkl Hli Fi Fj Fk Fl. set (c' := if Qlt_le_dec (F i) (F k) then F k else F i).
    assert (Ci : F i <= c' /\ F k <= c' /\ c' < - c) by (unfold c'; destruct (Qlt_le_dec (F i) (F k)); lra). clearbody c'. destruct Ci as (C1 & C2 & C3).
    apply (u_alt n F U c' j k l (i + n) Hjk Hkl Hli ltac:(lia)); [lra|exact C2|lra|]. rewrite (u_period n F U). exact C1.
  - intros i a b E A B. apply (u_flat n F U i b a); lra.
Qed.
Lemma uni_scale k : 0 < k -> uni n (fun i => k * F i).
Proof using All.
  intros K. split; [exact (u_n n F U)|intros i; rewrite (u_period n F U); reflexivity| |].
  - intros c i j m l Hij Hjk Hkl Hli Fi Fj Fk Fl.
    assert (E : c == k * (c / k)) by (field; lra). rewrite E in Fi, Fj, Fk, Fl.
    apply (u_alt n F U (c / k) i j m l Hij Hjk Hkl Hli); nra.
  - intros i a b E A B. apply (u_flat n F U i a b); nra.
Qed.
(** A fall somewhere between a higher and a lower value. *)
Lemma descent a b : (a < b)%nat -> F b < F a -> exists t, (a <= t)%nat /\ (t < b)%nat /\ F (S t) < F t.
Proof using F.
  clear U. intros L. remember (b - a)%nat as k eqn:K. revert a b L K. induction k as [|k IH]; intros a b L K H; [lia|].
  destruct (Qlt_le_dec (F (S a)) (F a)) as [X|X]; [exists a; repeat split; [lia|lia|exact X]|].
  destruct (Nat.eq_dec (S a) b) as [E|E]; [subst b; lra|]. destruct (IH (S a) b ltac:(lia) ltac:(lia) ltac:(lra)) as (t & T1 & T2 & T3). exists t. repeat split; [lia|lia|exact T3].
Qed.
(** A strict rise followed by no rise ends at the maximum. *)
Lemma peak x : F x < F (S x) -> F (S (S x)) <= F (S x) -> forall j, F j <= F (S x).
Proof using All.
  intros A B j. destruct (Qlt_le_dec (F (S x)) (F j)) as [X|X]; [exfalso|exact X].
  destruct (Qeq_dec (F (S x)) (F (S (S x)))) as [E|E]; [exact (u_flat n F U (S x) x j E A X)|].
  destruct (u_rep (S x) j) as (m & L & M & Fm & _). rewrite <- Fm in X.
  assert (m <> S x) by (intros ->; lra). assert (m <> S (S x)) by (intros ->; lra). assert (m <> x + n)%nat by (intros ->; rewrite (u_period n F U) in X; lra).
  set (c := if Qlt_le_dec (F x) (F (S (S x))) then F (S (S x)) else F x).
  assert (Cc : F x <= c /\ F (S (S x)) <= c /\ c < F (S x)) by (unfold c; destruct (Qlt_le_dec (F x) (F (S (S x)))); lra). clearbody c. destruct Cc as (C1 & C2 & C3).
  apply (u_alt n F U c (S x) (S (S x)) m (x + n)); [lia|lia|lia|lia|lra|lra|lra|]. rewrite (u_period n F U). exact C1.
Qed.
Lemma max2 (a b : Q) : exists c, a <= c /\ b <= c /\ (c == a \/ c == b).
Proof. clear. destruct (Qlt_le_dec a b); [exists b; split; [lra|]; split; [lra|right; lra]|exists a; split; [lra|]; split; [lra|left; lra]]. Qed.
(** The two turns of the search for an edge that falls, given that edge 0
    rises. *)
Lemma falls_after t mid : F 0%nat < F 1%nat -> (1 <= t)%nat -> (t < mid)%nat -> (mid < n)%nat -> F (S t) < F t -> F mid <= F (S mid) -> F 0%nat < F mid -> False.
Proof using All.
  intros E0 T1 Tm Mn Ft Em Fm. assert (N0 : F n = F 0%nat) by (apply (u_period n F U 0)).
  assert (H1 : exists h1, (1 <= h1)%nat /\ (h1 <= t)%nat /\ F 0%nat < F h1 /\ F (S t) < F h1).
  { destruct (Qlt_le_dec (F 0%nat) (F t)) as [X|X]; [exists t|exists 1%nat]; repeat split; try lia; lra. }
  destruct H1 as (h1 & G1 & G2 & G3 & G4).
  destruct (Qeq_dec (F mid) (F (S mid))) as [E|E].
  - assert (F t <= F mid). { destruct (Qlt_le_dec (F mid) (F t)) as [X|X]; [|exact X]. exfalso. exact (u_flat n F U mid 0 t E Fm X). }
    destruct (max2 (F 0%nat) (F (S t))) as (c & C1 & C2 & C3). assert (S t <> mid) by (intros Y; rewrite <- Y in *; lra).
    apply (u_alt n F U c h1 (S t) mid n); [lia|lia|lia|lia|destruct C3; lra|exact C2|destruct C3; lra|rewrite N0; exact C1].
  - assert (Em' : F mid < F (S mid)) by (destruct (proj1 (Qle_lteq _ _) Em); [assumption|contradiction]).
    assert (M : exists l1, (t < l1)%nat /\ (l1 <= mid)%nat /\ F l1 <= F (S t) /\ F l1 <= F mid).
    { destruct (Qlt_le_dec (F mid) (F (S t))) as [X|X]; [exists mid|exists (S t)]; repeat split; try lia; lra. }
    destruct M as (l1 & L1 & L2 & L3 & L4). destruct (max2 (F 0%nat) (F l1)) as (c & C1 & C2 & C3).
    assert (S mid <> n) by (intros Y; rewrite Y, N0 in Em'; lra).
    apply (u_alt n F U c h1 l1 (S mid) n); [lia|lia|lia|lia|destruct C3; lra|exact C2|destruct C3; lra|rewrite N0; exact C1].
Qed.
Lemma falls_before t mid : F 0%nat < F 1%nat -> (1 <= mid)%nat -> (mid < t)%nat -> (t < n)%nat -> F (S t) < F t -> F mid <= F (S mid) -> F mid <= F 0%nat -> False.
Proof using All.
  intros E0 M1 Tm Tn Ft Em Fm. assert (N0 : F n = F 0%nat) by (apply (u_period n F U 0)). assert (mid <> 1)%nat by (intros ->; lra).
  destruct (Qlt_le_dec (F (S t)) (F 1%nat)) as [X|X].
  - destruct (Qlt_le_dec (F mid) (F t)) as [Y|Y].
    + destruct (max2 (F (S t)) (F mid)) as (c & C1 & C2 & C3).
      apply (u_alt n F U c 1 mid t (S t)); [lia|lia|lia|lia|destruct C3; lra|exact C2|destruct C3; lra|exact C1].
    + destruct (Qeq_dec (F mid) (F (S mid))) as [E|E]; [apply (u_flat n F U mid (S t) 1 E); lra|].
      assert (Em' : F mid < F (S mid)) by (destruct (proj1 (Qle_lteq _ _) Em); [assumption|contradiction]).
      assert (S mid <> t) by (intros Z; rewrite Z in *; lra).
      apply (u_alt n F U (F mid) 1 mid (S mid) t); [lia|lia|lia|lia|lra|lra|lra|exact Y].
  - apply (u_alt n F U (F 0%nat) 1 mid t n); [lia|lia|lia|lia|lra|lra|lra|rewrite N0; lra].
Qed.
End Uni.
