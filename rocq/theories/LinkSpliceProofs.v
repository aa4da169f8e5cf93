(** Putting the edges of one polygon in place of an edge of another. *)
From Coq Require Import List Bool Arith ZArith QArith Lqa Lia ZifyBool Morphisms Setoid Permutation.
From Verif Require Import BigUIntModel GeoModel GeoSpec GeoProofs CvxSpec CvxProofs CvxMergeProofs PolyModel PolySpec PolyOpsModel PolyBridgeProofs PolyInfoProofs PolyCapProofs TriSpec BspGeoProofs MergeProofs MergeTopProofs LinkModel LinkSpec LinkProofs LinkMergeProofs LinkGoodProofs.
Import ListNotations.
Open Scope nat_scope.

Definition e0 : pedge cdata := PE (HP (V3 0 0 0) 0) (PL (V3 0 0 0) (V3 0 0 0)) (CD 0 0 None).
Lemma half_cyc p x h : 0 < pcount p -> (half_at p (x mod pcount p) h <-> h = half_of (cyc e0 (pedges p) x) (cyc e0 (pedges p) (S x))).
Proof.
  intros L. unfold half_at. fold (pcount p). rewrite mod_succ by lia.
  assert (E : forall y, nth_error (pedges p) (y mod pcount p) = Some (cyc e0 (pedges p) y)). { intros y. unfold cyc. fold (pcount p). apply nth_error_nth'. apply (Nat.mod_upper_bound y (pcount p)). lia. }
  rewrite !E. split; [intros (e & e' & A & B & ->); injection A as <-; injection B as <-; reflexivity|]. intros ->. eauto.
Qed.
Definition sim (h0 h : hedge) : Prop := f_id h = f_id h0 /\ f_poly h = f_poly h0 /\ f_partner h = f_partner h0 /\ f_from h = f_from h0 /\ f_dir h = f_dir h0 /\ qp_eq (f_to h0) (f_to h).
Lemma pts_cyc p x : 0 < pcount p -> cyc o3 (pts p) x = hp_point (pv (cyc e0 (pedges p) x)).
Proof.
  intros L. unfold cyc, pts. rewrite map_length. fold (pcount p). assert (B : x mod pcount p < length (pedges p)) by (apply (Nat.mod_upper_bound x (pcount p)); lia). apply nth_error_nth. rewrite nth_error_map, (nth_error_nth' _ e0 B). reflexivity.
Qed.
Lemma turn_mod k0 n r : k0 < n -> r < n - 1 -> (S k0 + r) mod n <> k0.
Proof. intros A B. destruct (Nat.lt_ge_cases (S k0 + r) n) as [C|C]; [rewrite Nat.mod_small by exact C; lia|]. replace (S k0 + r) with (S k0 + r - n + 1 * n) by lia. rewrite Nat.mod_add by lia. rewrite Nat.mod_small by lia. lia. Qed.
Lemma turn_find k0 n x : k0 < n -> x < n -> x <> k0 -> exists r, r < n - 1 /\ (S k0 + r) mod n = x.
Proof.
  intros A B C. destruct (Nat.lt_ge_cases k0 x) as [D|D].
  - exists (x - S k0). split; [lia|]. replace (S k0 + (x - S k0)) with x by lia. apply Nat.mod_small. exact B.
  - exists (x + n - S k0). split; [lia|]. replace (S k0 + (x + n - S k0)) with (x + 1 * n) by lia. rewrite Nat.mod_add by lia. apply Nat.mod_small. exact B.
Qed.
Section Splice.
Context (p o : poly cdata) (k m : nat).
Let l := pedges p.
Let l' := pedges o.
Let W := splice k m l l'.
Let q := set_edges p W.
Context (K : k < pcount p) (M : m < pcount o) (N3 : 3 <= pcount p) (M3 : 3 <= pcount o).
Context (Ea : qp_eq (cyc o3 (pts o) (S m)) (cyc o3 (pts p) k)) (Eb : qp_eq (cyc o3 (pts o) m) (cyc o3 (pts p) (S k))).
Lemma splice_count : pcount q = pcount p + pcount o - 2.
Proof using K M. apply splice_length; assumption. Qed.
Lemma half_other r : r < pcount o - 1 -> sim (half_of (cyc e0 l' (S m + r)) (cyc e0 l' (S (S m + r)))) (half_of (cyc e0 W (k + r)) (cyc e0 W (S (k + r)))).
Proof using All.
  intros R. assert (E : cyc e0 W (k + r) = cyc e0 l' (S m + r)) by (apply splice_other; assumption). unfold half_of, sim. cbn [f_id f_poly f_partner f_from f_dir f_to]. rewrite E. repeat (split; [reflexivity|]).
  destruct (Nat.eq_dec r (pcount o - 2)) as [->|NE].
  - replace (S (k + (pcount o - 2))) with (k + (length l' - 1) + 0) by (unfold l'; fold (pcount o); lia). unfold W. rewrite splice_mine by (assumption || (unfold l; fold (pcount p); lia)). replace (S (S m + (pcount o - 2))) with (m + length l') by (unfold l'; fold (pcount o); lia). rewrite cyc_period by (unfold l'; fold (pcount o); lia).
    pose proof Eb as X. rewrite !pts_cyc in X by lia. rewrite Nat.add_0_r. exact X.
  - replace (S (k + r)) with (k + S r) by lia. unfold W. rewrite splice_other by (assumption || (unfold l'; fold (pcount o); lia)). replace (S m + S r) with (S (S m + r)) by lia. reflexivity.
Qed.
Lemma half_mine s : s < pcount p - 1 -> sim (half_of (cyc e0 l (S k + s)) (cyc e0 l (S (S k + s)))) (half_of (cyc e0 W (k + (pcount o - 1) + s)) (cyc e0 W (S (k + (pcount o - 1) + s)))).
Proof using All.
  intros R. assert (E : cyc e0 W (k + (pcount o - 1) + s) = cyc e0 l (S k + s)) by (apply splice_mine; assumption). unfold half_of, sim. cbn [f_id f_poly f_partner f_from f_dir f_to]. rewrite E. repeat (split; [reflexivity|]).
  destruct (Nat.eq_dec s (pcount p - 2)) as [->|NE].
  - assert (Lw : length W = pcount p + pcount o - 2) by (apply splice_length; assumption). replace (S (k + (pcount o - 1) + (pcount p - 2))) with (k + 0 + length W) by lia. rewrite cyc_period by lia. unfold W. rewrite splice_other by (assumption || (unfold l'; fold (pcount o); lia)). replace (S (S k + (pcount p - 2))) with (k + length l) by (unfold l; fold (pcount p); lia). rewrite cyc_period by (unfold l; fold (pcount p); lia).
    pose proof Ea as X. rewrite !pts_cyc in X by lia. rewrite Nat.add_0_r. symmetry. exact X.
  - replace (S (k + (pcount o - 1) + s)) with (k + (length l' - 1) + S s) by (unfold l'; fold (pcount o); lia). unfold W. rewrite splice_mine by (assumption || (unfold l; fold (pcount p); lia)). replace (S k + S s) with (S (S k + s)) by lia. reflexivity.
Qed.
Lemma from_splice y h : half_at q y h -> (exists x h0, half_at p x h0 /\ x <> k /\ sim h0 h) \/ (exists x h0, half_at o x h0 /\ x <> m /\ sim h0 h).
Proof using All.
  intros Hy. pose proof splice_count as Cq. assert (Y : y < pcount q) by (destruct Hy as (e & _ & E & _); exact (nth_lt _ _ _ E)).
  assert (Ex : exists r, r < pcount q /\ y = (k + r) mod pcount q). { destruct (Nat.lt_ge_cases y k) as [D|D]; [exists (y + pcount q - k)|exists (y - k)]; (split; [lia|]). - replace (k + (y + pcount q - k)) with (y + 1 * pcount q) by lia. rewrite Nat.mod_add by lia. symmetry. apply Nat.mod_small. exact Y. - replace (k + (y - k)) with y by lia. symmetry. apply Nat.mod_small. exact Y. }
  destruct Ex as (r & R & ->). apply half_cyc in Hy; [|lia]. subst h. cbn [q set_edges pedges]. destruct (Nat.lt_ge_cases r (pcount o - 1)) as [D|D].
  - right. exists ((S m + r) mod pcount o), (half_of (cyc e0 l' (S m + r)) (cyc e0 l' (S (S m + r)))). split; [apply half_cyc; [lia|reflexivity]|]. split; [apply turn_mod; assumption|apply half_other; exact D].
  - left. set (s := r - (pcount o - 1)). exists ((S k + s) mod pcount p), (half_of (cyc e0 l (S k + s)) (cyc e0 l (S (S k + s)))). split; [apply half_cyc; [lia|reflexivity]|]. split; [apply turn_mod; [assumption|lia]|]. replace (k + r) with (k + (pcount o - 1) + s) by lia. apply half_mine. lia.
Qed.
Lemma to_splice_mine x h0 : half_at p x h0 -> x <> k -> exists y h, half_at q y h /\ sim h0 h.
Proof using All.
  intros Hx Nx. pose proof splice_count as Cq. assert (X : x < pcount p) by (destruct Hx as (e & _ & E & _); exact (nth_lt _ _ _ E)). destruct (turn_find k (pcount p) x K X Nx) as (s & S1 & <-). apply half_cyc in Hx; [|lia]. subst h0.
  exists ((k + (pcount o - 1) + s) mod pcount q). eexists. split; [apply half_cyc; [lia|reflexivity]|]. apply half_mine. exact S1.
Qed.
Lemma to_splice_other x h0 : half_at o x h0 -> x <> m -> exists y h, half_at q y h /\ sim h0 h.
Proof using All.
  intros Hx Nx. pose proof splice_count as Cq. assert (X : x < pcount o) by (destruct Hx as (e & _ & E & _); exact (nth_lt _ _ _ E)). destruct (turn_find m (pcount o) x M X Nx) as (s & S1 & <-). apply half_cyc in Hx; [|lia]. subst h0.
  exists ((k + s) mod pcount q). eexists. split; [apply half_cyc; [lia|reflexivity]|]. apply half_other. exact S1.
Qed.
End Splice.

(** ** No edge twice *)
Lemma splice_perm {B} k m (l l' : list B) : Permutation (splice k m l l') (without k l ++ without m l').
Proof.
  unfold splice, without. rewrite <- !app_assoc. apply Permutation_app_head. etransitivity; [apply Permutation_app_comm|]. etransitivity; [apply Permutation_app_tail, Permutation_app_comm|]. rewrite <- app_assoc. reflexivity.
Qed.
Lemma NoDup_join {B} (l l' : list B) : NoDup l -> NoDup l' -> (forall x, In x l -> ~ In x l') -> NoDup (l ++ l').
Proof. induction l as [|a l IH]; intros N N' D; [exact N'|]. inversion N; subst. cbn. constructor; [intros I; apply in_app_or in I as [I|I]; [contradiction|exact (D a (or_introl eq_refl) I)]|]. apply IH; auto. intros x I. apply D. right. exact I. Qed.
Lemma NoDup_splice {B} k m (l l' : list B) : NoDup l -> NoDup l' -> (forall x, In x l -> ~ In x l') -> NoDup (splice k m l l').
Proof.
  intros N N' D. apply (Permutation_NoDup (Permutation_sym (splice_perm k m l l'))). apply NoDup_join; [exact (NoDup_without l k N)|exact (NoDup_without l' m N')|]. intros x I J. exact (D x (without_In _ _ _ I) (without_In _ _ _ J)).
Qed.
Lemma map_splice {B C} (f : B -> C) k m l l' : map f (splice k m l l') = splice k m (map f l) (map f l').
Proof. unfold splice. rewrite !map_app, !firstn_map, !skipn_map. reflexivity. Qed.
