(** Splitting a node through event points gives the children that Split gives. *)
From Coq Require Import List Bool Arith ZArith QArith Lia Lqa Permutation ZifyBool.
From Verif Require Import BigUIntModel GeoModel GeoSpec GeoProofs GeoPlaneProofs GeoDirProofs AabbModel AabbSpec AabbTrackerProofs CvxSpec PolyModel PolySpec PolyBridgeProofs PolyInfoProofs PolyCapProofs PolyChildProofs PolyTopProofs RTransModel FilterModel BspModel BspSpec BspMarkProofs BspGeoProofs BspBoxProofs BspPolyProofs BspTreeProofs
  EstModel EstSpec EvtModel EvtSpec EvtTokProofs EvtProofs EvtArrProofs EvtCostProofs EvtDiscProofs PropEvt PrimModel PrimSpec PropPrim KdModel KdSpec KdMarkProofs KdDealProofs KdCaseProofs KdCutProofs SecondModel SecondSpec SecondCarryProofs PropSecond KdOtherProofs PrimMonoProofs.
Import ListNotations.
Open Scope Q_scope.

Lemma F2_nth {A B} (R : A -> B -> Prop) l l' : Forall2 R l l' -> forall k a, nth_error l k = Some a -> exists b, nth_error l' k = Some b /\ R a b.
Proof. intros F. induction F as [|x y l l' E F IH]; intros [|k] a X; cbn in *; try discriminate; [injection X as <-; exists y; auto|exact (IH k a X)]. Qed.
(** Lists of numbers as lists of what is stored there. *)
Definition at_ {A B} (g : A -> list B) (os : list A) (q : nat) : list B := match nth_error os q with Some o => g o | None => [] end.
Lemma flat_seq {A B} (g : A -> list B) os : flat_map g os = flat_map (at_ g os) (seq 0 (length os)).
Proof.
  rewrite !flat_map_concat_map. f_equal. apply nth_error_ext. intros k. rewrite !nth_error_map. destruct (Nat.lt_ge_cases k (length os)) as [L|L].
  - assert (X : nth_error (seq 0 (length os)) k = Some k) by (rewrite (nth_error_nth' _ 0%nat) by (rewrite seq_length; exact L); rewrite List.seq_nth by exact L; reflexivity). rewrite X. cbn. unfold at_. destruct (nth_error os k) eqn:E; [reflexivity|]. apply nth_error_None in E. lia.
  - assert (X : nth_error (seq 0 (length os)) k = None) by (apply nth_error_None; rewrite seq_length; exact L). apply nth_error_None in L. rewrite X, L. reflexivity.
Qed.
Lemma flat_pick {A B} (P : nat -> B -> Prop) (g : A -> list B) os l out : Forall2 P l out -> (forall q a, In q l -> P q a -> at_ g os q = [a]) -> flat_map (at_ g os) l = out.
Proof. intros F. induction F as [|q a l out E F IH]; intros H; [reflexivity|]. cbn [flat_map]. rewrite (H q a (or_introl eq_refl) E), IH; [reflexivity|]. intros q' a' I. apply H. right. exact I. Qed.
Lemma flat_empty {A B} (g : A -> list B) os l : (forall q, In q l -> at_ g os q = []) -> flat_map (at_ g os) l = [].
Proof. induction l as [|q l IH]; intros H; [reflexivity|]. cbn [flat_map]. rewrite (H q (or_introl eq_refl)), IH; [reflexivity|]. intros q' I. apply H. right. exact I. Qed.
Lemma filled_some {P} (l : list P) : filled (map Some l) = Ok l.
Proof. induction l as [|a l IH]; [reflexivity|]. cbn [map filled got rbind]. rewrite IH. reflexivity. Qed.
Lemma flat_perm {A B} (f : A -> list B) l l' : Permutation l l' -> Permutation (flat_map f l) (flat_map f l').
Proof. intros P. rewrite !flat_map_concat_map. apply concat_perm. apply Permutation_map. exact P. Qed.

(** At most as many polygons as cs, in their planes. *)
Definition within (cs l : list bpoly) : Prop := (length l <= length cs)%nat /\ Forall (fun a => exists r, In r cs /\ pplane (bp_poly a) = pplane (bp_poly r)) l.
Section Kd.
Context (w : path) (PW : path_ok w) (wide dbg : bool) (d : nat) (Hd : (d < 3)%nat) (cs : list bpoly) (SC : Forall (fun b => exists qs, st w b qs) cs) (BX : boxed cs).
Notation vs := (map (bp_view d) cs).
Lemma content b : In b cs -> exists qs t, st w b qs /\ bp_box b = Some t.
Proof using SC BX.
  intros I. unfold boxed in BX. rewrite Forall_forall in SC, BX. destruct (SC b I) as (qs & S). destruct (bp_box b) as [t|] eqn:E; [|destruct (BX b I E)]. exists qs, t. auto.
Qed.
Lemma fits : Forall (poly_fit d) vs.
Proof using Hd SC BX.
  apply Forall_forall. intros v I. apply in_map_iff in I as (b & <- & I). destruct (content b I) as (qs & t & S & B). apply (extent_ok d b qs t Hd (s_ok _ _ _ S) B (s_box _ _ _ S t B)).
Qed.
Context (num den : Z) (Hden : (0 < den)%Z) (x : Q) (Hx : x == inject_Z num / inject_Z den).
Notation h := (hs_axis_aligned d num den).
Context (os : list outcome) (OS : Forall2 (fun b o => content_outcome dbg h b = Ok o) cs os).
Notation O := (kd_ops dbg d h).
Lemma views : map (o_view O) cs = vs. Proof using. reflexivity. Qed.
(** What ApplyPrimary needs. *)
Lemma outcome_of b : In b cs -> exists o, content_outcome dbg h b = Ok o.
Proof using OS. intros I. apply In_nth_error in I as (k & E). destruct (F2_nth _ _ _ OS k b E) as (o & _ & Eo). exists o. exact Eo. Qed.
Lemma can_split b : In b cs -> coord d (e_min (bp_view d b)) < x -> x < coord d (e_max (bp_view d b)) -> splits O d x b.
Proof using Hd Hden Hx SC BX OS PW.
  intros I A B. destruct (content b I) as (qs & t & S & Bb). destruct (outcome_of b I) as (o & Eo). destruct (case_cut dbg d Hd num den Hden x Hx b qs (s_ok _ _ _ S) t Bb (s_box _ _ _ S t Bb) o Eo A B) as (a & c & K & _ & i & J1 & J2 & J3 & J4 & J5).
  destruct (cut_parts dbg w b qs t h i a c PW S Bb J1 J2 J3 J4 J5) as (PA & PC & PI). exists a, c. split; [exact K|]. exact (reach d Hd num den Hden x Hx w b qs S t Bb a c PA PC PI A B).
Qed.
Lemma can_mark_neg b : In b cs -> coord d (e_min (bp_view d b)) < x -> coord d (e_max (bp_view d b)) == x -> markable O false b.
Proof using Hd Hden Hx SC BX OS.
  intros I A B. destruct (content b I) as (qs & t & S & Bb). destruct (outcome_of b I) as (o & Eo). destruct (case_neg dbg d Hd num den Hden x Hx b qs (s_ok _ _ _ S) t Bb (s_box _ _ _ S t Bb) o Eo A ltac:(lra)) as (a & _ & K & _ & M). exists a. split; [apply K; exact B|apply marks_view; exact M].
Qed.
Lemma can_mark_pos b : In b cs -> coord d (e_min (bp_view d b)) == x -> x < coord d (e_max (bp_view d b)) -> markable O true b.
Proof using Hd Hden Hx SC BX OS.
  intros I A B. destruct (content b I) as (qs & t & S & Bb). destruct (outcome_of b I) as (o & Eo). destruct (case_pos dbg d Hd num den Hden x Hx b qs (s_ok _ _ _ S) t Bb (s_box _ _ _ S t Bb) o Eo ltac:(lra) B) as (a & _ & K & _ & M). exists a. split; [apply K; exact A|apply marks_view; exact M].
Qed.
Lemma can_border b : In b cs -> coord d (e_min (bp_view d b)) == x -> coord d (e_max (bp_view d b)) == x -> exists a, o_border O (o_down O b) b = Ok a.
Proof using Hd Hden Hx SC BX OS.
  intros I A B. destruct (content b I) as (qs & t & S & Bb). destruct (outcome_of b I) as (o & Eo). destruct (case_on dbg d Hd num den Hden x Hx b qs (s_ok _ _ _ S) t Bb (s_box _ _ _ S t Bb) o Eo A B) as (a & K & _). exists a. exact K.
Qed.
(** The outcomes, by number. *)
Lemma lo_at q b : nth_error cs q = Some b -> lo d vs q = coord d (e_min (bp_view d b)) /\ hi d vs q = coord d (e_max (bp_view d b)).
Proof using. intros E. unfold lo, hi. rewrite nth_error_map, E. split; reflexivity. Qed.
Lemma get_case q : (q < length cs)%nat -> exists b o qs t, nth_error cs q = Some b /\ nth_error os q = Some o /\ content_outcome dbg h b = Ok o /\ st w b qs /\ bp_box b = Some t.
Proof using Hd SC BX OS.
  intros L. destruct (nth_error cs q) as [b|] eqn:E; [|apply nth_error_None in E; lia]. destruct (F2_nth _ _ _ OS q b E) as (o & Eo & X). destruct (content b (nth_error_In _ _ E)) as (qs & t & S & B). exists b, o, qs, t. auto.
Qed.
Lemma at_cut q : (q < length cs)%nat -> lo d vs q < x -> x < hi d vs q -> exists b a c, nth_error cs q = Some b /\ kd_cut dbg h b = Ok (a, c) /\ nth_error os q = Some (Outcome [a] [] [c] []).
Proof using Hd Hden Hx SC BX OS.
  intros L A B. destruct (get_case q L) as (b & o & qs & t & E & Eo & X & S & Bb). destruct (lo_at q b E) as [E1 E2]. rewrite E1 in A. rewrite E2 in B. destruct (case_cut dbg d Hd num den Hden x Hx b qs (s_ok _ _ _ S) t Bb (s_box _ _ _ S t Bb) o X A B) as (a & c & K & -> & _). exists b, a, c. auto.
Qed.
Lemma at_neg q : (q < length cs)%nat -> lo d vs q < x -> hi d vs q <= x -> exists b a, nth_error cs q = Some b /\ nth_error os q = Some (Outcome [a] [] [] []) /\ (hi d vs q == x -> kd_touch d h false b = Ok a) /\ (~ hi d vs q == x -> a = b).
Proof using Hd Hden Hx SC BX OS.
  intros L A B. destruct (get_case q L) as (b & o & qs & t & E & Eo & X & S & Bb). destruct (lo_at q b E) as [E1 E2]. rewrite E1 in A. rewrite E2 in *. destruct (case_neg dbg d Hd num den Hden x Hx b qs (s_ok _ _ _ S) t Bb (s_box _ _ _ S t Bb) o X A B) as (a & -> & K1 & K2 & _). exists b, a. auto.
Qed.
Lemma at_pos q : (q < length cs)%nat -> x <= lo d vs q -> x < hi d vs q -> exists b a, nth_error cs q = Some b /\ nth_error os q = Some (Outcome [] [] [a] []) /\ (lo d vs q == x -> kd_touch d h true b = Ok a) /\ (~ lo d vs q == x -> a = b).
Proof using Hd Hden Hx SC BX OS.
  intros L A B. destruct (get_case q L) as (b & o & qs & t & E & Eo & X & S & Bb). destruct (lo_at q b E) as [E1 E2]. rewrite E1 in *. rewrite E2 in B. destruct (case_pos dbg d Hd num den Hden x Hx b qs (s_ok _ _ _ S) t Bb (s_box _ _ _ S t Bb) o X A B) as (a & -> & K1 & K2 & _). exists b, a. auto.
Qed.
Lemma at_on q : (q < length cs)%nat -> lo d vs q == x -> hi d vs q == x -> exists b a, nth_error cs q = Some b /\ kd_border h (o_down O b) b = Ok a /\ nth_error os q = Some (if o_down O b then Outcome [] [] [] [a] else Outcome [] [a] [] []).
Proof using Hd Hden Hx SC BX OS.
  intros L A B. destruct (get_case q L) as (b & o & qs & t & E & Eo & X & S & Bb). destruct (lo_at q b E) as [E1 E2]. rewrite E1 in A. rewrite E2 in B. destruct (case_on dbg d Hd num den Hden x Hx b qs (s_ok _ _ _ S) t Bb (s_box _ _ _ S t Bb) o X A B) as (a & K & ->). exists b, a. auto.
Qed.
Context (B N R D U : list nat) (negs poss : list bpoly) (nev pev : list event) (s : pstate bpoly) (DV : divided O d x cs B N R D U negs poss nev pev s).
Lemma all_numbers : Permutation (seq 0 (length os)) (B ++ N ++ R ++ D ++ U).
Proof using DV OS Hd SC BX.
  pose proof (F2_length _ _ _ OS) as LO. destruct (dv_crossing _ _ _ _ _ _ _ _ _ _ _ _ _ _ DV) as [NB IB]. destruct (dv_negative _ _ _ _ _ _ _ _ _ _ _ _ _ _ DV) as [NN IN]. destruct (dv_positive _ _ _ _ _ _ _ _ _ _ _ _ _ _ DV) as [NR IR]. destruct (dv_down _ _ _ _ _ _ _ _ _ _ _ _ _ _ DV) as [ND ID]. destruct (dv_up _ _ _ _ _ _ _ _ _ _ _ _ _ _ DV) as [NU IU].
  change (map (o_view O) cs) with vs in *.
  apply NoDup_Permutation; [apply seq_NoDup| |].
  - assert (G : forall (l m : list nat), NoDup l -> NoDup m -> (forall q, In q l -> ~ In q m) -> NoDup (l ++ m)).
    { intros l m X Y Z. induction X as [|q l Q X IH]; [exact Y|]. cbn. constructor; [rewrite in_app_iff; intros [I|I]; [exact (Q I)|exact (Z q (or_introl eq_refl) I)]|apply IH; intros q' I; apply Z; right; exact I]. }
    apply G; [exact NB| |intros q I; rewrite !in_app_iff, IN, IR, ID, IU; apply IB in I; intros [X|[X|[X|X]]]; destruct I as (_ & I1 & I2), X as (_ & X); try destruct X as (X1 & X2); lra].
    apply G; [exact NN| |intros q I; rewrite !in_app_iff, IR, ID, IU; apply IN in I; intros [X|[X|X]]; destruct I as (_ & I1 & I2), X as (_ & X); try destruct X as (X1 & X2); lra].
    apply G; [exact NR| |intros q I; rewrite !in_app_iff, ID, IU; apply IR in I; intros [X|X]; destruct I as (_ & I1 & I2), X as (_ & X1 & X2 & X3); lra].
    apply G; [exact ND|exact NU|]. intros q I. rewrite IU. apply ID in I. tauto.
  - intros q. rewrite in_seq, !in_app_iff, IB, IN, IR, ID, IU. split; [|intros X; destruct X as [X|[X|[X|[X|X]]]]; destruct X as [X _]; lia]. intros [_ L]. assert (L' : (q < length cs)%nat) by lia.
    assert (LH : lo d vs q <= hi d vs q) by (destruct (nth_error cs q) as [b|] eqn:E; [destruct (lo_at q b E) as [-> ->]; pose proof fits as F; rewrite Forall_forall in F; apply (F (bp_view d b)), in_map, (nth_error_In _ _ E)|apply nth_error_None in E; lia]).
    destruct (Qlt_le_dec (lo d vs q) x) as [A|A].
    + destruct (Qlt_le_dec x (hi d vs q)) as [C|C]; [left|right; left]; auto.
    + right. right. destruct (Qlt_le_dec x (hi d vs q)) as [C|C]; [left; auto|right]. destruct (nth_error cs q) as [b|] eqn:E; [|apply nth_error_None in E; lia].
      destruct (o_down O b) eqn:Dn; [left|right]; (split; [exact L'|]; split; [lra|]; split; [lra|]); [exists b; auto|]. intros (b' & E' & F'). rewrite E in E'. injection E' as <-. congruence.
Qed.
Ltac side_of I := match type of I with In ?q ?l => match goal with X : forall q, In q l <-> _ |- _ => apply X in I end end.
Lemma lists_ok : Permutation (flat_map oc_nc os) negs /\ Permutation (flat_map oc_nb os) (s_nb s) /\ Permutation (flat_map oc_pc os) poss /\ Permutation (flat_map oc_pb os) (s_pb s).
Proof using DV OS Hd Hden Hx SC BX.
  destruct (dv_crossing _ _ _ _ _ _ _ _ _ _ _ _ _ _ DV) as [_ IB]. destruct (dv_negative _ _ _ _ _ _ _ _ _ _ _ _ _ _ DV) as [_ IN]. destruct (dv_positive _ _ _ _ _ _ _ _ _ _ _ _ _ _ DV) as [_ IR]. destruct (dv_down _ _ _ _ _ _ _ _ _ _ _ _ _ _ DV) as [_ ID]. destruct (dv_up _ _ _ _ _ _ _ _ _ _ _ _ _ _ DV) as [_ IU].
  pose proof (dv_negs_B _ _ _ _ _ _ _ _ _ _ _ _ _ _ DV) as FB. pose proof (dv_negs_N _ _ _ _ _ _ _ _ _ _ _ _ _ _ DV) as FN. pose proof (dv_poss_B _ _ _ _ _ _ _ _ _ _ _ _ _ _ DV) as GB. pose proof (dv_poss_R _ _ _ _ _ _ _ _ _ _ _ _ _ _ DV) as GR. pose proof (dv_nb _ _ _ _ _ _ _ _ _ _ _ _ _ _ DV) as FU. pose proof (dv_pb _ _ _ _ _ _ _ _ _ _ _ _ _ _ DV) as FD.
  change (map (o_view O) cs) with vs in *.
  assert (CB : forall q, In q B -> exists b a c, nth_error cs q = Some b /\ kd_cut dbg h b = Ok (a, c) /\ nth_error os q = Some (Outcome [a] [] [c] [])) by (intros q I; apply IB in I as (L & A & C); exact (at_cut q L A C)).
  assert (CN : forall q, In q N -> exists b a, nth_error cs q = Some b /\ nth_error os q = Some (Outcome [a] [] [] []) /\ (hi d vs q == x -> kd_touch d h false b = Ok a) /\ (~ hi d vs q == x -> a = b)) by (intros q I; apply IN in I as (L & A & C); exact (at_neg q L A C)).
  assert (CR : forall q, In q R -> exists b a, nth_error cs q = Some b /\ nth_error os q = Some (Outcome [] [] [a] []) /\ (lo d vs q == x -> kd_touch d h true b = Ok a) /\ (~ lo d vs q == x -> a = b)) by (intros q I; apply IR in I as (L & A & C); exact (at_pos q L A C)).
  assert (CD : forall q, In q D -> exists b a, nth_error cs q = Some b /\ kd_border h true b = Ok a /\ nth_error os q = Some (Outcome [] [] [] [a])).
  { intros q I. apply ID in I as (L & A & C & (b' & E' & F')). destruct (at_on q L A C) as (b & a & E & K & X). rewrite E in E'. injection E' as <-. rewrite F' in K, X. exists b, a. auto. }
  assert (CU : forall q, In q U -> exists b a, nth_error cs q = Some b /\ kd_border h false b = Ok a /\ nth_error os q = Some (Outcome [] [a] [] [])).
  { intros q I. apply IU in I as (L & A & C & F'). destruct (at_on q L A C) as (b & a & E & K & X). destruct (o_down O b) eqn:Dn; [destruct F'; exists b; auto|]. exists b, a. auto. }
  assert (P : forall g : outcome -> list bpoly, Permutation (flat_map g os) (flat_map (at_ g os) B ++ flat_map (at_ g os) N ++ flat_map (at_ g os) R ++ flat_map (at_ g os) D ++ flat_map (at_ g os) U)).
  { intros g. rewrite (flat_seq g os). rewrite <- !flat_map_app. apply flat_perm. exact all_numbers. }
  split; [|split; [|split]].
  - rewrite P, (flat_pick _ oc_nc os B _ FB), (flat_pick _ oc_nc os N _ FN), (flat_empty oc_nc os R), (flat_empty oc_nc os D), (flat_empty oc_nc os U).
    + rewrite !app_nil_r, firstn_skipn. apply Permutation_refl.
    + intros q I. destruct (CU q I) as (b & a & _ & _ & X). unfold at_. rewrite X. reflexivity.
    + intros q I. destruct (CD q I) as (b & a & _ & _ & X). unfold at_. rewrite X. reflexivity.
    + intros q I. destruct (CR q I) as (b & a & _ & X & _). unfold at_. rewrite X. reflexivity.
    + intros q a' I (b' & E' & T1 & T2). destruct (CN q I) as (b & a & E & X & K1 & K2). rewrite E in E'. injection E' as <-. unfold at_. rewrite X. cbn [oc_nc]. f_equal. destruct (Qeq_dec (hi d vs q) x) as [Y|Y]; [specialize (K1 Y); specialize (T1 Y); cbn [o_touch kd_ops] in T1; congruence|rewrite (K2 Y), (T2 Y); reflexivity].
    + intros q a' I (b' & c' & E' & T). destruct (CB q I) as (b & a & c & E & K & X). rewrite E in E'. injection E' as <-. cbn [o_split kd_ops] in T. unfold at_. rewrite X. cbn [oc_nc]. congruence.
  - rewrite P, (flat_empty oc_nb os B), (flat_empty oc_nb os N), (flat_empty oc_nb os R), (flat_empty oc_nb os D), (flat_pick _ oc_nb os U _ FU).
    + apply Permutation_refl.
    + intros q a' I (b' & E' & T). destruct (CU q I) as (b & a & E & K & X). rewrite E in E'. injection E' as <-. cbn [o_border kd_ops] in T. unfold at_. rewrite X. cbn [oc_nb]. congruence.
    + intros q I. destruct (CD q I) as (b & a & _ & _ & X). unfold at_. rewrite X. reflexivity.
    + intros q I. destruct (CR q I) as (b & a & _ & X & _). unfold at_. rewrite X. reflexivity.
    + intros q I. destruct (CN q I) as (b & a & _ & X & _). unfold at_. rewrite X. reflexivity.
    + intros q I. destruct (CB q I) as (b & a & c & _ & _ & X). unfold at_. rewrite X. reflexivity.
  - rewrite P, (flat_pick _ oc_pc os B _ GB), (flat_empty oc_pc os N), (flat_pick _ oc_pc os R _ GR), (flat_empty oc_pc os D), (flat_empty oc_pc os U).
    + cbn [app]. rewrite !app_nil_r, firstn_skipn. apply Permutation_refl.
    + intros q I. destruct (CU q I) as (b & a & _ & _ & X). unfold at_. rewrite X. reflexivity.
    + intros q I. destruct (CD q I) as (b & a & _ & _ & X). unfold at_. rewrite X. reflexivity.
    + intros q a' I (b' & E' & T1 & T2). destruct (CR q I) as (b & a & E & X & K1 & K2). rewrite E in E'. injection E' as <-. unfold at_. rewrite X. cbn [oc_pc]. f_equal. destruct (Qeq_dec (lo d vs q) x) as [Y|Y]; [specialize (K1 Y); specialize (T1 Y); cbn [o_touch kd_ops] in T1; congruence|rewrite (K2 Y), (T2 Y); reflexivity].
    + intros q I. destruct (CN q I) as (b & a & _ & X & _). unfold at_. rewrite X. reflexivity.
    + intros q a' I (b' & c' & E' & T). destruct (CB q I) as (b & a & c & E & K & X). rewrite E in E'. injection E' as <-. cbn [o_split kd_ops] in T. unfold at_. rewrite X. cbn [oc_pc]. congruence.
  - rewrite P, (flat_empty oc_pb os B), (flat_empty oc_pb os N), (flat_empty oc_pb os R), (flat_pick _ oc_pb os D _ FD), (flat_empty oc_pb os U).
    + cbn [app]. rewrite app_nil_r. apply Permutation_refl.
    + intros q I. destruct (CU q I) as (b & a & _ & _ & X). unfold at_. rewrite X. reflexivity.
    + intros q a' I (b' & E' & T). destruct (CD q I) as (b & a & E & K & X). rewrite E in E'. injection E' as <-. cbn [o_border kd_ops] in T. unfold at_. rewrite X. cbn [oc_pb]. congruence.
    + intros q I. destruct (CR q I) as (b & a & _ & X & _). unfold at_. rewrite X. reflexivity.
    + intros q I. destruct (CN q I) as (b & a & _ & X & _). unfold at_. rewrite X. reflexivity.
    + intros q I. destruct (CB q I) as (b & a & c & _ & _ & X). unfold at_. rewrite X. reflexivity.
Qed.
(** The children's polygons have boxes. *)
Lemma content_box b : In b cs -> has_box b.
Proof using SC BX. intros I. destruct (content b I) as (qs & t & S & Bb). exists qs, t. split; [apply S|]. split; [exact Bb|]. exact (s_box _ _ _ S t Bb). Qed.
Lemma cut_boxes b a c : In b cs -> coord d (e_min (bp_view d b)) < x -> x < coord d (e_max (bp_view d b)) -> kd_cut dbg h b = Ok (a, c) -> has_box a /\ has_box c /\ pieces b [a; c].
Proof using PW Hd Hden Hx SC BX OS.
  intros I A B0 E. destruct (content b I) as (qs & t & S & Bb). destruct (outcome_of b I) as (o & Eo). destruct (case_cut dbg d Hd num den Hden x Hx b qs (s_ok _ _ _ S) t Bb (s_box _ _ _ S t Bb) o Eo A B0) as (a' & c' & K & _ & i & J1 & J2 & J3 & J4 & J5).
  rewrite E in K. injection K as <- <-. destruct (cut_parts dbg w b qs t h i a c PW S Bb J1 J2 J3 J4 J5) as (PA & PC & PI). split; [exact (part_box _ _ _ PA)|]. split; [exact (part_box _ _ _ PC)|exact PI].
Qed.
Lemma touch_marks b r a : o_touch O b r = Ok a -> marks r a.
Proof using. cbn [o_touch kd_ops]. apply set_adjacent_marks. Qed.
Lemma kept_box side (C : nat -> Prop) q a : (C q \/ ~ C q) -> kept O cs side C q a -> has_box a.
Proof using SC BX. intros DEC (r & E & A & A'). pose proof (content_box r (nth_error_In _ _ E)) as X. destruct DEC as [Y|Y]; [exact (marks_box _ _ (touch_marks _ _ _ (A Y)) X)|rewrite (A' Y); exact X]. Qed.
Lemma boxes : Forall has_box negs /\ Forall has_box poss.
Proof using PW Hd Hden Hx SC BX OS DV.
  assert (G : forall (P : nat -> bpoly -> Prop) l out, Forall2 P l out -> (forall q a, In q l -> P q a -> has_box a) -> Forall has_box out) by (intros P l out F; induction F as [|q a l out E F IH]; intros X; constructor; [exact (X q a (or_introl eq_refl) E)|apply IH; intros q' a' I; apply X; right; exact I]).
  destruct (dv_crossing _ _ _ _ _ _ _ _ _ _ _ _ _ _ DV) as [_ IB]. change (map (o_view O) cs) with vs in IB.
  assert (CR : forall q r, In q B -> nth_error cs q = Some r -> In r cs /\ coord d (e_min (bp_view d r)) < x /\ x < coord d (e_max (bp_view d r))) by (intros q r I E; apply IB in I as (_ & I1 & I2); destruct (lo_at q r E) as [E1 E2]; rewrite E1 in I1; rewrite E2 in I2; split; [exact (nth_error_In _ _ E)|split; assumption]).
  split.
  - rewrite <- (firstn_skipn (length B) negs). apply Forall_app. split.
    + apply (G _ _ _ (dv_negs_B _ _ _ _ _ _ _ _ _ _ _ _ _ _ DV)). intros q a I (r & b & E & K). destruct (CR q r I E) as (I' & X1 & X2). apply (cut_boxes r a b I' X1 X2 K).
    + apply (G _ _ _ (dv_negs_N _ _ _ _ _ _ _ _ _ _ _ _ _ _ DV)). intros q a I K. exact (kept_box _ _ _ _ (SecondCarryProofs.qdec _ _) K).
  - rewrite <- (firstn_skipn (length B) poss). apply Forall_app. split.
    + apply (G _ _ _ (dv_poss_B _ _ _ _ _ _ _ _ _ _ _ _ _ _ DV)). intros q c I (r & a & E & K). destruct (CR q r I E) as (I' & X1 & X2). apply (cut_boxes r a c I' X1 X2 K).
    + apply (G _ _ _ (dv_poss_R _ _ _ _ _ _ _ _ _ _ _ _ _ _ DV)). intros q a I K. exact (kept_box _ _ _ _ (SecondCarryProofs.qdec _ _) K).
Qed.
(** They are at most as many as before, and in the same planes. *)
Lemma cut_planes b a c : In b cs -> coord d (e_min (bp_view d b)) < x -> x < coord d (e_max (bp_view d b)) -> kd_cut dbg h b = Ok (a, c) -> pplane (bp_poly a) = pplane (bp_poly b) /\ pplane (bp_poly c) = pplane (bp_poly b).
Proof using PW Hd Hden Hx SC BX OS.
  intros I A B0 E. destruct (cut_boxes b a c I A B0 E) as (_ & _ & PI). pose proof (pi_same _ _ PI) as F. rewrite Forall_forall in F. split; apply F; cbn; auto.
Qed.
Lemma kept_plane side (C : nat -> Prop) q a : (C q \/ ~ C q) -> kept O cs side C q a -> exists r, In r cs /\ pplane (bp_poly a) = pplane (bp_poly r).
Proof using. clear. intros DEC (r & E & A & A'). exists r. split; [exact (nth_error_In _ _ E)|]. destruct DEC as [Y|Y]; [apply (mk_plane _ _ (touch_marks _ _ _ (A Y)))|rewrite (A' Y); reflexivity]. Qed.
Lemma all_within : within cs negs /\ within cs poss.
Proof using PW Hd Hden Hx SC BX OS DV.
  pose (Q a := exists r, In r cs /\ pplane (bp_poly a) = pplane (bp_poly r)).
  assert (G : forall (P : nat -> bpoly -> Prop) l out, Forall2 P l out -> (forall q a, In q l -> P q a -> Q a) -> Forall Q out) by (intros P l out F; induction F as [|q a l out E F IH]; intros X; constructor; [exact (X q a (or_introl eq_refl) E)|apply IH; intros q' a' I; apply X; right; exact I]).
  destruct (dv_crossing _ _ _ _ _ _ _ _ _ _ _ _ _ _ DV) as [_ IB]. change (map (o_view O) cs) with vs in IB.
  assert (CR : forall q r, In q B -> nth_error cs q = Some r -> In r cs /\ coord d (e_min (bp_view d r)) < x /\ x < coord d (e_max (bp_view d r))) by (intros q r I E; apply IB in I as (_ & I1 & I2); destruct (lo_at q r E) as [E1 E2]; rewrite E1 in I1; rewrite E2 in I2; split; [exact (nth_error_In _ _ E)|split; assumption]).
  pose proof (dv_negs_B _ _ _ _ _ _ _ _ _ _ _ _ _ _ DV) as FB. pose proof (dv_negs_N _ _ _ _ _ _ _ _ _ _ _ _ _ _ DV) as FN. pose proof (dv_poss_B _ _ _ _ _ _ _ _ _ _ _ _ _ _ DV) as GB. pose proof (dv_poss_R _ _ _ _ _ _ _ _ _ _ _ _ _ _ DV) as GR.
  pose proof (Permutation_length all_numbers) as LP. rewrite seq_length, !app_length, <- (F2_length _ _ _ OS) in LP. pose proof (F2_length _ _ _ FB) as L1. pose proof (F2_length _ _ _ FN) as L2. pose proof (F2_length _ _ _ GB) as L3. pose proof (F2_length _ _ _ GR) as L4.
  pose proof (f_equal (@length _) (firstn_skipn (length B) negs)) as M1. pose proof (f_equal (@length _) (firstn_skipn (length B) poss)) as M2. rewrite app_length in M1, M2.
  split; (split; [lia|]).
  - rewrite <- (firstn_skipn (length B) negs). apply Forall_app. split.
    + apply (G _ _ _ FB). intros q a I (r & b & E & K). destruct (CR q r I E) as (I' & X1 & X2). exists r. split; [exact I'|]. apply (cut_planes r a b I' X1 X2 K).
    + apply (G _ _ _ FN). intros q a I K. exact (kept_plane _ _ _ _ (SecondCarryProofs.qdec _ _) K).
  - rewrite <- (firstn_skipn (length B) poss). apply Forall_app. split.
    + apply (G _ _ _ GB). intros q c I (r & a & E & K). destruct (CR q r I E) as (I' & X1 & X2). exists r. split; [exact I'|]. apply (cut_planes r a c I' X1 X2 K).
    + apply (G _ _ _ GR). intros q a I K. exact (kept_plane _ _ _ _ (SecondCarryProofs.qdec _ _) K).
Qed.
(** The event points of another dimension. *)
Lemma other_ok d' dbg' evs choose fuel : (d' < 3)%nat -> events_ok d' (map (bp_view d') cs) evs -> (forall r, In r cs -> coord d' (e_min (bp_view d' r)) < coord d' (e_max (bp_view d' r))) -> (dbg' = true -> D = [] /\ U = []) ->
  exists pmap, s_map s = map Some pmap /\
    (apply_secondary dbg' d' (length cs) (map (bp_view d') negs) (map (bp_view d') poss) (length B) pmap choose fuel evs = NoFuel \/
     exists nev' pev', apply_secondary dbg' d' (length cs) (map (bp_view d') negs) (map (bp_view d') poss) (length B) pmap choose fuel evs = Ok (nev', pev') /\ events_ok d' (map (bp_view d') negs) nev' /\ events_ok d' (map (bp_view d') poss) pev').
Proof using PW Hd Hden Hx SC BX OS DV.
  intros D' EV NF DB. destruct boxes as [B1 B2]. apply (C66_after_primary _ _ _ _ _ _ _ _ _ _ _ _ _ _ _ DV); try assumption.
  - exact fits.
  - apply Forall_forall. intros v I. apply in_map_iff in I as (r & <- & I). rewrite Forall_forall in B1. apply (box_fit d' r D' (B1 r I)).
  - apply Forall_forall. intros v I. apply in_map_iff in I as (r & <- & I). rewrite Forall_forall in B2. apply (box_fit d' r D' (B2 r I)).
  - intros b r a _ E. apply marks_view. exact (touch_marks _ _ _ E).
  - intros r a c I X1 X2 E. destruct (cut_boxes r a c I X1 X2 E) as (Y1 & Y2 & PI). apply (parts_other d' D' r a c (content_box r I) Y1 Y2 PI).
Qed.
End Kd.

Lemma room_perm infos l l' : Permutation l l' -> room infos l -> room infos l'.
Proof. intros P. unfold room. apply Permutation_Forall. exact P. Qed.
Lemma border_none dbg h b o : border_outcome dbg h b = Ok o -> oc_nc o = [] /\ oc_pc o = [].
Proof.
  assert (ON : on_outcome h b = Ok o -> oc_nc o = [] /\ oc_pc o = []) by (unfold on_outcome; destruct (set_angles _ _ _ _); try discriminate; cbn [rbind]; intros X; injection X as <-; destruct (zdiff_sign _ _); split; reflexivity).
  unfold border_outcome. destruct (check dbg (_ <? _)%nat); try discriminate. cbn [rbind]. destruct (bp_split_info _ _ _) as [i| | |]; try discriminate. cbn [rbind]. destruct (on_plane_info i); [destruct (check dbg false); try discriminate; exact ON|].
  unfold off_outcome. destruct (emit_neg _); [destruct (emit_pos _)|].
  - destruct (bp_split_children _ _ _); try discriminate. cbn [rbind]. destruct (set_child_angles _ _ _); try discriminate. intros X. injection X as <-. split; reflexivity.
  - destruct (set_angles_except _ _ _); try discriminate. intros X. injection X as <-. split; reflexivity.
  - destruct (set_angles_except _ _ _); try discriminate. intros X. injection X as <-. split; reflexivity.
Qed.
(** The two ways to split a node. *)
Theorem kd_ok w wide dbg d cs bs infos s0 c1 c2 evs excl ec p0 p h x x1 : path_ok w -> (d < 3)%nat -> Forall (fun b => exists qs, st w b qs) cs -> boxed cs -> events_ok d (map (bp_view d) cs) evs -> (0 < length cs)%nat ->
  (Z.of_nat (length cs) < 2 ^ 57)%Z -> wide = true \/ (Z.of_nat (length cs) < 2 ^ 31)%Z -> counts (length cs) (fun i => ~ included excl (map (bp_view d) cs) i) ec ->
  lowest_cost wide excl ec (map (bp_view d) cs) evs = Ok (Some p0) -> discount dbg (length cs) evs p0 = Ok p -> split_plane dbg d (map (bp_view d) cs) evs p = Ok h -> event_at d (map (bp_view d) cs) evs (p_index p0) x ->
  (dbg = true -> no_min (l4 h)) \/ (exists s, apply_primary (kd_ops dbg d h) dbg h cs p d evs = Ok s) -> bn_split dbg h (BNode s0 cs bs infos c1 c2) = Ok x1 ->
  exists n2 p2 s B N R D U nev pev, bn_split_kd dbg d evs p (BNode s0 cs bs infos c1 c2) = Ok (BNode h [] [] infos n2 p2, s) /\ reordered x1 (BNode h [] [] infos n2 p2) /\ divided (kd_ops dbg d h) d x cs B N R D U (n_contents n2) (n_contents p2) nev pev s /\
    Forall has_box (n_contents n2) /\ Forall has_box (n_contents p2) /\ within cs (n_contents n2) /\ within cs (n_contents p2) /\
    forall d' dbg' evs' choose fuel, (d' < 3)%nat -> events_ok d' (map (bp_view d') cs) evs' -> (forall r, In r cs -> coord d' (e_min (bp_view d' r)) < coord d' (e_max (bp_view d' r))) -> (dbg' = true -> D = [] /\ U = []) ->
      exists pmap, s_map s = map Some pmap /\
        (apply_secondary dbg' d' (length cs) (map (bp_view d') (n_contents n2)) (map (bp_view d') (n_contents p2)) (length B) pmap choose fuel evs' = NoFuel \/
         exists nev' pev', apply_secondary dbg' d' (length cs) (map (bp_view d') (n_contents n2)) (map (bp_view d') (n_contents p2)) (length B) pmap choose fuel evs' = Ok (nev', pev') /\
           events_ok d' (map (bp_view d') (n_contents n2)) nev' /\ events_ok d' (map (bp_view d') (n_contents p2)) pev').
Proof.
  intros PW Hd SC BX EV NE SZ WD EC LC DI SH EX NM BS. pose proof (fits w d Hd cs SC BX) as FIT.
  assert (LV : length (map (bp_view d) cs) = length cs) by apply map_length.
  destruct (C40_split wide dbg d (map (bp_view d) cs) evs excl ec p0 Hd FIT EV ltac:(lia) ltac:(lia) ltac:(rewrite LV; exact WD) ltac:(rewrite LV; exact EC) LC) as (q & x' & h' & D1 & EX' & _ & _ & _ & _ & _ & _ & _ & SH' & HS).
  rewrite LV, DI in D1. injection D1 as <-. rewrite SH in SH'. injection SH' as <-. destruct (split_plane_axis _ _ _ _ _ _ FIT SH) as (num & den & Hden & ->).
  assert (XX : x == x'). { destruct EX as (s & e & i & SP & V), EX' as (s' & e' & i' & SP' & V'). 
    pose proof (toks_of_events d (map (bp_view d) cs) evs EV) as (F & AR & T & FL). assert (A : event_at d (map (bp_view d) cs) evs (p_index p0) x) by (exists s, e, i; auto). assert (A' : event_at d (map (bp_view d) cs) evs (p_index p0) x') by (exists s', e', i'; auto). apply (event_at_iff _ _ _ F AR T) in A, A'. destruct A as (t1 & T1 & T2), A' as (u & U1 & U2). rewrite T1 in U1. injection U1 as <-. rewrite T2, U2. reflexivity. }
  pose proof (axis_at d num den x' Hd Hden HS) as X'. assert (Hx : x == inject_Z num / inject_Z den) by (rewrite XX; exact X'). pose proof (axis_valid d num den Hd Hden) as HV. set (h := hs_axis_aligned d num den) in *.
  unfold bn_split in BS. rewrite HV in BS. rewrite check_true in BS. cbn [rbind] in BS. destruct (check dbg (bn_is_leaf s0)); try discriminate. cbn [rbind push_to_children] in BS. unfold bn_is_leaf in BS. rewrite HV in BS. cbn [negb kid_of rbind] in BS. unfold push_all in BS. cbn [fst snd k_infos k_contents k_border] in BS.
  destruct (push_pwn dbg h cs _) as [y| | |] eqn:EY; try discriminate. cbn [rbind] in BS. destruct (rfold (push_content dbg h) cs _) as [y1| | |] eqn:E1; try discriminate. cbn [rbind] in BS. destruct (rfold (push_border dbg h) bs y1) as [y2| | |] eqn:E2; try discriminate. cbn [rbind with_kid] in BS. injection BS as <-.
  destruct (gives_ok _ _ (content_gives dbg h) _ _ _ E1) as (os & OS & R1 & R2 & G1 & G2). cbn [fst snd k_infos k_contents k_border] in *. destruct (gives_ok _ _ (border_gives dbg h) _ _ _ E2) as (ob & OB & RB1 & RB2 & GB1 & GB2).
  assert (PR : exists s B N R D U negs poss nev pev, apply_primary (kd_ops dbg d h) dbg h cs p d evs = Ok s /\ divided (kd_ops dbg d h) d x cs B N R D U negs poss nev pev s).
  { pose proof (can_split w PW dbg d Hd cs SC BX num den Hden x Hx os OS) as Y1. pose proof (can_mark_neg w dbg d Hd cs SC BX num den Hden x Hx os OS) as Y2. pose proof (can_mark_pos w dbg d Hd cs SC BX num den Hden x Hx os OS) as Y3. pose proof (can_border w dbg d Hd cs SC BX num den Hden x Hx os OS) as Y4.
    destruct NM as [NM|(s & AP)]; [exact (C65_apply_primary bpoly (kd_ops dbg d h) wide dbg d cs evs excl ec p0 p h x Hd FIT EV NE SZ WD EC LC DI SH EX NM Y1 Y2 Y3 Y4)|].
    destruct (C65_apply_primary bpoly (kd_ops dbg d h) wide false d cs evs excl ec p0 p h x Hd FIT EV NE SZ WD EC LC (res_le_discount _ _ _ _ _ DI) (res_le_split_plane _ _ _ _ _ _ SH) EX ltac:(discriminate) Y1 Y2 Y3 Y4) as (s' & B & N & R & D & U & negs & poss & nev & pev & AP' & DV).
    pose proof (primary_mono (kd_ops dbg d h) (kd_ops dbg d h) (fun _ => eq_refl) (fun _ => eq_refl) (fun _ _ => res_le_refl _) (fun _ _ => res_le_refl _) (fun _ => res_le_refl _) dbg h cs p d evs s AP) as X. rewrite AP' in X. injection X as ->. exists s, B, N, R, D, U, negs, poss, nev, pev. split; assumption. }
  destruct PR as (s & B & N & R & D & U & negs & poss & nev & pev & AP & DV).
  destruct (lists_ok w dbg d Hd cs SC BX num den Hden x Hx os OS B N R D U negs poss nev pev s DV) as (P1 & P2 & P3 & P4).
  destruct (set_counts_ok negs (s_nb s) (fst y)) as (i1 & S1 & B1); [exact (room_perm _ _ _ (Permutation_app P1 P2) R1)|]. destruct (set_counts_ok poss (s_pb s) (snd y)) as (i2 & S2 & B2); [exact (room_perm _ _ _ (Permutation_app P3 P4) R2)|].
  assert (I1 : i1 = k_infos (fst y1)) by (symmetry; exact (bumped_same _ _ _ _ _ _ _ (gv_infos _ _ _ _ G1) B1 P1 P2)). assert (I2 : i2 = k_infos (snd y1)) by (symmetry; exact (bumped_same _ _ _ _ _ _ _ (gv_infos _ _ _ _ G2) B2 P3 P4)). subst i1 i2.
  destruct (gives_total _ _ (border_gives dbg h) bs ob OB (Kid negs (s_nb s) (k_infos (fst y1)), Kid poss (s_pb s) (k_infos (snd y1))) RB1 RB2) as (y3 & E3). destruct (gives_ok _ _ (border_gives dbg h) _ _ _ E3) as (ob' & OB' & _ & _ & GC1 & GC2). cbn [fst snd k_infos] in *.
  assert (OE : ob' = ob). { clear - OB OB'. revert ob' OB'. induction OB as [|b o l ob E F IH]; intros ob' X; inversion X as [|? o' ? ob2 E' F']; subst; [reflexivity|]. rewrite (IH _ F'). congruence. } subst ob'.
  assert (NB : flat_map oc_nc ob = [] /\ flat_map oc_pc ob = []) by (clear - OB; induction OB as [|b o l ob E F IH]; [auto|]; cbn [flat_map]; destruct (border_none _ _ _ _ E) as [-> ->], IH as [-> ->]; auto).
  assert (K1 : k_contents (fst y3) = negs) by (rewrite (gv_contents _ _ _ _ GC1), (proj1 NB); apply app_nil_r). assert (K2 : k_contents (snd y3) = poss) by (rewrite (gv_contents _ _ _ _ GC2), (proj2 NB); apply app_nil_r).
  eexists (BNode no_plane (k_contents (fst y3)) (k_border (fst y3)) (k_infos (fst y3)) BNil BNil), (BNode no_plane (k_contents (snd y3)) (k_border (snd y3)) (k_infos (snd y3)) BNil BNil), s, B, N, R, D, U, nev, pev. cbn [n_contents]. rewrite K1, K2.
  split; [|split; [|split; [exact DV|]]]; cycle 2.
  { destruct (boxes w PW dbg d Hd cs SC BX num den Hden x Hx os OS B N R D U negs poss nev pev s DV) as [B3 B4]. split; [exact B3|]. split; [exact B4|]. destruct (all_within w PW dbg d Hd cs SC BX num den Hden x Hx os OS B N R D U negs poss nev pev s DV) as [W1 W2]. split; [exact W1|]. split; [exact W2|]. intros d' dbg' evs' choose fuel. exact (other_ok w PW dbg d Hd cs SC BX num den Hden x Hx os OS B N R D U negs poss nev pev s DV d' dbg' evs' choose fuel). }
  - unfold bn_split_kd. rewrite SH. cbn [rbind]. rewrite EY. cbn [rbind]. rewrite AP. cbn [rbind]. rewrite (dv_negs _ _ _ _ _ _ _ _ _ _ _ _ _ _ DV), (dv_poss _ _ _ _ _ _ _ _ _ _ _ _ _ _ DV), !filled_some. cbn [rbind]. rewrite S1. cbn [rbind]. rewrite S2. cbn [rbind].
    unfold bn_is_leaf. rewrite HV. cbn [negb]. rewrite check_true. cbn [rbind]. rewrite E3. cbn [rbind]. rewrite K1, K2. reflexivity.
  - destruct G1 as [GA1 GA2 _], G2 as [GA3 GA4 _], GB1 as [HB1 HB2 HB3], GB2 as [HB4 HB5 HB6], GC1 as [HC1 HC2 HC3], GC2 as [HC4 HC5 HC6]. cbn [k_contents k_border k_infos app] in *.
    rewrite (bumped_same _ _ _ _ _ _ _ HB3 HC3 (Permutation_refl _) (Permutation_refl _)), (bumped_same _ _ _ _ _ _ _ HB6 HC6 (Permutation_refl _) (Permutation_refl _)).
    constructor; [apply perm_nil|apply perm_nil| |].
    + constructor; [rewrite HB1, (proj1 NB), app_nil_r, GA1; exact P1|rewrite HB2, HC2, GA2; apply Permutation_app_tail; exact P2|constructor|constructor].
    + constructor; [rewrite HB4, (proj2 NB), app_nil_r, GA3; exact P3|rewrite HB5, HC5, GA4; apply Permutation_app_tail; exact P4|constructor|constructor].
Qed.
