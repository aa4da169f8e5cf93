(** Proofs about whole facets and whole meshes. *)
From Coq Require Import List Bool Arith ZArith QArith Lia ZifyBool.
From Verif Require Import BigUIntModel GeoModel GeoSpec GeoProofs GeoReduceProofs GeoPlaneProofs ConcatModel ConcatSpec PlanarModel PlanarSpec PlanarProofs NudgeModel NudgeSpec NudgeProofs MeshProofs.
Import ListNotations.
Open Scope nat_scope.

Lemma next_range_facts gcd st act first last h f e : gcd_ok gcd -> first < last -> next_range gcd st act first last = Ok (h, f, e) ->
  ~ no_plane h /\ first + 3 <= last /\ first + 2 <= f /\ f <= e < last /\ (f < e \/ (f = e /\ e = last - 1)) /\ (last <= first + 4 -> e = last - 1) /\
  exists ops rs b, nb_run gcd nb_new ops = Ok (b, rs) /\ nb_build gcd b = Ok h /\ from_range st act first last ops /\
    (forall i, first <= i < f \/ e <= i < last -> seen st act ops rs i) /\
    (3 <= count is_constrained ops \/ ~ queried_early ops \/ 5 <= (f - first) + (last - e)).
Proof.
  intros G L. unfold next_range. destruct last as [|l]; [discriminate|].
  destruct (act_at st act l) as [v| | |] eqn:A; try discriminate. cbn [rbind].
  assert (Hb : forall b, (if can_add v then nb_add_unconstrained nb_new (vpt v) else x <- nb_try_constrained gcd nb_new (vpt v) ;; Ok (fst x)) = Ok b ->
    exists o, nb_step gcd nb_new o = Ok (b, true) /\ is_vertex o = true /\ vertex_of o = [vpt v] /\ (can_add v = false -> o = NCon (vpt v)) /\ nb_ok gcd b /\ length (nb_info b) = 1 /\ nb_count b <= 1).
  { intros b. destruct (can_add v) eqn:CA.
    - intros E. exists (NUnc (vpt v)). cbn [nb_step]. rewrite E. cbn [rbind]. destruct (nb_unc_ok gcd nb_new (vpt v) (nb_new_ok gcd)) as (b' & E' & I & C & _ & _ & N).
      rewrite E in E'. injection E' as <-. split; [reflexivity|]. split; [reflexivity|]. split; [reflexivity|]. split; [discriminate|]. split; [exact I|]. rewrite N, C. cbn. lia.
    - destruct (nb_try_constrained gcd nb_new (vpt v)) as [[b1 r]| | |] eqn:T; try discriminate. cbn [rbind fst]. intros E. injection E as <-.
      destruct (nb_con_facts gcd nb_new (vpt v) b1 r (nb_new_ok gcd) T) as (I & [(_ & -> & C & N & _)|(X & _)]); [|discriminate X].
      exists (NCon (vpt v)). cbn [nb_step]. split; [exact T|]. split; [reflexivity|]. split; [reflexivity|]. split; [reflexivity|]. split; [exact I|]. rewrite N, C. cbn. lia. }
  destruct (if can_add v then nb_add_unconstrained nb_new (vpt v) else _) as [b0| | |] eqn:E0; try discriminate. cbn [rbind].
  destruct (Hb b0 eq_refl) as (o & St & Vo & Vp & Co & I0 & N0 & C0). clear Hb E0.
  destruct (range_front gcd (S l) st act b0 first l) as [[[b f'] e']| | |] eqn:RF; try discriminate. cbn [rbind].
  destruct (nb_build gcd b) as [h'| | |] eqn:B; try discriminate. cbn [rbind]. intros E. injection E as -> -> ->.
  destruct (front_facts gcd st act _ b0 first l b f e I0 ltac:(lia) RF) as (ops & rs & R & P & FR & B1 & B2 & B3 & Sn & D & M).
  pose proof (run_cons gcd nb_new o b0 true ops b rs St R) as R'. destruct (nb_run_facts gcd _ b _ R') as (I & _ & C & V & _).
  pose proof (build_enough gcd b h I B) as Bl.
  assert (NP : ~ no_plane h).
  { unfold nb_build in B. destruct (nb_set b) eqn:Es.
    - injection B as <-. clear - I Es G R'. 
      assert (K : forall ops b rs, nb_run gcd nb_new ops = Ok (b, rs) -> nb_set b = true -> ~ no_plane (nb_plane b)).
      { clear - G. intros ops. induction ops as [|o ops IH] using rev_ind; intros b rs R S; [injection R as <- <-; discriminate S|].
        apply nb_run_snoc in R as (b1 & rs1 & r & R & St & _). destruct (nb_run_facts gcd _ _ _ R) as (I1 & _). specialize (IH b1 rs1 R). destruct o as [v|v|]; cbn [nb_step] in St.
        - destruct (nb_unc_ok gcd b1 v I1) as (b' & E' & _ & _ & P & S' & _). rewrite E' in St. injection St as <- <-. rewrite P. apply IH. congruence.
        - destruct (nb_con_facts gcd b1 v b r I1 St) as (I2 & [(_ & _ & C & N & K)|(_ & -> & _)]); [|apply IH, S].
          destruct (Nat.lt_ge_cases (nb_count b) 3) as [L|L]; [destruct (K L) as [S' P']; rewrite P'; apply IH; congruence|].
          pose proof I2 as (T & T3 & _ & K2 & L3). destruct (K2 ltac:(lia)) as [_ B2]. destruct (nb_build_info_incident gcd b (nb_plane b) G I2 (L3 S) B2) as [_ X]. exact X.
        - destruct (nb_large_facts gcd b1 b r I1 St) as (I2 & N2 & C2 & [(_ & -> & _)|(L & S2 & B & _)]); [apply IH, S|]. unfold nb_build in B. destruct (nb_set b1) eqn:S1.
          + injection B as E. rewrite <- E. apply IH. reflexivity.
          + destruct (nb_build_info_incident gcd b1 (nb_plane b) G I1 ltac:(lia) B) as [_ X]. exact X. }
      exact (K _ _ _ R' Es).
    - apply (nb_build_info_incident gcd b h G I Bl B). }
  assert (L3 : first + 3 <= S l).
  { destruct D as [(w & _ & D)|[D ->]]; [lia|]. change (o :: ops) with ([o] ++ ops) in V. rewrite count_app in V. change (count is_vertex [o]) with (length (if is_vertex o then [o] else [])) in V. rewrite Vo in V. cbn [length] in V. lia. }
  split; [exact NP|]. split; [exact L3|]. split; [lia|]. split; [lia|]. split; [lia|]. split; [intros; lia|].
  exists (o :: ops), (true :: rs), b. split; [exact R'|]. split; [exact B|]. split.
  { unfold from_range. cbn [flat_map]. rewrite Vp. cbn [app]. constructor; [exists l, v; split; [lia|auto]|]. eapply Forall_impl; [|exact FR]. intros p (i & w & Hi & X). exists i, w. split; [lia|exact X]. }
  split.
  { intros i Hi. destruct (Nat.eq_dec i l) as [->|N].
    - exists v. split; [exact A|]. split; [cbn [flat_map]; rewrite Vp; left; reflexivity|]. intros CA. left. rewrite (Co CA). reflexivity.
    - apply seen_tail, Sn. lia. }
  destruct D as [(w & D & _)|[D ->]].
  - left. pose proof (rejected_off_plane gcd _ b _ h R' B w (or_intror D)). lia.
  - destruct (Nat.le_gt_cases 5 (f - first + (S l - l))) as [X|X]; [auto|]. right. left. intros Q. pose proof (paired_early o ops P Vo Q) as Y.
    change (o :: ops) with ([o] ++ ops) in Y. rewrite count_app in Y. change (count is_vertex [o]) with (length (if is_vertex o then [o] else [])) in Y. rewrite Vo in Y. cbn [length] in Y. lia.
Qed.
(** ** The positions copied in a round *)
Lemma attach_app gcd act h : forall p st out q, attach gcd st act h out (p ++ q) = (y <- attach gcd st act h out p ;; attach gcd (fst y) act h (snd y) q).
Proof.
  induction p as [|i p IH]; intros st out q; [reflexivity|]. cbn [app attach]. destruct (get act i) as [k| | |]; try reflexivity. cbn [rbind].
  destruct (get st k) as [v| | |]; try reflexivity. cbn [rbind]. destruct (vi_try_add gcd v h) as [v'| | |]; try reflexivity. cbn [rbind]. apply IH.
Qed.
Lemma seq_slice {A} (act : list A) : forall n a ks, Forall2 (fun i k => nth_error act i = Some k) (seq a n) ks -> ks = slice act a (a + n).
Proof.
  induction n as [|n IH]; intros a ks H; cbn [seq] in H; inversion H as [|? k ? ks' H1 H2]; subst.
  - unfold slice. replace (a + 0 - a) with 0 by lia. reflexivity.
  - rewrite (slice_split act a (S a) (a + S n)) by lia. rewrite (slice_one act a k H1). cbn [app]. f_equal. rewrite (IH (S a) ks' H2). f_equal. lia.
Qed.
Lemma Forall2_rev {A B} (R : A -> B -> Prop) l k : Forall2 R l k -> Forall2 R (rev l) (rev k).
Proof. induction 1 as [|x y l k H1 H2 IH]; [constructor|]. cbn [rev]. apply Forall2_app; [exact IH|constructor; [exact H1|constructor]]. Qed.
Lemma seq_slice_rev {A} (act : list A) n a ks : Forall2 (fun i k => nth_error act i = Some k) (rev (seq a n)) ks -> ks = rev (slice act a (a + n)).
Proof. intros H. apply Forall2_rev in H. rewrite rev_involutive in H. apply seq_slice in H. rewrite <- H. symmetry. apply rev_involutive. Qed.
(** ** A whole facet *)
(** The polygons one facet is cut into: each takes a piece of the beginning of
    the remaining range, and a piece of its end, the latter in reverse order. *)
Inductive rounds (act : list nat) : nat -> nat -> list (hspace3 * list nat) -> Prop :=
| rd_last h first last : first + 3 <= last -> last <= length act -> rounds act first last [(h, slice act first last)]
| rd_more h first last f e rest : first + 2 <= f -> f < e -> e < last -> last <= length act -> (last <= first + 4 -> e = last - 1) ->
    rounds act (f - 1) (S e) rest -> rounds act first last ((h, slice act first f ++ rev (slice act e last)) :: rest).
Fixpoint ends (n : nat) (l : list (hspace3 * list nat)) : list (hspace3 * nat) :=
  match l with [] => [] | (h, ks) :: l => (h, n + length ks) :: ends (n + length ks) l end.
Lemma ends_app n a b : ends n (a ++ b) = ends n a ++ ends (n + length (concat (map snd a))) b.
Proof.
  revert n. induction a as [|[h ks] a IH]; intros n; cbn [app ends map snd concat length]; [f_equal; lia|]. f_equal. rewrite IH. f_equal. f_equal. rewrite app_length. lia.
Qed.
(** A polygon of at most four vertices has them all on its plane. *)
Definition poly_ok (st : list vinfo) (p : hspace3 * list nat) : Prop := ~ no_plane (fst p) /\ (length (snd p) <= 4 -> Forall (fun k => covered_at st k (fst p)) (snd p)).
Lemma poly_ok_later st st' p : later_all st st' -> poly_ok st p -> poly_ok st' p.
Proof. intros L [N C]. split; [exact N|]. intros X. eapply Forall_impl; [|exact (C X)]. intros k. apply covered_at_later, L. Qed.
Lemma act_at_some st act i v : act_at st act i = Ok v <-> exists k, nth_error act i = Some k /\ nth_error st k = Some v.
Proof.
  unfold act_at. split.
  - destruct (get act i) as [k| | |] eqn:E; try discriminate. cbn [rbind]. intros H. exists k. split; apply get_some; assumption.
  - intros (k & A & B). apply get_some in A, B. rewrite A. exact B.
Qed.
Lemma facet_loop_facts dbg gcd act : gcd_ok gcd -> forall fuel st verts polys first last st' verts' polys', Forall vi_ok st -> first < last -> 
  facet_loop dbg gcd fuel st act verts polys first last = Ok (st', verts', polys') ->
  Forall vi_ok st' /\ length st' = length st /\ later_all st st' /\ exists newp, verts' = verts ++ concat (map snd newp) /\ polys' = polys ++ ends (length verts) newp /\
    rounds act first last newp /\ Forall (poly_ok st') newp.
Proof.
  intros G. induction fuel as [|fuel IH]; intros st verts polys first last st' verts' polys' F L; cbn [facet_loop]; [discriminate|].
  destruct (next_range gcd st act first last) as [[[h f] e]| | |] eqn:NR; try discriminate. cbn [rbind].
  destruct (check dbg (negb (first =? f))) as [[]| | |]; try discriminate. cbn [rbind].
  destruct (next_range_facts gcd st act first last h f e G L NR) as (NP & L3 & Lf & Le & D & D4 & ops & rs & b & R & B & FR & Sn & Q).
  destruct (attach gcd st act h verts (seq first (f - first))) as [[st1 v1]| | |] eqn:A1; try discriminate. cbn [rbind fst snd].
  destruct (attach gcd st1 act h v1 (rev (seq e (last - e)))) as [[st2 v2]| | |] eqn:A2; try discriminate. cbn [rbind fst snd].
  assert (A : attach gcd st act h verts (seq first (f - first) ++ rev (seq e (last - e))) = Ok (st2, v2)) by (rewrite attach_app, A1; exact A2).
  destruct (attach_facts gcd act h G NP _ _ _ _ _ F A) as (F2 & Ln & La & ks & -> & Ps & Cv).
  apply Forall2_app_inv_l in Ps as (k1 & k2 & P1 & P2 & ->). apply seq_slice in P1. apply seq_slice_rev in P2.
  replace (first + (f - first)) with f in P1 by lia. replace (e + (last - e)) with last in P2 by lia. subst k1 k2.
  assert (La' : last <= length act).
  { destruct (Sn (last - 1) ltac:(lia)) as (v & X & _). apply act_at_some in X as (k & X & _). apply (nth_error_split act (last - 1)) in X as (x & y & -> & X). rewrite app_length. cbn [length]. lia. }
  assert (Len : length (slice act first f ++ rev (slice act e last)) = (f - first) + (last - e)) by (rewrite app_length, rev_length, !slice_len by lia; reflexivity).
  assert (PO : poly_ok st2 (h, slice act first f ++ rev (slice act e last))).
  { split; [exact NP|]. cbn [fst snd]. rewrite Len. intros X. rewrite Forall_forall in Cv |- *. intros k Hk. destruct (Cv k Hk) as [(v & V & Fv)|Y]; [|exact Y].
    apply (covered_at_later st); [exact La|]. exists v. split; [exact V|]. right. split; [exact Fv|].
    assert (exists i, (first <= i < f \/ e <= i < last) /\ nth_error act i = Some k) as (i & Hi & Ni).
    { apply in_app_or in Hk as [Hk|Hk]; [|apply in_rev in Hk]; apply slice_in in Hk as (i & Hi & Ni); exists i; auto. }
    destruct (Sn i Hi) as (v' & X1 & _ & X2). apply act_at_some in X1 as (k' & X1 & X3). rewrite Ni in X1. injection X1 as <-. rewrite V in X3. injection X3 as <-.
    destruct (constrained_on_plane gcd ops b rs h G R B) as [Y _]; [destruct Q as [Q|[Q|Q]]; [left; exact Q|right; exact Q|lia]|].
    apply Y, X2. unfold can_add, full in *. lia. }
  destruct (Nat.eqb_spec f e) as [->|NE].
  - intros E. injection E as <- <- <-. split; [exact F2|]. split; [exact Ln|]. split; [exact La|]. exists [(h, slice act first last)].
    assert (S1 : slice act first e ++ rev (slice act e last) = slice act first last).
    { rewrite (slice_split act first e last) by lia. f_equal. destruct D as [D|[_ D]]; [lia|]. destruct (nth_error act e) as [k|] eqn:Nk; [|apply nth_error_None in Nk; lia].
      replace last with (S e) by lia. rewrite (slice_one act e k Nk). reflexivity. }
    rewrite S1 in *. cbn [map snd concat ends]. rewrite app_nil_r. split; [reflexivity|]. split; [rewrite app_length; reflexivity|].
    split; [constructor; lia|]. constructor; [exact PO|constructor].
  - intros E. destruct (IH st2 _ _ (f - 1) (S e) st' verts' polys' F2 ltac:(lia) E) as (F3 & Ln3 & La3 & rest & Ev & Ep & Rd & Ro).
    split; [exact F3|]. split; [lia|]. split; [eapply later_all_trans; eassumption|]. exists ((h, slice act first f ++ rev (slice act e last)) :: rest).
    cbn [map snd concat ends]. split; [rewrite Ev, <- !app_assoc; reflexivity|]. split.
    { rewrite Ep, <- app_assoc. f_equal. cbn [app]. rewrite (app_length verts). reflexivity. }
    split; [apply rd_more; [lia..|exact Rd]|]. constructor; [|exact Ro]. exact (poly_ok_later st2 st' _ La3 PO).
Qed.
(** ** The vertex map *)
Lemma strict_eq_iff a b : hp_strict_eq a b = true <-> a = b.
Proof.
  destruct a as [[x y z] w], b as [[x' y' z'] w']. unfold hp_strict_eq. cbn [hv hw vx vy vz]. rewrite !andb_true_iff, !Z.eqb_eq. split; [intros [[[-> ->] ->] ->]; reflexivity|]. intros E. injection E as -> -> -> ->. auto.
Qed.
Lemma find_snoc m k i p : map_find (m ++ [(k, i)]) p = match map_find m p with Some j => Some j | None => if hp_strict_eq k p then Some i else None end.
Proof.
  unfold map_find. induction m as [|[k' j] m IH]; cbn [app find fst].
  - destruct (hp_strict_eq k p); reflexivity.
  - destruct (hp_strict_eq k' p); [reflexivity|exact IH].
Qed.
Lemma emplace_find m k i p : map_find (map_emplace m k i) p = match map_find m p with Some j => Some j | None => if hp_strict_eq k p then Some i else None end.
Proof.
  unfold map_emplace. destruct (map_find m k) eqn:E; [|apply find_snoc]. destruct (map_find m p) eqn:E'; [reflexivity|].
  destruct (hp_strict_eq k p) eqn:S; [|reflexivity]. apply strict_eq_iff in S. congruence.
Qed.
Lemma emplace_keeps m k i p j : map_find m p = Some j -> map_find (map_emplace m k i) p = Some j.
Proof. intros H. rewrite emplace_find, H. reflexivity. Qed.
(** Multiples of one another. *)
Definition multiple (p r : hpoint3) : Prop := exists f, (f <> 0 /\ vx (hv p) = f * vx (hv r) /\ vy (hv p) = f * vy (hv r) /\ vz (hv p) = f * vz (hv r) /\ hw p = f * hw r)%Z.
Lemma multiple_refl p : multiple p p.
Proof. exists 1%Z. lia. Qed.
Lemma multiple_trans p q r : multiple p q -> multiple q r -> multiple p r.
Proof. intros (f & F & A & B & C & D) (g & G & A' & B' & C' & D'). exists (f * g)%Z. split; [nia|]. rewrite A, B, C, D, A', B', C', D'. lia. Qed.
Lemma reduce_multiple gcd p r : gcd_ok gcd -> hp_reduce gcd p = Ok r -> multiple p r.
Proof. intros G R. destruct (hp_reduce_scale gcd p r G R) as (f & F & E). exists f. unfold lp in E. cbn [List.map] in E. injection E as E1 E2 E3 E4. auto. Qed.
Definition map_ok (gcd : Z -> Z -> res Z) (orig : list hpoint3) (mp : list (hpoint3 * nat)) : Prop :=
  (forall i r, nth_error orig i = Some r -> map_find mp r = Some i /\ exists p, hp_reduce gcd p = Ok r) /\
  (forall p i, map_find mp p = Some i -> exists r, nth_error orig i = Some r /\ multiple p r).
Lemma add_vertex_facts gcd m p m' i orig : gcd_ok gcd -> map_ok gcd orig (m_map m) -> length (m_store m) = length orig -> add_vertex_info gcd m p = Ok (m', i) ->
  (exists t, m_store m' = m_store m ++ map (fun r => VI r []) t /\ map_ok gcd (orig ++ t) (m_map m')) /\
  m_verts m' = m_verts m /\ m_polys m' = m_polys m /\ m_active m' = m_active m /\ map_find (m_map m') p = Some i /\ i < length (m_store m') /\
  (forall q j, map_find (m_map m) q = Some j -> map_find (m_map m') q = Some j).
Proof.
  intros G [M1 M2] Ln. unfold add_vertex_info. destruct (map_find (m_map m) p) as [j|] eqn:F.
  - intros E. injection E as <- <-. split; [exists []; cbn [map]; rewrite !app_nil_r; split; [reflexivity|split; assumption]|]. split; [reflexivity|]. split; [reflexivity|]. split; [reflexivity|].
    split; [exact F|]. split; [|auto]. destruct (M2 p j F) as (r & R & _). rewrite Ln. apply nth_error_Some. congruence.
  - destruct (hp_reduce gcd p) as [r| | |] eqn:R; try discriminate. cbn [rbind]. pose proof (reduce_multiple gcd p r G R) as Mp. destruct (map_find (m_map m) r) as [j|] eqn:Fr.
    + intros E. injection E as <- <-. cbn [m_store m_map m_verts m_polys m_active]. destruct (M2 r j Fr) as (r' & R' & D).
      assert (Fp : map_find (map_emplace (m_map m) p j) p = Some j). { rewrite emplace_find, F. rewrite (proj2 (strict_eq_iff p p) eq_refl). reflexivity. }
      split; [|split; [reflexivity|split; [reflexivity|split; [reflexivity|split; [exact Fp|split; [rewrite Ln; apply nth_error_Some; congruence|intros; apply emplace_keeps; assumption]]]]]].
      exists []. cbn [map]. rewrite !app_nil_r. split; [reflexivity|]. split.
      * intros i s Hs. destruct (M1 i s Hs) as [A B]. split; [apply emplace_keeps, A|exact B].
      * intros q i Hq. rewrite emplace_find in Hq. destruct (map_find (m_map m) q) as [j'|] eqn:Fq; [injection Hq as <-; exact (M2 q j' Fq)|].
        destruct (hp_strict_eq p q) eqn:S; [|discriminate]. apply strict_eq_iff in S. subst q. injection Hq as <-.
        exists r'. split; [exact R'|]. eapply multiple_trans; eassumption.
    + intros E. injection E as <- <-. cbn [m_store m_map m_verts m_polys m_active].
      assert (Ff : forall q, map_find (map_emplace (map_emplace (m_map m) r (length (m_store m))) p (length (m_store m))) q =
        match map_find (m_map m) q with Some j => Some j | None => if hp_strict_eq r q then Some (length (m_store m)) else if hp_strict_eq p q then Some (length (m_store m)) else None end).
      { intros q. rewrite !emplace_find. destruct (map_find (m_map m) q); [reflexivity|]. destruct (hp_strict_eq r q); reflexivity. }
      split; [|split; [reflexivity|split; [reflexivity|split; [reflexivity|]]]].
      * exists [r]. cbn [map]. split; [reflexivity|]. split.
        -- intros i s Hs. rewrite Ff. destruct (Nat.lt_ge_cases i (length orig)) as [L|L].
           ++ rewrite nth_error_app1 in Hs by exact L. destruct (M1 i s Hs) as [A B]. rewrite A. auto.
           ++ rewrite nth_error_app2 in Hs by exact L. destruct (i - length orig) as [|d] eqn:Ei; [|destruct d; discriminate]. injection Hs as <-. rewrite Fr.
              rewrite (proj2 (strict_eq_iff r r) eq_refl). split; [f_equal; lia|exists p; exact R].
        -- intros q i Hq. rewrite Ff in Hq. destruct (map_find (m_map m) q) as [j'|] eqn:Fq.
           ++ injection Hq as <-. destruct (M2 q j' Fq) as (s & A & B). exists s. split; [rewrite nth_error_app1 by (apply nth_error_Some; congruence); exact A|exact B].
           ++ assert (X : i = length orig /\ multiple q r).
              { destruct (hp_strict_eq r q) eqn:S; [apply strict_eq_iff in S; subst q; injection Hq as <-; split; [lia|apply multiple_refl]|].
                destruct (hp_strict_eq p q) eqn:S'; [|discriminate]. apply strict_eq_iff in S'. subst q. injection Hq as <-. split; [lia|exact Mp]. }
              destruct X as [-> X]. exists r. split; [|exact X]. rewrite nth_error_app2, Nat.sub_diag by lia. reflexivity.
      * split; [rewrite Ff, F; rewrite (proj2 (strict_eq_iff p p) eq_refl); destruct (hp_strict_eq r p); reflexivity|].
        split; [rewrite app_length; cbn [map length]; lia|]. intros q j Hq. rewrite Ff, Hq. reflexivity.
Qed.
(** ** The whole mesh *)
Definition mesh_ok (gcd : Z -> Z -> res Z) (m : mesh) (orig : list hpoint3) (polys : list (hspace3 * list nat)) : Prop :=
  map_ok gcd orig (m_map m) /\ length (m_store m) = length orig /\ Forall vi_ok (m_store m) /\
  m_verts m = concat (map snd polys) /\ m_polys m = ends 0 polys /\ Forall (poly_ok (m_store m)) polys.
Definition found (m : mesh) (p : hpoint3) (i : nat) : Prop := map_find (m_map m) p = Some i.
Lemma mesh_new_ok gcd : mesh_ok gcd mesh_new [] [].
Proof. split; [split; [intros [|] r; discriminate|discriminate]|]. repeat split; constructor. Qed.
Lemma later_all_app st t : later_all st (st ++ t).
Proof. split; [rewrite app_length; lia|]. intros k v E. exists v. split; [rewrite nth_error_app1 by (apply nth_error_Some; congruence); exact E|apply later_refl]. Qed.
Lemma add_vertex_ok gcd m p m' orig polys : gcd_ok gcd -> mesh_ok gcd m orig polys -> add_vertex gcd m p = Ok m' ->
  exists t i, mesh_ok gcd m' (orig ++ t) polys /\ m_store m' = m_store m ++ map (fun r => VI r []) t /\ m_active m' = m_active m ++ [i] /\ found m' p i /\ (forall q j, found m q j -> found m' q j).
Proof.
  intros G (M & Ln & F & V & P & O). unfold add_vertex. destruct (add_vertex_info gcd m p) as [[m1 i]| | |] eqn:A; try discriminate. cbn [rbind fst snd]. intros E. injection E as <-.
  destruct (add_vertex_facts gcd m p m1 i orig G M Ln A) as ((t & St & Mt) & V1 & P1 & A1 & Fp & Li & K). exists t, i. unfold mesh_ok, found. cbn [m_store m_map m_verts m_polys m_active].
  split; [|split; [exact St|split; [rewrite A1; reflexivity|split; [exact Fp|exact K]]]].
  split; [exact Mt|]. split; [rewrite St, !app_length, map_length; lia|]. split.
  { rewrite St. apply Forall_app. split; [exact F|]. apply Forall_forall. intros v Hv. apply in_map_iff in Hv as (r & <- & _). split; [cbn; lia|]. split; [constructor|]. intros X. discriminate X. }
  split; [congruence|]. split; [congruence|]. eapply Forall_impl; [|exact O]. intros x. apply poly_ok_later. rewrite St. apply later_all_app.
Qed.
Lemma add_all_ok gcd : gcd_ok gcd -> forall ps m m' orig polys, mesh_ok gcd m orig polys -> add_all gcd m ps = Ok m' ->
  exists t ids, mesh_ok gcd m' (orig ++ t) polys /\ m_store m' = m_store m ++ map (fun r => VI r []) t /\ m_active m' = m_active m ++ ids /\ Forall2 (found m') ps ids /\ (forall q j, found m q j -> found m' q j).
Proof.
  intros G. induction ps as [|p ps IH]; intros m m' orig polys O; cbn [add_all].
  - intros E. injection E as <-. exists [], []. cbn [map]. rewrite !app_nil_r. split; [exact O|]. split; [reflexivity|]. split; [reflexivity|]. split; [constructor|auto].
  - destruct (add_vertex gcd m p) as [m1| | |] eqn:A; try discriminate. cbn [rbind]. intros E. destruct (add_vertex_ok gcd m p m1 orig polys G O A) as (t & i & O1 & S1 & A1 & F1 & K1).
    destruct (IH m1 m' (orig ++ t) polys O1 E) as (t2 & ids & O2 & S2 & A2 & F2 & K2). exists (t ++ t2), (i :: ids). rewrite app_assoc. split; [exact O2|].
    split; [rewrite S2, S1, map_app, app_assoc; reflexivity|]. split; [rewrite A2, A1, <- app_assoc; reflexivity|]. split; [constructor; [apply K2, F1|exact F2]|auto].
Qed.
Lemma finish_ok dbg gcd m m' orig polys : gcd_ok gcd -> mesh_ok gcd m orig polys -> finish_facet dbg gcd m = Ok m' ->
  exists g, mesh_ok gcd m' orig (polys ++ g) /\ rounds (m_active m) 0 (length (m_active m)) g /\ m_active m' = [] /\ later_all (m_store m) (m_store m') /\ (forall q j, found m q j <-> found m' q j).
Proof.
  intros G (M & Ln & F & V & P & O). unfold finish_facet. destruct (check dbg _) as [[]| | |]; try discriminate. cbn [rbind].
  destruct (facet_loop dbg gcd _ _ _ _ _ _ _) as [[[st verts] ps]| | |] eqn:L; try discriminate. cbn [rbind]. intros E. injection E as <-.
  assert (N : 0 < length (m_active m)). { destruct (length (m_active m)) eqn:E; [|lia]. cbn [facet_loop next_range] in L. discriminate. }
  destruct (facet_loop_facts dbg gcd (m_active m) G _ _ _ _ _ _ _ _ _ F N L) as (F' & Ln' & La & g & -> & -> & R & O').
  exists g. unfold mesh_ok, found. cbn [m_store m_map m_verts m_polys m_active].
  split; [|split; [exact R|split; [reflexivity|split; [exact La|tauto]]]].
  split; [exact M|]. split; [lia|]. split; [exact F'|]. split; [rewrite map_app, concat_app, V; reflexivity|]. split; [rewrite ends_app, P, V; reflexivity|].
  apply Forall_app. split; [|exact O']. eapply Forall_impl; [|exact O]. intros x. apply poly_ok_later, La.
Qed.
Lemma add_facets_ok dbg gcd : gcd_ok gcd -> forall fs m m' orig polys, mesh_ok gcd m orig polys -> m_active m = [] -> add_facets dbg gcd m fs = Ok m' ->
  exists t ids gs, mesh_ok gcd m' (orig ++ t) (polys ++ concat gs) /\ m_active m' = [] /\ Forall2 (Forall2 (found m')) fs ids /\ Forall2 (fun ks g => rounds ks 0 (length ks) g) ids gs /\
    (forall q j, found m q j -> found m' q j).
Proof.
  intros G. induction fs as [|f fs IH]; intros m m' orig polys O A; cbn [add_facets].
  - intros E. injection E as <-. exists [], [], []. cbn [concat]. rewrite !app_nil_r. split; [exact O|]. split; [exact A|]. split; [constructor|]. split; [constructor|auto].
  - destruct (add_all gcd m f) as [m1| | |] eqn:A1; try discriminate. cbn [rbind]. destruct (finish_facet dbg gcd m1) as [m2| | |] eqn:A2; try discriminate. cbn [rbind]. intros E.
    destruct (add_all_ok gcd G f m m1 orig polys O A1) as (t & ids & O1 & _ & Ac & F1 & K1). rewrite A in Ac. cbn [app] in Ac.
    destruct (finish_ok dbg gcd m1 m2 _ polys G O1 A2) as (g & O2 & R & Ac2 & _ & K2). rewrite Ac in R.
    destruct (IH m2 m' _ _ O2 Ac2 E) as (t2 & idss & gs & O3 & Ac3 & F3 & R3 & K3). exists (t ++ t2), (ids :: idss), (g :: gs). cbn [concat]. rewrite !app_assoc. split; [exact O3|]. split; [exact Ac3|].
    split; [constructor; [|exact F3]|split; [constructor; assumption|]].
    + clear - F1 K2 K3. induction F1 as [|x y l k H1 H2 IH]; constructor; [apply K3, K2, H1|exact IH].
    + intros q j H. apply K3, K2, K1, H.
Qed.
(** ** Output *)
Lemma finalize_vertices_facts gcd : gcd_ok gcd -> forall st st', Forall vi_ok st -> finalize_vertices gcd st = Ok st' ->
  length st' = length st /\ forall k v, nth_error st k = Some v -> exists v', nth_error st' k = Some v' /\ vadj v' = vadj v /\ Forall (fun h => incident h (vpt v')) (vadj v) /\ (full v -> v' = v) /\ (vi_finalize gcd v = Ok v' \/ full v).
Proof.
  intros G. induction st as [|v st IH]; intros st' F; cbn [finalize_vertices].
  - intros E. injection E as <-. split; [reflexivity|]. intros [|k] v; discriminate.
  - inversion F as [|? ? V F']; subst. destruct (length (vadj v) =? 3) eqn:E3; cbn [rbind].
    + destruct (finalize_vertices gcd st) as [st1| | |] eqn:E1; try discriminate. cbn [rbind]. intros E. injection E as <-. destruct (IH st1 F' eq_refl) as [L H]. split; [cbn [length]; lia|].
      assert (Fv : full v) by (unfold full; lia). intros [|k] u; cbn [nth_error]; [|apply H]. intros X. injection X as <-. exists v. split; [reflexivity|]. split; [reflexivity|]. split; [apply V, Fv|auto].
    + destruct (vi_finalize gcd v) as [v'| | |] eqn:Fv; try discriminate. cbn [rbind]. destruct (finalize_vertices gcd st) as [st1| | |] eqn:E1; try discriminate. cbn [rbind].
      intros E. injection E as <-. destruct (IH st1 F' eq_refl) as [L H]. split; [cbn [length]; lia|].
      intros [|k] u; cbn [nth_error]; [|apply H]. intros X. injection X as <-. exists v'. split; [reflexivity|]. destruct (finalize_spec gcd v v' G Fv) as [A B]. split; [exact A|]. split; [exact B|].
      split; [unfold full; lia|auto].
Qed.
Definition pos_in (st : list vinfo) (k : nat) : hpoint3 := match nth_error st k with Some v => vpt v | None => HP (V3 0 0 0) 0 end.
Lemma produce_facts st : forall polys pre out, Forall (fun p : hspace3 * list nat => Forall (fun k => k < length st) (snd p)) polys ->
  produce st (pre ++ concat (map snd polys)) (length pre) (ends (length pre) polys) = Ok out -> out = map (fun p => (fst p, map (pos_in st) (snd p))) polys.
Proof.
  induction polys as [|[h ks] polys IH]; intros pre out F; cbn [ends map concat snd produce fst]; [intros E; injection E as <-; reflexivity|].
  inversion F as [|? ? F1 F2]; subst. cbn [snd] in F1.
  rewrite skipn_app, skipn_all, Nat.sub_diag. cbn [skipn app]. replace (length pre + length ks - length pre) with (length ks) by lia.
  rewrite firstn_app, firstn_all, Nat.sub_diag. cbn [firstn]. rewrite app_nil_r.
  match goal with |- (rbind ?x _ = _) -> _ => assert (X : x = Ok (map (pos_in st) ks)) end.
  { clear - F1. induction F1 as [|k ks H1 H2 IH]; [reflexivity|]. destruct (nth_error st k) as [v|] eqn:N; [|apply nth_error_None in N; lia].
    assert (get st k = Ok v) as -> by (apply get_some; exact N). cbn [rbind]. rewrite IH. cbn [rbind map]. unfold pos_in at 2. rewrite N. reflexivity. }
  rewrite X. cbn [rbind]. specialize (IH (pre ++ ks)). rewrite app_length, <- app_assoc in IH.
  destruct (produce st _ _ _) as [r| | |]; try discriminate. cbn [rbind]. intros E. injection E as <-. rewrite (IH r F2 eq_refl). reflexivity.
Qed.
Lemma produce_total st : forall polys pre, Forall (fun p : hspace3 * list nat => Forall (fun k => k < length st) (snd p)) polys ->
  exists out, produce st (pre ++ concat (map snd polys)) (length pre) (ends (length pre) polys) = Ok out.
Proof.
  induction polys as [|[h ks] polys IH]; intros pre F; cbn [ends map concat snd produce fst]; [eauto|].
  inversion F as [|? ? F1 F2]; subst. cbn [snd] in F1.
  rewrite skipn_app, skipn_all, Nat.sub_diag. cbn [skipn app]. replace (length pre + length ks - length pre) with (length ks) by lia.
  rewrite firstn_app, firstn_all, Nat.sub_diag. cbn [firstn]. rewrite app_nil_r.
  match goal with |- exists _, (rbind ?x _ = _) => assert (X : x = Ok (map (pos_in st) ks)) end.
  { clear - F1. induction F1 as [|k ks H1 H2 IH]; [reflexivity|]. destruct (nth_error st k) as [v|] eqn:N; [|apply nth_error_None in N; lia].
    assert (get st k = Ok v) as -> by (apply get_some; exact N). cbn [rbind]. rewrite IH. cbn [rbind map]. unfold pos_in at 2. rewrite N. reflexivity. }
  rewrite X. cbn [rbind]. destruct (IH (pre ++ ks) F2) as [out E]. rewrite app_length, <- app_assoc in E. rewrite E. cbn [rbind]. eauto.
Qed.
Lemma rounds_in act first last g : rounds act first last g -> forall p k, In p g -> In k (snd p) -> In k act.
Proof.
  assert (Sl : forall a b k, In k (slice act a b) -> In k act) by (intros a b k H; apply slice_in in H as (i & _ & H); eapply nth_error_In; exact H).
  induction 1 as [h first last A B|h first last f e rest A B C D E R IH]; intros p k [<-|Hp] Hk; cbn [snd] in Hk.
  - eapply Sl, Hk.
  - destruct Hp.
  - apply in_app_or in Hk as [Hk|Hk]; [|apply in_rev in Hk]; eapply Sl, Hk.
  - eapply IH; eassumption.
Qed.
Lemma found_lt gcd m orig polys p i : mesh_ok gcd m orig polys -> found m p i -> i < length (m_store m).
Proof. intros ((_ & M2) & L & _) H. destruct (M2 p i H) as (r & R & _). rewrite L. apply nth_error_Some. congruence. Qed.
(** The run of the whole class. *)
Lemma repair_facts dbg gcd fs out : gcd_ok gcd -> repair dbg gcd fs = Ok out ->
  exists m orig ids gs st, add_facets dbg gcd mesh_new fs = Ok m /\ mesh_ok gcd m orig (concat gs) /\ finalize_vertices gcd (m_store m) = Ok st /\
    Forall2 (Forall2 (found m)) fs ids /\ Forall2 (fun ks g => rounds ks 0 (length ks) g) ids gs /\
    out = map (fun p => (fst p, map (pos_in st) (snd p))) (concat gs) /\ Forall (fun p => Forall (fun k => k < length (m_store m)) (snd p)) (concat gs).
Proof.
  intros G. unfold repair. destruct (add_facets dbg gcd mesh_new fs) as [m| | |] eqn:A; try discriminate. cbn [rbind]. unfold finalize_mesh.
  destruct (finalize_vertices gcd (m_store m)) as [st| | |] eqn:F; try discriminate. cbn [rbind]. intros E.
  destruct (add_facets_ok dbg gcd G fs mesh_new m [] [] (mesh_new_ok gcd) eq_refl A) as (orig & ids & gs & O & _ & Fd & R & _). cbn [app] in O.
  assert (Lt : Forall (fun p => Forall (fun k => k < length (m_store m)) (snd p)) (concat gs)).
  { apply Forall_forall. intros p Hp. apply Forall_forall. intros k Hk. apply in_concat in Hp as (g & Hg & Hp).
    assert (Fl : forall p i, found m p i -> i < length (m_store m)) by (intros x i; apply (found_lt gcd m orig _ x i O)).
    clear E F A O. revert Fd. revert fs. induction R as [|ks g' ids gs R1 R2 IH]; intros fs Fd; [destruct Hg|]. inversion Fd as [|f ? fs' ? F1 F2]; subst. destruct Hg as [->|Hg].
    - pose proof (rounds_in _ _ _ _ R1 p k Hp Hk) as Hk'. clear - F1 Hk' Fl. induction F1 as [|x y l kk H1 H2 IH]; [destruct Hk'|]. destruct Hk' as [<-|Hk']; [eapply Fl; eassumption|apply IH, Hk'].
    - exact (IH Hg fs' F2). }
  exists m, orig, ids, gs, st. split; [reflexivity|]. split; [exact O|]. split; [exact F|]. split; [exact Fd|]. split; [exact R|]. split; [|exact Lt].
  pose proof O as (_ & _ & Fv & V & P & _). destruct (finalize_vertices_facts gcd G _ _ Fv F) as [Ln _]. rewrite V, P in E.
  apply (produce_facts st (concat gs) [] out); [|exact E]. eapply Forall_impl; [|exact Lt]. intros p. rewrite Ln. auto.
Qed.
