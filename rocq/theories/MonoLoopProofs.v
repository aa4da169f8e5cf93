(** The loop over monotone ranges. *)
From Coq Require Import List Bool Arith ZArith QArith Lia Lqa.
From Verif Require Import BigUIntModel GeoModel GeoSpec TriModel TriSpec GeoProofs TriProofs TriTileProofs PlanarModel MonoRangeModel MonoRangeSpec MonoRangeProofs MonoChainProofs.
Import ListNotations.
Open Scope Q_scope.
Section Sums.
Context {A : Type} (f : A -> A -> Q) (F : forall a b, f b a == - f a b).
Definition cyc (l : list A) : Q := edge_sum f (cycle_edges l).
Lemma cyc_cons a l : cyc (a :: l) == psum f a (l ++ [a]).
Proof. unfold cyc, cycle_edges. cbn [app]. apply path_psum. Qed.
Lemma psum_app2 a l1 l2 : psum f a (l1 ++ l2) == psum f a l1 + psum f (last l1 a) l2.
Proof.
  revert a. induction l1 as [|c l1 IH]; intros a; [cbn; ring|]. cbn [app psum]. rewrite IH, lastc. ring.
Qed.
Lemma cyc_app x y : cyc (x ++ y) == cyc (y ++ x).
Proof.
  destruct x as [|a x]; [rewrite app_nil_r; reflexivity|]. destruct y as [|b y]; [rewrite app_nil_r; reflexivity|].
  cbn [app]. rewrite !cyc_cons. rewrite <- !app_assoc. cbn [app]. rewrite !psum_app2. cbn [psum]. rewrite !psum_app2. cbn [psum]. ring.
Qed.
Lemma cyc_rotation l l' : rotation l l' -> cyc l == cyc l'.
Proof. intros (x & y & -> & ->). apply cyc_app. Qed.
(** A chord cuts a cycle into two. *)
Lemma cyc_cut pre' x mid y suf' : cyc ((pre' ++ [x]) ++ mid ++ y :: suf') == cyc ((pre' ++ [x]) ++ y :: suf') + cyc (x :: mid ++ [y]).
Proof.
  assert (G : forall a p, cyc ((a :: p) ++ mid ++ y :: suf') == cyc ((a :: p) ++ y :: suf') + cyc (last p a :: mid ++ [y])).
  { intros a p. cbn [app]. rewrite !cyc_cons. rewrite <- !app_assoc. cbn [app]. rewrite !psum_app2. cbn [psum]. rewrite (F (last p a) y). ring. }
  destruct pre' as [|a p]; [exact (G x [])|]. specialize (G a (p ++ [x])). rewrite last_last in G. exact G.
Qed.
Lemma edge_sum_flat ps : edge_sum f (flat_map cycle_edges ps) == fold_right (fun l s => cyc l + s) 0 ps.
Proof. induction ps as [|l ps IH]; [reflexivity|]. cbn [flat_map fold_right]. rewrite edge_sum_app, IH. reflexivity. Qed.
End Sums.
Lemma boundary_cut {A} (l p q : list A) pre mid suf pre' x y suf' rest : l = pre ++ mid ++ suf -> rotation p (pre ++ suf) -> pre = pre' ++ [x] -> suf = y :: suf' ->
  q = x :: mid ++ [y] -> same_boundary [q] rest -> same_boundary [l] (p :: rest).
Proof.
  intros -> R -> -> -> B f F. specialize (B f F). rewrite !edge_sum_flat in *. cbn [fold_right] in *. rewrite <- B, (cyc_cut f F), (cyc_rotation f _ _ R). ring.
Qed.
Lemma boundary_all {A} (l p : list A) : rotation p l -> same_boundary [l] [p].
Proof. intros R f F. rewrite !edge_sum_flat. cbn [fold_right]. rewrite (cyc_rotation f _ _ R). reflexivity. Qed.
Open Scope nat_scope.
(** A piece of the cycle: two ascending chains with the same ends. *)
Definition piece {P} (key : P -> Q) (c : list P * list P) : Prop := same_ends (fst c) (snd c) /\ ascending key (fst c) /\ ascending key (snd c).
Section Loop.
Context {P : Type} (k : kind P) (mono : nat) (v : list P) (key : P -> Q) (KEY : keyed k mono v key) (dbg : bool).
Lemma loop_step f b e r : b < e <= length v -> mr_build dbg k mono v b e = Ok r ->
  mono_loop dbg (S f) k mono v b e = (t <- mono_loop dbg f k mono v (mr_begin r) (mr_end r) ;; Ok (get_chains r :: t)).
Proof. intros L E. cbn [mono_loop]. replace (b =? e) with false by (symmetry; apply Nat.eqb_neq; lia). rewrite E. reflexivity. Qed.
Lemma loop_zero b e : b < e -> mono_loop dbg 0 k mono v b e = NoFuel.
Proof. intros L. cbn [mono_loop]. replace (b =? e) with false by (symmetry; apply Nat.eqb_neq; lia). reflexivity. Qed.
Lemma loop_done f b : mono_loop dbg f k mono v b b = Ok [].
Proof. destruct f; cbn [mono_loop]; rewrite Nat.eqb_refl; reflexivity. Qed.
Theorem stuck_loops b e : b < e <= length v -> stuck key (between v b e) -> forall fuel, mono_loop dbg fuel k mono v b e = NoFuel.
Proof.
  intros L ST. induction fuel as [|f IH]; [apply loop_zero; lia|].
  destruct (build_ok k mono v key KEY dbg b e L) as (r & c1 & c2 & pre & mid & suf & E & _). rewrite (loop_step f b e r L E).
  destruct (stuck_keeps k mono v key KEY dbg b e r L ST E) as [-> ->]. rewrite IH. reflexivity.
Qed.
Theorem loop_spec : forall n b e, e - b <= n -> b <= e <= length v ->
  (exists cs, (forall fuel, e - b <= fuel -> mono_loop dbg fuel k mono v b e = Ok cs) /\ length cs <= e - b /\ Forall (piece key) cs /\ same_boundary [between v b e] (map (fun c => loop_of (fst c) (snd c)) cs)) \/
  (exists b' e', b <= b' < e' /\ e' <= e /\ stuck key (between v b' e') /\ forall fuel, mono_loop dbg fuel k mono v b e = NoFuel).
Proof.
  induction n as [|n IH]; intros b e N L.
  - left. assert (b = e) by lia. subst b. exists []. split; [intros fuel _; apply loop_done|]. split; [cbn; lia|]. split; [constructor|]. rewrite between_same. intros f F. reflexivity.
  - destruct (Nat.eq_dec b e) as [->|NE].
    { left. exists []. split; [intros fuel _; apply loop_done|]. split; [cbn; lia|]. split; [constructor|]. rewrite between_same. intros f F. reflexivity. }
    assert (L' : b < e <= length v) by lia.
    destruct (build_ok k mono v key KEY dbg b e L') as (r & c1 & c2 & pre & mid & suf & E & GC & SL & RO & SE & A1 & A2 & B1 & B2 & CASE).
    destruct (build_progress k mono v key KEY dbg b e r L' E) as [LT|(_ & _ & ST)].
    2:{ right. exists b, e. split; [lia|]. split; [lia|]. split; [exact ST|]. apply stuck_loops; assumption. }
    destruct (IH (mr_begin r) (mr_end r) ltac:(lia) ltac:(lia)) as [(cs & OKS & LC & FC & BD)|(b' & e' & H1 & H2 & ST & NF)].
    + left. exists ((c1, c2) :: cs). split; [|split; [|split]].
      * intros [|fuel] FU; [lia|]. rewrite (loop_step fuel b e r L' E), (OKS fuel ltac:(lia)). cbn [rbind]. rewrite GC. reflexivity.
      * cbn [length]. lia.
      * constructor; [|exact FC]. split; [exact SE|]. split; assumption.
      * cbn [map fst snd]. destruct CASE as [(-> & EB)|(pre' & x & y & suf' & EP & ES & NM & SR & _)].
        -- rewrite EB in BD. rewrite between_same in BD. cbn [app] in SL. rewrite SL. intros f F. specialize (BD f F). rewrite !edge_sum_flat in *. cbn [fold_right] in *. rewrite <- BD. unfold cyc at 3. cbn [cycle_edges]. rewrite (cyc_rotation f _ _ RO). cbn. ring.
        -- exact (boundary_cut _ _ _ pre mid suf pre' x y suf' _ SL RO EP ES SR BD).
    + right. exists b', e'. split; [lia|]. split; [lia|]. split; [exact ST|]. intros [|fuel]; [apply loop_zero; lia|]. rewrite (loop_step fuel b e r L' E), NF. reflexivity.
Qed.
End Loop.
(** ** The point types *)
Lemma keyed_point3 mono v : keyed kind_point3 mono v (fun p => inject_Z (comp p mono)).
Proof.
  intros a b _ _. cbn [k_compare kind_point3]. unfold Qcompare, zcompare. cbn [Qnum Qden inject_Z]. rewrite !Z.mul_1_r. destruct (comp a mono ?= comp b mono)%Z; reflexivity.
Qed.
Lemma qsign_compare x y : (qsign (x - y) ?= 0)%Z = (x ?= y)%Q.
Proof.
  unfold qsign, Qcompare, Qminus, Qplus, Qopp. cbn [Qnum Qden].
  destruct (Z.compare_spec (Qnum x * QDen y) (Qnum y * QDen x)) as [E|E|E].
  - replace (Qnum x * QDen y + - Qnum y * QDen x)%Z with 0%Z by lia. reflexivity.
  - rewrite Z.sgn_neg by lia. reflexivity.
  - rewrite Z.sgn_pos by lia. reflexivity.
Qed.
Lemma keyed_homo3 mono v : (forall p, In p v -> hw p <> 0%Z) -> keyed kind_homo3 mono v (fun p => qcomp (hp_point p) mono).
Proof.
  intros W a b A B. cbn [k_compare kind_homo3]. rewrite (hp_compare_comp_spec mono a b _ _ (hp_point_denotes a (W a A)) (hp_point_denotes b (W b B))). apply qsign_compare.
Qed.
