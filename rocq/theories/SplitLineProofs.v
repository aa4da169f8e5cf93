(** The pieces of ConnectEdgesInLine as edges of polygons. *)
From Coq Require Import List Bool Arith ZArith QArith Lqa Lia ZifyBool Permutation.
From Verif Require Import BigUIntModel GeoModel GeoSpec GeoProofs PolyModel PolySpec TriSpec TriTileProofs LinkModel LinkSpec LinkProofs LinkMergeProofs LinkGoodProofs TidySpec SplitModel SplitSpec SplitProofs ConnModel ConnSpec ConnTopProofs.
Import ListNotations.
Open Scope nat_scope.

Ltac run H := repeat match type of H with rbind ?x _ = Ok _ => let E := fresh "E" in destruct x eqn:E; try discriminate H; cbn [rbind] in H end.
Ltac again := repeat match goal with E : ?x = Ok _ |- context [?x] => rewrite E; cbn [rbind] end.

(** ** Without assertions *)
Lemma check_off b : check false b = Ok tt. Proof. reflexivity. Qed.
Lemma off_split s st id loc st' : maybe_split true s st id loc = Ok st' -> maybe_split false s st id loc = Ok st'.
Proof. unfold maybe_split. intros H. destruct (get_act (c_active st) id) as [e| | |]; try discriminate. cbn [rbind] in *. destruct (a_cur e); [exact H|]. destruct (get_piece st (a_piece e)) as [p| | |]; try discriminate. cbn [rbind] in *. destruct (check true _) as [tt0| | |]; try discriminate. rewrite check_off. exact H. Qed.
Lemma off_finish st l st' : finish_edges true st l = Ok st' -> finish_edges false st l = Ok st'.
Proof.
  revert st. induction l as [|id l IH]; intros st H; [exact H|]. cbn [finish_edges] in *. destruct (get_act (c_active st) id) as [e| | |]; try discriminate. cbn [rbind] in *. destruct (a_partner e) as [p|]; [|cbn [rbind] in *; apply IH; exact H].
  destruct (get_act (c_active st) p) as [q| | |]; try discriminate. cbn [rbind] in *. destruct (check true _) as [tt0| | |]; try discriminate. rewrite check_off. cbn [rbind] in *. apply IH. exact H.
Qed.
Lemma off_end ord st loc st' : end_events true ord st loc = Ok st' -> end_events false ord st loc = Ok st'.
Proof. unfold end_events. intros H. destruct (act_ends st (c_active st)); try discriminate. cbn [rbind] in *. destruct (finish_edges true st _) eqn:E; try discriminate. rewrite (off_finish _ _ _ E). exact H. Qed.
Lemma off_unpartner st id o st' : unpartner true st id o = Ok st' -> unpartner false st id o = Ok st'.
Proof. unfold unpartner. intros H. destruct (get_act (c_active st) id); try discriminate. cbn [rbind] in *. destruct (a_partner _); [|exact H]. destruct (check true _) as [tt0| | |]; try discriminate. exact H. Qed.
Lemma off_free st id a : piece_free true st id = Ok a -> piece_free false st id = Ok a.
Proof. unfold piece_free. intros H. destruct (get_act (c_active st) id); try discriminate. cbn [rbind] in *. destruct (get_piece st _); try discriminate. cbn [rbind] in *. destruct (check true _) as [tt0| | |]; try discriminate. exact H. Qed.
Lemma off_need s fuel loc : forall st st', need_partners true s fuel loc st = Ok st' -> need_partners false s fuel loc st = Ok st'.
Proof.
  induction fuel as [|f IH]; intros st st' H; cbn [need_partners] in *; destruct (c_need st) as [|id rest]; try exact H. cbv zeta in *.
  destruct (get_act (c_active (with_need st rest)) id) as [e| | |]; try discriminate. cbn [rbind] in *. destruct (if fst (a_key e) then _ else _) as [t| | |]; try discriminate. cbn [rbind] in *.
  destruct (match a_partner e with Some p => p =? t | None => false end); [apply IH; exact H|].
  destruct (unpartner true (with_need st rest) id t) as [s1| | |] eqn:E1; try discriminate. rewrite (off_unpartner _ _ _ _ E1). cbn [rbind] in *. destruct (get_act (c_active s1) t) as [n| | |]; try discriminate. cbn [rbind] in *.
  destruct (Bool.eqb (fst (a_key e)) (fst (a_key n))).
  - destruct (maybe_split true s (with_error s1 SamePolarity) id loc) as [s2| | |] eqn:E2; try discriminate. rewrite (off_split _ _ _ _ _ E2). cbn [rbind] in *. destruct (piece_free true s2 id) eqn:E3; try discriminate. rewrite (off_free _ _ _ E3). cbn [rbind] in *. apply IH. exact H.
  - destruct (unpartner true s1 t id) as [s2| | |] eqn:E2; try discriminate. rewrite (off_unpartner _ _ _ _ E2). cbn [rbind] in *.
    destruct (maybe_split true s _ id loc) as [s3| | |] eqn:E3; try discriminate. rewrite (off_split _ _ _ _ _ E3). cbn [rbind] in *. destruct (maybe_split true s s3 t loc) as [s4| | |] eqn:E4; try discriminate. rewrite (off_split _ _ _ _ _ E4). cbn [rbind] in *.
    destruct (piece_free true s4 id) as [a| | |] eqn:E5; try discriminate. rewrite (off_free _ _ _ E5). cbn [rbind] in *. destruct (piece_free true s4 t) as [b| | |] eqn:E6; try discriminate. rewrite (off_free _ _ _ E6). cbn [rbind] in *.
    destruct (upd_piece s4 a _) as [s5| | |]; try discriminate. cbn [rbind] in *. destruct (upd_piece s5 b _) as [s6| | |]; try discriminate. cbn [rbind] in *. apply IH. exact H.
Qed.
Lemma off_all s loc st st' : all_partners true s loc st = Ok st' -> all_partners false s loc st = Ok st'. Proof. apply off_need. Qed.
Lemma off_fin s ord fuel : forall st st', finish_line true s ord fuel st = Ok st' -> finish_line false s ord fuel st = Ok st'.
Proof.
  induction fuel as [|f IH]; intros st st' H; cbn [finish_line] in *; destruct (front_end s ord st) as [[loc|]| | |]; try discriminate; cbn [rbind] in *; try exact H.
  destruct (end_events true ord st loc) as [s1| | |] eqn:E1; try discriminate. rewrite (off_end _ _ _ _ E1). cbn [rbind] in *. destruct (all_partners true s loc s1) as [s2| | |] eqn:E2; try discriminate. rewrite (off_all _ _ _ _ E2). cbn [rbind] in *. apply IH. exact H.
Qed.
Lemma off_sweep s ord fuel : forall prev st rest st', sweep_line true s ord fuel prev st rest = Ok st' -> sweep_line false s ord fuel prev st rest = Ok st'.
Proof.
  induction fuel as [|f IH]; intros prev st rest st' H; cbn [sweep_line] in *; destruct rest as [|[i h] r]; try exact (off_fin _ _ _ _ _ H); try discriminate.
  destruct (front_end s ord st) as [front| | |]; try discriminate. cbn [rbind] in *.
  match type of H with rbind ?x _ = _ => destruct x as [[loc s1]| | |] eqn:E1; try discriminate end. match goal with |- rbind ?x _ = _ => assert (E1' : x = Ok (loc, s1)) end.
  { destruct front as [e|]; [|exact E1]. destruct (loc_lt s (h_begin s h) e); [exact E1|]. destruct (end_events true ord st e) as [s2| | |] eqn:E2; try discriminate. rewrite (off_end _ _ _ _ E2). exact E1. }
  rewrite E1'. cbn [rbind fst snd] in *. destruct (check true _) as [tt0| | |]; try discriminate. rewrite check_off. cbn [rbind] in *. destruct (begin_events s s1 loc ((i, h) :: r)) as [[s2 r2]| | |]; try discriminate. cbn [rbind fst snd] in *.
  destruct (all_partners true s loc s2) as [s3| | |] eqn:E3; try discriminate. rewrite (off_all _ _ _ _ E3). cbn [rbind] in *. apply IH. exact H.
Qed.
Lemma off_line s ord hs st : connect_line true s ord hs = Ok st -> connect_line false s ord hs = Ok st. Proof. apply off_sweep. Qed.

(** ** Meshes *)
Lemma fresh_exists st : exists new, fresh st new.
Proof.
  exists (S (list_max (concat (map LinkSpec.ids st)))). intros i h (p & k & P & e & e' & E & _ & ->). cbn [f_id]. intros X.
  assert (I : In (c_id (pd e)) (concat (map LinkSpec.ids st))) by (apply in_concat; exists (LinkSpec.ids p); split; [apply in_map; exact (nth_error_In _ _ P)|unfold LinkSpec.ids; apply (in_map (fun e : pedge cdata => c_id (pd e))); exact (nth_error_In _ _ E)]).
  pose proof (proj1 (Forall_forall _ _) (proj1 (list_max_le _ _) (le_n (list_max (concat (map LinkSpec.ids st))))) _ I) as Y. cbn beta in Y. lia.
Qed.
Lemma edited_trans dbg a b c : edited dbg a b -> edited dbg b c -> edited dbg a c.
Proof. intros A. revert c. induction A as [|st st1 st2 id m pos new F E _ IH|st st1 st2 x y E _ IH]; intros c C; [exact C|eapply ed_split; [exact F|exact E|exact (IH c C)]|eapply ed_link; [exact E|exact (IH c C)]]. Qed.
(** The edges with other numbers are the same. *)
Record ext (st : mesh) (gs : list nat) (st' : mesh) (gs' : list nat) : Prop := Ext {
  ex_incl : forall x, In x gs -> In x gs';
  ex_new : forall x, In x gs' -> In x gs \/ fresh st x;
  ex_to : forall j g, half_in st j g -> ~ In (f_id g) gs -> half_in st' j g;
  ex_from : forall j g, half_in st' j g -> ~ In (f_id g) gs' -> half_in st j g;
  ex_views : views st st';
  ex_part : forall j g, half_in st' j g -> In (f_id g) gs' -> exists g0, half_in st j g0 /\ In (f_id g0) gs /\ in_line g g0 }.
Lemma ext_refl st gs : ext st gs st gs. Proof. split; auto; [apply views_refl|]. intros j g G I. exists g. split; [exact G|]. split; [exact I|]. apply in_line_same; reflexivity. Qed.
Lemma ext_trans a ga b gb c gc : ext a ga b gb -> ext b gb c gc -> ext a ga c gc.
Proof.
  intros [A1 A2 A3 A4 A5 A6] [B1 B2 B3 B4 B5 B6]. split.
  - auto.
  - intros x X. destruct (B2 x X) as [Y|Y]; [exact (A2 x Y)|]. destruct (in_dec Nat.eq_dec x ga) as [Z|Z]; [auto|]. right. intros j g G E. apply (Y j g); [apply A3; [exact G|congruence]|exact E].
  - intros j g G N. apply B3; [exact (A3 j g G N)|]. intros X. destruct (A2 _ X) as [Y|Y]; [contradiction|]. exact (Y j g G eq_refl).
  - intros j g G N. apply A4; [exact (B4 j g G N)|]. intros X. apply N. auto.
  - exact (views_trans _ _ _ A5 B5).
  - intros j g G I. destruct (B6 j g G I) as (g1 & G1 & I1 & L1). destruct (A6 j g1 G1 I1) as (g0 & G0 & I0 & L0). exists g0. split; [exact G0|]. split; [exact I0|exact (in_line_trans _ _ _ L1 L0)].
Qed.
(** ** One line *)
Section OneLine.
Context (dbg : bool) (s : nat) (o d : qpoint) (Nd : ~ (qcomp d s == 0)%Q).
Definition onl (p : hpoint3) : Prop := hw p <> 0%Z /\ exists t, qp_eq (hp_point p) (qadd o (qscale t d)).
Lemma onl_inside a b m : onl a -> onl b -> onl m -> ((along s a < along s m /\ along s m < along s b) \/ (along s m < along s a /\ along s b < along s m))%Q ->
  exists t, (0 < t)%Q /\ (t < 1)%Q /\ qp_eq (hp_point m) (between (hp_point a) (hp_point b) t).
Proof.
  intros [_ (ta & Ta)] [_ (tb & Tb)] [_ (tm & Tm)] H. set (D := qcomp d s) in *.
  assert (Al : forall p u, qp_eq (hp_point p) (qadd o (qscale u d)) -> (along s p == qcomp o s + u * D)%Q) by (intros p u (X & Y & Z); unfold along, D; unfold qadd, qscale in *; cbn [qx qy qz] in *; destruct s as [|[|s']]; cbn [qcomp]; assumption).
  rewrite (Al a ta Ta), (Al b tb Tb), (Al m tm Tm) in H.
  assert (Ord : ((ta < tm /\ tm < tb) \/ (tm < ta /\ tb < tm))%Q).
  { destruct (Qlt_le_dec 0 D) as [P|P].
    - assert (L : forall u v, (u * D < v * D -> u < v)%Q) by (intros u v X; apply (Qmult_lt_r u v D P); exact X). destruct H as [[H1 H2]|[H1 H2]]; [left|right]; split; apply L; lra.
    - assert (P' : (0 < - D)%Q) by (destruct (Qeq_dec D 0) as [Z|Z]; [contradiction|lra]). assert (L : forall u v, (u * D < v * D -> v < u)%Q) by (intros u v X; apply (Qmult_lt_r v u (- D) P'); lra). destruct H as [[H1 H2]|[H1 H2]]; [right|left]; split; apply L; lra. }
  assert (Nz : ~ (tb - ta == 0)%Q) by lra. exists ((tm - ta) / (tb - ta))%Q.
  assert (Eq : ((tm - ta) / (tb - ta) * (tb - ta) == tm - ta)%Q) by (field; exact Nz).
  assert (Rng : (0 < (tm - ta) / (tb - ta) /\ (tm - ta) / (tb - ta) < 1)%Q).
  { destruct Ord as [[O1 O2]|[O1 O2]].
    - split; [apply Qlt_shift_div_l; lra|apply Qlt_shift_div_r; lra].
    - assert (E2 : ((tm - ta) / (tb - ta) == (ta - tm) / (ta - tb))%Q) by (field; split; lra). rewrite E2. split; [apply Qlt_shift_div_l; lra|apply Qlt_shift_div_r; lra]. }
  split; [exact (proj1 Rng)|]. split; [exact (proj2 Rng)|]. set (u := ((tm - ta) / (tb - ta))%Q) in *.
  unfold between. destruct Ta as (A1 & A2 & A3), Tb as (B1 & B2 & B3), Tm as (M1 & M2 & M3). unfold qp_eq, qadd, qscale, qsub in *. cbn [qx qy qz] in *. rewrite A1, A2, A3, B1, B2, B3, M1, M2, M3.
  assert (Tm' : (tm == ta + u * (tb - ta))%Q) by lra. rewrite Tm'. repeat split; ring.
Qed.
Definition SI (st : mesh) (gs : list nat) (ps : list piece) : Prop := polys_ok st /\ mutual st /\ shows_pieces st gs ps /\ forall i q, nth_error ps i = Some q -> onl (p_from q) /\ onl (p_to q).
Definition own (c : cstate) : Prop := forall e, In e (c_active c) -> exists q, nth_error (c_pieces c) (a_piece e) = Some q /\ p_edge q = a_id e.
Definition keeps (ps ps' : list piece) : Prop := forall i q, nth_error ps i = Some q -> exists q', nth_error ps' i = Some q' /\ p_edge q' = p_edge q.
Lemma keeps_refl ps : keeps ps ps. Proof. intros i q N. eauto. Qed.
Lemma keeps_trans a b c : keeps a b -> keeps b c -> keeps a c.
Proof. intros A B i q N. destruct (A i q N) as (q1 & N1 & E1). destruct (B i q1 N1) as (q2 & N2 & E2). exists q2. split; [exact N2|congruence]. Qed.
Definition sub (l' l : list active) : Prop := forall e', In e' l' -> exists e, In e l /\ a_id e = a_id e' /\ a_piece e = a_piece e'.
Lemma sub_refl l : sub l l. Proof. intros e I. eauto. Qed.
Lemma sub_trans a b c : sub a b -> sub b c -> sub a c.
Proof. intros A B e I. destruct (A e I) as (e1 & I1 & E1 & E2). destruct (B e1 I1) as (e2 & I2 & E3 & E4). exists e2. split; [exact I2|]. split; congruence. Qed.
Lemma sub_set l id f : (forall a, a_id (f a) = a_id a /\ a_piece (f a) = a_piece a) -> sub (set_act l id f) l.
Proof. intros F e I. unfold set_act in I. apply in_map_iff in I as (a & <- & I). exists a. split; [exact I|]. destruct (a_id a =? id); [destruct (F a); split; congruence|auto]. Qed.
Lemma sub_filter l f : sub (filter f l) l.
Proof. intros e I. apply filter_In in I. exists e. tauto. Qed.
Lemma own_sub c c' : own c -> c_pieces c' = c_pieces c -> sub (c_active c') (c_active c) -> own c'.
Proof. intros O P Sb e I. destruct (Sb e I) as (e0 & I0 & E1 & E2). destruct (O e0 I0) as (q & N & E). exists q. rewrite P, <- E2. split; [exact N|congruence]. Qed.
Lemma get_in l id e : get_act l id = Ok e -> In e l /\ a_id e = id.
Proof. unfold get_act, of_option. destruct (find (fun a => a_id a =? id) l) as [a|] eqn:F; [|discriminate]. intros X. injection X as <-. apply find_some in F as [I E]. apply Nat.eqb_eq in E. auto. Qed.
Lemma own_get c id e q : own c -> get_act (c_active c) id = Ok e -> nth_error (c_pieces c) (a_piece e) = Some q -> p_edge q = id.
Proof. intros O G N. destruct (get_in _ _ _ G) as [I E]. destruct (O e I) as (q' & N' & Eq'). congruence. Qed.
(** The result of a part of the run. *)
Definition goes (c c' : cstate) : Prop := forall st gs, SI st gs (c_pieces c) -> exists st' gs', edited dbg st st' /\ ext st gs st' gs' /\ SI st' gs' (c_pieces c').
Definition lin (c : cstate) : Prop := forall i q, nth_error (c_pieces c) i = Some q -> onl (p_from q) /\ onl (p_to q).
Definition moves (c c' : cstate) : Prop := own c -> lin c -> goes c c' /\ own c' /\ keeps (c_pieces c) (c_pieces c') /\ lin c'.
Lemma moves_same c c' : c_pieces c' = c_pieces c -> sub (c_active c') (c_active c) -> moves c c'.
Proof. intros P Sb O Li. split; [|split; [exact (own_sub c c' O P Sb)|split; [rewrite P; apply keeps_refl|unfold lin; rewrite P; exact Li]]]. intros st gs I. exists st, gs. split; [apply ed_none|]. split; [apply ext_refl|]. rewrite P. exact I. Qed.
Lemma moves_trans a b c : moves a b -> moves b c -> moves a c.
Proof.
  intros A B O Li. destruct (A O Li) as (A1 & A2 & A3 & A4). destruct (B A2 A4) as (B1 & B2 & B3 & B4). split; [|split; [exact B2|split; [exact (keeps_trans _ _ _ A3 B3)|exact B4]]]. intros st gs I. destruct (A1 st gs I) as (st1 & g1 & X1 & X2 & X3). destruct (B1 st1 g1 X3) as (st2 & g2 & Y1 & Y2 & Y3).
  exists st2, g2. split; [exact (edited_trans _ _ _ _ X1 Y1)|]. split; [exact (ext_trans _ _ _ _ _ _ X2 Y2)|exact Y3].
Qed.
Lemma set_nth_at {B} (l : list B) i x y : i < length l -> nth_error (set_nth l i x) y = if y =? i then Some x else nth_error l y.
Proof. exact (upd_nth l i x y). Qed.
Lemma split_moves c id loc c' : onl loc -> maybe_split true s c id loc = Ok c' -> moves c c'.
Proof.
  intros Ol R O Li. pose proof R as R0. unfold maybe_split in R0. destruct (get_act (c_active c) id) as [e| | |] eqn:Ge; try discriminate. cbn [rbind] in R0. destruct (a_cur e) eqn:Cur; [injection R0 as <-; apply (moves_same c c eq_refl (sub_refl _) O Li)|].
  unfold get_piece, of_option in R0. destruct (nth_error (c_pieces c) (a_piece e)) as [q|] eqn:Nq; [|discriminate]. cbn [rbind] in R0. destruct (Li _ q Nq) as [Of Ot]. pose proof (own_get c id e q O Ge Nq) as Pe. pose proof (nth_lt _ _ _ Nq) as La.
  destruct (check true _) as [u| | |] eqn:Ck in R0; try discriminate. cbn [rbind] in R0.
  assert (Lt : forall a b, onl a -> onl b -> loc_lt s a b = true -> (along s a < along s b)%Q) by (intros a b [Wa _] [Wb _] X; apply (hp_lt_comp_spec s a b _ _ (hp_point_denotes a Wa) (hp_point_denotes b Wb)); exact X).
  assert (In0 : exists t, (0 < t)%Q /\ (t < 1)%Q /\ qp_eq (hp_point loc) (between (hp_point (p_from q)) (hp_point (p_to q)) t)).
  { apply onl_inside; try assumption. unfold check in Ck. destruct (fst (a_key e)); destruct (true && _) eqn:B in Ck; try discriminate; cbn [andb] in B; apply negb_false_iff in B; apply andb_prop in B as [B1 B2]; [left|right]; split; apply Lt; assumption. }
  destruct In0 as (t & T0 & T1 & Em).
  assert (Pc : keeps (c_pieces c) (c_pieces c') /\ (fst (a_key e) = true -> exists r, nth_error (c_pieces c') (length (c_pieces c)) = Some r /\ p_edge r = id) /\ c_active c' = (if fst (a_key e) then set_act (c_active c) id (set_piece (length (c_pieces c))) else c_active c) /\
    forall i r, nth_error (c_pieces c') i = Some r -> onl (p_from r) /\ onl (p_to r) \/ exists r0, nth_error (c_pieces c) i = Some r0 /\ p_from r = p_from r0 /\ p_to r = p_to r0).
  { assert (Base : forall X Y, p_edge X = p_edge q -> p_edge Y = p_edge q -> keeps (c_pieces c) (set_nth (c_pieces c) (a_piece e) X ++ [Y])).
    { intros X Y Ex Ey i r N. rewrite (split_nth _ _ X Y i La). destruct (Nat.eqb_spec i (a_piece e)) as [->|]; [exists X; split; [reflexivity|congruence]|]. destruct (Nat.eqb_spec i (length (c_pieces c))) as [->|]; [pose proof (nth_lt _ _ _ N); lia|]. eauto. }
    destruct (fst (a_key e)).
    - injection R0 as <-. cbn [with_active with_pieces c_pieces c_active]. split; [apply Base; reflexivity|]. split.
      + intros _. eexists. split; [rewrite (split_nth _ _ _ _ _ La); destruct (Nat.eqb_spec (length (c_pieces c)) (a_piece e)); [lia|]; rewrite Nat.eqb_refl; reflexivity|exact Pe].
      + split; [reflexivity|]. intros i r N. rewrite (split_nth _ _ _ _ i La) in N. destruct (i =? a_piece e); [injection N as <-; left; auto|]. destruct (i =? length (c_pieces c)); [injection N as <-; left; auto|]. right. eauto.
    - destruct (p_partner q) as [b|].
      + unfold upd_piece, get_piece, of_option in R0. cbn [with_pieces c_pieces] in R0. match type of R0 with context [nth_error ?l b] => set (ps1 := l) in *; destruct (nth_error ps1 b) as [rb|] eqn:Rb; [|discriminate] end. cbn [rbind] in R0. injection R0 as <-. cbn [with_pieces c_pieces c_active]. pose proof (nth_lt _ _ _ Rb) as Lb.
        split; [apply (keeps_trans _ ps1 _); [apply Base; reflexivity|]; intros i r N; rewrite set_nth_at by exact Lb; destruct (Nat.eqb_spec i b) as [->|]; [exists (link (Some (length (c_pieces c))) rb); split; [reflexivity|]; cbn; congruence|exists r; auto]|]. split; [discriminate|]. split; [reflexivity|].
        intros i r N. rewrite set_nth_at in N by exact Lb. assert (P1 : forall r1, nth_error ps1 i = Some r1 -> onl (p_from r1) /\ onl (p_to r1) \/ exists r0, nth_error (c_pieces c) i = Some r0 /\ p_from r1 = p_from r0 /\ p_to r1 = p_to r0).
        { intros r1 N1. unfold ps1 in N1. rewrite (split_nth _ _ _ _ i La) in N1. destruct (i =? a_piece e); [injection N1 as <-; left; auto|]. destruct (i =? length (c_pieces c)); [injection N1 as <-; left; auto|]. right. eauto. }
        destruct (Nat.eqb_spec i b) as [->|]; [injection N as <-; cbn [link p_from p_to]; exact (P1 rb Rb)|exact (P1 r N)].
      + injection R0 as <-. cbn [with_pieces c_pieces c_active]. split; [apply Base; reflexivity|]. split; [discriminate|]. split; [reflexivity|]. intros i r N. rewrite (split_nth _ _ _ _ i La) in N. destruct (i =? a_piece e); [injection N as <-; left; auto|]. destruct (i =? length (c_pieces c)); [injection N as <-; left; auto|]. right. eauto. }
  destruct Pc as (Kp & Pn & Ac & Po). split; [|split; [|split; [exact Kp|intros i r N; destruct (Po i r N) as [X|(r0 & N0 & -> & ->)]; [exact X|exact (Li i r0 N0)]]]].
  - intros st gs (M & Mu & Sh & Onl). destruct (fresh_exists st) as (new & Fr). pose proof Sh as (_ & Len & _).
    assert (Nx : exists x, nth_error gs (a_piece e) = Some x) by (destruct (nth_error gs (a_piece e)) eqn:Z; [eauto|apply nth_error_None in Z; lia]). destruct Nx as (x & Nx).
    destruct (pieces_split dbg s c id loc c' e q x st gs new Ge Cur Nq Nx M Mu Sh Fr (proj1 Ol) t T0 T1 Em) as (st' & Z1 & Z2 & Z3 & Z4 & Z5 & Z6 & Z8 & Z7). 
    { clear -R Ge. destruct dbg; [exact R|]. apply off_split. exact R. }
    exists st', (gs ++ [new]). split; [eapply ed_split; [exact Fr|exact Z1|apply ed_none]|]. split.
    + split; [intros y Y; apply in_or_app; auto|intros y Y; apply in_app_or in Y; destruct Y as [Y|[<-|[]]]; auto|exact Z5|exact Z6|exact Z4|exact Z8].
    + split; [exact Z2|]. split; [exact Z3|]. split; [exact Z7|]. intros i r N. destruct (Po i r N) as [X|(r0 & N0 & -> & ->)]; [exact X|exact (Onl i r0 N0)].
  - intros a I. rewrite Ac in I. destruct (fst (a_key e)).
    + unfold set_act in I. apply in_map_iff in I as (a0 & <- & I). destruct (Nat.eqb_spec (a_id a0) id) as [X|X].
      * destruct (Pn eq_refl) as (r & N & E). exists r. cbn [set_piece a_piece a_id]. split; [exact N|congruence].
      * destruct (O a0 I) as (r & N & E). destruct (Kp _ _ N) as (r' & N' & E'). exists r'. split; [exact N'|congruence].
    + destruct (O a I) as (r & N & E). destruct (Kp _ _ N) as (r' & N' & E'). exists r'. split; [exact N'|congruence].
Qed.
Definition free (c : cstate) (a : nat) : Prop := exists q, nth_error (c_pieces c) a = Some q /\ p_partner q = None.
Lemma link_moves c a b c1 c2 : a <> b -> free c a -> free c b -> upd_piece c a (link (Some b)) = Ok c1 -> upd_piece c1 b (link (Some a)) = Ok c2 -> moves c c2.
Proof.
  intros Nab (pa & Na & Fa) (pb & Nb & Fb) E1 E2 O Li. pose proof (nth_lt _ _ _ Na) as La. pose proof (nth_lt _ _ _ Nb) as Lb. unfold upd_piece, get_piece, of_option in E1, E2. rewrite Na in E1. cbn [rbind] in E1. injection E1 as <-. cbn [with_pieces c_pieces] in E2.
  rewrite set_nth_at in E2 by exact La. destruct (Nat.eqb_spec b a); [congruence|]. rewrite Nb in E2. cbn [rbind] in E2. injection E2 as <-. cbn [with_pieces c_pieces c_active].
  set (ps := c_pieces c) in *. assert (L1 : length (set_nth ps a (link (Some b) pa)) = length ps) by (apply (upd_length ps a); exact La).
  assert (At : forall i, nth_error (set_nth (set_nth ps a (link (Some b) pa)) b (link (Some a) pb)) i = if i =? b then Some (link (Some a) pb) else if i =? a then Some (link (Some b) pa) else nth_error ps i) by (intros i; rewrite set_nth_at by lia; destruct (i =? b); [reflexivity|]; apply set_nth_at; exact La).
  assert (Kp : keeps ps (set_nth (set_nth ps a (link (Some b) pa)) b (link (Some a) pb))).
  { intros i q N. rewrite At. destruct (Nat.eqb_spec i b) as [->|]; [eexists; split; [reflexivity|]; cbn; congruence|]. destruct (Nat.eqb_spec i a) as [->|]; [eexists; split; [reflexivity|]; cbn; congruence|]. eauto. }
  assert (Li' : forall i q, nth_error (set_nth (set_nth ps a (link (Some b) pa)) b (link (Some a) pb)) i = Some q -> onl (p_from q) /\ onl (p_to q)).
  { intros i q N. rewrite At in N. destruct (i =? b); [injection N as <-; exact (Li b pb Nb)|]. destruct (i =? a); [injection N as <-; exact (Li a pa Na)|exact (Li i q N)]. }
  split; [|split; [|split; [exact Kp|exact Li']]].
  - intros st gs (M & Mu & (Nd' & Len & Each) & _). cbn [c_pieces with_pieces] in *. fold ps in Len, Each.
    assert (Gx : forall i, i < length ps -> exists x, nth_error gs i = Some x) by (intros i L; destruct (nth_error gs i) eqn:Z; [eauto|apply nth_error_None in Z; lia]).
    destruct (Gx a La) as (xa & Xa). destruct (Gx b Lb) as (xb & Xb). destruct (Each a pa xa Na Xa) as (ja & ha & Ha & Ia & _ & _ & Pa). rewrite Fa in Pa. destruct (Each b pb xb Nb Xb) as (jb & hb & Hb & Ib & _ & _ & Pb). rewrite Fb in Pb.
    assert (Inj : forall l1 l2 y, nth_error gs l1 = Some y -> nth_error gs l2 = Some y -> l1 = l2). { intros l1 l2 y Y1 Y2. apply (proj1 (NoDup_nth_error gs) Nd'); [exact (nth_lt _ _ _ Y1)|congruence]. }
    assert (Nx : f_id ha <> f_id hb) by (rewrite Ia, Ib; intros ->; exact (Nab (Inj a b xb Xa Xb))).
    destruct (link_result dbg st ja jb ha hb M Mu Ha Hb Nx Pa Pb) as (st' & R1 & R2 & R3 & R4 & R5). rewrite Ia, Ib in R1, R5. exists st', gs. split; [eapply ed_link; [exact R1|apply ed_none]|].
    assert (Ga : In xa gs) by exact (nth_error_In _ _ Xa). assert (Gb : In xb gs) by exact (nth_error_In _ _ Xb).
    split.
    + split; [auto|auto| | |exact R4|].
      * intros j g G N. apply R5. exists g. split; [exact G|]. destruct (Nat.eqb_spec (f_id g) xa); [congruence|]. destruct (Nat.eqb_spec (f_id g) xb); [congruence|reflexivity].
      * intros j g G N. apply R5 in G as (g0 & G0 & ->). destruct (Nat.eqb_spec (f_id g0) xa); [cbn in N; congruence|]. destruct (Nat.eqb_spec (f_id g0) xb); [cbn in N; congruence|exact G0].
      * intros j g G N. apply R5 in G as (g0 & G0 & ->). exists g0. split; [exact G0|]. destruct (f_id g0 =? xa); [|destruct (f_id g0 =? xb)]; (split; [exact N|apply in_line_same; reflexivity]).
    + split; [exact R2|]. split; [exact R3|]. split; [|exact Li']. split; [exact Nd'|]. split; [transitivity (length ps); [exact Len|symmetry; change (length (upd (set_nth ps a (link (Some b) pa)) b (link (Some a) pb)) = length ps); rewrite upd_length by lia; exact L1]|].
      intros i q y N Y. rewrite At in N.
      assert (Old : forall r, nth_error ps i = Some r -> exists j h, half_in st' j (if f_id h =? xa then with_partner h (Some xb) else if f_id h =? xb then with_partner h (Some xa) else h) /\ f_id h = y /\ f_from h = hp_point (p_from r) /\ f_to h = hp_point (p_to r) /\ match p_partner r with None => f_partner h = None | Some z => exists d', nth_error gs z = Some d' /\ f_partner h = Some d' end).
      { intros r Nr. destruct (Each i r y Nr Y) as (j & h & H1 & H2 & H3 & H4 & H5). exists j, h. split; [apply R5; exists h; auto|]. auto. }
      destruct (Nat.eqb_spec i b) as [->|Ib']; [|destruct (Nat.eqb_spec i a) as [->|Ia']].
      * injection N as <-. destruct (Old pb Nb) as (j & h & H1 & H2 & H3 & H4 & _). assert (Ey : y = xb) by congruence. rewrite Ey in *. rewrite H2 in H1. destruct (Nat.eqb_spec xb xa) as [X|X]; [congruence|]. rewrite Nat.eqb_refl in H1. exists j, (with_partner h (Some xa)). split; [exact H1|]. cbn [with_partner f_id f_from f_to f_partner link p_from p_to p_partner]. split; [exact H2|]. split; [exact H3|]. split; [exact H4|]. exists xa. auto.
      * injection N as <-. destruct (Old pa Na) as (j & h & H1 & H2 & H3 & H4 & _). assert (Ey : y = xa) by congruence. rewrite Ey in *. rewrite H2, Nat.eqb_refl in H1. exists j, (with_partner h (Some xb)). split; [exact H1|]. cbn [with_partner f_id f_from f_to f_partner link p_from p_to p_partner]. split; [exact H2|]. split; [exact H3|]. split; [exact H4|]. exists xb. auto.
      * destruct (Old q N) as (j & h & H1 & H2 & H3 & H4 & H5). rewrite H2 in H1. destruct (Nat.eqb_spec y xa) as [->|]; [exfalso; exact (Ia' (Inj i a xa Y Xa))|]. destruct (Nat.eqb_spec y xb) as [->|]; [exfalso; exact (Ib' (Inj i b xb Y Xb))|]. exists j, h. auto.
  - intros e I. destruct (O e I) as (q & N & E). destruct (Kp _ _ N) as (q' & N' & E'). exists q'. split; [exact N'|congruence].
Qed.
Lemma unpartner_moves c id t c' : unpartner true c id t = Ok c' -> c_pieces c' = c_pieces c /\ sub (c_active c') (c_active c) /\ forall x e', get_act (c_active c') x = Ok e' -> exists e, get_act (c_active c) x = Ok e /\ a_key e' = a_key e.
Proof.
  unfold unpartner. intros H. destruct (get_act (c_active c) id) as [e| | |]; try discriminate. cbn [rbind] in H. destruct (a_partner e) as [old|].
  - destruct (check true _) as [tt0| | |]; try discriminate. cbn [rbind] in H. injection H as <-. cbn [with_need with_active c_pieces c_active]. split; [reflexivity|]. split; [apply sub_set; auto|].
    intros x e'. unfold get_act, set_act. induction (c_active c) as [|a l IH]; cbn [map find]; [discriminate|]. assert (X : a_id (if a_id a =? id then set_partner None a else a) = a_id a) by (destruct (a_id a =? id); reflexivity). rewrite X. destruct (a_id a =? x); [|exact IH]. intros Y. injection Y as <-. exists a. split; [reflexivity|]. destruct (a_id a =? id); reflexivity.
  - injection H as <-. split; [reflexivity|]. split; [apply sub_refl|]. eauto.
Qed.
Lemma free_ok c id a : piece_free true c id = Ok a -> free c a /\ exists e, get_act (c_active c) id = Ok e /\ a_piece e = a.
Proof.
  unfold piece_free. intros H. destruct (get_act (c_active c) id) as [e| | |]; try discriminate. cbn [rbind] in H. unfold get_piece, of_option in H. destruct (nth_error (c_pieces c) (a_piece e)) as [q|] eqn:N; [|discriminate]. cbn [rbind] in H. destruct (p_partner q) eqn:P; [discriminate|]. cbn in H. injection H as <-. split; [exists q; auto|eauto].
Qed.
Lemma need_moves loc fuel : onl loc -> forall c c', need_partners true s fuel loc c = Ok c' -> moves c c'.
Proof.
  intros Ol. induction fuel as [|f IH]; intros c c' H; cbn [need_partners] in H; destruct (c_need c) as [|id rest]; try discriminate; try (injection H as <-; apply (moves_same c c eq_refl (sub_refl _))). cbv zeta in H.
  set (c0 := with_need c rest) in *. assert (M0 : moves c c0) by (apply moves_same; [reflexivity|apply sub_refl]).
  destruct (get_act (c_active c0) id) as [e| | |] eqn:Ge; try discriminate. cbn [rbind] in H. destruct (if fst (a_key e) then _ else _) as [t| | |]; try discriminate. cbn [rbind] in H.
  destruct (match a_partner e with Some p => p =? t | None => false end); [exact (moves_trans _ _ _ M0 (IH _ _ H))|].
  destruct (unpartner true c0 id t) as [c1| | |] eqn:E1; try discriminate. cbn [rbind] in H. destruct (unpartner_moves _ _ _ _ E1) as (U1 & U2 & U3). assert (M1 : moves c c1) by (exact (moves_trans _ _ _ M0 (moves_same _ _ U1 U2))).
  destruct (get_act (c_active c1) t) as [n| | |] eqn:Gn; try discriminate. cbn [rbind] in H. destruct (Bool.eqb (fst (a_key e)) (fst (a_key n))) eqn:Pol.
  - destruct (maybe_split true s (with_error c1 SamePolarity) id loc) as [c2| | |] eqn:E2; try discriminate. cbn [rbind] in H. destruct (piece_free true c2 id); try discriminate. cbn [rbind] in H.
    apply (moves_trans _ _ _ M1). apply (moves_trans _ (with_error c1 SamePolarity) _); [apply moves_same; [reflexivity|apply sub_refl]|]. exact (moves_trans _ _ _ (split_moves _ _ _ _ Ol E2) (IH _ _ H)).
  - assert (Nt : id <> t) by (intros <-; destruct (U3 id n Gn) as (e0 & G0 & K0); rewrite Ge in G0; injection G0 as <-; rewrite K0, eqb_reflx in Pol; discriminate).
    destruct (unpartner true c1 t id) as [c2| | |] eqn:E2; try discriminate. cbn [rbind] in H. destruct (unpartner_moves _ _ _ _ E2) as (V1 & V2 & _). assert (M2 : moves c c2) by (exact (moves_trans _ _ _ M1 (moves_same _ _ V1 V2))).
    match type of H with rbind (maybe_split true s ?y id loc) _ = _ => set (c3 := y) in * end. assert (M3 : moves c c3) by (apply (moves_trans _ _ _ M2); apply moves_same; [reflexivity|]; eapply sub_trans; [apply sub_set; auto|apply sub_set; auto]).
    destruct (maybe_split true s c3 id loc) as [c4| | |] eqn:E4; try discriminate. cbn [rbind] in H. destruct (maybe_split true s c4 t loc) as [c5| | |] eqn:E5; try discriminate. cbn [rbind] in H.
    pose proof (moves_trans _ _ _ M3 (moves_trans _ _ _ (split_moves _ _ _ _ Ol E4) (split_moves _ _ _ _ Ol E5))) as M5.
    destruct (piece_free true c5 id) as [a| | |] eqn:Fa; try discriminate. cbn [rbind] in H. destruct (piece_free true c5 t) as [b| | |] eqn:Fb; try discriminate. cbn [rbind] in H. destruct (upd_piece c5 a _) as [c6| | |] eqn:E6; try discriminate. cbn [rbind] in H. destruct (upd_piece c6 b _) as [c7| | |] eqn:E7; try discriminate. cbn [rbind] in H.
    apply free_ok in Fa as (Fa & ea & Ga & Ea). apply free_ok in Fb as (Fb & eb & Gb & Eb). intros O Li. pose proof (M5 O Li) as (_ & O5 & _).
    assert (Nab : a <> b). { intros <-. destruct Fa as (q & N & _). rewrite <- Ea in N. pose proof (own_get c5 id ea q O5 Ga N) as X1. rewrite Ea, <- Eb in N. pose proof (own_get c5 t eb q O5 Gb N) as X2. congruence. }
    exact (moves_trans _ _ _ (moves_trans _ _ _ M5 (link_moves _ _ _ _ _ Nab Fa Fb E6 E7)) (IH _ _ H) O Li).
Qed.
Lemma finish_moves l : forall c c', finish_edges true c l = Ok c' -> c_pieces c' = c_pieces c /\ sub (c_active c') (c_active c).
Proof.
  induction l as [|id l IH]; intros c c' H; cbn [finish_edges] in H; [injection H as <-; split; [reflexivity|apply sub_refl]|]. destruct (get_act (c_active c) id) as [e| | |]; try discriminate. cbn [rbind] in H.
  destruct (a_partner e) as [p|].
  - destruct (get_act (c_active c) p) as [q| | |]; try discriminate. cbn [rbind] in H. destruct (check true _) as [tt0| | |]; try discriminate. cbn [rbind] in H. apply IH in H as [A B]. cbn [with_active with_need c_pieces c_active] in *. split; [exact A|]. eapply sub_trans; [exact B|]. eapply sub_trans; apply sub_set; auto.
  - cbn [rbind] in H. apply IH in H as [A B]. cbn [with_active c_pieces c_active] in *. split; [exact A|]. eapply sub_trans; [exact B|]. apply sub_set; auto.
Qed.
Lemma end_moves ord c loc c' : end_events true ord c loc = Ok c' -> c_pieces c' = c_pieces c /\ sub (c_active c') (c_active c).
Proof.
  unfold end_events. intros H. destruct (act_ends c (c_active c)); try discriminate. cbn [rbind] in H. destruct (finish_edges true c _) as [c1| | |] eqn:E; try discriminate. cbn [rbind] in H. injection H as <-. cbn [with_active with_need c_pieces c_active]. apply finish_moves in E as [A B]. split; [exact A|]. eapply sub_trans; [apply sub_filter|exact B].
Qed.
Lemma ends_onl c l es : lin c -> act_ends c l = Ok es -> forall x, In x es -> onl (snd x).
Proof.
  intros Li. revert es. induction l as [|a l IH]; intros es H x I; cbn [act_ends] in H; [injection H as <-; contradiction|]. unfold act_end, get_piece, of_option in H. destruct (nth_error (c_pieces c) (a_piece a)) as [q|] eqn:N; [|discriminate]. cbn [rbind] in H. destruct (act_ends c l) as [t| | |]; try discriminate. cbn [rbind] in H. injection H as <-.
  destruct I as [<-|I]; [|exact (IH t eq_refl x I)]. cbn [snd]. destruct (Li _ _ N). destruct (fst (a_key a)); assumption.
Qed.
Context (ord : list (nat * hpoint3) -> list (nat * hpoint3)) (Ord : forall l, Permutation (ord l) l).
Lemma front_onl c loc : lin c -> front_end s ord c = Ok (Some loc) -> onl loc.
Proof.
  intros Li H. unfold front_end in H. destruct (act_ends c (c_active c)) as [es| | |] eqn:E; try discriminate. cbn [rbind] in H. destruct (ord (lowest s es)) as [|x r] eqn:X; [discriminate|]. injection H as <-. apply (ends_onl c _ es Li E). assert (I : In x (ord (lowest s es))) by (rewrite X; left; reflexivity). apply (Permutation_in _ (Ord _)) in I. unfold lowest in I. apply filter_In in I. tauto.
Qed.
Lemma fin_moves fuel : forall c c', finish_line true s ord fuel c = Ok c' -> moves c c'.
Proof.
  induction fuel as [|f IH]; intros c c' H; cbn [finish_line] in H; destruct (front_end s ord c) as [[loc|]| | |] eqn:F; try discriminate; cbn [rbind] in H; try discriminate; try (injection H as <-; apply (moves_same c c eq_refl (sub_refl _))).
  destruct (end_events true ord c loc) as [c1| | |] eqn:E1; try discriminate. cbn [rbind] in H. destruct (all_partners true s loc c1) as [c2| | |] eqn:E2; try discriminate. cbn [rbind] in H. intros O Li. pose proof (front_onl c loc Li F) as Ol. destruct (end_moves _ _ _ _ E1) as [A B].
  exact (moves_trans _ _ _ (moves_same _ _ A B) (moves_trans _ _ _ (need_moves loc _ Ol _ _ E2) (IH _ _ H)) O Li).
Qed.
Definition ready (c : cstate) (rest : list (nat * half)) : Prop := forall i h, In (i, h) rest -> onl (h_begin s h) /\ exists q, nth_error (c_pieces c) i = Some q /\ p_edge q = i.
Lemma emplace_in l n l' : emplace l n = Ok (Some l') -> forall e, In e l' -> e = n \/ In e l.
Proof.
  revert l'. induction l as [|a l IH]; intros l' H e I; cbn [emplace] in H; [injection H as <-; destruct I as [<-|[]]; auto|]. destruct (key_lt (a_key a) (a_key n)) as [lt| | |]; try discriminate. cbn [rbind] in H. destruct lt.
  - destruct (emplace l n) as [[r'|]| | |]; try discriminate; cbn [rbind] in H; try discriminate. injection H as <-. destruct I as [<-|I]; [right; left; reflexivity|]. destruct (IH r' eq_refl e I) as [->|J]; [auto|right; right; exact J].
  - destruct (key_lt (a_key n) (a_key a)) as [gt| | |]; try discriminate. cbn [rbind] in H. destruct gt; [|discriminate]. injection H as <-. destruct I as [<-|I]; auto.
Qed.
Lemma begin_moves loc rest : forall c c' r', own c -> ready c rest -> begin_events s c loc rest = Ok (c', r') -> c_pieces c' = c_pieces c /\ own c' /\ forall x, In x r' -> In x rest.
Proof.
  induction rest as [|[i h] r IH]; intros c c' r' O Rd H; cbn [begin_events] in H; [injection H as <- <-; auto|]. destruct (hp_eq (h_begin s h) loc); [|injection H as <- <-; auto].
  destruct (emplace (c_active c) (Act i (h_key s h) i None true)) as [[l|]| | |] eqn:E; try discriminate; cbn [rbind] in H.
  - apply IH in H.
    + destruct H as (A & B & C). split; [exact A|]. split; [exact B|]. intros x I. right. exact (C x I).
    + intros e I. cbn [with_need with_active c_active c_pieces] in *. destruct (emplace_in _ _ _ E e I) as [->|J]; [cbn [a_piece a_id]; exact (proj2 (Rd i h (or_introl eq_refl)))|exact (O e J)].
    + intros j g J. exact (Rd j g (or_intror J)).
  - apply IH in H; [|exact O|intros j g J; exact (Rd j g (or_intror J))]. destruct H as (A & B & C). split; [exact A|]. split; [exact B|]. intros x I. right. exact (C x I).
Qed.
Lemma ready_keeps c c' rest rest' : ready c rest -> keeps (c_pieces c) (c_pieces c') -> (forall x, In x rest' -> In x rest) -> ready c' rest'.
Proof. intros Rd K Sb i h I. destruct (Rd i h (Sb _ I)) as (A & q & N & E). split; [exact A|]. destruct (K i q N) as (q' & N' & E'). exists q'. split; [exact N'|congruence]. Qed.
Lemma sweep_moves fuel : forall prev c rest c', ready c rest -> sweep_line true s ord fuel prev c rest = Ok c' -> moves c c'.
Proof.
  induction fuel as [|f IH]; intros prev c rest c' Rd H; cbn [sweep_line] in H; destruct rest as [|[i h] r]; try exact (fin_moves _ _ _ H); try discriminate.
  destruct (front_end s ord c) as [front| | |] eqn:F; try discriminate. cbn [rbind] in H.
  match type of H with rbind ?x _ = _ => destruct x as [[loc c1]| | |] eqn:E1; try discriminate end. cbn [rbind fst snd] in H. destruct (check true _) as [tt0| | |]; try discriminate. cbn [rbind] in H. destruct (begin_events s c1 loc ((i, h) :: r)) as [[c2 r2]| | |] eqn:E2; try discriminate. cbn [rbind fst snd] in H.
  destruct (all_partners true s loc c2) as [c3| | |] eqn:E3; try discriminate. cbn [rbind] in H. intros O Li.
  assert (Loc : onl loc /\ c_pieces c1 = c_pieces c /\ sub (c_active c1) (c_active c)).
  { destruct front as [e|]; [|injection E1 as <- <-; split; [exact (proj1 (Rd i h (or_introl eq_refl)))|split; [reflexivity|apply sub_refl]]]. destruct (loc_lt s (h_begin s h) e); [injection E1 as <- <-; split; [exact (proj1 (Rd i h (or_introl eq_refl)))|split; [reflexivity|apply sub_refl]]|].
    destruct (end_events true ord c e) as [c0| | |] eqn:E0; try discriminate. cbn [rbind] in E1. injection E1 as <- <-. split; [exact (front_onl c e Li F)|exact (end_moves _ _ _ _ E0)]. }
  destruct Loc as (Ol & P1 & S1). pose proof (own_sub c c1 O P1 S1) as O1. assert (Rd1 : ready c1 ((i, h) :: r)) by (intros j g J; rewrite P1; exact (Rd j g J)). destruct (begin_moves loc _ c1 c2 r2 O1 Rd1 E2) as (P2 & O2 & Sb).
  assert (Li2 : lin c2) by (unfold lin; rewrite P2, P1; exact Li). destruct (need_moves loc _ Ol _ _ E3 O2 Li2) as (G3 & O3 & K3 & L3).
  assert (Rd3 : ready (with_active c3 (map (set_cur false) (c_active c3))) r2) by (apply (ready_keeps c _ ((i, h) :: r)); [exact Rd|cbn [with_active c_pieces]; rewrite <- P1, <- P2; exact K3|exact Sb]).
  assert (M4 : moves c3 (with_active c3 (map (set_cur false) (c_active c3)))) by (apply moves_same; [reflexivity|]; intros e I; cbn [with_active c_active] in I; apply in_map_iff in I as (a & <- & I); exists a; auto).
  destruct (moves_trans _ _ _ M4 (IH _ _ _ _ Rd3 H) O3 L3) as (G5 & O5 & K5 & L5). split; [|split; [exact O5|split; [rewrite <- P1, <- P2; exact (keeps_trans _ _ _ K3 K5)|exact L5]]].
  intros st gs I. rewrite <- P1, <- P2 in I. destruct (G3 st gs I) as (st1 & g1 & X1 & X2 & X3). destruct (G5 st1 g1 X3) as (st2 & g2 & Y1 & Y2 & Y3). exists st2, g2. split; [exact (edited_trans _ _ _ _ X1 Y1)|]. split; [exact (ext_trans _ _ _ _ _ _ X2 Y2)|exact Y3].
Qed.
End OneLine.
Lemma number_nth {B} (l : list B) : forall k i, nth_error (number k l) i = option_map (fun h => (k + i, h)) (nth_error l i).
Proof. induction l as [|a l IH]; intros k i; [destruct i; reflexivity|]. destruct i as [|i]; cbn [number nth_error option_map]; [rewrite Nat.add_0_r; reflexivity|]. rewrite IH. replace (S k + i) with (k + S i) by lia. reflexivity. Qed.
Lemma line_goes dbg ord (Ord : forall l, Permutation (ord l) l) l st : polys_ok st -> mutual st -> NoDup (n_ids l) -> Forall2 (describes st) (n_ids l) (n_halves l) -> (forall i h, half_in st i h -> In (f_id h) (n_ids l) -> f_partner h = None) ->
  line_input (n_dim l) (n_halves l) -> closed_line (n_dim l) (n_halves l) ->
  exists c st' gs, connect_line dbg (n_dim l) ord (n_halves l) = Ok c /\ (forall i, i < length (c_pieces c) -> exists j, connected (n_dim l) (n_halves l) (c_pieces c) i j) /\ edited dbg st st' /\ ext st (n_ids l) st' gs /\ polys_ok st' /\ mutual st' /\ shows_pieces st' gs (c_pieces c).
Proof.
  intros M Mu N D Pn Li Cl. destruct l as [s hs ids0]. cbn [n_dim n_halves n_ids] in *. destruct (connect_closed s hs Li Cl true ord Ord) as (c & R & _ & Co & _). exists c.
  assert (Rd : connect_line dbg s ord hs = Ok c) by (destruct dbg; [exact R|apply off_line; exact R]). destruct Li as ((o & d & Nd & On) & _).
  assert (Nw : forall i, nth_error (map (fun x : nat * half => whole (fst x) (snd x)) (number 0 hs)) i = option_map (fun h => whole i h) (nth_error hs i)) by (intros i; rewrite nth_error_map, number_nth; destruct (nth_error hs i); reflexivity).
  assert (Onl : forall h p, In h hs -> p = h_from h \/ p = h_to h -> onl o d p) by (intros h p I P; exact (On h p I P)).
  unfold connect_line in R. apply (sweep_moves dbg s o d Nd ord Ord) in R.
  - destruct R as (G & _).
    + intros e [].
    + intros i q Q. cbn [c_pieces] in Q. rewrite Nw in Q. destruct (nth_error hs i) as [h|] eqn:H; [|discriminate]. injection Q as <-. cbn [whole p_from p_to]. pose proof (nth_error_In _ _ H). split; eapply Onl; eauto.
    + destruct (G st ids0) as (st' & gs & X1 & X2 & X3 & X4 & X5 & _).
      * split; [exact M|]. split; [exact Mu|]. cbn [c_pieces]. split.
        -- split; [exact N|]. split; [rewrite map_length; replace (length ids0) with (length hs) by (clear - D; induction D; cbn; congruence); clear; generalize 0; induction hs as [|h hs IH]; intros k; [reflexivity|]; cbn; f_equal; apply IH|].
           intros i q x Q X. rewrite Nw in Q. destruct (nth_error hs i) as [h|] eqn:H; [|discriminate]. injection Q as <-. cbn [whole p_from p_to p_partner].
           assert (De : describes st x h). { clear - D X H. revert i X H. induction D as [|x0 h0 l1 l2 D0 D IH]; intros i X H; [destruct i; discriminate|]. destruct i as [|i]; [cbn in X, H; congruence|exact (IH i X H)]. }
           destruct De as (j & g & G1 & G2 & G3 & G4). exists j, g. split; [exact G1|]. split; [exact G2|]. split; [exact G3|]. split; [exact G4|]. apply (Pn j g G1). rewrite G2. exact (nth_error_In _ _ X).
        -- intros i q Q. rewrite Nw in Q. destruct (nth_error hs i) as [h|] eqn:H; [|discriminate]. injection Q as <-. cbn [whole p_from p_to]. pose proof (nth_error_In _ _ H). split; eapply Onl; eauto.
      * exists st', gs. split; [exact Rd|]. split; [exact Co|]. auto.
  - intros i h I. apply In_nth_error in I as (k & I). rewrite number_nth in I. destruct (nth_error hs k) as [h0|] eqn:H; [|discriminate]. cbn [option_map Nat.add] in I. injection I as <- <-. split.
    + pose proof (nth_error_In _ _ H). unfold h_begin. destruct (h_pos s h0); eapply Onl; eauto.
    + cbn [c_pieces]. rewrite Nw, H. cbn [option_map]. eexists. split; reflexivity.
Qed.
Lemma ext_app a ga b gb gc c gd : ext a ga b gb -> ext b gc c gd -> ext a (ga ++ gc) c (gb ++ gd).
Proof.
  intros [A1 A2 A3 A4 A5 A6] [B1 B2 B3 B4 B5 B6]. split.
  - intros x X. apply in_app_or in X. apply in_or_app. destruct X; auto.
  - intros x X. apply in_app_or in X. destruct X as [X|X]; [destruct (A2 x X); [left; apply in_or_app; auto|auto]|]. destruct (B2 x X) as [Y|Y]; [left; apply in_or_app; auto|]. destruct (in_dec Nat.eq_dec x ga) as [Z|Z]; [left; apply in_or_app; auto|]. right. intros j g G E. apply (Y j g); [apply A3; [exact G|congruence]|exact E].
  - intros j g G N. rewrite in_app_iff in N. apply B3; [apply A3; [exact G|tauto]|tauto].
  - intros j g G N. rewrite in_app_iff in N. apply A4; [apply B4; [exact G|tauto]|tauto].
  - exact (views_trans _ _ _ A5 B5).
  - intros j g G I. assert (Go : forall g1, half_in b j g1 -> In (f_id g1) (gb ++ gc) -> exists g0, half_in a j g0 /\ In (f_id g0) (ga ++ gc) /\ in_line g1 g0).
    { intros g1 G1 I1. destruct (in_dec Nat.eq_dec (f_id g1) gb) as [Z|Z].
      - destruct (A6 j g1 G1 Z) as (g0 & G0 & I0 & L0). exists g0. split; [exact G0|]. split; [apply in_or_app; auto|exact L0].
      - apply in_app_or in I1 as [I1|I1]; [contradiction|]. exists g1. split; [exact (A4 j g1 G1 Z)|]. split; [apply in_or_app; auto|]. apply in_line_same; reflexivity. }
    destruct (in_dec Nat.eq_dec (f_id g) gd) as [Z|Z].
    + destruct (B6 j g G Z) as (g1 & G1 & I1 & L1). destruct (Go g1 G1 ltac:(apply in_or_app; auto)) as (g0 & G0 & I0 & L0). exists g0. split; [exact G0|]. split; [exact I0|exact (in_line_trans _ _ _ L1 L0)].
    + apply in_app_or in I as [I|I]; [|contradiction]. apply Go; [exact (B4 j g G Z)|apply in_or_app; auto].
Qed.
Lemma shows_ext st gs ps st' ga gb : ext st ga st' gb -> (forall x, In x gs -> ~ In x ga) -> shows_pieces st gs ps -> shows_pieces st' gs ps.
Proof.
  intros X Dj (A & B & C). split; [exact A|]. split; [exact B|]. intros i q x Q N. destruct (C i q x Q N) as (j & h & H1 & H2 & H3). exists j, h. split; [apply (ex_to _ _ _ _ X); [exact H1|rewrite H2; apply Dj; exact (nth_error_In _ _ N)]|]. auto.
Qed.
Lemma lines_go dbg ord (Ord : forall l, Permutation (ord l) l) ls : forall st, polys_ok st -> mutual st -> NoDup (concat (map n_ids ls)) -> (forall i h, half_in st i h -> In (f_id h) (concat (map n_ids ls)) -> f_partner h = None) ->
  (forall l, In l ls -> Forall2 (describes st) (n_ids l) (n_halves l) /\ line_input (n_dim l) (n_halves l) /\ closed_line (n_dim l) (n_halves l)) ->
  exists cs st' G, Forall2 (fun l c => connect_line dbg (n_dim l) ord (n_halves l) = Ok c /\ exists gs, shows_pieces st' gs (c_pieces c)) ls cs /\ edited dbg st st' /\ polys_ok st' /\ mutual st' /\ ext st (concat (map n_ids ls)) st' G /\
    forall x, In x G -> exists s hs gs ps, In x gs /\ shows_pieces st' gs ps /\ forall i, i < length ps -> exists j, connected s hs ps i j.
Proof.
  induction ls as [|l ls IH]; intros st M Mu Nd Pn Each; cbn [map concat] in *.
  - exists [], st, []. split; [constructor|]. split; [apply ed_none|]. split; [exact M|]. split; [exact Mu|]. split; [apply ext_refl|]. intros x [].
  - destruct (Each l (or_introl eq_refl)) as (D & Li & Cl). assert (Nl : NoDup (n_ids l)) by (clear - Nd; induction (n_ids l) as [|a r IHl]; [constructor|]; inversion Nd; subst; constructor; [rewrite in_app_iff in *; tauto|apply IHl; assumption]).
    assert (Dj : forall x, In x (n_ids l) -> ~ In x (concat (map n_ids ls))). { intros x. clear - Nd. induction (n_ids l) as [|a r IHl]; [contradiction|]. inversion Nd as [|? ? Na Nr]; subst. intros [<-|I]; [rewrite in_app_iff in Na; tauto|exact (IHl Nr I)]. }
    assert (Nr : NoDup (concat (map n_ids ls))) by (clear - Nd; induction (n_ids l) as [|a r IHl]; [exact Nd|]; inversion Nd; auto).
    destruct (line_goes dbg ord Ord l st M Mu Nl D) as (c & st1 & g1 & R & Co & E1 & X1 & M1 & Mu1 & S1); [intros i h H I; apply (Pn i h H); apply in_or_app; auto|exact Li|exact Cl|].
    assert (Dsc : forall k, In k ls -> Forall2 (describes st) (n_ids k) (n_halves k)) by (intros k K; exact (proj1 (Each k (or_intror K)))).
    assert (Ex : forall x, In x (concat (map n_ids ls)) -> exists j g, half_in st j g /\ f_id g = x).
    { intros x I. apply in_concat in I as (is & I & J). apply in_map_iff in I as (k & <- & K). pose proof (Dsc k K) as Dk. clear - Dk J. induction Dk as [|y h l1 l2 (j & g & A & B & _) Dk IHk]; [contradiction|]. destruct J as [<-|J]; eauto. }
    destruct (IH st1 M1 Mu1 Nr) as (cs & st2 & G2 & F & E2 & M2 & Mu2 & X2 & Cv).
    + intros i h H I. destruct (Ex _ I) as (j & g & Hg & Ig). assert (Ng : ~ In (f_id g) (n_ids l)) by (rewrite Ig; intros Z; exact (Dj _ Z I)). pose proof (ex_to _ _ _ _ X1 j g Hg Ng) as Hg1. destruct (half_unique st1 i j h g (ps_once st1 M1) H Hg1 ltac:(congruence)) as [_ ->]. apply (Pn j g Hg). apply in_or_app. right. exact I.
    + intros k K. destruct (Each k (or_intror K)) as (Dk & Lk & Ck). split; [|auto]. assert (Sub : forall x, In x (n_ids k) -> In x (concat (map n_ids ls))) by (intros x X; apply in_concat; exists (n_ids k); split; [apply in_map; exact K|exact X]).
      clear - Dk Sub Dj X1. induction Dk as [|x h l1 l2 (j & g & A & B & C) Dk IHk]; constructor.
      * exists j, g. split; [|auto]. apply (ex_to _ _ _ _ X1); [exact A|]. rewrite B. intros Z. exact (Dj _ Z (Sub x (or_introl eq_refl))).
      * apply IHk. intros y Y. apply Sub. right. exact Y.
    + assert (Dj1 : forall x, In x g1 -> ~ In x (concat (map n_ids ls))). { intros x X I. destruct (ex_new _ _ _ _ X1 x X) as [Y|Y]; [exact (Dj x Y I)|]. destruct (Ex x I) as (j & g & Hg & Ig). exact (Y j g Hg Ig). }
      pose proof (shows_ext _ _ _ _ _ _ X2 Dj1 S1) as S2. exists (c :: cs), st2, (g1 ++ G2). split; [constructor; [split; [exact R|exists g1; exact S2]|exact F]|]. split; [exact (edited_trans _ _ _ _ E1 E2)|]. split; [exact M2|]. split; [exact Mu2|]. split; [exact (ext_app _ _ _ _ _ _ _ X1 X2)|].
      intros x X. apply in_app_or in X. destruct X as [X|X]; [|exact (Cv x X)]. exists (n_dim l), (n_halves l), g1, (c_pieces c). auto.
Qed.
Lemma half_apart p k h : poly_ok p (pts p) -> half_at p k h -> ~ qp_eq (f_from h) (f_to h).
Proof. intros H Hk. destruct (half_points p k h Hk) as (_ & -> & ->). intros E. apply (proj1 (points_two p (pts p) k H)). first [exact E|symmetry; exact E]. Qed.
Lemma lines_group dbg ord st ls : (forall l, Permutation (ord l) l) -> mesh_ok st -> (forall i h, half_in st i h -> In (f_id h) (concat (map n_ids ls)) -> f_partner h = None) -> NoDup (concat (map n_ids ls)) ->
  (forall l, In l ls -> Forall2 (describes st) (n_ids l) (n_halves l) /\ line_input (n_dim l) (n_halves l) /\ closed_line (n_dim l) (n_halves l)) ->
  exists cs st' G, Forall2 (fun l c => connect_line dbg (n_dim l) ord (n_halves l) = Ok c /\ exists gs, shows_pieces st' gs (c_pieces c)) ls cs /\ edited dbg st st' /\ mesh_ok st' /\ ext st (concat (map n_ids ls)) st' G /\
    forall i h, half_in st' i h -> In (f_id h) G -> f_partner h <> None.
Proof.
  intros Ord Mo Pn Nd Each. assert (M : polys_ok st) by (destruct Mo; split; assumption).
  assert (Nsame : forall i h d, half_in st i h -> f_partner h = Some d -> d <> f_id h).
  { intros i h d H D ->. destruct (mo_partner st Mo i h _ H D) as (j & g & G1 & G2 & _ & E1 & E2). destruct (half_unique st j i g h (ps_once st M) G1 H G2) as [-> ->]. destruct H as (p & k & P & Hk). destruct (ps_convex st M i p P) as [X|X]; [destruct Hk as (e & e' & Ek & _); rewrite X in Ek; destruct k; discriminate|]. exact (half_apart p k h X Hk E1). }
  assert (Mu : mutual st). { intros i h d H D. split; [exact (Nsame i h d H D)|]. destruct (mo_partner st Mo i h d H D) as (j & g & G1 & G2 & G3 & _). exists j, g. auto. }
  destruct (lines_go dbg ord Ord ls st M Mu Nd Pn Each) as (cs & st' & G & F & E & M' & Mu' & X & Cv). exists cs, st', G. split; [exact F|]. split; [exact E|].
  assert (Fit : forall i h, half_in st' i h -> In (f_id h) G -> exists d j g, f_partner h = Some d /\ half_in st' j g /\ f_id g = d /\ f_partner g = Some (f_id h) /\ qp_eq (f_from h) (f_to g) /\ qp_eq (f_to h) (f_from g)).
  { intros i h H I.
    destruct (Cv _ I) as (s & hs & gs & ps & Ig & (N & Len & Sh) & Co). apply In_nth_error in Ig as (k & Ig). assert (Lk : k < length ps) by (pose proof (nth_lt _ _ _ Ig); lia). destruct (Co k Lk) as (m & q & r & Nq & Nr & Pq & Pr & Sa & Sb & _).
    assert (Gm : exists y, nth_error gs m = Some y) by (destruct (nth_error gs m) eqn:Z; [eauto|apply nth_error_None in Z; pose proof (nth_lt _ _ _ Nr); lia]). destruct Gm as (y & Gm).
    destruct (Sh k q _ Nq Ig) as (j & h' & H1 & H2 & H3 & H4 & H5). destruct (half_unique st' j i h' h (ps_once st' M') H1 H H2) as [_ ->]. destruct (Sh m r y Nr Gm) as (j2 & g & G1 & G2 & G3 & G4 & G5). rewrite Pq in H5. rewrite Pr in G5. destruct H5 as (d1 & D1 & D2). destruct G5 as (d2 & D3 & D4).
    exists y, j2, g. split; [congruence|]. split; [exact G1|]. split; [exact G2|]. split; [congruence|]. rewrite H3, H4, G3, G4. split; [exact Sa|exact Sb]. }
  split; [|split; [exact X|]].
  - destruct M' as [A B C]. split; [exact A|exact B|exact C|]. intros i h d H D. destruct (in_dec Nat.eq_dec (f_id h) G) as [I|I].
    + destruct (Fit i h H I) as (d' & j & g & P & R1 & R2 & R3 & R4). exists j, g. split; [exact R1|]. split; [congruence|]. auto.
    + pose proof (ex_from _ _ _ _ X i h H I) as H0. destruct (mo_partner st Mo i h d H0 D) as (j & g & G1 & G2 & G3 & G4). exists j, g. split; [|auto]. apply (ex_to _ _ _ _ X); [exact G1|]. intros Z. rewrite (Pn j g G1 Z) in G3. discriminate.
  - intros i h H I Z. destruct (Fit i h H I) as (d' & j & g & P & _). congruence.
Qed.
Lemma lines_closed dbg ord st ls : (forall l, Permutation (ord l) l) -> polys_ok st -> (forall i h, half_in st i h -> f_partner h = None) -> closed_lines st ls ->
  exists cs st', Forall2 (fun l c => connect_line dbg (n_dim l) ord (n_halves l) = Ok c /\ exists gs, shows_pieces st' gs (c_pieces c)) ls cs /\ edited dbg st st' /\ mesh_ok st' /\ closed_mesh st' /\ views st st'.
Proof.
  intros Ord M Pn (Nd & All & Each). assert (Mo : mesh_ok st) by (destruct M as [A B C]; split; [exact A|exact B|exact C|]; intros i h d H D; rewrite (Pn i h H) in D; discriminate).
  destruct (lines_group dbg ord st ls Ord Mo (fun i h H _ => Pn i h H) Nd Each) as (cs & st' & G & F & E & M' & X & Cl). exists cs, st'. split; [exact F|]. split; [exact E|]. split; [exact M'|]. split; [|exact (ex_views _ _ _ _ X)].
  intros i h H. apply (Cl i h H). destruct (in_dec Nat.eq_dec (f_id h) G) as [Y|Y]; [exact Y|]. apply (ex_incl _ _ _ _ X). exact (All i h (ex_from _ _ _ _ X i h H Y)).
Qed.
