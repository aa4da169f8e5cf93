(** From polygons without partners to the finished mesh. *)
From Coq Require Import List Bool Arith ZArith QArith Lia Permutation.
From Verif Require Import BigUIntModel GeoModel GeoSpec PolyModel PolyOpsModel PolySpec TriSpec LinkModel LinkSpec LinkProofs LinkGoodProofs LinkTopProofs TidyModel TidySpec TidyProofs SplitModel SplitSpec SplitProofs SplitLineProofs FinishModel.
From Verif Require Import MergeProofs LinkMergeProofs.
From Verif Require PropLink PropTidy.
Import ListNotations.
Open Scope nat_scope.

(** ** Splitting and connecting change no plane and no direction *)
Definition plain (p : poly cdata) : Prop := no_min (l3 (hn (pplane p))) /\ Forall (fun e => no_min (l3 (ld (pl e)))) (pedges p).
Lemma plain_min st : Forall plain st -> mesh_no_min st.
Proof.
  intros F. rewrite Forall_forall in F. split; [intros i p P; exact (proj1 (F p (nth_error_In _ _ P)))|]. intros i h (p & k & P & e & e' & E & _ & ->). destruct (F p (nth_error_In _ _ P)) as [_ X]. rewrite Forall_forall in X. exact (X e (nth_error_In _ _ E)).
Qed.
Lemma min_plain st : mesh_no_min st -> Forall plain st.
Proof.
  intros [A B]. apply Forall_forall. intros p I. apply In_nth_error in I as (i & P). split; [exact (A i p P)|]. apply Forall_forall. intros e I. apply In_nth_error in I as (k & E). pose proof (nth_lt _ _ _ E) as K.
  destruct (nth_error (pedges p) (S k mod length (pedges p))) as [e'|] eqn:E'; [|apply nth_error_None in E'; pose proof (Nat.mod_upper_bound (S k) (length (pedges p)) ltac:(lia)); lia].
  apply (B i (HE (c_id (pd e)) (c_poly (pd e)) (c_partner (pd e)) (hp_point (pv e)) (hp_point (pv e')) (ld (pl e)))). exists p, k. split; [exact P|]. exists e, e'. auto.
Qed.
Lemma Forall_firstn' {B} (P : B -> Prop) l n : Forall P l -> Forall P (firstn n l).
Proof. revert n. induction l as [|a l IH]; intros [|n] F; cbn; try constructor; inversion F; auto. Qed.
Lemma Forall_skipn' {B} (P : B -> Prop) l n : Forall P l -> Forall P (skipn n l).
Proof. revert n. induction l as [|a l IH]; intros [|n] F; cbn; auto. inversion F; auto. Qed.
Lemma Forall_upd {B} (P : B -> Prop) l i x : Forall P l -> P x -> Forall P (upd l i x).
Proof. intros F X. unfold upd. apply Forall_app. split; [apply Forall_firstn'; exact F|]. constructor; [exact X|apply Forall_skipn'; exact F]. Qed.
Lemma at_plain st i p : Forall plain st -> poly_at st i = Ok p -> plain p.
Proof. unfold poly_at. intros F E. destruct (nth_error st i) as [q|] eqn:N; [|discriminate]. injection E as <-. rewrite Forall_forall in F. exact (F q (nth_error_In _ _ N)). Qed.
Lemma edge_plain p k e : plain p -> pedge_at p k = Ok e -> no_min (l3 (ld (pl e))).
Proof. unfold pedge_at. intros [_ F] E. destruct (nth_error (pedges p) k) as [q|] eqn:N; [|discriminate]. injection E as <-. rewrite Forall_forall in F. exact (F q (nth_error_In _ _ N)). Qed.
Lemma modify_plain st id f st' : Forall plain st -> modify st id f = Ok st' -> Forall plain st'.
Proof.
  unfold modify. intros F R. destruct (place id st) as [[i k]|]; [|discriminate]. destruct (poly_at st i) as [p| | |] eqn:P; try discriminate. cbn [rbind] in R. destruct (pedge_at p k) as [e| | |] eqn:E; try discriminate. cbn [rbind] in R. injection R as <-.
  pose proof (at_plain _ _ _ F P) as Pp. apply Forall_upd; [exact F|]. split; [exact (proj1 Pp)|]. cbn [set_edges pedges]. apply Forall_upd; [exact (proj2 Pp)|]. exact (edge_plain _ _ _ Pp E).
Qed.
Lemma split_plain dbg st id m pos new st' : Forall plain st -> split_connected dbg st id m pos new = Ok st' -> Forall plain st'.
Proof.
  unfold split_connected. intros F R. destruct (index_of st id) as [x| | |]; try discriminate. cbn [rbind] in R. destruct (poly_at st (fst x)) as [p| | |] eqn:P; try discriminate. cbn [rbind] in R. destruct (split_edge dbg (split_info new) p (snd x) m) as [r| | |] eqn:S; try discriminate. cbn [rbind] in R.
  pose proof (at_plain _ _ _ F P) as Pp. assert (Pr : plain r).
  { unfold split_edge in S. destruct (pedge_at p (snd x)) as [e| | |] eqn:E; try discriminate. cbn [rbind] in S. repeat (match type of S with (rbind ?y _) = _ => destruct y; try discriminate; cbn [rbind] in S end). apply (f_equal (fun z => match z with Ok a => a | _ => r end)) in S. rewrite <- S. split; [exact (proj1 Pp)|]. cbn [pedges].
    apply Forall_app. split; [apply Forall_firstn'; exact (proj2 Pp)|]. constructor; [exact (edge_plain _ _ _ Pp E)|apply Forall_skipn'; exact (proj2 Pp)]. }
  pose proof (Forall_upd plain st (fst x) r F Pr) as F1. destruct pos; [injection R as <-; exact F1|]. destruct (deref _ id) as [e| | |]; try discriminate. cbn [rbind] in R.
  destruct (modify (upd st (fst x) r) new _) as [s2| | |] eqn:E2; try discriminate. cbn [rbind] in R. pose proof (modify_plain _ _ _ _ F1 E2) as F2. destruct (modify s2 id _) as [s3| | |] eqn:E3; try discriminate. cbn [rbind] in R. pose proof (modify_plain _ _ _ _ F2 E3) as F3.
  destruct (c_partner (pd e)); [exact (modify_plain _ _ _ _ F3 R)|injection R as <-; exact F3].
Qed.
Lemma link_plain dbg st a b st' : Forall plain st -> link_edges dbg st a b = Ok st' -> Forall plain st'.
Proof.
  unfold link_edges. intros F R. destruct (deref st a); try discriminate. cbn [rbind] in R. destruct (deref st b); try discriminate. cbn [rbind] in R. do 2 (match type of R with (rbind ?y _) = _ => destruct y; try discriminate; cbn [rbind] in R end).
  destruct (modify st a _) as [s1| | |] eqn:E; try discriminate. cbn [rbind] in R. exact (modify_plain _ _ _ _ (modify_plain _ _ _ _ F E) R).
Qed.
Lemma edited_plain dbg st st' : edited dbg st st' -> Forall plain st -> Forall plain st'.
Proof. induction 1 as [st|st st1 st2 id m pos new Fr R E IH|st st1 st2 a b R E IH]; intros F; [exact F| |]; apply IH; [exact (split_plain _ _ _ _ _ _ _ F R)|exact (link_plain _ _ _ _ _ F R)]. Qed.
Lemma edited_min dbg st st' : edited dbg st st' -> mesh_no_min st -> mesh_no_min st'.
Proof. intros E N. apply plain_min. exact (edited_plain dbg st st' E (min_plain st N)). Qed.

(** ** All nodes *)
Lemma leave_nodes_ok dbg nodes : forall st, mesh_ok st -> closed_mesh st -> mesh_no_min st ->
  (forall drop l i h, In (drop, l) nodes -> half_in st i h -> In (f_id h) l -> comp (f_dir h) ((drop + 1) mod 3) <> 0%Z \/ comp (f_dir h) ((drop + 2) mod 3) <> 0%Z) ->
  exists st', leave_nodes dbg st nodes = Ok st' /\ mesh_ok st' /\ closed_mesh st' /\ forall v q, v <> V3 0 0 0 -> (surface st' v q <-> surface st v q).
Proof.
  induction nodes as [|[drop l] nodes IH]; intros st M C N D; cbn [leave_nodes].
  - exists st. split; [reflexivity|]. split; [exact M|]. split; [exact C|]. intros v q _. reflexivity.
  - destruct (PropTidy.C72_leave dbg drop st l (concat (map snd nodes)) M (PropLink.closed_even _ C) N) as (s1 & R & _ & M1 & _ & N1 & K & S1); [intros i h; apply (D drop l i h); left; reflexivity|]. rewrite R. cbn [rbind].
    destruct (IH s1 M1 (kept_closed _ _ K C) N1) as (s2 & R2 & M2 & C2 & S2).
    + intros d2 l2 i h I H J. destruct (K i h H) as (j & h0 & H0 & E1 & E2 & _). rewrite <- E2. rewrite <- E1 in J. exact (D d2 l2 j h0 (or_intror I) H0 J).
    + exists s2. split; [exact R2|]. split; [exact M2|]. split; [exact C2|]. intros v q Nv. rewrite (S2 v q Nv). exact (S1 v q Nv).
Qed.
Lemma same_surface st st' : (forall l q, shows st' l q <-> shows st l q) -> (forall l v, faces st' l v <-> faces st l v) -> forall v q, surface st' v q <-> surface st v q.
Proof. intros A B v q. split; intros (i & n & F & S & X); exists i, n; (split; [apply B; exact F|]); (split; [exact S|apply A; exact X]). Qed.
(** ** One node *)
Lemma group_even st gs st' gs' : even st -> whole_lines st gs -> ext st gs st' gs' -> (forall i h, half_in st' i h -> In (f_id h) gs' -> f_partner h <> None) -> even st'.
Proof.
  intros Ev Wl X C i j h g H G E S. destruct (in_dec Nat.eq_dec (f_id h) gs') as [Ih|Ih], (in_dec Nat.eq_dec (f_id g) gs') as [Ig|Ig].
  - pose proof (C i h H Ih). pose proof (C j g G Ig). tauto.
  - exfalso. destruct (ex_part _ _ _ _ X i h H Ih) as (h0 & H0 & I0 & D & t & u & _ & U). rewrite D in S. apply (proj1 (Wl i j h0 g u H0 (ex_from _ _ _ _ X j g G Ig) I0 ltac:(intros Z; exact (Ig (ex_incl _ _ _ _ X _ Z))) S)). rewrite <- E. exact U.
  - exfalso. destruct (ex_part _ _ _ _ X j g G Ig) as (g0 & G0 & I0 & D & t & u & T & _). rewrite D in S. apply (proj2 (Wl j i g0 h t G0 (ex_from _ _ _ _ X i h H Ih) I0 ltac:(intros Z; exact (Ih (ex_incl _ _ _ _ X _ Z))) (same_dir_sym _ _ S))). rewrite E. exact T.
  - exact (Ev i j h g (ex_from _ _ _ _ X i h H Ih) (ex_from _ _ _ _ X j g G Ig) E S).
Qed.
