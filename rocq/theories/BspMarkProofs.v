(** What SetBoundaryAngles writes, and paths. *)
From Coq Require Import List Bool Arith ZArith QArith Lqa Lia ZifyBool Morphisms Setoid.
From Verif Require Import BigUIntModel GeoModel GeoSpec AabbSpec CvxSpec PolyModel PolySpec PolyBridgeProofs PolyInfoProofs PolyCapProofs MergeProofs RTransModel FilterModel BspModel BspSpec BspGeoProofs.
Import ListNotations.
(** ** Updates *)
Lemma upd_nth {A} (l : list A) i f j : nth_error (upd l i f) j = if (i =? j)%nat then option_map f (nth_error l j) else nth_error l j.
Proof. revert i j. induction l as [|x l IH]; intros [|i] [|j]; cbn [upd nth_error Nat.eqb]; try reflexivity; [destruct (i =? j)%nat; reflexivity|apply IH]. Qed.
Lemma upd_length {A} (l : list A) i f : length (upd l i f) = length l.
Proof. revert i. induction l as [|x l IH]; intros [|i]; cbn; [reflexivity|reflexivity|reflexivity|f_equal; apply IH]. Qed.
Lemma upd_at {A} (l r : list A) x f : upd (l ++ x :: r) (length l) f = l ++ f x :: r.
Proof. induction l as [|y l IH]; cbn; [reflexivity|f_equal; exact IH]. Qed.
Lemma upd_edge_length es i f : length (upd_edge es i f) = length es.
Proof. apply upd_length. Qed.
Definition hits (n pos k i : nat) : bool := existsb (fun j => (j mod n =? i)%nat) (seq pos k).
Definition marked (on : option split_side) (c : split_side) (n pos k i : nat) (d : bdata) : bdata :=
  if hits n pos k i then mark_edge on c d else if ((pos + k) mod n =? i)%nat then mark_vertex c d else d.
Lemma mark_twice on c d : mark_edge on c (mark_edge on c d) = mark_edge on c d.
Proof. destruct d as [x f v e]. unfold mark_edge. cbn. destruct f; [reflexivity|]. destruct on; reflexivity. Qed.
Lemma mark_both on c d : mark_vertex c (mark_edge on c d) = mark_edge on c d.
Proof. reflexivity. Qed.
Lemma option_map_map {A B C} (f : B -> C) (g : A -> B) o : option_map f (option_map g o) = option_map (fun x => f (g x)) o.
Proof. destruct o; reflexivity. Qed.
Lemma option_map_ext {A B} (f g : A -> B) o : (forall x, f x = g x) -> option_map f o = option_map g o.
Proof. intros E. destruct o; cbn; [rewrite E|]; reflexivity. Qed.
Lemma mark_range_nth on c k : forall pos es i, nth_error (mark_range on c es pos k) i = option_map (set_data (marked on c (length es) pos k i)) (nth_error es i).
Proof.
  induction k as [|k IH]; intros pos es i.
  - cbn [mark_range]. unfold upd_edge. rewrite upd_nth. unfold marked, hits. cbn [seq existsb]. rewrite Nat.add_0_r. destruct (pos mod length es =? i)%nat; [reflexivity|]. destruct (nth_error es i) as [[? ? ?]|]; reflexivity.
  - cbn [mark_range]. rewrite IH, upd_edge_length. unfold upd_edge. rewrite upd_nth. unfold marked, hits. cbn [seq existsb]. rewrite Nat.add_succ_r. fold (hits (length es) (S pos) k i).
    destruct (pos mod length es =? i)%nat; cbn [orb]; [|reflexivity]. rewrite option_map_map. apply option_map_ext. intros [v l d]. unfold set_data. cbn [pv pl pd]. f_equal.
    destruct (hits (length es) (S pos) k i); [apply mark_twice|]. destruct (_ =? i)%nat; [apply mark_both|reflexivity].
Qed.
Lemma mark_range_length on c k : forall pos es, length (mark_range on c es pos k) = length es.
Proof. induction k as [|k IH]; intros pos es; cbn [mark_range]; [apply upd_edge_length|]. rewrite IH. apply upd_edge_length. Qed.
Lemma shape_of_nth (es es' : list (pedge bdata)) (F : nat -> bdata -> bdata) : (forall i, nth_error es' i = option_map (set_data (F i)) (nth_error es i)) -> map shape es' = map shape es.
Proof. intros E. apply nth_error_ext. intros i. rewrite !nth_error_map, E. destruct (nth_error es i); reflexivity. Qed.
Lemma hits_iff n pos k i : hits n pos k i = true <-> exists j, (pos <= j)%nat /\ (j < pos + k)%nat /\ (j mod n = i)%nat.
Proof. unfold hits. rewrite existsb_exists. split; [intros (j & I & E); apply in_seq in I; apply Nat.eqb_eq in E; exists j; lia|intros (j & J1 & J2 & E); exists j; split; [apply in_seq; lia|apply Nat.eqb_eq; exact E]]. Qed.
(** ** Paths *)
Lemma first_snoc P w c o : first_in P w o -> first_in P (w ++ [c]) (match o with Some s => Some s | None => None end) \/ o = None.
Proof. destruct o as [s|]; [|right; reflexivity]. intros (l & r & -> & Ps & F). left. exists l, (r ++ [c]). split; [rewrite <- app_assoc; reflexivity|]. split; assumption. Qed.
Lemma first_old P w c s : first_in P w (Some s) -> first_in P (w ++ [c]) (Some s).
Proof. intros H. destruct (first_snoc P w c _ H) as [X|X]; [exact X|discriminate]. Qed.
Lemma first_new P w c : first_in P w None -> P c -> first_in P (w ++ [c]) (Some c).
Proof. intros H Pc. exists w, []. repeat split; assumption. Qed.
Lemma in_none P w c : Forall (fun s : split_side => ~ P s) w -> ~ P c -> Forall (fun s => ~ P s) (w ++ [c]).
Proof. intros H N. apply Forall_app. split; [exact H|]. constructor; [exact N|constructor]. Qed.
Lemma first_keep P w c o : first_in P w o -> ~ P c -> first_in P (w ++ [c]) o.
Proof. intros H N. destruct o as [s|]; [apply first_old; exact H|]. apply in_none; assumption. Qed.
Lemma last_new (P : split_side -> Prop) w c : P c -> last_in P (w ++ [c]) (Some c).
Proof. intros Pc. exists w, []. repeat split; [exact Pc|constructor]. Qed.
Lemma last_keep P w c o : last_in P w o -> ~ P c -> last_in P (w ++ [c]) o.
Proof.
  intros H N. destruct o as [s|]; [|apply in_none; assumption]. destruct H as (l & r & -> & Ps & F). exists l, (r ++ [c]). split; [rewrite <- app_assoc; reflexivity|]. split; [exact Ps|]. apply in_none; assumption.
Qed.
Lemma first_iff (P Q : split_side -> Prop) w o : (forall s, In s w -> P s <-> Q s) -> first_in P w o -> first_in Q w o.
Proof.
  intros E H. destruct o as [s|].
  - destruct H as (l & r & -> & Ps & F). exists l, r. split; [reflexivity|]. split; [apply E; [apply in_elt|exact Ps]|]. rewrite Forall_forall in *. intros x I Qx. apply (F x I). apply E; [apply in_app_iff; left; exact I|exact Qx].
  - cbn in *. rewrite Forall_forall in *. intros x I Qx. apply (H x I). apply E; assumption.
Qed.
Lemma last_iff (P Q : split_side -> Prop) w o : (forall s, In s w -> P s <-> Q s) -> last_in P w o -> last_in Q w o.
Proof.
  intros E H. destruct o as [s|].
  - destruct H as (l & r & -> & Ps & F). exists l, r. split; [reflexivity|]. split; [apply E; [apply in_elt|exact Ps]|]. rewrite Forall_forall in *. intros x I Qx. apply (F x I). apply E; [apply in_app_iff; right; right; exact I|exact Qx].
  - cbn in *. rewrite Forall_forall in *. intros x I Qx. apply (H x I). apply E; assumption.
Qed.
Lemma first_some P w s : first_in P w (Some s) -> In s w /\ P s.
Proof. intros (l & r & -> & Ps & _). split; [apply in_elt|exact Ps]. Qed.
Lemma last_some P w s : last_in P w (Some s) -> In s w /\ P s.
Proof. intros (l & r & -> & Ps & _). split; [apply in_elt|exact Ps]. Qed.
Lemma first_none P w s : first_in P w None -> In s w -> ~ P s.
Proof. intros F. cbn in F. rewrite Forall_forall in F. apply F. Qed.
Lemma last_none P w s : last_in P w None -> In s w -> ~ P s.
Proof. intros F. cbn in F. rewrite Forall_forall in F. apply F. Qed.
Lemma first_none_any P w o s : first_in P w o -> In s w -> P s -> o <> None.
Proof. intros F I Ps E. subst o. exact (first_none P w s F I Ps). Qed.
Lemma last_none_any P w o s : last_in P w o -> In s w -> P s -> o <> None.
Proof. intros F I Ps E. subst o. exact (last_none P w s F I Ps). Qed.
(** ** Exact edges *)
Lemma on_split_eq s u v : qp_eq u v -> on_split s u <-> on_split s v.
Proof. intros E. unfold on_split. rewrite E. reflexivity. Qed.
Lemma on_split_dec s u : {on_split s u} + {~ on_split s u}.
Proof. apply Qeq_dec. Qed.
Lemma edge_exact_iff w u v u' v' d : (forall s, In s w -> on_split s u /\ on_split s v <-> on_split s u' /\ on_split s v') -> (forall s, In s w -> on_split s u <-> on_split s u') -> edge_exact w u v d -> edge_exact w u' v' d.
Proof.
  intros E V [F L X C]. split; [revert F; apply first_iff; exact E|revert L; apply last_iff; exact E|revert X; apply last_iff; exact V|].
  intros s Cs. destruct (C s Cs) as (I & O). split; [exact I|exact (proj1 (E s I) O)].
Qed.
Lemma edge_exact_eq w u v u' v' d : qp_eq u u' -> qp_eq v v' -> edge_exact w u v d -> edge_exact w u' v' d.
Proof. intros U V. apply edge_exact_iff; intros s _; [rewrite (on_split_eq s u u' U), (on_split_eq s v v' V)|rewrite (on_split_eq s u u' U)]; reflexivity. Qed.
Lemma exact_both w c on u v d : on_split c u -> on_split c v -> (forall o, on = Some o -> In o w /\ on_split o u /\ on_split o v) -> edge_exact w u v d -> edge_exact (w ++ [c]) u v (mark_edge on c d).
Proof.
  intros U V On [F L X C]. split; cbn [mark_edge first_co edge_co vertex_co created_by].
  - destruct (first_co d) as [f|]; [apply first_old; exact F|]. destruct on as [o|]; [exfalso; destruct (On o eq_refl) as (I & O); exact (first_none _ _ _ F I O)|]. apply first_new; [exact F|split; assumption].
  - apply last_new. split; assumption.
  - apply last_new. exact U.
  - intros s Cs. destruct (C s Cs) as (I & O). split; [apply in_app_iff; left; exact I|exact O].
Qed.
Lemma exact_vertex w c u v d : on_split c u -> ~ on_split c v -> edge_exact w u v d -> edge_exact (w ++ [c]) u v (mark_vertex c d).
Proof.
  intros U V [F L X C]. split; cbn [mark_vertex first_co edge_co vertex_co created_by].
  - apply first_keep; [exact F|tauto].
  - apply last_keep; [exact L|tauto].
  - apply last_new. exact U.
  - intros s Cs. destruct (C s Cs) as (I & O). split; [apply in_app_iff; left; exact I|exact O].
Qed.
Lemma exact_same w c u v d : ~ on_split c u -> edge_exact w u v d -> edge_exact (w ++ [c]) u v d.
Proof.
  intros U [F L X C]. split.
  - apply first_keep; [exact F|tauto].
  - apply last_keep; [exact L|tauto].
  - apply last_keep; [exact X|exact U].
  - intros s Cs. destruct (C s Cs) as (I & O). split; [apply in_app_iff; left; exact I|exact O].
Qed.
(** Parts of an edge. *)
Lemma side_at h a b t : (side h (between a b t) == (1 - t) * side h a + t * side h b)%Q.
Proof. rewrite PolyInfoProofs.side_between. ring. Qed.
Lemma exact_start w a b t d : (0 < t)%Q -> edge_exact w a b d -> edge_exact w a (between a b t) d.
Proof.
  intros T. apply edge_exact_iff; [|reflexivity]. intros s _. unfold on_split. rewrite side_at. split; intros [A B]; (split; [exact A|]); rewrite A in *; [rewrite B; ring|].
  apply (Qmult_integral_l t); [lra|]. lra.
Qed.
Lemma exact_end w a b t d x : (0 < t)%Q -> (t < 1)%Q -> (forall s, In s w -> (0 <= side (ss_split s) a /\ 0 <= side (ss_split s) b \/ side (ss_split s) a <= 0 /\ side (ss_split s) b <= 0)%Q) ->
  edge_exact w a b d -> edge_exact w (between a b t) b (ei_source bsp_edges d x).
Proof.
  intros T0 T1 One [F L X C]. cbn [bsp_edges ei_source].
  assert (E : forall s, In s w -> on_split s a /\ on_split s b <-> on_split s (between a b t) /\ on_split s b).
  { intros s _. unfold on_split. rewrite side_at. split; intros [A B]; (split; [|exact B]); rewrite B in *; [rewrite A; ring|]. apply (Qmult_integral_l (1 - t)); [lra|]. lra. }
  assert (V : forall s, In s w -> on_split s a /\ on_split s b <-> on_split s (between a b t)).
  { intros s I. unfold on_split. rewrite side_at. split; [intros [A B]; rewrite A, B; ring|]. intros Z. specialize (One s I).
    assert (P1 : (0 < 1 - t)%Q) by lra. destruct One as [[A B]|[A B]]; (assert (A0 : (side (ss_split s) a == 0)%Q) by nra); (split; [exact A0|]; rewrite A0 in Z; apply (Qmult_integral_l t); [lra|lra]). }
  split; cbn [first_co edge_co vertex_co created_by].
  - revert F. apply first_iff. exact E.
  - revert L. apply last_iff. exact E.
  - revert L. apply last_iff. exact V.
  - intros s Cs. destruct (C s Cs) as (I & O). split; [exact I|exact (proj1 (E s I) O)].
Qed.
(** The edge along a cut. *)
Lemma exact_cut w c on u v d : first_co d = None -> on_split c u -> on_split c v -> first_in (fun s => on_split s u /\ on_split s v) w on -> edge_exact (w ++ [c]) u v (mark_created c (mark_edge on c d)).
Proof.
  intros N U V On. split; cbn [mark_created mark_edge first_co edge_co vertex_co created_by].
  - rewrite N. destruct on as [o|]; [apply first_old; exact On|]. apply first_new; [exact On|split; assumption].
  - apply last_new. split; assumption.
  - apply last_new. exact U.
  - intros s E. injection E as <-. split; [apply in_elt|split; assumption].
Qed.
