(** C63: the edges of a plane are sorted into lines and each line is connected. *)
From Coq Require Import List Bool Arith ZArith QArith Lia ZifyBool Lqa Sorted Permutation.
From Verif Require Import BigUIntModel GeoModel GeoSpec GeoProofs GeoAngleProofs GeoDirProofs TriSpec TriTileProofs ConnModel ConnSpec ConnListProofs ConnPieceProofs ConnSweepProofs ConnTopProofs PropConn ConnPlaneModel ConnPlaneSpec ConnPlaneProofs ConnGroupProofs.
Import ListNotations.
Open Scope Z_scope.

(** EdgeCompare never fails an assertion and is a strict weak order, which is what
    std::sort needs, on the edges of a plane and empty deeds. *)
Theorem C63_order plane drop dbg : (drop < 3)%nat -> comp (hn plane) drop <> 0 -> let fine o := match o with Some e => edge_ok plane e | None => True end in
  (forall a b, fine a -> fine b -> exists r, edge_lt dbg drop a b = Ok r) /\ strict_weak_order fine (fun a b => edge_lt dbg drop a b = Ok true).
Proof. exact (edge_order plane drop dbg). Qed.
Print Assumptions C63_order.

(** ConnectUnsorted on the edges in a plane that belong to a closed surface: it
    returns, in debug builds without a failing assertion.  Every edge is handled
    once, together with exactly the edges on its line, no error is reported, and
    all edges are cut into pieces connected with their nearest counterparts. *)
Theorem C63_unsorted plane drop dbg sort ord l : (forall l, Permutation (ord l) l) -> plane_input plane drop l -> sorts dbg drop sort l -> closed_plane (present l) ->
  exists rs, connect_unsorted dbg drop sort ord l = Ok rs /\ Permutation (concat (map r_edges rs)) (present l) /\
    forall r, In r rs -> line_done r /\ exists off, line_of (present l) (r_edges r) off.
Proof. exact (connect_plane plane drop dbg sort ord l). Qed.
Print Assumptions C63_unsorted.

(** ** A case
    Two pairs of edges on parallel lines, and an empty deed. *)
Definition at_y (x y : Z) : hpoint3 := HP (V3 x y 0) 1.
Definition ef (y : Z) : ledge := LE (PL (V3 4 0 0) (V3 0 0 (- 4 * y))) (at_y 0 y) (at_y 4 y) (V3 0 0 1).
Definition eb (y : Z) : ledge := LE (PL (V3 (-4) 0 0) (V3 0 0 (4 * y))) (at_y 4 y) (at_y 0 y) (V3 0 1 0).
Definition two_lines : list (option ledge) := [Some (ef 1); Some (ef 0); None; Some (eb 1); Some (eb 0)].
Definition two_sorted (_ : list (option ledge)) : list (option ledge) := [None; Some (ef 1); Some (eb 1); Some (ef 0); Some (eb 0)].
Definition floor : hspace3 := HS (V3 0 0 1) 0.
Lemma two_edge e : In e [ef 0; ef 1; eb 0; eb 1] -> edge_ok floor e.
Proof.
  cbn [In]. intros I. split; [|split; [|split; [|split; [|split]]]].
  - intros p [-> | ->]; destruct I as [<-|[<-|[<-|[<-|[]]]]]; (split; [discriminate|split; vm_compute; auto]).
  - exists 1%Q. split; [reflexivity|]. destruct I as [<-|[<-|[<-|[<-|[]]]]]; vm_compute; auto.
  - destruct I as [<-|[<-|[<-|[<-|[]]]]]; reflexivity.
  - destruct I as [<-|[<-|[<-|[<-|[]]]]]; discriminate.
  - destruct I as [<-|[<-|[<-|[<-|[]]]]]; reflexivity.
  - destruct I as [<-|[<-|[<-|[<-|[]]]]]; repeat constructor; discriminate.
Qed.
Lemma two_input : plane_input floor 2 two_lines.
Proof. split; [lia|]. split; [discriminate|]. intros e I. apply two_edge. unfold two_lines in I. cbn [In] in *. destruct I as [I|[I|[I|[I|[I|[]]]]]]; try discriminate I; injection I as <-; tauto. Qed.
Lemma two_sorts dbg : sorts dbg 2 two_sorted two_lines.
Proof.
  split.
  - unfold two_sorted, two_lines. apply Permutation_sym. apply (Permutation_trans (l' := None :: [Some (ef 1); Some (ef 0); Some (eb 1); Some (eb 0)])); [apply Permutation_sym, (Permutation_middle [Some (ef 1); Some (ef 0)])|].
    apply perm_skip, perm_skip. apply perm_swap.
  - destruct dbg; repeat (apply SSorted_cons); repeat (apply Forall_cons; [|]); try apply Forall_nil; try apply SSorted_nil; vm_compute; discriminate.
Qed.
Lemma pair_input hs : In hs [map e_half [ef 0; eb 0]; map e_half [eb 0; ef 0]; map e_half [ef 1; eb 1]; map e_half [eb 1; ef 1]] -> line_input 0 hs.
Proof.
  intros I. cbn [In] in I. split; [|split; [|split]].
  - destruct I as [I|[I|[I|[I|[]]]]];
      [exists (QP 0 0 0), (QP 1 0 0)|exists (QP 0 0 0), (QP 1 0 0)|exists (QP 0 1 0), (QP 1 0 0)|exists (QP 0 1 0), (QP 1 0 0)]; subst hs;
      (split; [vm_compute; discriminate|]); intros h p I [-> | ->]; cbn in I; (destruct I as [<-|[<-|[]]]); (split; [discriminate|]);
      (exists 0%Q; vm_compute; repeat split; reflexivity) || (exists 4%Q; vm_compute; repeat split; reflexivity).
  - destruct I as [<-|[<-|[<-|[<-|[]]]]]; repeat (apply Forall_cons; [|]); try apply Forall_nil; (left; split; vm_compute; reflexivity) || (right; split; vm_compute; reflexivity).
  - destruct I as [<-|[<-|[<-|[<-|[]]]]]; repeat (apply Forall_cons; [|]); try apply Forall_nil; intros v [[_ ->]|[_ ->]]; (split; [(left; vm_compute; discriminate) || (right; vm_compute; discriminate)|unfold no_min; repeat (apply Forall_cons; [vm_compute; discriminate|]); apply Forall_nil]).
  - destruct I as [<-|[<-|[<-|[<-|[]]]]]; repeat (apply SSorted_cons); repeat (apply Forall_cons; [|]); try apply Forall_nil; try apply SSorted_nil; vm_compute; discriminate.
Qed.
Lemma pair_mates (r : nat -> Z) (po : nat -> bool) i j : (i = 0 /\ j = 1 \/ i = 1 /\ j = 0)%nat -> po i = negb (po j) -> mate r po [0; 1]%nat i j.
Proof.
  intros I P. unfold mate, near, met. destruct (po j) eqn:J; cbn [negb] in P; [right|left]; destruct I as [[-> ->]|[-> ->]]; repeat (split; [assumption || discriminate || (cbn [In]; tauto)|]); intros k [<-|[<-|[]]]; congruence.
Qed.
Lemma pair_closed hs : In hs [map e_half [ef 0; eb 0]; map e_half [eb 0; ef 0]; map e_half [ef 1; eb 1]; map e_half [eb 1; ef 1]] -> closed_line 0 hs.
Proof.
  intros I. pose proof (pair_input hs I) as Hin.
  assert (X : length hs = 2%nat /\ rk 0 hs 0 <> rk 0 hs 1 /\ pol 0 hs 0 = negb (pol 0 hs 1) /\ (lo 0 hs 0 == lo 0 hs 1)%Q /\ (hi 0 hs 0 == hi 0 hs 1)%Q).
  { cbn [In] in I. destruct I as [<-|[<-|[<-|[<-|[]]]]]; vm_compute; repeat split; congruence. }
  destruct X as (L & R & P & Lo & Hi). intros t G i a Ni Ca. pose proof (nth_some_lt _ _ _ Ni) as Li. rewrite <- (hat_nth hs i a Ni) in Ca |- *. rewrite L in Li.
  pose proof (before_rk 0 hs Hin) as B. apply (covers_lo 0 hs Hin i t ltac:(lia)) in Ca. split.
  - intros j b Nj _ D. pose proof (nth_some_lt _ _ _ Nj) as Lj. rewrite L in Lj. rewrite <- (hat_nth hs j b Nj). rewrite !B by lia. assert (C : (i = 0 /\ j = 1 \/ i = 1 /\ j = 0)%nat) by lia. destruct C as [[-> ->]|[-> ->]]; lia.
  - exists (1 - i)%nat. apply (pair_mate 0 hs Hin t [0; 1]%nat).
    + intros k. rewrite L. assert (C : (i = 0 \/ i = 1)%nat) by lia. split; [intros [<-|[<-|[]]]; (split; [lia|]); destruct C as [-> | ->]; split; lra|]. intros [K _]. cbn [In]. lia.
    + apply pair_mates; [lia|]. assert (C : (i = 0 \/ i = 1)%nat) by lia. destruct C as [-> | ->]; cbn [Nat.sub]; [exact P|]. rewrite P. destruct (pol 0 hs 1); reflexivity.
Qed.
Definition y_of (e : ledge) : Z := vy (hv (e_from e)).
Lemma two_same a b : In a [ef 0; ef 1; eb 0; eb 1] -> In b [ef 0; ef 1; eb 0; eb 1] -> (same_line a b <-> y_of a = y_of b).
Proof.
  intros A B. split.
  - intros S. destruct (S (hp_point (e_from a))) as [X _]. cbn [In] in A, B. destruct A as [<-|[<-|[<-|[<-|[]]]]], B as [<-|[<-|[<-|[<-|[]]]]]; try reflexivity;
      exfalso; (assert (Y : line_points (e_line _) (hp_point (e_from _))) by (apply X; vm_compute; auto)); vm_compute in Y; destruct Y as (_ & _ & Y); discriminate.
  - intros E v. unfold line_points, qp_eq, qcross. cbn [In] in A, B.
    destruct A as [<-|[<-|[<-|[<-|[]]]]], B as [<-|[<-|[<-|[<-|[]]]]]; try discriminate E; cbn [e_line ef eb ld lm qpt qx qy qz vx vy vz]; split; intros (X1 & X2 & X3); repeat split; unfold inject_Z in *; cbn in *; lra.
Qed.
Lemma filter_perm {A} (f : A -> bool) l l' : Permutation l l' -> Permutation (filter f l) (filter f l').
Proof. induction 1; cbn [filter]; repeat (destruct (f _)); eauto using Permutation. Qed.
Lemma filter_id {A} (f : A -> bool) l : (forall x, In x l -> f x = true) -> filter f l = l.
Proof. induction l as [|a l IH]; intros H; [reflexivity|]. cbn. rewrite (H a (or_introl eq_refl)), IH; [reflexivity|]. intros x X. apply H. right. exact X. Qed.
Lemma filter_none {A} (f : A -> bool) l : (forall x, In x l -> f x = false) -> filter f l = [].
Proof. induction l as [|a l IH]; intros H; [reflexivity|]. cbn. rewrite (H a (or_introl eq_refl)), IH; [reflexivity|]. intros x X. apply H. right. exact X. Qed.
Lemma two_closed : closed_plane (present two_lines).
Proof.
  intros on off s (P & Ne & S1 & S2) D Sl. destruct on as [|e on]; [contradiction|]. change (present two_lines) with [ef 1; ef 0; eb 1; eb 0] in P.
  assert (Al : forall x, In x ((e :: on) ++ off) -> In x [ef 0; ef 1; eb 0; eb 1]) by (intros x X; apply (Permutation_in _ (Permutation_sym P)) in X; cbn [In] in *; tauto).
  pose proof (filter_perm (fun x => y_of x =? y_of e) _ _ P) as F. rewrite filter_app, (filter_id _ (e :: on)), (filter_none _ off), app_nil_r in F.
  2: { intros x X. assert (Ix : In x ((e :: on) ++ off)) by (apply in_app_iff; auto). assert (Ie : In e ((e :: on) ++ off)) by (left; reflexivity). pose proof (S2 e x (or_introl eq_refl) X) as N. rewrite (two_same e x (Al _ Ie) (Al _ Ix)) in N. lia. }
  2: { intros x X. assert (Ix : In x ((e :: on) ++ off)) by (apply in_app_iff; auto). assert (Ie : In e ((e :: on) ++ off)) by (left; reflexivity). pose proof (S1 x e X (or_introl eq_refl)) as N. rewrite (two_same x e (Al _ Ix) (Al _ Ie)) in N. lia. }
  assert (Ie : In e [ef 0; ef 1; eb 0; eb 1]) by (apply Al; left; reflexivity).
  assert (s = 0)%nat. { specialize (D e (or_introl eq_refl)). cbn [In] in Ie. destruct s as [|[|[|s]]]; [reflexivity| | |lia]; exfalso; apply D; destruct Ie as [<-|[<-|[<-|[<-|[]]]]]; reflexivity. }
  subst s. apply pair_closed. assert (Y : y_of e = 0 \/ y_of e = 1) by (cbn [In] in Ie; destruct Ie as [<-|[<-|[<-|[<-|[]]]]]; vm_compute; auto).
  destruct Y as [Y|Y]; rewrite Y in F; cbn in F; destruct (Permutation_length_2_inv F) as [-> | ->]; cbn [In]; auto.
Qed.
Example C63_case : (plane_input floor 2 two_lines /\ sorts true 2 two_sorted two_lines /\ closed_plane (present two_lines)) /\
  exists rs, connect_unsorted true 2 two_sorted (fun l => l) two_lines = Ok rs /\ map r_edges rs = [[ef 1; eb 1]; [ef 0; eb 0]] /\
    map (fun r => map (fun p => (p_edge p, p_partner p)) (c_pieces (r_state r))) rs = [[(0%nat, Some 1%nat); (1%nat, Some 0%nat)]; [(0%nat, Some 1%nat); (1%nat, Some 0%nat)]].
Proof.
  split; [split; [exact two_input|split; [apply two_sorts|exact two_closed]]|]. eexists. split; [vm_compute; reflexivity|]. split; reflexivity.
Qed.
