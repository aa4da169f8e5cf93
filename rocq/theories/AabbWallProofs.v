(** AABB::GetWalls returns the faces of the box. *)
From Coq Require Import ZArith QArith List Bool Lia Lqa ZifyBool.
From Verif Require Import BigUIntModel GeoModel GeoSpec GeoProofs AabbModel AabbSpec AabbProofs AabbTrackerProofs AabbSplitProofs.
Import ListNotations.
Open Scope Z_scope.

Lemma between a b x : (a < b)%Q -> (a <= x)%Q -> (x <= b)%Q -> exists t, (0 <= t <= 1)%Q /\ (x == a + t * (b - a))%Q.
Proof.
  intros L A B. exists ((x - a) / (b - a))%Q. assert (P : (0 < b - a)%Q) by lra.
  split; [split; [apply le_div_iff; [exact P|lra]|apply div_le_iff; [exact P|lra]]|]. field. lra.
Qed.
Lemma between_down a b x : (a < b)%Q -> (a <= x)%Q -> (x <= b)%Q -> exists t, (0 <= t <= 1)%Q /\ (x == b + t * (a - b))%Q.
Proof. intros L A B. destruct (between a b x L A B) as (t & T & E). exists (1 - t)%Q. split; [lra|]. rewrite E. ring. Qed.


Lemma faces b side_ h d vs : box_wf b -> weak_order b -> (side_ < 6)%nat -> bx_wall b side_ = Some (h, d, vs) ->
  exists v0 v1 v2 v3, vs = [v0; v1; v2; v3] /\ is_face b h v0 v1 v2 v3.
Proof.
  intros WF WO HS E. unfold box_wf in WF. pose proof (inj_pos _ WF) as DP.
  destruct b as [[a0 a1 a2] [c0 c1 c2] den]. unfold weak_order in WO. pose proof (WO 0%nat lt03) as O0. pose proof (WO 1%nat lt13) as O1. pose proof (WO 2%nat lt23) as O2. clear WO.
  cbn [bden bmin bmax comp vx vy vz] in *.
  assert (LE : forall x y, x <= y -> (inject_Z x / inject_Z den <= inject_Z y / inject_Z den)%Q) by (intros x y L; apply div_le_iff; [exact DP|]; unfold Qdiv; rewrite <- Qmult_assoc, (Qmult_comm _ (inject_Z den)), Qmult_inv_r, Qmult_1_r by lra; rewrite <- Zle_Qle; exact L).
  assert (LT : forall x y, x < y -> (inject_Z x / inject_Z den < inject_Z y / inject_Z den)%Q) by (intros x y L; unfold Qdiv; apply Qmult_lt_compat_r; [apply Qinv_lt_0_compat, DP|rewrite <- Zlt_Qlt; exact L]).
  assert (EQ : forall x, (inject_Z x == inject_Z x / inject_Z den * inject_Z den)%Q) by (intros x; field; lra).
  apply LE in O0 as Q0. apply LE in O1 as Q1. apply LE in O2 as Q2.
  pose proof (EQ a0) as EA0. pose proof (EQ a1) as EA1. pose proof (EQ a2) as EA2. pose proof (EQ c0) as EC0. pose proof (EQ c1) as EC1. pose proof (EQ c2) as EC2.
  assert (IB : forall q, in_box (Box (V3 a0 a1 a2) (V3 c0 c1 c2) den) q <->
     (inject_Z a0 / inject_Z den <= qx q /\ qx q <= inject_Z c0 / inject_Z den /\
      inject_Z a1 / inject_Z den <= qy q /\ qy q <= inject_Z c1 / inject_Z den /\
      inject_Z a2 / inject_Z den <= qz q /\ qz q <= inject_Z c2 / inject_Z den)%Q).
  { intros q. unfold in_box, box_lo, box_hi. cbn [bden bmin bmax]. split.
    - intros H. pose proof (H 0%nat lt03) as K0. pose proof (H 1%nat lt13) as K1. pose proof (H 2%nat lt23) as K2. cbn [comp qcomp vx vy vz] in *. tauto.
    - intros H. refine (forall3 _ _ _ _); cbn [comp qcomp vx vy vz]; tauto. }
  assert (SL : forall x y, x <> y -> x <= y -> (inject_Z x / inject_Z den < inject_Z y / inject_Z den)%Q) by (intros; apply LT; lia).
  unfold bx_wall in E.
  destruct side_ as [|[|[|[|[|[|s]]]]]]; [| | | | | |lia]; cbn [nth facet_infos Nat.add Nat.modulo Nat.divmod fst snd Nat.sub comp bmin bmax vx vy vz Nat.ltb Nat.leb set_comp bden map bx_corner] in E;
    (match type of E with (if ?x =? ?y then _ else _) = _ => destruct (Z.eqb_spec x y) as [F1|F1]; [discriminate E|] end);
    (match type of E with (if ?x =? ?y then _ else _) = _ => destruct (Z.eqb_spec x y) as [F2|F2]; [discriminate E|] end);
    injection E as <- <- <-; do 4 eexists; (split; [reflexivity|]);
    (apply SL in F1; [|assumption]); (apply SL in F2; [|assumption]); clear SL LT LE EQ.
  all: unfold is_face, value, side, qdot, qsub, qcross, qadd, qscale, qp_eq, qpt; cbn [hv hw vx vy vz hn hd bden set_comp qx qy qz].
  all: rewrite ?inject_Z_opp; change (inject_Z 0) with 0%Q.
  all: set (A0 := (inject_Z a0 / inject_Z den)%Q) in *; set (A1 := (inject_Z a1 / inject_Z den)%Q) in *; set (A2 := (inject_Z a2 / inject_Z den)%Q) in *;
       set (C0 := (inject_Z c0 / inject_Z den)%Q) in *; set (C1 := (inject_Z c1 / inject_Z den)%Q) in *; set (C2 := (inject_Z c2 / inject_Z den)%Q) in *;
       set (D := inject_Z den) in *.
  all: split; [repeat constructor; cbn [hw]; lia|].
  all: split; [intros v V; cbn [In] in V; rewrite IB; repeat (destruct V as [<-|V]; [cbn [hv hw vx vy vz qx qy qz]; fold D; fold A0 A1 A2 C0 C1 C2; split; [repeat split; assumption || apply Qle_refl|lra]|]); destruct V|].
  all: split; [intros q; rewrite IB; destruct q as [x y z]; cbn [qx qy qz]; intros H; nra|].
  all: split; [repeat split; ring|].
  - split.
    + exists ((C0 - A0) * (C1 - A1) / D)%Q. split; [apply Qlt_shift_div_l; [exact DP|nra]|]. repeat split; field; lra.
    + intros q. rewrite IB. destruct q as [x y z]; cbn [qx qy qz]. intros (H1 & H2 & H3 & H4 & H5 & H6) S.
      destruct (between A1 C1 y F2 H3 H4) as (s & S1 & S2). destruct (between A0 C0 x F1 H1 H2) as (t & T1 & T2).
      exists s, t. split; [exact S1|]. split; [exact T1|]. split; [rewrite T2; ring|]. split; [rewrite S2; ring|]. nra.
  - split.
    + exists ((C1 - A1) * (C2 - A2) / D)%Q. split; [apply Qlt_shift_div_l; [exact DP|nra]|]. repeat split; field; lra.
    + intros q. rewrite IB. destruct q as [x y z]; cbn [qx qy qz]. intros (H1 & H2 & H3 & H4 & H5 & H6) S.
      destruct (between_down A1 C1 y F1 H3 H4) as (s & S1 & S2). destruct (between A2 C2 z F2 H5 H6) as (t & T1 & T2).
      exists s, t. split; [exact S1|]. split; [exact T1|]. split; [nra|]. split; [rewrite S2; ring|]. rewrite T2; ring.
  - split.
    + exists ((C0 - A0) * (C2 - A2) / D)%Q. split; [apply Qlt_shift_div_l; [exact DP|nra]|]. repeat split; field; lra.
    + intros q. rewrite IB. destruct q as [x y z]; cbn [qx qy qz]. intros (H1 & H2 & H3 & H4 & H5 & H6) S.
      destruct (between A0 C0 x F2 H1 H2) as (s & S1 & S2). destruct (between A2 C2 z F1 H5 H6) as (t & T1 & T2).
      exists s, t. split; [exact S1|]. split; [exact T1|]. split; [rewrite S2; ring|]. split; [nra|]. rewrite T2; ring.
  - split.
    + exists ((C1 - A1) * (C2 - A2) / D)%Q. split; [apply Qlt_shift_div_l; [exact DP|nra]|]. repeat split; field; lra.
    + intros q. rewrite IB. destruct q as [x y z]; cbn [qx qy qz]. intros (H1 & H2 & H3 & H4 & H5 & H6) S.
      destruct (between A1 C1 y F1 H3 H4) as (s & S1 & S2). destruct (between A2 C2 z F2 H5 H6) as (t & T1 & T2).
      exists s, t. split; [exact S1|]. split; [exact T1|]. split; [nra|]. split; [rewrite S2; ring|]. rewrite T2; ring.
  - split.
    + exists ((C0 - A0) * (C2 - A2) / D)%Q. split; [apply Qlt_shift_div_l; [exact DP|nra]|]. repeat split; field; lra.
    + intros q. rewrite IB. destruct q as [x y z]; cbn [qx qy qz]. intros (H1 & H2 & H3 & H4 & H5 & H6) S.
      destruct (between_down A0 C0 x F2 H1 H2) as (s & S1 & S2). destruct (between A2 C2 z F1 H5 H6) as (t & T1 & T2).
      exists s, t. split; [exact S1|]. split; [exact T1|]. split; [rewrite S2; ring|]. split; [nra|]. rewrite T2; ring.
  - split.
    + exists ((C0 - A0) * (C1 - A1) / D)%Q. split; [apply Qlt_shift_div_l; [exact DP|nra]|]. repeat split; field; lra.
    + intros q. rewrite IB. destruct q as [x y z]; cbn [qx qy qz]. intros (H1 & H2 & H3 & H4 & H5 & H6) S.
      destruct (between A0 C0 x F1 H1 H2) as (s & S1 & S2). destruct (between A1 C1 y F2 H3 H4) as (t & T1 & T2).
      exists s, t. split; [exact S1|]. split; [exact T1|]. split; [rewrite S2; ring|]. split; [rewrite T2; ring|]. nra.
Qed.

Lemma in_walls b w : In w (bx_walls b) <-> exists s, (s < 6)%nat /\ bx_wall b s = Some w.
Proof.
  unfold bx_walls. rewrite in_flat_map. split.
  - intros (s & S & H). apply in_seq in S. exists s. split; [lia|]. destruct (bx_wall b s); [destruct H as [->|[]]; reflexivity|destruct H].
  - intros (s & S & H). exists s. split; [apply in_seq; lia|]. rewrite H. left. reflexivity.
Qed.
Lemma walls_are_faces b h d vs : box_wf b -> weak_order b -> In (h, d, vs) (bx_walls b) ->
  exists v0 v1 v2 v3, vs = [v0; v1; v2; v3] /\ is_face b h v0 v1 v2 v3.
Proof. intros WF WO H. apply in_walls in H. destruct H as (s & S & E). apply (faces b s h d vs WF WO S E). Qed.

(** A box with positive extents is bounded by its six walls. *)
Lemma six_walls b : (forall i, (i < 3)%nat -> strict_order b i) -> length (bx_walls b) = 6%nat.
Proof.
  intros H. pose proof (H 0%nat lt03) as H0. pose proof (H 1%nat lt13) as H1. pose proof (H 2%nat lt23) as H2. unfold strict_order in *. clear H.
  destruct b as [[a0 a1 a2] [c0 c1 c2] den]. cbn [comp vx vy vz bmin bmax] in *. unfold bx_walls. cbn [seq flat_map]. unfold bx_wall.
  cbn [nth facet_infos Nat.add Nat.modulo Nat.divmod fst snd Nat.sub comp bmin bmax vx vy vz Nat.ltb Nat.leb bden map].
  destruct (Z.eqb_spec a0 c0); [lia|]. destruct (Z.eqb_spec a1 c1); [lia|]. destruct (Z.eqb_spec a2 c2); [lia|]. reflexivity.
Qed.
Lemma walls_bound b q : box_wf b -> (forall i, (i < 3)%nat -> strict_order b i) ->
  ((forall h d vs, In (h, d, vs) (bx_walls b) -> (side h q <= 0)%Q) <-> in_box b q).
Proof.
  intros WF H. split.
  - intros W. pose proof (H 0%nat lt03) as H0. pose proof (H 1%nat lt13) as H1. pose proof (H 2%nat lt23) as H2. unfold strict_order in *. clear H. unfold box_wf in WF. pose proof (inj_pos _ WF) as DP.
    destruct b as [[a0 a1 a2] [c0 c1 c2] den]. cbn [comp vx vy vz bmin bmax bden] in *. unfold bx_walls in W. cbn [seq flat_map] in W. unfold bx_wall in W.
    cbn [nth facet_infos Nat.add Nat.modulo Nat.divmod fst snd Nat.sub comp bmin bmax vx vy vz Nat.ltb Nat.leb bden map set_comp] in W.
    destruct (Z.eqb_spec a0 c0); [lia|]. destruct (Z.eqb_spec a1 c1); [lia|]. destruct (Z.eqb_spec a2 c2); [lia|]. cbn [app] in W.
    pose proof (W _ _ _ (or_introl eq_refl)) as W0. pose proof (W _ _ _ (or_intror (or_introl eq_refl))) as W1. pose proof (W _ _ _ (or_intror (or_intror (or_introl eq_refl)))) as W2.
    pose proof (W _ _ _ (or_intror (or_intror (or_intror (or_introl eq_refl))))) as W3. pose proof (W _ _ _ (or_intror (or_intror (or_intror (or_intror (or_introl eq_refl)))))) as W4.
    pose proof (W _ _ _ (or_intror (or_intror (or_intror (or_intror (or_intror (or_introl eq_refl))))))) as W5. clear W.
    unfold side, qdot, qpt in *. cbn [hn hd vx vy vz qx qy qz] in *. rewrite ?inject_Z_opp in *. change (inject_Z 0) with 0%Q in *.
    intros i Hi. unfold box_lo, box_hi. cbn [bmin bmax bden]. rewrite div_le_iff, le_div_iff by exact DP.
    destruct i as [|[|[|i]]]; [| | |lia]; cbn [comp qcomp vx vy vz]; split; lra.
  - intros IB h d vs W. destruct (walls_are_faces b h d vs WF) as (v0 & v1 & v2 & v3 & _ & F); [|exact W|].
    + intros i Hi. specialize (H i Hi). unfold strict_order in H. lia.
    + apply F, IB.
Qed.
(** The wall of a side is omitted exactly when it has no area. *)
Lemma wall_omitted b side_ : (side_ < 6)%nat ->
  (bx_wall b side_ = None <-> exists i, (i < 3)%nat /\ i <> fst (nth side_ facet_infos (0%nat, [])) /\ comp (bmin b) i = comp (bmax b) i).
Proof.
  intros S. unfold bx_wall. destruct b as [[a0 a1 a2] [c0 c1 c2] den].
  destruct side_ as [|[|[|[|[|[|s]]]]]]; [| | | | | |lia]; cbn [nth facet_infos Nat.add Nat.modulo Nat.divmod fst snd Nat.sub comp bmin bmax vx vy vz];
    (match goal with |- context [if ?x =? ?y then _ else if ?z =? ?t then _ else _] => destruct (Z.eqb_spec x y) as [F1|F1]; [|destruct (Z.eqb_spec z t) as [F2|F2]] end);
    (split; [intros E|intros (i & Hi & N & E)]); try reflexivity; try discriminate E;
    try (destruct i as [|[|[|i]]]; cbn [comp vx vy vz] in *; lia);
    first [exists 0%nat; cbn [comp vx vy vz]; (repeat split); (lia || assumption) | exists 1%nat; cbn [comp vx vy vz]; (repeat split); (lia || assumption) | exists 2%nat; cbn [comp vx vy vz]; (repeat split); (lia || assumption)].
Qed.
