(** What becomes of each polygon, independent of the order in which they come. *)
From Coq Require Import List Bool Arith ZArith QArith Lia Permutation.
From Verif Require Import BigUIntModel GeoModel PolyModel RTransModel FilterModel BspModel BspSpec BspMarkProofs BspTreeProofs KdModel.
Import ListNotations.
Open Scope nat_scope.

(** The counters of infos are increased for the polygons cs and bs. *)
Definition bumped (infos : list cinfo) (cs bs : list bpoly) (infos' : list cinfo) : Prop :=
  length infos' = length infos /\ forall id, info_for infos' id = CI (interior (info_for infos id) + count_id id cs) (border (info_for infos id) + count_id id bs) (pwn (info_for infos id)).
Lemma info_ext (l l' : list cinfo) : length l = length l' -> (forall id, info_for l id = info_for l' id) -> l = l'.
Proof. intros L E. apply (nth_ext _ _ (CI 0 0 0) (CI 0 0 0) L). intros k _. apply E. Qed.
Lemma count_perm id l l' : Permutation l l' -> count_id id l = count_id id l'.
Proof. intros P. unfold count_id. induction P; cbn; try congruence; [destruct (_ =? _); cbn; congruence|]. destruct (bp_id x =? id), (bp_id y =? id); reflexivity. Qed.
Lemma bumped_same infos cs bs i1 cs' bs' i2 : bumped infos cs bs i1 -> bumped infos cs' bs' i2 -> Permutation cs cs' -> Permutation bs bs' -> i1 = i2.
Proof. intros [L1 B1] [L2 B2] P Q. apply info_ext; [congruence|]. intros id. rewrite B1, B2, (count_perm id _ _ P), (count_perm id _ _ Q). reflexivity. Qed.
Lemma info_eta c : CI (interior c + 0) (border c + 0) (pwn c) = c.
Proof. destruct c. cbn. rewrite !Nat.add_0_r. reflexivity. Qed.
Lemma bumped_nil infos : bumped infos [] [] infos.
Proof. split; [reflexivity|]. intros id. symmetry. apply info_eta. Qed.
Lemma bumped_app i1 c1 b1 i2 c2 b2 i3 : bumped i1 c1 b1 i2 -> bumped i2 c2 b2 i3 -> bumped i1 (c1 ++ c2) (b1 ++ b2) i3.
Proof. intros [L1 B1] [L2 B2]. split; [congruence|]. intros id. rewrite B2, B1. cbn [interior border pwn]. rewrite !count_app, !Nat.add_assoc. reflexivity. Qed.
Lemma at_id_ok infos id f r : at_id infos id f = Ok r -> id < length infos /\ r = upd infos id f.
Proof. unfold at_id. destruct (Nat.ltb_spec id (length infos)); [|discriminate]. intros E. injection E as <-. auto. Qed.
Lemma bumped_interior infos b : bp_id b < length infos -> bumped infos [b] [] (upd infos (bp_id b) add_interior).
Proof. intros L. split; [apply upd_length|]. intros id. rewrite info_upd by exact L. unfold count_id. cbn [List.filter]. destruct (_ =? _); cbn [length]; destruct (info_for infos id); unfold add_interior; cbn; f_equal; lia. Qed.
Lemma bumped_border infos b : bp_id b < length infos -> bumped infos [] [b] (upd infos (bp_id b) add_border).
Proof. intros L. split; [apply upd_length|]. intros id. rewrite info_upd by exact L. unfold count_id. cbn [List.filter]. destruct (_ =? _); cbn [length]; destruct (info_for infos id); unfold add_border; cbn; f_equal; lia. Qed.
Definition room (infos : list cinfo) (l : list bpoly) : Prop := Forall (fun b => bp_id b < length infos) l.

(** A child is extended. *)
Record given (k : kid) (cs bs : list bpoly) (k' : kid) : Prop := Given {
  gv_contents : k_contents k' = k_contents k ++ cs; gv_border : k_border k' = k_border k ++ bs; gv_infos : bumped (k_infos k) cs bs (k_infos k') }.
Lemma given_nil k : given k [] [] k.
Proof. split; [symmetry; apply app_nil_r|symmetry; apply app_nil_r|apply bumped_nil]. Qed.
Lemma given_app k c1 b1 k2 c2 b2 k3 : given k c1 b1 k2 -> given k2 c2 b2 k3 -> given k (c1 ++ c2) (b1 ++ b2) k3.
Proof. intros [A1 A2 A3] [B1 B2 B3]. split; [rewrite B1, A1, app_assoc; reflexivity|rewrite B2, A2, app_assoc; reflexivity|exact (bumped_app _ _ _ _ _ _ _ A3 B3)]. Qed.

Record outcome := Outcome { oc_nc : list bpoly; oc_nb : list bpoly; oc_pc : list bpoly; oc_pb : list bpoly }.
Definition fill (k : kid) (cs bs : list bpoly) : res kid :=
  k <- rfold (fun b k => put_contents k b) cs k ;; rfold (fun b k => put_border k b) bs k.
Definition give (o : outcome) (x : kid * kid) : res (kid * kid) :=
  n <- fill (fst x) (oc_nc o) (oc_nb o) ;; p <- fill (snd x) (oc_pc o) (oc_pb o) ;; Ok (n, p).
Lemma room_app infos l l' : room infos (l ++ l') <-> room infos l /\ room infos l'.
Proof. unfold room. rewrite Forall_app. reflexivity. Qed.
Lemma puts_ok (put : kid -> bpoly -> res kid) (one : bpoly -> list bpoly * list bpoly) :
  (forall k b k', put k b = Ok k' -> bp_id b < length (k_infos k) /\ given k (fst (one b)) (snd (one b)) k') -> (forall k b, bp_id b < length (k_infos k) -> exists k', put k b = Ok k') ->
  forall l k, (forall k', rfold (fun b k => put k b) l k = Ok k' -> room (k_infos k) l /\ given k (flat_map (fun b => fst (one b)) l) (flat_map (fun b => snd (one b)) l) k') /\
    (room (k_infos k) l -> exists k', rfold (fun b k => put k b) l k = Ok k').
Proof.
  intros H T. induction l as [|b l IH]; intros k; (split; [intros k' E|intros R]); cbn [rfold flat_map] in *.
  - injection E as <-. split; [constructor|apply given_nil].
  - eexists. reflexivity.
  - destruct (put k b) as [k1| | |] eqn:E1; try discriminate. cbn [rbind] in E. destruct (H _ _ _ E1) as [L G]. destruct (IH k1) as [I _]. destruct (I k' E) as [R G']. destruct (gv_infos _ _ _ _ G) as [Ll _].
    split; [constructor; [exact L|unfold room in R; rewrite Ll in R; exact R]|exact (given_app _ _ _ _ _ _ _ G G')].
  - inversion R as [|? ? L R']; subst. destruct (T k b L) as (k1 & E1). rewrite E1. cbn [rbind]. destruct (H _ _ _ E1) as [_ G]. destruct (gv_infos _ _ _ _ G) as [Ll _]. destruct (IH k1) as [_ I]. apply I. unfold room. rewrite Ll. exact R'.
Qed.
Lemma flat_one {A} (l : list A) : flat_map (fun b => [b]) l = l.
Proof. induction l; cbn; congruence. Qed.
Lemma flat_none {A B} (l : list A) : flat_map (fun _ : A => @nil B) l = [].
Proof. induction l; cbn; congruence. Qed.
Lemma contents_puts l k : (forall k', rfold (fun b k => put_contents k b) l k = Ok k' -> room (k_infos k) l /\ given k l [] k') /\ (room (k_infos k) l -> exists k', rfold (fun b k => put_contents k b) l k = Ok k').
Proof.
  pose proof (puts_ok put_contents (fun b => ([b], []))) as P. cbn [fst snd] in P. specialize (fun H T => P H T l k). rewrite flat_one, flat_none in P. apply P.
  - intros k0 b k' E. unfold put_contents in E. destruct (at_id _ _ _) as [i| | |] eqn:Ea; try discriminate. apply at_id_ok in Ea as [L ->]. cbn in E. injection E as <-. split; [exact L|]. split; cbn [k_contents k_border k_infos]; [reflexivity|symmetry; apply app_nil_r|apply bumped_interior; exact L].
  - intros k0 b L. destruct (put_contents_ok k0 b L) as (k' & E & _). exists k'. exact E.
Qed.
Lemma border_puts l k : (forall k', rfold (fun b k => put_border k b) l k = Ok k' -> room (k_infos k) l /\ given k [] l k') /\ (room (k_infos k) l -> exists k', rfold (fun b k => put_border k b) l k = Ok k').
Proof.
  pose proof (puts_ok put_border (fun b => ([], [b]))) as P. cbn [fst snd] in P. specialize (fun H T => P H T l k). rewrite flat_one, flat_none in P. apply P.
  - intros k0 b k' E. unfold put_border in E. destruct (at_id _ _ _) as [i| | |] eqn:Ea; try discriminate. apply at_id_ok in Ea as [L ->]. cbn in E. injection E as <-. split; [exact L|]. split; cbn [k_contents k_border k_infos]; [symmetry; apply app_nil_r|reflexivity|apply bumped_border; exact L].
  - intros k0 b L. destruct (put_border_ok k0 b L) as (k' & E & _). exists k'. exact E.
Qed.
Lemma fill_ok k cs bs k' : fill k cs bs = Ok k' -> room (k_infos k) (cs ++ bs) /\ given k cs bs k'.
Proof.
  unfold fill. intros E. destruct (rfold _ cs k) as [k1| | |] eqn:E1; try discriminate. cbn [rbind] in E. destruct (proj1 (contents_puts cs k) k1 E1) as [R G]. destruct (proj1 (border_puts bs k1) k' E) as [R' G'].
  destruct (gv_infos _ _ _ _ G) as [Ll _]. split; [apply room_app; split; [exact R|unfold room in *; rewrite Ll in R'; exact R']|]. pose proof (given_app _ _ _ _ _ _ _ G G') as X. rewrite app_nil_r in X. exact X.
Qed.
Lemma fill_total k cs bs : room (k_infos k) (cs ++ bs) -> exists k', fill k cs bs = Ok k'.
Proof.
  intros R. apply room_app in R as [R1 R2]. unfold fill. destruct (proj2 (contents_puts cs k) R1) as (k1 & E1). rewrite E1. cbn [rbind]. destruct (proj1 (contents_puts cs k) k1 E1) as [_ G]. destruct (gv_infos _ _ _ _ G) as [Ll _]. apply border_puts. unfold room. rewrite Ll. exact R2.
Qed.
Lemma gives_ok (f : bpoly -> res outcome) (push : bpoly -> kid * kid -> res (kid * kid)) : (forall b x, push b x = (o <- f b ;; give o x)) ->
  forall l x y, rfold push l x = Ok y -> exists os, Forall2 (fun b o => f b = Ok o) l os /\
    room (k_infos (fst x)) (flat_map oc_nc os ++ flat_map oc_nb os) /\ room (k_infos (snd x)) (flat_map oc_pc os ++ flat_map oc_pb os) /\
    given (fst x) (flat_map oc_nc os) (flat_map oc_nb os) (fst y) /\ given (snd x) (flat_map oc_pc os) (flat_map oc_pb os) (snd y).
Proof.
  intros PF. induction l as [|b l IH]; intros x y E; cbn [rfold] in E.
  - injection E as <-. exists []. cbn. split; [constructor|]. split; [constructor|]. split; [constructor|]. split; apply given_nil.
  - rewrite PF in E. destruct (f b) as [o| | |] eqn:Eo; try discriminate. cbn [rbind] in E. unfold give in E. destruct (fill (fst x) _ _) as [n| | |] eqn:En; try discriminate. cbn [rbind] in E. destruct (fill (snd x) _ _) as [p| | |] eqn:Ep; try discriminate. cbn [rbind] in E.
    apply fill_ok in En as [Rn Gn]. apply fill_ok in Ep as [Rp Gp]. destruct (IH _ _ E) as (os & F & R1 & R2 & G1 & G2). cbn [fst snd] in *. exists (o :: os). cbn [flat_map]. split; [constructor; assumption|].
    destruct (gv_infos _ _ _ _ Gn) as [Ln _]. destruct (gv_infos _ _ _ _ Gp) as [Lp _]. unfold room in R1, R2. rewrite Ln in R1. rewrite Lp in R2. fold (room (k_infos (fst x)) (flat_map oc_nc os ++ flat_map oc_nb os)) in R1. fold (room (k_infos (snd x)) (flat_map oc_pc os ++ flat_map oc_pb os)) in R2.
    rewrite !room_app in *. split; [tauto|]. split; [tauto|]. split; eapply given_app; eassumption.
Qed.
Lemma gives_total (f : bpoly -> res outcome) (push : bpoly -> kid * kid -> res (kid * kid)) : (forall b x, push b x = (o <- f b ;; give o x)) ->
  forall l os, Forall2 (fun b o => f b = Ok o) l os -> forall x, room (k_infos (fst x)) (flat_map oc_nc os ++ flat_map oc_nb os) -> room (k_infos (snd x)) (flat_map oc_pc os ++ flat_map oc_pb os) -> exists y, rfold push l x = Ok y.
Proof.
  intros PF l os F. induction F as [|b o l os E F IH]; intros x R1 R2; cbn [rfold]; [eexists; reflexivity|]. cbn [flat_map] in *. rewrite !room_app in *. rewrite PF, E. cbn [rbind]. unfold give.
  destruct (fill_total (fst x) (oc_nc o) (oc_nb o)) as (n & En); [apply room_app; tauto|]. destruct (fill_total (snd x) (oc_pc o) (oc_pb o)) as (p & Ep); [apply room_app; tauto|]. rewrite En. cbn [rbind]. rewrite Ep. cbn [rbind].
  apply fill_ok in En as [_ Gn]. apply fill_ok in Ep as [_ Gp]. destruct (gv_infos _ _ _ _ Gn) as [Ln _]. destruct (gv_infos _ _ _ _ Gp) as [Lp _]. apply IH; cbn [fst snd]; unfold room; rewrite ?Ln, ?Lp; apply room_app; tauto.
Qed.

(** ** The two loops *)
Definition off_outcome (dbg : bool) (h : hspace3) (bord : bool) (b : bpoly) (i : split_info) : res outcome :=
  let neg b := if bord then Outcome [] [b] [] [] else Outcome [b] [] [] [] in
  let pos b := if bord then Outcome [] [] [] [b] else Outcome [] [] [b] [] in
  if emit_neg (si_ranges i) then
    if emit_pos (si_ranges i) then
      c <- bp_split_children dbg b i ;; c <- set_child_angles dbg c h ;;
      Ok (if bord then Outcome [] [fst c] [] [snd c] else Outcome [fst c] [] [snd c] [])
    else b <- set_angles_except b (SS h false) (neg_range (si_ranges i)) ;; Ok (neg b)
  else b <- set_angles_except b (SS h true) (pos_range (si_ranges i)) ;; Ok (pos b).
Definition on_outcome (h : hspace3) (b : bpoly) : res outcome :=
  let pos := zdiff_sign (pnormal_drop (bp_poly b)) (comp (hn h) (pdrop (bp_poly b))) in
  b <- set_angles b (SS h pos) 0 (bp_count b + 1) ;;
  let b := BP (bp_poly b) (bp_box b) (bp_id b) (Some (SS h pos)) in
  Ok (if pos then Outcome [] [] [] [b] else Outcome [] [b] [] []).
Definition content_outcome (dbg : bool) (h : hspace3) (b : bpoly) : res outcome :=
  _ <- check dbg (0 <? bp_count b) ;;
  i <- bp_split_info dbg b h ;;
  _ <- check dbg (info_valid i (bp_count b)) ;;
  if on_plane_info i then on_outcome h b else off_outcome dbg h false b i.
Definition border_outcome (dbg : bool) (h : hspace3) (b : bpoly) : res outcome :=
  _ <- check dbg (0 <? bp_count b) ;;
  i <- bp_split_info dbg b h ;;
  if on_plane_info i then _ <- check dbg false ;; on_outcome h b else off_outcome dbg h true b i.
Lemma rbind_eta {A} (r : res A) : (x <- r ;; Ok x) = r.
Proof. destruct r; reflexivity. Qed.
Lemma on_gives h b x : push_on_plane h b x = (o <- on_outcome h b ;; give o x).
Proof.
  unfold push_on_plane, on_outcome, give, fill. set (pos := zdiff_sign _ _). destruct (set_angles _ _ _ _) as [c| | |]; try reflexivity. cbn [rbind]. destruct pos; cbn [oc_nc oc_nb oc_pc oc_pb rfold rbind]; rewrite rbind_eta; reflexivity.
Qed.
Lemma off_gives dbg h (bord : bool) b i x : push_off_plane dbg h (if bord then put_border else put_contents) b i x = (o <- off_outcome dbg h bord b i ;; give o x).
Proof.
  unfold push_off_plane, off_outcome, give, fill. destruct (emit_neg _); [destruct (emit_pos _)|].
  - destruct (bp_split_children _ _ _) as [c| | |]; try reflexivity. cbn [rbind]. destruct (set_child_angles _ _ _) as [c'| | |]; try reflexivity. cbn [rbind]. destruct bord; cbn [oc_nc oc_nb oc_pc oc_pb rfold rbind].
    + destruct (put_border (fst x) _); try reflexivity. cbn [rbind]. destruct (put_border (snd x) _); reflexivity.
    + destruct (put_contents (fst x) _); try reflexivity. cbn [rbind]. destruct (put_contents (snd x) _); reflexivity.
  - destruct (set_angles_except _ _ _) as [c| | |]; try reflexivity. cbn [rbind]. destruct bord; cbn [oc_nc oc_nb oc_pc oc_pb rfold rbind]; [destruct (put_border _ _)|destruct (put_contents _ _)]; reflexivity.
  - destruct (set_angles_except _ _ _) as [c| | |]; try reflexivity. cbn [rbind]. destruct bord; cbn [oc_nc oc_nb oc_pc oc_pb rfold rbind]; [destruct (put_border _ _)|destruct (put_contents _ _)]; reflexivity.
Qed.
Lemma content_gives dbg h b x : push_content dbg h b x = (o <- content_outcome dbg h b ;; give o x).
Proof.
  unfold push_content, content_outcome. destruct (check dbg (0 <? bp_count b)); try reflexivity. cbn [rbind]. destruct (bp_split_info dbg b h) as [i| | |]; try reflexivity. cbn [rbind]. destruct (check dbg (info_valid _ _)); try reflexivity. cbn [rbind].
  destruct (on_plane_info i); [apply on_gives|apply (off_gives dbg h false)].
Qed.
Lemma border_gives dbg h b x : push_border dbg h b x = (o <- border_outcome dbg h b ;; give o x).
Proof.
  unfold push_border, border_outcome. destruct (check dbg (0 <? bp_count b)); try reflexivity. cbn [rbind]. destruct (bp_split_info dbg b h) as [i| | |]; try reflexivity. cbn [rbind].
  destruct (on_plane_info i); [destruct (check dbg false); try reflexivity; cbn [rbind]; apply on_gives|apply (off_gives dbg h true)].
Qed.
(** SetPolygonCountFromContents counts the same way. *)
Lemma set_counts_ok cs bs infos : room infos (cs ++ bs) -> exists infos', set_counts (Kid cs bs infos) = Ok (Kid cs bs infos') /\ bumped infos cs bs infos'.
Proof.
  intros R. apply room_app in R as [R1 R2]. unfold set_counts. cbn [k_contents k_border k_infos].
  assert (A : forall l i, room i l -> exists i', rfold (fun b infos => at_id infos (bp_id b) add_interior) l i = Ok i' /\ bumped i l [] i').
  { induction l as [|b l IH]; intros i R; cbn [rfold]; [exists i; split; [reflexivity|apply bumped_nil]|]. inversion R as [|? ? L R']; subst. unfold at_id at 1. destruct (Nat.ltb_spec (bp_id b) (length i)); [|lia]. cbn [rbind].
    destruct (IH (upd i (bp_id b) add_interior)) as (i' & E & B); [unfold room; rewrite upd_length; exact R'|]. exists i'. split; [exact E|]. exact (bumped_app _ _ _ _ _ _ _ (bumped_interior i b L) B). }
  assert (B : forall l i, room i l -> exists i', rfold (fun b infos => at_id infos (bp_id b) add_border) l i = Ok i' /\ bumped i [] l i').
  { induction l as [|b l IH]; intros i R; cbn [rfold]; [exists i; split; [reflexivity|apply bumped_nil]|]. inversion R as [|? ? L R']; subst. unfold at_id at 1. destruct (Nat.ltb_spec (bp_id b) (length i)); [|lia]. cbn [rbind].
    destruct (IH (upd i (bp_id b) add_border)) as (i' & E & B); [unfold room; rewrite upd_length; exact R'|]. exists i'. split; [exact E|]. exact (bumped_app _ _ _ _ _ _ _ (bumped_border i b L) B). }
  destruct (A cs infos R1) as (i1 & E1 & B1). rewrite E1. cbn [rbind]. destruct (B bs i1) as (i2 & E2 & B2); [unfold room; rewrite (proj1 B1); exact R2|]. rewrite E2. cbn [rbind]. exists i2. split; [reflexivity|]. pose proof (bumped_app _ _ _ _ _ _ _ B1 B2) as X. rewrite app_nil_r in X. exact X.
Qed.
