(** Tests of the hypotheses for concrete chains. *)
From Coq Require Import List ZArith QArith Lia Lqa Bool.
From Verif Require Import BigUIntModel GeoModel GeoSpec TriModel TriSpec PolySpec TriTileProofs DecSpec.
Import ListNotations.
Open Scope Q_scope.
Definition distinct_testb (l : list qpoint2) : bool :=
  forallb (fun i => forallb (fun j => Nat.eqb i j || negb (Qeq_bool (qx2 (nth i l o2)) (qx2 (nth j l o2)) && Qeq_bool (qy2 (nth i l o2)) (qy2 (nth j l o2)))) (seq 0 (length l))) (seq 0 (length l)).
Lemma in_seq0 {A} (l : list A) i a d : nth_error l i = Some a -> In i (seq 0 (length l)) /\ nth i l d = a.
Proof. intros H. split; [apply in_seq; split; [lia|apply nth_error_Some; congruence]|apply nth_error_nth, H]. Qed.
Lemma distinct_test l : distinct_testb l = true -> all_distinct l.
Proof.
  intros T i j a b N Ha Hb (E1 & E2). destruct (in_seq0 l i a o2 Ha) as (Ii & Ea). destruct (in_seq0 l j b o2 Hb) as (Ij & Eb).
  unfold distinct_testb in T. rewrite forallb_forall in T. specialize (T i Ii). rewrite forallb_forall in T. specialize (T j Ij). rewrite Ea, Eb in T.
  rewrite (proj2 (Nat.eqb_neq i j) N), (proj2 (Qeq_bool_iff _ _) E1), (proj2 (Qeq_bool_iff _ _) E2) in T. discriminate.
Qed.
Definition runs_testb (l : list qpoint2) : bool :=
  forallb (fun i => forallb (fun j => forallb (fun n =>
    negb (Nat.ltb i j && Nat.ltb j n && Qeq_bool (qx2 (nth i l o2)) (qx2 (nth j l o2)) && Qeq_bool (qx2 (nth j l o2)) (qx2 (nth n l o2))) ||
    qltb 0 ((qy2 (nth j l o2) - qy2 (nth i l o2)) * (qy2 (nth n l o2) - qy2 (nth j l o2)))) (seq 0 (length l))) (seq 0 (length l))) (seq 0 (length l)).
Lemma runs_test l : runs_testb l = true -> straight_runs l.
Proof.
  intros T i j n a b c Hij Hjn Ha Hb Hc E1 E2. destruct (in_seq0 l i a o2 Ha) as (Ii & Ea). destruct (in_seq0 l j b o2 Hb) as (Ij & Eb). destruct (in_seq0 l n c o2 Hc) as (In' & Ec).
  unfold runs_testb in T. rewrite forallb_forall in T. specialize (T i Ii). rewrite forallb_forall in T. specialize (T j Ij). rewrite forallb_forall in T. specialize (T n In'). rewrite Ea, Eb, Ec in T.
  rewrite (proj2 (Nat.ltb_lt i j) Hij), (proj2 (Nat.ltb_lt j n) Hjn), (proj2 (Qeq_bool_iff _ _) E1), (proj2 (Qeq_bool_iff _ _) E2) in T. cbn [andb negb orb] in T. apply qltb_lt, T.
Qed.
Definition upright_testb (top bottom : list qpoint2) : bool :=
  forallb (fun a => forallb (fun b => negb (Qeq_bool (qx2 a) (qx2 b)) || Qle_bool (qy2 a) (qy2 b)) top) bottom.
Lemma upright_test top bottom : upright_testb top bottom = true -> upright_chains top bottom.
Proof.
  intros T a b Ha Hb E. unfold upright_testb in T. rewrite forallb_forall in T. specialize (T a Ha). rewrite forallb_forall in T. specialize (T b Hb).
  rewrite (proj2 (Qeq_bool_iff _ _) E) in T. apply Qle_bool_iff, T.
Qed.
Definition strict_testb (l : list qpoint2) : bool := forallb (fun e => qltb (qx2 (fst e)) (qx2 (snd e))) (path_edges l).
Lemma strict_test l : strict_testb l = true -> strictly_rightwards l.
Proof. intros T a b H. unfold strict_testb in T. rewrite forallb_forall in T. apply qltb_lt, (T (a, b) H). Qed.
