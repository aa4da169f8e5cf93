From Coq Require Import ZArith List Lia.
From Verif Require Import WordModel BigIntSpec WordProofs BigIntModel BigIntProofs BigIntMulProofs BigIntCmpProofs BigIntExprSpec.
Import ListNotations.
Open Scope Z_scope.

Lemma canonical_wf a : canonical a -> wf a.
Proof. intros H; apply H. Qed.

Lemma run_spec e : literals_ok e -> exists r, run e = Some r /\ canonical r /\ value r = meaning e.
Proof.
  induction e; cbn [literals_ok run meaning]; intros H;
    repeat match goal with
    | H : _ /\ _ |- _ => destruct H
    | IH : literals_ok ?e -> _, H : literals_ok ?e |- _ =>
        let r := fresh "r" in let E := fresh "E" in let C := fresh "C" in let V := fresh "V" in
        destruct (IH H) as (r & E & C & V); clear IH; rewrite E; cbn [bind]
    end.
  - eexists; split; [reflexivity|]. apply of_int_canonical. split; assumption.
  - eexists; split; [reflexivity|]. apply max_value_spec, H.
  - eexists; split; [reflexivity|]. apply min_value_spec, H.
  - eexists; split; [reflexivity|]. rewrite <- V, <- V0. apply add_spec; eauto using canonical_wf.
  - eexists; split; [reflexivity|]. rewrite <- V, <- V0. apply sub_spec; eauto using canonical_wf.
  - rewrite <- V, <- V0. apply mul_spec; eauto using canonical_wf.
  - eexists; split; [reflexivity|]. rewrite <- V. apply neg_spec; eauto using canonical_wf.
  - eexists; split; [reflexivity|]. rewrite <- V. destruct (get_abs_spec r C) as (H1 & H2 & _). auto.
  - eexists; split; [reflexivity|]. rewrite <- V. apply shl_spec; eauto using canonical_wf.
  - rewrite <- V, <- V0, <- V1. apply add_multiply_spec; eauto using canonical_wf.
  - rewrite <- V, <- V0, <- V1. apply sub_multiply_spec; eauto using canonical_wf.
  - rewrite <- V, <- V0, <- V1, <- V2. rewrite (Z.mul_comm (value r1)).
    apply determinant_spec; eauto using canonical_wf.
Qed.
