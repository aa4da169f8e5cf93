(** Values of doubles and rounding. *)
From Coq Require Import ZArith QArith Qpower.
From Verif Require Import DoubleModel.
Open Scope Q_scope.

(** The doubles of IEEE 754 that are numbers, subnormal ones included. *)
Definition finite_double (d : double) : Prop := (Z.abs (d_man d) < 2 ^ 53 /\ -1074 <= d_exp d <= 971)%Z.
(** m * 2 ^ e. *)
Definition binary (m e : Z) : Q := inject_Z m * 2 ^ e.
Definition double_value (d : double) : Q := binary (d_man d) (d_exp d).
(** [r] is [v] rounded to a multiple of [g], halfway cases upward. *)
Definition rounded (g v r : Q) : Prop := (exists k, r == inject_Z k * g) /\ v - g / 2 < r /\ r <= v + g / 2.
