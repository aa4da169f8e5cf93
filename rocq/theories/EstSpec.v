(** Comparing integers with m * log2 n without real numbers:
    v <= m * log2 n  iff  2^v <= n^m. *)
From Coq Require Import ZArith.
Open Scope Z_scope.
Definition at_most_mlogn (v m n : Z) : Prop := 2 ^ v <= n ^ m.
(** num/den * (m * log2 n) <= v. *)
Definition fraction_mlogn_at_most (num den m n v : Z) : Prop := n ^ (num * m) <= 2 ^ (den * v).
(** The piecewise linear interpolation of m * log2 n between powers of two,
    rounded down. *)
Definition interpolation (m n : Z) : Z := m * n / 2 ^ Z.log2 n + m * (Z.log2 n - 1).
