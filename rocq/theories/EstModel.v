(** Executable model of MLogNEstimator (include/walnut/m_log_n_estimator.h,
    src/walnut/m_log_n_estimator.cpp). *)
From Coq Require Import ZArith Bool.
From Verif Require Import WordModel BigUIntModel.
Open Scope Z_scope.

(** size_t arithmetic is modulo 2^64. *)
Definition size_mod (z : Z) : Z := z mod 2 ^ 64.
(** MLogNEstimator::Estimate, m_log_n_estimator.h 14-29; [last] is the member
    last_n_bits_.  Returns the new last_n_bits_ and the estimate.  [wide] says
    that __int128 is available; otherwise the product is computed in 64 bits.
    For n = 0 the new last_n_bits_ is -1 and the shift by it is undefined. *)
Definition estimate (wide : bool) (last m n : Z) : res (Z * Z) :=
  let last := if negb (Z.shiftr n last =? 1) then whighest_set_bit n - 1 else last in
  if last <? 0 then UB
  else
    let product := if wide then m * n else size_mod (m * n) in
    Ok (last, size_mod (size_mod (Z.shiftr product last) + size_mod (m * size_mod (last - 1)))).
(** Member initialiser, m_log_n_estimator.h 32. *)
Definition estimator_init : Z := 0.
(** GetSplitCost, m_log_n_estimator.cpp 5-10. *)
Definition split_cost (wide : bool) (neg_total neg_exclude pos_total pos_exclude : Z) : res Z :=
  a <- estimate wide estimator_init neg_total (size_mod (size_mod (neg_total - neg_exclude) + 1)) ;;
  b <- estimate wide (fst a) pos_total (size_mod (size_mod (pos_total - pos_exclude) + 1)) ;;
  Ok (size_mod (snd a + snd b)).
(** Any sequence of Estimate calls on one estimator. *)
Fixpoint estimates (wide : bool) (last : Z) (calls : list (Z * Z)) : res (Z * list Z) :=
  match calls with
  | nil => Ok (last, nil)
  | cons (m, n) r => a <- estimate wide last m n ;; b <- estimates wide (fst a) r ;; Ok (fst b, cons (snd a) (snd b))
  end.
