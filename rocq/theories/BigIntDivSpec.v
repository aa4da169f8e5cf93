(** Independent specification of decimal text. *)
From Coq Require Import ZArith List.
Import ListNotations.
Open Scope Z_scope.

(** ASCII code of a decimal digit. *)
Definition is_digit (c : Z) : Prop := 48 <= c <= 57.
(** Value of a digit string read left to right. *)
Definition decimal_value (ds : list Z) : Z := fold_left (fun acc c => 10 * acc + (c - 48)) ds 0.
(** No leading zero, except for the string "0" itself. *)
Definition plain_decimal (ds : list Z) : Prop :=
  Forall is_digit ds /\ ds <> [] /\ (hd 0 ds = 48 -> ds = [48]).
(** [txt] is the usual decimal notation of [v] (45 is '-'). *)
Definition decimal_text (v : Z) (txt : list Z) : Prop :=
  exists ds, plain_decimal ds /\ decimal_value ds = Z.abs v /\ txt = if v <? 0 then 45 :: ds else ds.
