(** Arithmetic expressions a program can build from [BigInt] values: their
    meaning over the integers, and their evaluation with the modelled methods. *)
From Coq Require Import ZArith List.
From Verif Require Import WordModel BigIntModel.
Import ListNotations.
Open Scope Z_scope.

Inductive expr :=
| EInt (v : Z)                 (* BigInt(v), v an int64 *)
| EMax (n : Z)                 (* BigInt::max_value(n) *)
| EMin (n : Z)                 (* BigInt::min_value(n) *)
| EAdd (a b : expr)            (* a + b *)
| ESub (a b : expr)            (* a - b *)
| EMul (a b : expr)            (* a * b *)
| ENeg (a : expr)              (* -a *)
| EAbs (a : expr)              (* a.GetAbs() *)
| EShl (a : expr) (s : Z)      (* a << s *)
| EAddMul (t a b : expr)       (* t.AddMultiply(a, b) *)
| ESubMul (t a b : expr)       (* t.SubtractMultiply(a, b) *)
| EDet (a b c d : expr).       (* a.Determinant(b, c, d) *)

(** The integers the C++ constructors and shifts accept. *)
Fixpoint literals_ok (e : expr) : Prop :=
  match e with
  | EInt v => - 2 ^ 63 <= v < 2 ^ 63
  | EMax n | EMin n => 0 <= n
  | EAdd a b | ESub a b | EMul a b => literals_ok a /\ literals_ok b
  | ENeg a | EAbs a => literals_ok a
  | EShl a s => literals_ok a /\ 0 <= s
  | EAddMul t a b | ESubMul t a b => literals_ok t /\ literals_ok a /\ literals_ok b
  | EDet a b c d => literals_ok a /\ literals_ok b /\ literals_ok c /\ literals_ok d
  end.

(** Mathematical meaning. *)
Fixpoint meaning (e : expr) : Z :=
  match e with
  | EInt v => v
  | EMax n => 2 ^ n - 1
  | EMin n => - 2 ^ n
  | EAdd a b => meaning a + meaning b
  | ESub a b => meaning a - meaning b
  | EMul a b => meaning a * meaning b
  | ENeg a => - meaning a
  | EAbs a => Z.abs (meaning a)
  | EShl a s => meaning a * 2 ^ s
  | EAddMul t a b => meaning t + meaning a * meaning b
  | ESubMul t a b => meaning t - meaning a * meaning b
  | EDet a b c d => meaning a * meaning d - meaning b * meaning c
  end.

Definition bind {A B} (o : option A) (f : A -> option B) : option B :=
  match o with Some x => f x | None => None end.

(** Evaluation by the modelled code; [None] is undefined behaviour. *)
Fixpoint run (e : expr) : option bigint :=
  match e with
  | EInt v => Some (of_int v)
  | EMax n => Some (max_value n)
  | EMin n => Some (min_value n)
  | EAdd a b => bind (run a) (fun x => bind (run b) (fun y => Some (add x y)))
  | ESub a b => bind (run a) (fun x => bind (run b) (fun y => Some (sub x y)))
  | EMul a b => bind (run a) (fun x => bind (run b) (fun y => mul x y))
  | ENeg a => bind (run a) (fun x => Some (neg x))
  | EAbs a => bind (run a) (fun x => Some (fst (get_abs x)))
  | EShl a s => bind (run a) (fun x => Some (shl x s))
  | EAddMul t a b => bind (run t) (fun z => bind (run a) (fun x => bind (run b) (fun y => add_multiply z x y)))
  | ESubMul t a b => bind (run t) (fun z => bind (run a) (fun x => bind (run b) (fun y => sub_multiply z x y)))
  | EDet a b c d => bind (run a) (fun x => bind (run b) (fun y => bind (run c) (fun z => bind (run d) (fun w => determinant x y z w))))
  end.
