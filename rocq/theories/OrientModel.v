(** Executable model of OrientingMonotoneDecomposer
    (include/walnut/orienting_monotone_decomposer.h).

    It derives from MonotoneDecomposer (DecModel) and overrides EmitRange;
    EmitOriented, a pure virtual function, is modelled by the list of its calls:
    the orientation, and the vertices of range1 followed by those of range2.  The
    two chains are the lists of the vertices of the iterator ranges. *)
From Coq Require Import List ZArith Bool.
From Verif Require Import BigUIntModel GeoModel TriModel DecModel.
Import ListNotations.
Open Scope Z_scope.
(** The two loops that skip vertices equal to the minimum, 179-187 and 189-197:
    what is left of the chain, [] at its end. *)
Fixpoint od_skip {P} (k : kind P) (m : P) (c : list P) : list P :=
  match c with [] => [] | p :: r => if k_equal k p m then od_skip k m r else c end.
(** The loop of DetectOrientation, 217-251; [c1] and [c2] are what is left of the
    chains, [col] is collinear_vertex.  Some flipped_ stands for true, None for
    false.  With assertions chain2_pos is incremented first in 224: past the end
    that is undefined. *)
Fixpoint od_loop {P} (dbg : bool) (k : kind P) (drop mono : nat) (m col : P) (c1 : list P) : list P -> res (option bool) :=
  match c1 with
  | [] => fun c2 => match c2 with
                    | [] => if dbg then UB else Ok None
                    | [_] => Ok None
                    | _ => _ <- check dbg false ;; Ok None
                    end
  | p1 :: c1' =>
    fix go (c2 : list P) {struct c2} : res (option bool) :=
      match c2 with
      | [] => _ <- check dbg false ;; UB
      | p2 :: c2' =>
        if k_compare k mono p1 p2 <=? 0 then
          if k_twist k drop m col p1 =? 0 then od_loop dbg k drop mono m col c1' c2
          else Ok (Some (Bool.eqb true (0 <? k_twist k drop m col p1)))
        else
          if k_twist k drop m col p2 =? 0 then go c2'
          else Ok (Some (Bool.eqb false (0 <? k_twist k drop m col p2)))
      end
  end.
(** DetectOrientation, 156-253.  Dereferencing the end of a chain is undefined. *)
Definition od_detect {P} (dbg : bool) (k : kind P) (drop mono : nat) (chain1 chain2 : list P) : res (option bool) :=
  match chain1, chain2 with
  | m :: c1, m2 :: c2 =>
    _ <- check dbg (k_equal k m2 m) ;;
    match c1, c2 with
    | f1 :: _, f2 :: _ =>
      let twist := k_twist k drop m f1 f2 in
      if negb (twist =? 0) then Ok (Some (twist <? 0))
      else
        let c1' := od_skip k m c1 in
        let c2' := od_skip k m c2 in
        let advanced := k_equal k f1 m || k_equal k f2 m in
        match c1' with
        | [] => Ok None
        | g1 :: _ =>
          match c2' with
          | [] => _ <- check dbg false ;; UB
          | g2 :: _ =>
            let twist := if advanced then k_twist k drop m g1 g2 else 0 in
            if negb (twist =? 0) then Ok (Some (twist <? 0)) else od_loop dbg k drop mono m g1 c1' c2'
          end
        end
    | _, _ => UB
    end
  | _, _ => UB
  end.
(** EmitRange, 135-148: with flipped_ the ranges are swapped and reversed. *)
Definition od_flip {P} (e : Z * list P) : Z * list P := (- fst e, rev (snd e)).
(** Build, 56-104. *)
Definition od_build {P} (dbg : bool) (k : kind P) (drop mono : nat) (chain1 chain2 : list P) : res (list (Z * list P)) :=
  d <- od_detect dbg k drop mono chain1 chain2 ;;
  match d with
  | None => Ok [(0, rev (removelast chain1) ++ tl chain2)]
  | Some true => out <- md_build dbg k drop mono (removelast chain1) (tl chain2) ;; Ok (map od_flip out)
  | Some false => md_build dbg k drop mono (removelast chain2) (tl chain1)
  end.
