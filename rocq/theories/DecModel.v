(** Executable model of MonotoneDecomposer (include/walnut/monotone_decomposer.h).

    It derives from MonotoneTriangulator (TriModel) and overrides EmitTriangle;
    EmitRange, a pure virtual function, is modelled by the list of its calls.
    Both vectors are kept with their back first. *)
From Coq Require Import List ZArith Bool.
From Verif Require Import BigUIntModel GeoModel TriModel.
Import ListNotations.
Open Scope Z_scope.
(** convex_top_, convex_bottom_ and orientation_, 87-93 and 159-161; [md_out] are
    the calls of EmitRange so far: the orientation, and the vertices of range1
    followed by those of range2. *)
Record md_state (P : Type) := MD { md_top : list P; md_bottom : list P; md_or : Z; md_out : list (Z * list P) }.
Arguments MD {P}. Arguments md_top {P}. Arguments md_bottom {P}. Arguments md_or {P}. Arguments md_out {P}.
(** Product of two signed 64 bit words (BigIntWord is int64_t); overflow is
    undefined. *)
Definition word_mul (a b : Z) : res Z := if (- 2 ^ 63 <=? a * b) && (a * b <? 2 ^ 63) then Ok (a * b) else UB.
(** The call of EmitRange, 80-81 and 143-144. *)
Definition md_emit {P} (s : md_state P) : list (Z * list P) := md_out s ++ [(md_or s, md_top s ++ rev (md_bottom s))].
(** The end of EmitTriangle, 148-155, with both vectors empty. *)
Definition md_start {P} (k : kind P) (drop : nat) (t : triangle P) (out : list (Z * list P)) : md_state P :=
  MD (if t_top t then [t3 t; t1 t] else [t1 t]) (if t_top t then [t2 t] else [t3 t; t2 t]) (reduce_sign (k_twist k drop (t2 t) (t1 t) (t3 t))) out.
(** The condition in 123-126; && does not evaluate the second product if the
    first comparison fails. *)
Definition md_fits {P} (k : kind P) (drop : nat) (o : Z) (p1 p2 p3 prev_top prev_bottom : P) : res bool :=
  x <- word_mul (k_twist k drop p1 prev_top p3) o ;;
  if x <=? 0 then y <- word_mul (k_twist k drop p2 prev_bottom p3) o ;; Ok (0 <=? y) else Ok false.
(** EmitTriangle, 106-156. *)
Definition md_triangle {P} (dbg : bool) (k : kind P) (drop : nat) (s : md_state P) (t : triangle P) : res (md_state P) :=
  match md_top s with
  | [] => Ok (md_start k drop t (md_out s))
  | top_back :: top' =>
    _ <- check dbg (negb (match md_bottom s with [] => true | _ => false end)) ;;
    match md_bottom s with
    | [] => UB
    | bottom_back :: bottom' =>
      if k_equal k top_back (t1 t) && k_equal k bottom_back (t2 t) then
        let o := if md_or s =? 0 then reduce_sign (k_twist k drop (t2 t) (t1 t) (t3 t)) else md_or s in
        let prev_top := match top' with a :: _ => a | [] => last (md_bottom s) bottom_back end in
        let prev_bottom := match bottom' with a :: _ => a | [] => last (md_top s) top_back end in
        fits <- md_fits k drop o (t1 t) (t2 t) (t3 t) prev_top prev_bottom ;;
        if fits then
          Ok (if t_top t
              then MD (if k_equal k (t1 t) (t3 t) then md_top s else t3 t :: md_top s) (md_bottom s) o (md_out s)
              else MD (md_top s) (if k_equal k (t2 t) (t3 t) then md_bottom s else t3 t :: md_bottom s) o (md_out s))
        else Ok (md_start k drop t (md_emit s))
      else Ok (md_start k drop t (md_emit s))
    end
  end.
Fixpoint md_triangles {P} (dbg : bool) (k : kind P) (drop : nat) (s : md_state P) (ts : list (triangle P)) : res (md_state P) :=
  match ts with [] => Ok s | t :: r => s' <- md_triangle dbg k drop s t ;; md_triangles dbg k drop s' r end.
(** Build, 69-84.  The assertions that both vectors are empty hold: they are
    cleared at the end of every Build. *)
Definition md_build {P} (dbg : bool) (k : kind P) (drop mono : nat) (top bottom : list P) : res (list (Z * list P)) :=
  ts <- tri_build dbg k drop mono top bottom ;; s <- md_triangles dbg k drop (MD [] [] 0 []) ts ;; Ok (md_emit s).
