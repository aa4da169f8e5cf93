(** Executable model of MonotoneTriangulator
    (include/walnut/monotone_triangulator.h).

    The class is a template over the point type; [kind] holds the operations of
    a point type that it uses.  An iterator range is the list of its points.
    EmitTriangle, a pure virtual function, is modelled by the list of its calls. *)
From Coq Require Import List ZArith Bool.
From Verif Require Import BigUIntModel GeoModel.
Import ListNotations.
Open Scope Z_scope.
(** CompareComponent, Get2DTwistDir(drop_dimension, p1, p3) of [c], and ==. *)
Record kind (P : Type) := Kind { k_compare : nat -> P -> P -> Z; k_twist : nat -> P -> P -> P -> Z; k_equal : P -> P -> bool }.
Arguments Kind {P}. Arguments k_compare {P}. Arguments k_twist {P}. Arguments k_equal {P}.
(** Point3: point3.h 85-97 and 122-130; HomoPoint3: homo_point3.h and
    homo_point3.cpp (see GeoModel). *)
Definition kind_point3 : kind vec3 := Kind (fun d a b => zcompare (comp a d) (comp b d)) p3_twist v3_eq.
Definition kind_homo3 : kind hpoint3 := Kind hp_compare_comp hp_twist hp_eq.
(** The arguments of EmitTriangle, 59-69. *)
Record triangle (P : Type) := Tri { t_top : bool; t1 : P; t2 : P; t3 : P }.
Arguments Tri {P}. Arguments t_top {P}. Arguments t1 {P}. Arguments t2 {P}. Arguments t3 {P}.
(** reflex_stack_ (its back first) and top_chain_is_current_, 80-98; [ts_out]
    are the triangles emitted so far. *)
Record tri_state (P : Type) := TS { ts_stack : list P; ts_top : bool; ts_out : list (triangle P) }.
Arguments TS {P}. Arguments ts_stack {P}. Arguments ts_top {P}. Arguments ts_out {P}.
(** The loop of SwitchChains, 189-202, over reflex_stack_ from its front. *)
Fixpoint fan_out {P} (cur : bool) (next : P) (front : list P) : list (triangle P) :=
  match front with
  | a :: (b :: _) as r => (if cur then Tri (negb cur) b a next else Tri (negb cur) a b next) :: fan_out cur next r
  | _ => []
  end.
(** SwitchChains, 185-205; back() of an empty stack is undefined. *)
Definition switch_chains {P} (next : P) (s : tri_state P) : res (tri_state P) :=
  match ts_stack s with
  | [] => UB
  | back :: _ => Ok (TS [back] (ts_top s) (ts_out s ++ fan_out (ts_top s) next (rev (ts_stack s))))
  end.
(** The while loop of ProcessVertex, 162-180. *)
Fixpoint pop_convex {P} (k : kind P) (drop : nat) (is_top : bool) (v : P) (stack : list P) : list P * list (triangle P) :=
  match stack with
  | a :: (b :: _) as r =>
    let p1 := if is_top then a else b in
    let p2 := if is_top then b else a in
    if k_twist k drop p2 p1 v <=? 0 then
      let '(s, o) := pop_convex k drop is_top v r in (s, Tri is_top p1 p2 v :: o)
    else (stack, [])
  | _ => (stack, [])
  end.
(** ProcessVertex, 149-183. *)
Definition process_vertex {P} (dbg : bool) (k : kind P) (drop : nat) (is_top : bool) (v : P) (s : tri_state P) : res (tri_state P) :=
  _ <- check dbg (2 <=? length (ts_stack s))%nat ;;
  if negb (Bool.eqb is_top (ts_top s)) then
    s <- switch_chains v s ;; Ok (TS (v :: ts_stack s) is_top (ts_out s))
  else
    let '(st, o) := pop_convex k drop is_top v (ts_stack s) in Ok (TS (v :: st) (ts_top s) (ts_out s ++ o)).
(** The first while loop of Build, 123-134; the rest of the bottom chain is
    returned.  Comparing with the end of the bottom chain is undefined. *)
Fixpoint tri_loop {P} (dbg : bool) (k : kind P) (drop mono : nat) (top : list P) : list P -> tri_state P -> res (list P * tri_state P) :=
  match top with
  | [] => fun bottom s => Ok (bottom, s)
  | t :: top' =>
    fix go (bottom : list P) (s : tri_state P) {struct bottom} : res (list P * tri_state P) :=
      match bottom with
      | [] => _ <- check dbg false ;; UB
      | b :: bottom' =>
        if k_compare k mono b t <? 0 then s <- process_vertex dbg k drop false b s ;; go bottom' s
        else s <- process_vertex dbg k drop true t s ;; tri_loop dbg k drop mono top' bottom s
      end
  end.
(** The second while loop and the end of Build, 135-147; [prev] is
    *bottom_prev, [rest] what follows. *)
Fixpoint tri_finish {P} (dbg : bool) (k : kind P) (drop : nat) (prev : P) (rest : list P) (s : tri_state P) : res (list (triangle P)) :=
  match rest with
  | [] => s <- switch_chains prev s ;; _ <- check dbg (length (ts_stack s) =? 1)%nat ;; Ok (ts_out s)
  | b :: rest' => s <- process_vertex dbg k drop false prev s ;; tri_finish dbg k drop b rest' s
  end.
(** Build, 101-147.  Incrementing an iterator past the end is undefined. *)
Definition tri_build {P} (dbg : bool) (k : kind P) (drop mono : nat) (top bottom : list P) : res (list (triangle P)) :=
  match top with
  | [] => _ <- check dbg false ;; UB
  | t0 :: top =>
    match bottom with
    | [] => _ <- check dbg false ;; UB
    | b0 :: bottom' =>
      let bottom_first := match top with [] => true | t1 :: _ => k_compare k mono b0 t1 <? 0 end in
      r <- (if bottom_first then tri_loop dbg k drop mono top bottom' (TS [b0; t0] false [])
            else match top with
                 | [] => UB
                 | t1 :: top' => tri_loop dbg k drop mono top' bottom (TS [t1; t0] true [])
                 end) ;;
      match fst r with
      | [] => UB
      | b :: rest => tri_finish dbg k drop b rest (snd r)
      end
    end
  end.
