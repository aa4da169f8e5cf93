(** Executable model of PlanarRange (include/walnut/planar_range.h) for Point3
    vertices, and of the outer loop of ConvexPolygonFactory::Build
    (include/walnut/convex_polygon_factory.h 21-32).

    The iterators are indices into one random access sequence [v]. *)
From Coq Require Import List Bool Arith ZArith.
From Verif Require Import BigUIntModel GeoModel ConcatModel.
Import ListNotations.
Open Scope nat_scope.

Definition get {A} (v : list A) (i : nat) : res A := match nth_error v i with Some x => Ok x | None => UB end.
Definition hs_zero : hspace3 := HS (V3 0 0 0) 0.
Definition coincident_pt (h : hspace3) (p : vec3) : bool := (hs_compare_pt h p =? 0)%Z.
(** range_, size_, plane_ and the two in-out iterators. *)
Record planar := PR { pr_range : concat_range; pr_size : nat; pr_plane : hspace3; pr_begin : nat; pr_end : nat }.
(** The do loop, planar_range.h 113-123; [None] when the input ran out.
    Returns the plane, remaining_begin and size_. *)
Fixpoint find_plane (fuel : nat) (v : list vec3) (p1 p2 : vec3) (rb re size : nat) : res (option hspace3 * nat * nat) :=
  match fuel with
  | O => NoFuel
  | S f =>
    if rb =? re then Ok (None, rb, size)
    else
      p3 <- get v rb ;;
      let plane := hs_of_points p1 p2 p3 in
      if hs_valid plane then Ok (Some plane, S rb, S size) else find_plane f v p1 p2 (S rb) re (S size)
  end.
(** First while loop, 127-137; [true] when the input ran out. *)
Fixpoint take_front (fuel : nat) (v : list vec3) (plane : hspace3) (rb re size : nat) : res (bool * nat * nat) :=
  match fuel with
  | O => NoFuel
  | S f =>
    if rb =? re then Ok (true, rb, size)
    else
      p <- get v rb ;;
      if negb (coincident_pt plane p) then Ok (false, rb, size) else take_front f v plane (S rb) re (S size)
  end.
(** Second while loop, 143-151. *)
Fixpoint take_back (dbg : bool) (fuel : nat) (v : list vec3) (plane : hspace3) (rb re size : nat) : res (nat * nat) :=
  match fuel with
  | O => NoFuel
  | S f =>
    _ <- check dbg (negb (rb =? re)) ;;
    match re with
    | O => UB
    | S re' =>
      p <- get v re' ;;
      if negb (coincident_pt plane p) then Ok (S re', size) else take_back dbg f v plane rb re' (S size)
    end
  end.
(** PlanarRange::Build, 84-159. *)
Definition pr_build (dbg : bool) (v : list vec3) (b e : nat) : res planar :=
  if b =? e then Ok (PR cr_new 0 hs_zero b e)
  else
    match e with
    | O => UB
    | S re =>
      p1 <- get v re ;;
      if b =? re then Ok (PR (cr_append cr_new (At 0 b) (At 0 e)) 1 hs_zero b re)
      else
        p2 <- get v b ;;
        t <- find_plane (S (length v)) v p1 p2 (S b) re 2 ;;
        match t with
        | (None, rb, size) => Ok (PR (cr_append cr_new (At 0 b) (At 0 e)) size hs_zero rb re)
        | (Some plane, rb, size) =>
          u <- take_front (S (length v)) v plane rb re size ;;
          match u with
          | (true, rb, size) => Ok (PR (cr_append cr_new (At 0 b) (At 0 e)) size plane rb re)
          | (false, rb, size) =>
            w <- take_back dbg (S (length v)) v plane rb re size ;;
            let '(re, size) := w in
            Ok (PR (cr_append (cr_append cr_new (At 0 b) (At 0 rb)) (At 0 re) (At 0 e)) size plane (rb - 1) (S re))
          end
        end
    end.
(** ConvexPolygonFactory::Build(begin, end), convex_polygon_factory.h 21-32;
    the planar ranges handed on, in order. *)
Fixpoint fac_build (dbg : bool) (fuel : nat) (v : list vec3) (b e : nat) : res (list planar) :=
  if b =? e then Ok []
  else
    match fuel with
    | O => NoFuel
    | S f => r <- pr_build dbg v b e ;; t <- fac_build dbg f v (pr_begin r) (pr_end r) ;; Ok (r :: t)
    end.
