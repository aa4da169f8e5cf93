(** Model of the vector, point, plane and line classes.

    Every [BigInt] value is represented by the integer it denotes.  This is
    justified by C01-C05 (PropBigInt.v, PropBigIntDiv.v): on canonical word
    lists every operation used here computes the integer operation exactly.
    The only places where the word level shows through are kept explicit:
    - [abs()] on INT64_MIN and INT64_MIN / -1 are undefined behaviour
      ([zabs], [zdiv_rem]; C03_abs_int64_min_refuted,
      C05_int64_min_by_minus_one_refuted);
    - [GetSign()] returns a word whose value, not only its sign, matters when
      it is combined with XOR ([zget_sign], proved equal to the word level
      [get_sign] in GeoBridge.v).
    Coordinate access by a run-time index is by [nat] with index >= 3 mapped to
    the last component (the code would be undefined there; no caller does it). *)
From Coq Require Import ZArith List Bool.
From Verif Require Import BigUIntModel.
Open Scope Z_scope.

(** ** BigInt operations on the denoted integers *)
(** BigInt::abs, big_int.h 731-740 (llabs on a one-word value). *)
Definition zabs (v : Z) : res Z := if v =? - 2 ^ 63 then UB else Ok (Z.abs v).
(** BigInt::Compare, big_int.h 190-220: -1, 0 or 1. *)
Definition zcompare (a b : Z) : Z := match a ?= b with Lt => -1 | Eq => 0 | Gt => 1 end.
(** BigInt::LessThan(flip, other), big_int.h 526-556. *)
Definition zless_than (flip : bool) (a b : Z) : bool := if flip then b <? a else a <? b.
(** Number of 64 bit words of the canonical representation. *)
Definition zwords (v : Z) : Z :=
  (Z.log2 (if v <? 0 then - v - 1 else v) + (if (v =? 0) || (v =? -1) then 0 else 1)) / 64 + 1.
(** BigInt::GetSign, big_int.h 767-770: top word | number of extra words. *)
Definition zget_sign (v : Z) : Z := Z.lor (v / 2 ^ (64 * (zwords v - 1))) (zwords v - 1).
(** BigInt::SignExtension, big_int.h 803-805. *)
Definition zsign_ext (v : Z) : Z := if v <? 0 then -1 else 0.
(** BigInt::GetAbsMult(), big_int.h 782-785. *)
Definition zabs_mult (v : Z) : Z := Z.lor (zsign_ext v) 1.
(** BigInt::GetAbsMult(other), big_int.h 789-791. *)
Definition zabs_mult2 (v o : Z) : Z := Z.lor (Z.lxor (zsign_ext v) (zsign_ext o)) 1.
(** BigInt::HasDifferentSign, big_int.h 797-799. *)
Definition zdiff_sign (v o : Z) : bool := Z.lxor (zget_sign v) (zget_sign o) <? 0.
(** BigInt::DivideRemainder, big_int.h 679-686, release build. *)
Definition zdiv_rem (a b : Z) : res (Z * Z) :=
  if b =? 0 then UB else if (a =? - 2 ^ 63) && (b =? -1) then UB else Ok (Z.quot a b, Z.rem a b).
(** operator/=, big_int.h 668-671. *)
Definition zdivide (a b : Z) : res Z := x <- zdiv_rem a b ;; Ok (fst x).

(** ** rational.h *)
(** RoundUp, rational.h 15-32. *)
Definition round_up (num old_den new_den : Z) : res Z :=
  qr <- zdiv_rem (num * new_den) old_den ;;
  let q := fst qr in let r := snd qr in
  Ok (if (0 <=? Z.lxor (Z.lxor (zget_sign r) (zget_sign old_den)) (zget_sign new_den)) && negb (r =? 0)
      then q + zabs_mult new_den else q).
(** RoundDown, rational.h 37-56. *)
Definition round_down (num old_den new_den : Z) : res Z :=
  qr <- zdiv_rem (num * new_den) old_den ;;
  let q := fst qr in let r := snd qr in
  Ok (if (Z.lxor (Z.lxor (zget_sign r) (zget_sign old_den)) (zget_sign new_den) <? 0) && negb (r =? 0)
      then q - zabs_mult new_den else q).
(** IsLessThan, rational.h 58-65. *)
Definition rat_lt (n1 d1 n2 d2 : Z) : bool :=
  zless_than (xorb (zget_sign d1 <? 0) (zget_sign d2 <? 0)) (n1 * d2) (n2 * d1).
(** Equals, rational.h 68-71. *)
Definition rat_eq (n1 d1 n2 d2 : Z) : bool := n1 * d2 =? n2 * d1.
(** IsHalfRotationLessThan, rational.h 83-98. *)
Definition half_rotation_lt (x1 y1 x2 y2 y1_x2 y2_x1 : Z) : bool :=
  let adj1 := if (0 <=? zget_sign y1) && (zget_sign x1 <? 0) then 1 else 0 in
  let adj2 := if (0 <=? zget_sign y2) && (zget_sign x2 <? 0) then 1 else 0 in
  let flip := Z.lxor (zget_sign y1 - adj1) (zget_sign y2 - adj2) <? 0 in
  zless_than flip y1_x2 y2_x1.

(** ** vector2.h *)
(** Class Vector2, vector2.h 12-208. *)
Record vec2 := V2 { x2 : Z; y2 : Z }.
(** operator==, vector2.h 95-98. *)
Definition v2_eq (a b : vec2) : bool := (x2 a =? x2 b) && (y2 a =? y2 b).
(** operator-, vector2.h 100-102. *)
Definition v2_sub (a b : vec2) : vec2 := V2 (x2 a - x2 b) (y2 a - y2 b).
(** Dot, vector2.h 125-127. *)
Definition v2_dot (a b : vec2) : Z := x2 a * x2 b + y2 a * y2 b.
(** Cross, vector2.h 130-132. *)
Definition v2_cross (a b : vec2) : Z := x2 a * y2 b - y2 a * x2 b.
(** Scale, vector2.h 134-136. *)
Definition v2_scale (a : vec2) (s : Z) : vec2 := V2 (x2 a * s) (y2 a * s).
(** IsZero, vector2.h 150-152. *)
Definition v2_is_zero (a : vec2) : bool := (x2 a =? 0) && (y2 a =? 0).
(** GetPerpendicular, vector2.h 158-160. *)
Definition v2_perp (a : vec2) : vec2 := V2 (- y2 a) (x2 a).
(** operator-(), vector2.h 180-182; Negate 172-176. *)
Definition v2_neg (a : vec2) : vec2 := V2 (- x2 a) (- y2 a).
(** IsHalfRotationLessThan, vector2.h 192-195; HalfRotationCompare 24-31. *)
Definition v2_half_rotation_lt (a b : vec2) : bool :=
  half_rotation_lt (x2 a) (y2 a) (x2 b) (y2 b) (y2 a * x2 b) (y2 b * x2 a).
(** IsRotationLessThan, vector2.h 240-258.  The chars hold 0..3. *)
Definition v2_rotation_lt (a b : vec2) : bool :=
  let ys := if zget_sign (y2 a) <? 0 then 1 else 0 in
  let oys := if zget_sign (y2 b) <? 0 then 1 else 0 in
  let packed := Z.lor (2 * ys) (if zget_sign (x2 a) <? 0 then 1 else 0) in
  let opacked := Z.lor (2 * oys) (if zget_sign (x2 b) <? 0 then 1 else 0) in
  if negb (packed =? opacked) then Z.lxor packed ys <? Z.lxor opacked oys
  else y2 a * x2 b <? y2 b * x2 a.
(** IsSameDir, vector2.h 210-223. *)
Definition v2_same_dir (a b : vec2) : res bool :=
  let pivot := fun v => if negb (x2 a =? 0) then x2 v else y2 v in
  so <- zabs (pivot a) ;; sm <- zabs (pivot b) ;;
  Ok ((x2 a * sm =? x2 b * so) && (y2 a * sm =? y2 b * so)).
(** IsSameOrOppositeDir, vector2.h 225-238. *)
Definition v2_same_or_opposite_dir (a b : vec2) : bool :=
  let pivot := fun v => if negb (x2 a =? 0) then x2 v else y2 v in
  let so := pivot a in let sm := pivot b in
  (x2 a * sm =? x2 b * so) && (y2 a * sm =? y2 b * so).

(** ** vector3.h *)
(** Class Vector3, vector3.h 11-203. *)
Record vec3 := V3 { vx : Z; vy : Z; vz : Z }.
(** components()[i], vector3.h 59-65. *)
Definition comp (a : vec3) (i : nat) : Z :=
  match i with O => vx a | S O => vy a | _ => vz a end.
(** operator==, vector3.h 67-71. *)
Definition v3_eq (a b : vec3) : bool := (vx a =? vx b) && (vy a =? vy b) && (vz a =? vz b).
(** operator-, vector3.h 79-82. *)
Definition v3_sub (a b : vec3) : vec3 := V3 (vx a - vx b) (vy a - vy b) (vz a - vz b).
(** operator+, vector3.h 84-94 (also +=). *)
Definition v3_add (a b : vec3) : vec3 := V3 (vx a + vx b) (vy a + vy b) (vz a + vz b).
(** Dot, vector3.h 113-118. *)
Definition v3_dot (a b : vec3) : Z := vx a * vx b + vy a * vy b + vz a * vz b.
(** Cross, vector3.h 121-126. *)
Definition v3_cross (a b : vec3) : vec3 :=
  V3 (vy a * vz b - vz a * vy b) (vz a * vx b - vx a * vz b) (vx a * vy b - vy a * vx b).
(** Hadamard, vector3.h 129-133. *)
Definition v3_hadamard (a b : vec3) : vec3 := V3 (vx a * vx b) (vy a * vy b) (vz a * vz b).
(** Scale, vector3.h 140-154, 245-247. *)
Definition v3_scale (a : vec3) (s : Z) : vec3 := V3 (vx a * s) (vy a * s) (vz a * s).
(** IsZero, vector3.h 156-158. *)
Definition v3_is_zero (a : vec3) : bool := (vx a =? 0) && (vy a =? 0) && (vz a =? 0).
(** GetFirstNonzeroDimension, vector3.h 160-165; [None] is the result -1. *)
Definition first_nonzero (a : vec3) : option nat :=
  if negb (vx a =? 0) then Some 0%nat else if negb (vy a =? 0) then Some 1%nat
  else if negb (vz a =? 0) then Some 2%nat else None.
(** DropDimension, vector3.h 167-170. *)
Definition drop_dim (a : vec3) (d : nat) : vec2 :=
  V2 (comp a ((d + 1) mod 3)) (comp a ((d + 2) mod 3)).
(** GetComponentAfterDrop, vector3.h 172-175. *)
Definition comp_after_drop (a : vec3) (c d : nat) : Z := comp a ((c + d + 1) mod 3).
(** operator-(), vector3.h 191-193; Negate 183-187. *)
Definition v3_neg (a : vec3) : vec3 := V3 (- vx a) (- vy a) (- vz a).
(** IsSameDir, vector3.h 205-222. *)
Definition v3_same_dir (a b : vec3) : res bool :=
  let pivot := fun v => if negb (vx a =? 0) then vx v else if negb (vy a =? 0) then vy v else vz v in
  so <- zabs (pivot a) ;; sm <- zabs (pivot b) ;;
  Ok ((vx a * sm =? vx b * so) && (vy a * sm =? vy b * so) && (vz a * sm =? vz b * so)).
(** IsSameOrOppositeDir, vector3.h 224-241. *)
Definition v3_same_or_opposite_dir (a b : vec3) : bool :=
  let pivot := fun v => if negb (vx a =? 0) then vx v else if negb (vy a =? 0) then vy v else vz v in
  let so := pivot a in let sm := pivot b in
  (vx a * sm =? vx b * so) && (vy a * sm =? vy b * so) && (vz a * sm =? vz b * so).
(** Vector3::Reduce, vector3.cpp 13-26.  [gcd] stands for
    GetGreatestCommonDivisor: its result has an unspecified sign and it can be
    undefined when both operands are negative (C08). *)
Definition v3_reduce (gcd : Z -> Z -> res Z) (a : vec3) : res vec3 :=
  g <- gcd (vx a) (vy a) ;; g <- gcd g (vz a) ;; let f := Z.abs g in
  x <- zdivide (vx a) f ;; y <- zdivide (vy a) f ;; z <- zdivide (vz a) f ;; Ok (V3 x y z).

(** ** point2.h, homo_point2.h *)
(** Point2::GetTwistDir, point2.h 57-60; Point2 is its vector from the origin. *)
Definition p2_twist (c p1 p3 : vec2) : Z := zget_sign (v2_cross (v2_sub p1 c) (v2_sub p3 c)).
(** Class HomoPoint2, homo_point2.h 14-. *)
Record hpoint2 := HP2 { hv2 : vec2; hw2 : Z }.
(** std::lexicographical_compare over two coordinates. *)
Definition lex2 (lt : Z -> Z -> bool) (a b : Z * Z) : bool :=
  if lt (fst a) (fst b) then true else if lt (fst b) (fst a) then false else lt (snd a) (snd b).
(** HomoPoint2::LexicographicallyLt, homo_point2.h 71-78. *)
Definition hp2_lex_lt (a b : hpoint2) : bool :=
  let sa := v2_scale (hv2 a) (hw2 b) in let sb := v2_scale (hv2 b) (hw2 a) in
  lex2 Z.ltb (x2 sa, y2 sa) (x2 sb, y2 sb).
(** HomoPoint2::operator==, homo_point2.h 81-84. *)
Definition hp2_eq (a b : hpoint2) : bool := v2_eq (v2_scale (hv2 a) (hw2 b)) (v2_scale (hv2 b) (hw2 a)).

(** ** half_space2.h *)
(** Class HalfSpace2, half_space2.h 12-156. *)
Record hspace2 := HS2 { hn2 : vec2; hd2 : Z }.
(** HalfSpace2(p1, p2), half_space2.h 51-53. *)
Definition hs2_of_points (p1 p2 : vec2) : hspace2 :=
  let n := v2_perp (v2_sub p2 p1) in HS2 n (v2_dot n p1).
(** Compare(Point2), half_space2.h 57-59. *)
Definition hs2_compare_pt (h : hspace2) (v : vec2) : Z := zcompare (v2_dot (hn2 h) v) (hd2 h).
(** Compare(HomoPoint2), half_space2.h 68-71. *)
Definition hs2_compare (h : hspace2) (v : hpoint2) : Z :=
  zcompare (v2_dot (hn2 h) (hv2 v)) (hw2 v * hd2 h) * zabs_mult (hw2 v).
(** operator==, half_space2.h 90-107. *)
Definition hs2_eq (a b : hspace2) : res bool :=
  let pivot := fun h => if negb (hd2 a =? 0) then hd2 h
                        else if negb (x2 (hn2 a) =? 0) then x2 (hn2 h) else y2 (hn2 h) in
  so <- zabs (pivot a) ;; sm <- zabs (pivot b) ;;
  Ok ((x2 (hn2 a) * sm =? x2 (hn2 b) * so) && (y2 (hn2 a) * sm =? y2 (hn2 b) * so) && (hd2 a * sm =? hd2 b * so)).
(** HasSameLine, half_space2.h 116-133. *)
Definition hs2_same_line (a b : hspace2) : bool :=
  let pivot := fun h => if negb (hd2 a =? 0) then hd2 h
                        else if negb (x2 (hn2 a) =? 0) then x2 (hn2 h) else y2 (hn2 h) in
  let so := pivot a in let sm := pivot b in
  (x2 (hn2 a) * sm =? x2 (hn2 b) * so) && (y2 (hn2 a) * sm =? y2 (hn2 b) * so) && (hd2 a * sm =? hd2 b * so).
(** operator-(), half_space2.h 145-147. *)
Definition hs2_neg (a : hspace2) : hspace2 := HS2 (v2_neg (hn2 a)) (- hd2 a).
(** HalfSpace2SidelessCompare, half_space2_sideless_compare.h 14-31. *)
Definition hs2_sideless_lt (h1 h2 : hspace2) : bool :=
  if v2_half_rotation_lt (hn2 h1) (hn2 h2) then true
  else if v2_half_rotation_lt (hn2 h2) (hn2 h1) then false
  else if negb (x2 (hn2 h1) =? 0)
  then zless_than (zdiff_sign (x2 (hn2 h1)) (x2 (hn2 h2))) (hd2 h1 * x2 (hn2 h2)) (hd2 h2 * x2 (hn2 h1))
  else zless_than (zdiff_sign (y2 (hn2 h1)) (x2 (hn2 h2))) (hd2 h1 * y2 (hn2 h2)) (hd2 h2 * y2 (hn2 h1)).

(** ** point3.h, homo_point3.h *)
(** Point3 is its vector from the origin.  Get2DTwistDir, point3.h 93-97. *)
Definition p3_twist (d : nat) (c p1 p3 : vec3) : Z := p2_twist (drop_dim c d) (drop_dim p1 d) (drop_dim p3 d).
(** Get2DTwistDirReduced, point3.h 106-116 and homo_point3.h 143-153. *)
Definition reduce_sign (t : Z) : Z := if 0 <? t then 1 else if t <? 0 then -1 else 0.
(** std::lexicographical_compare over three coordinates. *)
Definition lex3 (lt : Z -> Z -> bool) (a b : Z * Z * Z) : bool :=
  let '(a1, a2, a3) := a in let '(b1, b2, b3) := b in
  if lt a1 b1 then true else if lt b1 a1 then false else lex2 lt (a2, a3) (b2, b3).
(** Point3::LexicographicallyLt, point3.cpp 8-13. *)
Definition p3_lex_lt (a b : vec3) : bool := lex3 Z.ltb (vx a, vy a, vz a) (vx b, vy b, vz b).
(** Point3::CompareComponent, point3.h 127-130. *)
Definition p3_compare_comp (i : nat) (a b : vec3) : Z := zcompare (comp a i) (comp b i).

(** Class HomoPoint3, homo_point3.h 17-242. *)
Record hpoint3 := HP { hv : vec3; hw : Z }.
(** Difference, homo_point3.h 96-100: the vector and the denominator. *)
Definition hp_difference (a b : hpoint3) : vec3 * Z :=
  (v3_sub (v3_scale (hv a) (hw b)) (v3_scale (hv b) (hw a)), hw b * hw a).
(** DropDimension, homo_point3.h 155-158. *)
Definition hp_drop_dim (a : hpoint3) (d : nat) : hpoint2 := HP2 (drop_dim (hv a) d) (hw a).
(** operator==(HomoPoint3), homo_point3.h 182-185. *)
Definition hp_eq (a b : hpoint3) : bool := v3_eq (v3_scale (hv a) (hw b)) (v3_scale (hv b) (hw a)).
(** operator==(Point3), homo_point3.h 188-190. *)
Definition hp_eq_pt (a : hpoint3) (b : vec3) : bool := v3_eq (hv a) (v3_scale b (hw a)).
(** HomoPoint3StrictEq, homo_point3.h 268-273. *)
Definition hp_strict_eq (a b : hpoint3) : bool :=
  (vx (hv a) =? vx (hv b)) && (vy (hv a) =? vy (hv b)) && (vz (hv a) =? vz (hv b)) && (hw a =? hw b).
(** AddOffset, homo_point3.h 275-281. *)
Definition hp_add_offset (a : hpoint3) (dir : vec3) (den : Z) : hpoint3 :=
  HP (V3 (vx (hv a) * den + vx dir * hw a) (vy (hv a) * den + vy dir * hw a) (vz (hv a) * den + vz dir * hw a))
     (den * hw a).
(** CompareComponent, homo_point3.h 283-294. *)
Definition hp_compare_comp (i : nat) (a b : hpoint3) : Z :=
  zcompare (comp (hv a) i * hw b) (comp (hv b) i * hw a) * zabs_mult2 (hw b) (hw a).
(** IsLessThanComponent, homo_point3.h 296-302. *)
Definition hp_lt_comp (i : nat) (a b : hpoint3) : bool := rat_lt (comp (hv a) i) (hw a) (comp (hv b) i) (hw b).
(** IsEquivalentComponent, homo_point3.h 304-311. *)
Definition hp_equiv_comp (i : nat) (a b : hpoint3) : bool := comp (hv a) i * hw b =? comp (hv b) i * hw a.
(** LexicographicallyLt, homo_point3.cpp 52-64. *)
Definition hp_lex_lt (a b : hpoint3) : bool :=
  let f := zabs_mult2 (hw b) (hw a) in
  let sa := v3_scale (hv a) (hw b * f) in let sb := v3_scale (hv b) (hw a * f) in
  lex3 Z.ltb (vx sa, vy sa, vz sa) (vx sb, vy sb, vz sb).
(** TopnessLt, homo_point3.cpp 66-79. *)
Definition hp_topness_lt (a b : hpoint3) : bool :=
  let sa := v3_scale (hv a) (hw b) in let sb := v3_scale (hv b) (hw a) in
  lex3 (zless_than (zdiff_sign (hw b) (hw a))) (vz sa, vy sa, vx sa) (vz sb, vy sb, vx sb).
(** Get2DTwistDir, homo_point3.cpp 81-105. *)
Definition hp_twist (d : nat) (c p1 p3 : hpoint3) : Z :=
  let p1o := v2_scale (drop_dim (hv p1) d) (hw c) in
  let p2o1 := v2_scale (drop_dim (hv c) d) (hw p1) in
  let p2o3 := v2_scale (drop_dim (hv c) d) (hw p3) in
  let p3o := v2_scale (drop_dim (hv p3) d) (hw c) in
  Z.lxor (Z.lxor (zget_sign (v2_cross (v2_sub p1o p2o1) (v2_sub p3o p2o3))) (zsign_ext (hw p1))) (zsign_ext (hw p3)).
(** Reduce, homo_point3.cpp 107-124; [gcd] as in [v3_reduce]. *)
Definition hp_reduce (gcd : Z -> Z -> res Z) (a : hpoint3) : res hpoint3 :=
  g <- gcd (hw a) (vx (hv a)) ;; g <- gcd g (vy (hv a)) ;; f <- gcd g (vz (hv a)) ;;
  let f := if Bool.eqb (zget_sign f <? 0) (zget_sign (hw a) <? 0) then f else - f in
  w <- zdivide (hw a) f ;; x <- zdivide (vx (hv a)) f ;; y <- zdivide (vy (hv a)) f ;;
  z <- zdivide (vz (hv a)) f ;; Ok (HP (V3 x y z) w).

(** ** half_space3.h *)
(** Class HalfSpace3, half_space3.h 16-271. *)
Record hspace3 := HS { hn : vec3; hd : Z }.
(** HalfSpace3(normal, coincident), half_space3.h 36-43; GetAbs never
    overflows (big_int.h 742-749). *)
Definition hs_of_normal_point (n : vec3) (p : hpoint3) : hspace3 :=
  let d := v3_dot n (hv p) in HS (v3_scale n (Z.abs (hw p))) (if hw p <? 0 then - d else d).
(** HalfSpace3(Point3, Point3, Point3), half_space3.h 61-66. *)
Definition hs_of_points (p1 p2 p3 : vec3) : hspace3 :=
  let n := v3_cross (v3_sub p3 p2) (v3_sub p1 p2) in HS n (v3_dot n p2).
(** HalfSpace3(HomoPoint3, HomoPoint3, HomoPoint3), half_space3.h 68-80. *)
Definition hs_of_hpoints (p1 p2 p3 : hpoint3) : res hspace3 :=
  let n := v3_scale (v3_cross (v3_sub (v3_scale (hv p3) (hw p2)) (v3_scale (hv p2) (hw p3)))
                              (v3_sub (v3_scale (hv p1) (hw p2)) (v3_scale (hv p2) (hw p1))))
                    (zabs_mult2 (hw p1) (hw p3)) in
  a <- zabs (hw p2) ;; Ok (HS (v3_scale n a) (v3_dot n (hv p2) * zabs_mult (hw p2))).
(** [n.components()[i] = v] on a zero vector. *)
Definition set_comp (a : vec3) (i : nat) (v : Z) : vec3 :=
  match i with O => V3 v (vy a) (vz a) | S O => V3 (vx a) v (vz a) | _ => V3 (vx a) (vy a) v end.
(** HalfSpace3(HalfSpace2, add_dimension), half_space3.h 89-95; the component
    not assigned keeps the default BigInt, 0. *)
Definition hs_extrude (h : hspace2) (d : nat) : hspace3 :=
  HS (set_comp (set_comp (V3 0 0 0) ((d + 1) mod 3) (x2 (hn2 h))) ((d + 2) mod 3) (y2 (hn2 h))) (hd2 h).
(** GetAxisAligned, half_space3.h 104-109. *)
Definition hs_axis_aligned (d : nat) (num den : Z) : hspace3 := HS (set_comp (V3 0 0 0) d den) num.
(** IsValid, half_space3.h 138-140. *)
Definition hs_valid (h : hspace3) : bool := negb (v3_is_zero (hn h)).
(** Compare(Point3), half_space3.h 144-146. *)
Definition hs_compare_pt (h : hspace3) (v : vec3) : Z := zcompare (v3_dot (hn h) v) (hd h).
(** Compare(HomoPoint3), half_space3.h 155-158. *)
Definition hs_compare (h : hspace3) (v : hpoint3) : Z :=
  zcompare (v3_dot (hn h) (hv v)) (hw v * hd h) * zabs_mult (hw v).
(** IsCoincident, half_space3.h 149-151, 161-163. *)
Definition hs_coincident (h : hspace3) (v : hpoint3) : bool := hs_compare h v =? 0.
(** Compare(HalfSpace3, nonzero_dimension), half_space3.h 176-180. *)
Definition hs_compare_parallel (h p : hspace3) (i : nat) : Z :=
  zcompare (hd h * comp (hn p) i) (hd p * comp (hn h) i) * zabs_mult (comp (hn p) i).
(** The component on which both equality operators scale. *)
Definition hs_pivot (a h : hspace3) : Z :=
  if negb (hd a =? 0) then hd h else if negb (vx (hn a) =? 0) then vx (hn h)
  else if negb (vy (hn a) =? 0) then vy (hn h) else vz (hn h).
Definition hs_scaled_eq (a b : hspace3) (sm so : Z) : bool :=
  (vx (hn a) * sm =? vx (hn b) * so) && (vy (hn a) * sm =? vy (hn b) * so) &&
  (vz (hn a) * sm =? vz (hn b) * so) && (hd a * sm =? hd b * so).
(** operator==, half_space3.h 193-214. *)
Definition hs_eq (a b : hspace3) : res bool :=
  so <- zabs (hs_pivot a a) ;; sm <- zabs (hs_pivot a b) ;; Ok (hs_scaled_eq a b sm so).
(** IsSameOrOpposite, half_space3.h 216-237. *)
Definition hs_same_or_opposite (a b : hspace3) : bool := hs_scaled_eq a b (hs_pivot a b) (hs_pivot a a).
(** operator-(), half_space3.h 254-256; Negate 246-249. *)
Definition hs_neg (a : hspace3) : hspace3 := HS (v3_neg (hn a)) (- hd a).
(** std::tuple operator< over four integers. *)
Definition tuple4_lt (a b : Z * Z * Z * Z) : bool :=
  let '(a1, a2, a3, a4) := a in let '(b1, b2, b3, b4) := b in
  if a1 <? b1 then true else if b1 <? a1 then false else lex3 Z.ltb (a2, a3, a4) (b2, b3, b4).
(** HalfSpace3Compare, half_space3.h 279-293. *)
Definition hs_map_lt (a b : hspace3) : res bool :=
  sa <- zabs (vx (hn b) + vy (hn b) + vz (hn b)) ;;
  sb <- zabs (vx (hn a) + vy (hn a) + vz (hn a)) ;;
  Ok (tuple4_lt (vx (hn a) * sa, vy (hn a) * sa, vz (hn a) * sa, hd a * sa)
                (vx (hn b) * sb, vy (hn b) * sb, vz (hn b) * sb, hd b * sb)).
(** Reduce, half_space3.cpp 5-22; [gcd] as in [v3_reduce]. *)
Definition hs_reduce (gcd : Z -> Z -> res Z) (a : hspace3) : res hspace3 :=
  g <- gcd (vx (hn a)) (vy (hn a)) ;; g <- gcd g (vz (hn a)) ;; g <- gcd g (hd a) ;; let f := Z.abs g in
  d <- zdivide (hd a) f ;; x <- zdivide (vx (hn a)) f ;; y <- zdivide (vy (hn a)) f ;;
  z <- zdivide (vz (hn a)) f ;; Ok (HS (V3 x y z) d).
(** ProjectOntoPlane, half_space3.cpp 24-43. *)
Definition hs_project_onto (h : hspace3) (p : hpoint2) (d : nat) : hpoint3 :=
  let c := comp (hn h) d in
  let v := set_comp (V3 0 0 0) ((0 + d + 1) mod 3) (x2 (hv2 p) * c) in
  let v := set_comp v ((1 + d + 1) mod 3) (y2 (hv2 p) * c) in
  HP (set_comp v d (hd h * hw2 p - x2 (hv2 p) * comp_after_drop (hn h) 0 d
                    - y2 (hv2 p) * comp_after_drop (hn h) 1 d)) (hw2 p * c).

(** ** plucker_line.h *)
(** Class PluckerLine, plucker_line.h 14-167. *)
Record pline := PL { ld : vec3; lm : vec3 }.
(** IsValid, plucker_line.h 49-52. *)
Definition pl_valid (l : pline) : bool := negb (v3_is_zero (ld l)).
(** PluckerLine(Point3, Point3), plucker_line.h 63-64. *)
Definition pl_of_points (p1 p2 : vec3) : pline := PL (v3_sub p2 p1) (v3_cross p1 p2).
(** PluckerLine(HomoPoint3, HomoPoint3), plucker_line.h 66-70. *)
Definition pl_of_hpoints (p1 p2 : hpoint3) : pline :=
  PL (v3_scale (v3_sub (v3_scale (hv p2) (hw p1)) (v3_scale (hv p1) (hw p2))) (zabs_mult2 (hw p1) (hw p2)))
     (v3_scale (v3_cross (hv p1) (hv p2)) (zabs_mult2 (hw p1) (hw p2))).
(** BigInt::Determinant, big_int.h 811-814. *)
Definition zdet (a b c d : Z) : Z := a * d - b * c.
(** PluckerLine(HalfSpace3, HalfSpace3), plucker_line.cpp 5-58. *)
Definition pl_of_planes (a b : hspace3) : pline :=
  PL (v3_cross (hn a) (hn b))
     (V3 (zdet (vx (hn a)) (hd a) (vx (hn b)) (hd b)) (zdet (vy (hn a)) (hd a) (vy (hn b)) (hd b))
         (zdet (vz (hn a)) (hd a) (vz (hn b)) (hd b))).
(** IsCoincident(Point3), plucker_line.h 82-89. *)
Definition pl_coincident_pt (l : pline) (p : vec3) : bool := v3_eq (v3_cross p (ld l)) (lm l).
(** IsCoincident(HomoPoint3), plucker_line.h 92-99. *)
Definition pl_coincident (l : pline) (p : hpoint3) : bool := v3_eq (v3_cross (hv p) (ld l)) (v3_scale (lm l) (hw p)).
(** IsCoincident(HalfSpace3), plucker_line.h 102-105. *)
Definition pl_on_plane (l : pline) (p : hspace3) : bool :=
  (v3_dot (ld l) (hn p) =? 0) && v3_eq (v3_scale (ld l) (hd p)) (v3_cross (lm l) (hn p)).
(** operator==, plucker_line.cpp 60-82 (GetAbs never overflows). *)
Definition pl_eq (a b : pline) : bool :=
  let pivot := fun l => if negb (vx (ld a) =? 0) then vx (ld l) else if negb (vy (ld a) =? 0) then vy (ld l)
                        else vz (ld l) in
  let so := Z.abs (pivot a) in let sm := Z.abs (pivot b) in
  (vx (ld a) * sm =? vx (ld b) * so) && (vy (ld a) * sm =? vy (ld b) * so) && (vz (ld a) * sm =? vz (ld b) * so) &&
  (vx (lm a) * sm =? vx (lm b) * so) && (vy (lm a) * sm =? vy (lm b) * so) && (vz (lm a) * sm =? vz (lm b) * so).
(** Intersect, plucker_line.h 122-126. *)
Definition pl_intersect (l : pline) (p : hspace3) : hpoint3 :=
  HP (v3_add (v3_cross (hn p) (lm l)) (v3_scale (ld l) (hd p))) (v3_dot (hn p) (ld l)).
(** Project2D, plucker_line.h 140-144. *)
Definition pl_project2d (l : pline) (d : nat) : hspace2 := HS2 (v2_perp (drop_dim (ld l) d)) (- comp (lm l) d).
(** operator-(), plucker_line.h 148-150. *)
Definition pl_neg (l : pline) : pline := PL (v3_neg (ld l)) (v3_neg (lm l)).
(** Reduce, plucker_line.cpp 84-103; [gcd] as in [v3_reduce]. *)
Definition pl_reduce (gcd : Z -> Z -> res Z) (l : pline) : res pline :=
  g <- gcd (vx (ld l)) (vy (ld l)) ;; g <- gcd g (vz (ld l)) ;; g <- gcd g (vx (lm l)) ;; g <- gcd g (vy (lm l)) ;;
  g <- gcd g (vz (lm l)) ;; let f := Z.abs g in
  a <- zdivide (vx (ld l)) f ;; b <- zdivide (vy (ld l)) f ;; c <- zdivide (vz (ld l)) f ;;
  d <- zdivide (vx (lm l)) f ;; e <- zdivide (vy (lm l)) f ;; g <- zdivide (vz (lm l)) f ;;
  Ok (PL (V3 a b c) (V3 d e g)).
