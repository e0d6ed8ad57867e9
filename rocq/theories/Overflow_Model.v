(** * The integer arithmetic of the geometric primitives, with overflow

    Models, operation by operation, the integer functions of include/geometry/Point2LL.h,
    include/geometry/Point3LL.h, include/utils/linearAlg2D.h, src/utils/linearAlg2D.cpp,
    include/utils/math.h, src/utils/AABB.cpp (area), src/slicer.cpp (interpolate),
    src/utils/Simplify.cpp (getAreaDeviation), src/geometry/Polyline.cpp (length) and the hashes of
    points.

    Every function takes the integer type as argument [ck]: after each addition, subtraction,
    negation, multiplication and division the exact result z is passed through [ck z].  With
    [ck := i64] this is the C++ program: a result outside the 64-bit range is undefined behaviour
    ([UB]).  With [ck := Ok] the same program runs on unbounded integers.
    Floating point: [std::llrint(sqrt(double(n)))] is the nearest integer of the exact square root
    ([sqrt_nearest]); the quotient [area_times_two / ab_size] is exact before it is truncated. *)
From Coq Require Import ZArith.
From stdpp Require Import list.
From Verif Require Import Common Geo_Model.
Open Scope Z_scope.

(** coord_t is the 64-bit cInt (include/utils/Coord_t.h:18): a result outside the range is undefined *)
Definition i64 (z : Z) : res Z := if (- 2 ^ 63 <=? z) && (z <? 2 ^ 63) then Ok z else UB.
(** int *)
Definition i32 (z : Z) : res Z := if (- 2 ^ 31 <=? z) && (z <? 2 ^ 31) then Ok z else UB.
(** conversion of a wider integer to int: modulo 2^32 *)
Definition to_int (z : Z) : Z := (z + 2 ^ 31) mod 2 ^ 32 - 2 ^ 31.

(** nearest integer of the square root of a non-negative integer *)
Definition sqrt_nearest (n : Z) : Z := let s := Z.sqrt n in if n <=? s * s + s then s else s + 1.

Section arith.
  Variable ck : Z -> res Z.

  Definition add (a b : Z) : res Z := ck (a + b).
  Definition sub (a b : Z) : res Z := ck (a - b).
  Definition mul (a b : Z) : res Z := ck (a * b).
  Definition neg (a : Z) : res Z := ck (- a).
  (** division by zero is undefined; the quotient is truncated *)
  Definition quot (a b : Z) : res Z := if b =? 0 then UB else ck (a ÷ b).
  (** std::abs *)
  Definition abs_ (a : Z) : res Z := if a <? 0 then neg a else Ok a.

  (** Point2LL.h:46-49 *)
  Definition pneg_ (a : pt) : res pt := let! x := neg a.1 in let! y := neg a.2 in Ok (x, y).
  (** Point2LL.h:51-54 *)
  Definition padd_ (a b : pt) : res pt := let! x := add a.1 b.1 in let! y := add a.2 b.2 in Ok (x, y).
  (** Point2LL.h:56-59 *)
  Definition psub_ (a b : pt) : res pt := let! x := sub a.1 b.1 in let! y := sub a.2 b.2 in Ok (x, y).
  (** Point2LL.h:61-64 *)
  Definition pscale_ (a : pt) (i : Z) : res pt := let! x := mul a.1 i in let! y := mul a.2 i in Ok (x, y).
  (** Point2LL.h:78-81 *)
  Definition pdiv_ (a : pt) (i : Z) : res pt := let! x := quot a.1 i in let! y := quot a.2 i in Ok (x, y).

  (** Point2LL.h:119-122 *)
  Definition vSize2_ (p : pt) : res Z :=
    let! xx := mul p.1 p.1 in let! yy := mul p.2 p.2 in add xx yy.
  (** Point2LL.h:129-140 *)
  Definition shorterThen_ (p : pt) (len : Z) : res bool :=
    if len <? p.1 then Ok false else
    let! m := neg len in
    if p.1 <? m then Ok false else
    if len <? p.2 then Ok false else
    let! m := neg len in
    if p.2 <? m then Ok false else
    let! s := vSize2_ p in
    let! l := mul len len in
    Ok (s <=? l).
  (** Point2LL.h:147-150 *)
  Definition vSize_ (p : pt) : res Z := let! n := vSize2_ p in Ok (sqrt_nearest n).
  (** Point2LL.h:164-172 *)
  Definition normal_ (p : pt) (length : Z) : res pt :=
    let! len := vSize_ p in
    if len <? 1 then Ok (length, 0)
    else let! q := pscale_ p length in pdiv_ q len.
  (** Point2LL.h:174-177 *)
  Definition turn90CCW_ (p : pt) : res pt := let! x := neg p.2 in Ok (x, p.1).
  (** Point2LL.h:188-191 *)
  Definition dot_ (a b : pt) : res Z :=
    let! xx := mul a.1 b.1 in let! yy := mul a.2 b.2 in add xx yy.
  (** Point2LL.h:193-196 *)
  Definition cross_ (a b : pt) : res Z :=
    let! xy := mul a.1 b.2 in let! yx := mul a.2 b.1 in sub xy yx.

  (** Point3LL.h:132-135 *)
  Definition vSize2_3_ (x y z : Z) : res Z :=
    let! xx := mul x x in let! yy := mul y y in let! s := add xx yy in let! zz := mul z z in add s zz.
  (** Point3LL.h:155-158 *)
  Definition dot_3_ (x y z x' y' z' : Z) : res Z :=
    let! xx := mul x x' in let! yy := mul y y' in let! s := add xx yy in let! zz := mul z z' in add s zz.

  (** math.h:36-43 *)
  Definition round_divide_signed_ (dividend divisor : Z) : res Z :=
    let! h := quot divisor 2 in
    if xorb (dividend <? 0) (divisor <? 0)
    then let! n := sub dividend h in quot n divisor
    else let! n := add dividend h in quot n divisor.

  (** slicer.cpp:1233-1239 *)
  Definition interpolate_ (x x0 x1 y0 y1 : Z) : res Z :=
    let! dx := sub x1 x0 in
    let! dy := sub y1 y0 in
    let! d := sub x x0 in
    let! num := mul dy d in
    let! off := (if 0 <? num then quot dx 4 else let! m := neg dx in quot m 4) in
    let! num := add num off in
    let! q := quot num dx in
    add y0 q.

  (** AABB.cpp:144-151 *)
  Definition area_ (min max : pt) : res Z :=
    if (max.1 <? min.1) || (max.2 <? min.2) then Ok (-1)
    else let! w := sub max.1 min.1 in let! h := sub max.2 min.2 in mul w h.

  (** linearAlg2D.h:19-70 pointLiesOnTheRightOfLine *)
  Definition pointLiesOnTheRightOfLine_ (p p0 p1 : pt) : res Z :=
    if p.1 <=? Z.max p0.1 p1.1 then
      let! pd_y := sub p1.2 p0.2 in
      if pd_y <? 0 then
        if (p1.2 <=? p.2) && (p.2 <? p0.2) then
          let! a := sub p1.1 p0.1 in let! b := sub p1.2 p.2 in let! ab := mul a b in
          let! c := sub p1.1 p.1 in let! cd := mul c pd_y in
          let! dx := sub ab cd in
          Ok (if dx =? 0 then 0 else if 0 <? dx then 1 else -1)
        else Ok (-1)
      else if p0.2 <=? p.2 then
        if p.2 <? p1.2 then
          let! a := sub p1.1 p0.1 in let! b := sub p.2 p0.2 in let! ab := mul a b in
          let! c := sub p.1 p0.1 in let! cd := mul c pd_y in
          let! dx := sub ab cd in
          Ok (if dx =? 0 then 0 else if 0 <? dx then 1 else -1)
        else if p.2 =? p1.2 then
          Ok (if (p.1 =? p1.1) || ((pd_y =? 0) && (Z.min p0.1 p1.1 <=? p.1)) then 0 else -1)
        else Ok (-1)
      else Ok (-1)
    else Ok (-1).

  (** linearAlg2D.h:118-132 *)
  Definition pointIsProjectedBeyondLine_ (from a b : pt) : res Z :=
    let! vec := psub_ b a in
    let! point_vec := psub_ from a in
    let! dot_prod := dot_ point_vec vec in
    if dot_prod <? 0 then Ok (-1)
    else let! l := vSize2_ vec in if l <? dot_prod then Ok 1 else Ok 0.

  (** linearAlg2D.h:137-168; [projected_x * direction] scales by an integer *)
  Definition getClosestOnLineSegment_ (from p0 p1 : pt) : res pt :=
    let! direction := psub_ p1 p0 in
    let! to_from := psub_ from p0 in
    let! projected_x := dot_ to_from direction in
    let! x_p1 := vSize2_ direction in
    if x_p1 =? 0 then Ok p0
    else if projected_x <=? 0 then Ok p0
    else if x_p1 <=? projected_x then Ok p1
    else
      let! s := pscale_ direction projected_x in
      let! d := pdiv_ s x_p1 in
      padd_ p0 d.

  (** linearAlg2D.h:173-185 *)
  Definition getClosestOnLine_ (from p0 p1 : pt) : res pt :=
    if bool_decide (p1 = p0) then Ok p0
    else
      let! direction := psub_ p1 p0 in
      let! to_from := psub_ from p0 in
      let! projected_x := dot_ to_from direction in
      let! len := vSize_ direction in
      let! k := quot projected_x len in
      let! s := pscale_ direction k in
      let! d := pdiv_ s len in
      padd_ p0 d.

  (** linearAlg2D.cpp:130-156 *)
  Definition getClosestConnection_ (a1 a2 b1 b2 : pt) : res (pt * pt) :=
    let! b1_on_a := getClosestOnLineSegment_ b1 a1 a2 in
    let! v := psub_ b1_on_a b1 in let! b1_on_a_dist2 := vSize2_ v in
    let! b2_on_a := getClosestOnLineSegment_ b2 a1 a2 in
    let! v := psub_ b2_on_a b2 in let! b2_on_a_dist2 := vSize2_ v in
    let! a1_on_b := getClosestOnLineSegment_ a1 b1 b2 in
    let! v := psub_ a1_on_b a1 in let! a1_on_b_dist2 := vSize2_ v in
    let! a2_on_b := getClosestOnLineSegment_ a1 b1 b2 in
    let! v := psub_ a2_on_b a2 in let! a2_on_b_dist2 := vSize2_ v in
    Ok (if (b1_on_a_dist2 <? b2_on_a_dist2) && (b1_on_a_dist2 <? a1_on_b_dist2) && (b1_on_a_dist2 <? a2_on_b_dist2)
        then (b1_on_a, b1)
        else if (b2_on_a_dist2 <? a1_on_b_dist2) && (b2_on_a_dist2 <? a2_on_b_dist2) then (b2_on_a, b2)
        else if a1_on_b_dist2 <? a2_on_b_dist2 then (a1, a1_on_b)
        else (a2, a2_on_b)).

  (** linearAlg2D.h:210-269, without the output parameter *)
  Definition getDist2FromLineSegment_ (a b c : pt) : res Z :=
    let! ac := psub_ c a in
    let! ac_size := vSize_ ac in
    let! ab := psub_ b a in
    if ac_size =? 0 then vSize2_ ab
    else
      let! projected_x := dot_ ab ac in
      let! ax_size := quot projected_x ac_size in
      if ax_size <? 0 then vSize2_ ab
      else if ac_size <? ax_size then let! bc := psub_ b c in vSize2_ bc
      else
        let! s := pscale_ ac ax_size in
        let! ax := pdiv_ s ac_size in
        let! bx := psub_ ab ax in
        vSize2_ bx.

  (** linearAlg2D.h:281-287 *)
  Definition lineSegmentsAreCloserThan_ (a b c d : pt) (max_dist : Z) : res bool :=
    let! max_dist2 := mul max_dist max_dist in
    let! d1 := getDist2FromLineSegment_ a c b in
    if d1 <=? max_dist2 then Ok true else
    let! d2 := getDist2FromLineSegment_ a d b in
    if d2 <=? max_dist2 then Ok true else
    let! d3 := getDist2FromLineSegment_ c a d in
    if d3 <=? max_dist2 then Ok true else
    let! d4 := getDist2FromLineSegment_ c b d in
    Ok (d4 <=? max_dist2).

  (** linearAlg2D.h:298-301 *)
  Definition getDist2BetweenLineSegments_ (a b c d : pt) : res Z :=
    let! d1 := getDist2FromLineSegment_ a c b in
    let! d2 := getDist2FromLineSegment_ a d b in
    let! d3 := getDist2FromLineSegment_ c a d in
    let! d4 := getDist2FromLineSegment_ c b d in
    Ok (Z.min d1 (Z.min d2 (Z.min d3 d4))).

  (** linearAlg2D.cpp:158-192 (the assertions are not modelled) *)
  Definition lineSegmentsCollide_ (a_from a_to b_from b_to : pt) : res bool :=
    if ((a_from.2 <=? b_from.2) && (b_to.2 <=? a_from.2)) || ((a_from.2 <=? b_to.2) && (b_from.2 <=? a_from.2)) then
      if b_to.2 =? b_from.2 then
        let '(bf, bt) := if b_to.1 <? b_from.1 then (b_to.1, b_from.1) else (b_from.1, b_to.1) in
        Ok (if a_to.1 <? bf then false else if bt <? a_from.1 then false else true)
      else
        let! dx := sub b_to.1 b_from.1 in
        let! dy := sub a_from.2 b_from.2 in
        let! n := mul dx dy in
        let! d := sub b_to.2 b_from.2 in
        let! q := quot n d in
        let! x := add b_from.1 q in
        Ok ((a_from.1 <=? x) && (x <=? a_to.1))
    else Ok false.

  (** linearAlg2D.cpp:20-23: the dot product and the determinant in getAngleLeft *)
  Definition angleLeft_products_ (a b c : pt) : res (Z * Z) :=
    let! ba := psub_ a b in
    let! bc := psub_ c b in
    let! dott := dot_ ba bc in
    let! xy := mul ba.1 bc.2 in let! yx := mul ba.2 bc.1 in
    let! det := sub xy yx in
    Ok (dott, det).

  (** linearAlg2D.h:349-352 *)
  Definition pointIsLeftOfLine_ (p a b : pt) : res Z :=
    let! x1 := sub b.1 a.1 in let! y1 := sub p.2 a.2 in let! m1 := mul x1 y1 in
    let! y2 := sub b.2 a.2 in let! x2 := sub p.1 a.1 in let! m2 := mul y2 x2 in
    sub m1 m2.

  (** linearAlg2D.h:404-409 *)
  Definition isAcuteCorner_ (a b c : pt) : res Z :=
    let! ba := psub_ a b in let! bc := psub_ c b in dot_ ba bc.

  (** linearAlg2D.cpp:242-259 *)
  Definition getDistFromLine_ (p a b : pt) : res Z :=
    let! vab := psub_ b a in
    let! vap := psub_ p a in
    let! ab_size := vSize_ vab in
    if ab_size =? 0 then vSize_ vap
    else
      let! x1 := sub p.1 b.1 in let! y1 := sub p.2 a.2 in let! m1 := mul x1 y1 in
      let! x2 := sub a.1 p.1 in let! y2 := sub p.2 b.2 in let! m2 := mul x2 y2 in
      let! s := add m1 m2 in
      let! area_times_two := abs_ s in
      Ok (area_times_two ÷ ab_size).
  (** linearAlg2D.cpp:194-200 *)
  Definition getDist2FromLine_ (p a b : pt) : res Z :=
    let! dist := getDistFromLine_ p a b in mul dist dist.

  (** linearAlg2D.cpp:202-240 *)
  Definition isInsideCorner_ (a b c query_point : pt) : res bool :=
    let normal_length := 10000 in
    let! v := psub_ a b in let! ba := normal_ v normal_length in
    let! w := psub_ c b in let! bc := normal_ w normal_length in
    let! bq := psub_ query_point b in
    let! perpendicular := turn90CCW_ bq in
    let! project_a_perpendicular := dot_ ba perpendicular in
    let! project_c_perpendicular := dot_ bc perpendicular in
    if xorb (0 <? project_a_perpendicular) (0 <? project_c_perpendicular)
    then Ok (0 <? project_a_perpendicular)
    else
      let! project_a_parallel := dot_ ba bq in
      let! project_c_parallel := dot_ bc bq in
      Ok (eqb (project_c_parallel <? project_a_parallel) (0 <? project_a_perpendicular)).

  (** linearAlg2D.cpp:261-266 *)
  Definition getBisectorVector_ (intersect a b : pt) (vec_len : Z) : res pt :=
    let! a0 := psub_ a intersect in
    let! b0 := psub_ b intersect in
    let! sa := pscale_ a0 vec_len in let! la := vSize_ a0 in let! da := pdiv_ sa (Z.max 1 la) in
    let! sb := pscale_ b0 vec_len in let! lb := vSize_ b0 in let! db := pdiv_ sb (Z.max 1 lb) in
    let! s := padd_ da db in
    pdiv_ s 2.

  (** linearAlg2D.cpp:47-127; the square roots are truncated; [None]: the function returns false *)
  Definition getPointOnLineWithDist_ (p a b : pt) (dist : Z) : res (option pt) :=
    let! ab := psub_ b a in
    let! ab_size := vSize_ ab in
    let! ap := psub_ p a in
    let! ax_size :=
      (if ab_size <? 50 then let! n := normal_ ab 1000 in let! d := dot_ n ap in quot d 1000
       else let! d := dot_ ab ap in quot d ab_size) in
    let! ap_size2 := vSize2_ ap in
    let! ax2 := mul ax_size ax_size in
    let! d := sub ap_size2 ax2 in
    let px_size := Z.sqrt (Z.max 0 d) in
    if dist <? px_size then Ok None
    else
      let! dd := mul dist dist in let! pp := mul px_size px_size in let! d := sub dd pp in
      let xr_size := Z.sqrt d in
      if ax_size <=? 0 then
        let! ar_size := add xr_size ax_size in
        if (ar_size <? 0) || (ab_size <? ar_size) then Ok None
        else let! n := normal_ ab ar_size in let! r := padd_ a n in Ok (Some r)
      else if ab_size <=? ax_size then
        let! ar_size := sub ax_size xr_size in
        if (ar_size <? 0) || (ab_size <? ar_size) then Ok None
        else let! n := normal_ ab ar_size in let! r := padd_ a n in Ok (Some r)
      else
        let! ar1_size := sub ax_size xr_size in
        if 0 <=? ar1_size then let! n := normal_ ab ar1_size in let! r := padd_ a n in Ok (Some r)
        else
          let! ar2_size := add ax_size xr_size in
          if ar2_size <? ab_size then let! n := normal_ ab ar2_size in let! r := padd_ a n in Ok (Some r)
          else Ok None.

  (** Simplify.cpp:168-210; a junction is a point with a width *)
  Definition getAreaDeviation_ (before vertex after : pt) (w_before w_vertex w_after : Z) : res Z :=
    let! v := psub_ vertex before in let! ab_length := vSize_ v in
    let! v := psub_ after vertex in let! bc_length := vSize_ v in
    let! v := psub_ after before in let! ac_length := vSize_ v in
    if (ab_length =? 0) || (ac_length =? 0) || (bc_length =? 0) then Ok 0
    else
      let! d1 := sub w_vertex w_before in let! a1 := abs_ d1 in
      let! d2 := sub w_after w_vertex in let! a2 := abs_ d2 in
      let width_diff := Z.max a1 a2 in
      if 1 <? width_diff then
        let! s := add w_before w_vertex in let! ab_weight := quot s 2 in
        let! s := add w_vertex w_after in let! bc_weight := quot s 2 in
        let! m1 := mul ab_length ab_weight in let! m2 := mul bc_length bc_weight in
        let! s := add m1 m2 in
        let! weighted_average_width := quot s ac_length in
        let! e := sub ab_weight weighted_average_width in let! e := abs_ e in let! t1 := mul e ab_length in
        let! e := sub bc_weight weighted_average_width in let! e := abs_ e in let! t2 := mul e bc_length in
        add t1 t2
      else if bc_length <? ab_length then mul width_diff bc_length else mul width_diff ab_length.

  (** Polyline.cpp:100-107, SegmentIterator.h: the segments of an open or a closed polyline *)
  Definition segments (closed : bool) (l : list pt) : list (pt * pt) :=
    match l with
    | [] => []
    | [p] => [(p, p)]
    | p :: l' => if closed then zip l (l' ++ [p]) else zip l l'
    end.
  (** Polyline.cpp:135-145: [std::accumulate] with the initial value [0], so the running total is an
      [int]; each step computes in coord_t and converts to int *)
  Fixpoint length_from (total : Z) (l : list (pt * pt)) : res Z :=
    match l with
    | [] => Ok total
    | (start, end_) :: l =>
        let! v := psub_ end_ start in
        let! d := vSize_ v in
        let! t := add total d in
        length_from (to_int t) l
    end.
  Definition polyline_length_ (closed : bool) (l : list pt) : res Z := length_from 0 (segments closed l).

  (** Point2LL.h:240-251: std::hash of a point; [result * prime] is a product of ints.  The
      conversion of the last int to size_t is left out. *)
  Definition hash_ (p : pt) : res Z :=
    let! r := i32 (89 * 31) in
    let! r := add r p.1 in
    let! r := i32 (to_int r * 31) in
    let! r := add r p.2 in
    Ok (to_int r).
End arith.
