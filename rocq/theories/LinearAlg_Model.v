(** Model of parts of include/utils/linearAlg2D.h, src/utils/linearAlg2D.cpp, src/geometry/Shape.cpp
    and src/geometry/SingleShape.cpp. *)
From Coq Require Import ZArith.
From stdpp Require Import list.
From Verif Require Import Common Geo_Model.
Open Scope Z_scope.

(** linearAlg2D.h getClosestOnLineSegment (Point2LL operators: scaling by an integer, then truncating
    division of both coordinates) *)
Definition getClosestOnLineSegment (from p0 p1 : pt) : pt :=
  let direction := psub p1 p0 in
  let to_from := psub from p0 in
  let projected_x := dot to_from direction in
  let x_p1 := vSize2 direction in
  if x_p1 =? 0 then p0
  else if projected_x <=? 0 then p0
  else if x_p1 <=? projected_x then p1
  else padd p0 (pdiv (pscale direction projected_x) x_p1).

(** linearAlg2D.h pointIsProjectedBeyondLine *)
Definition pointIsProjectedBeyondLine (from a b : pt) : Z :=
  let vec := psub b a in
  let dot_prod := dot (psub from a) vec in
  if dot_prod <? 0 then -1 else if vSize2 vec <? dot_prod then 1 else 0.

(** linearAlg2D.cpp:126-154.  Line 135 computes a2_on_b from a1, as in the code. *)
Definition getClosestConnection (a1 a2 b1 b2 : pt) : pt * pt :=
  let b1_on_a := getClosestOnLineSegment b1 a1 a2 in
  let b1_on_a_dist2 := vSize2 (psub b1_on_a b1) in
  let b2_on_a := getClosestOnLineSegment b2 a1 a2 in
  let b2_on_a_dist2 := vSize2 (psub b2_on_a b2) in
  let a1_on_b := getClosestOnLineSegment a1 b1 b2 in
  let a1_on_b_dist2 := vSize2 (psub a1_on_b a1) in
  let a2_on_b := getClosestOnLineSegment a1 b1 b2 in
  let a2_on_b_dist2 := vSize2 (psub a2_on_b a2) in
  if (b1_on_a_dist2 <? b2_on_a_dist2) && (b1_on_a_dist2 <? a1_on_b_dist2) && (b1_on_a_dist2 <? a2_on_b_dist2)
  then (b1_on_a, b1)
  else if (b2_on_a_dist2 <? a1_on_b_dist2) && (b2_on_a_dist2 <? a2_on_b_dist2) then (b2_on_a, b2)
  else if a1_on_b_dist2 <? a2_on_b_dist2 then (a1, a1_on_b)
  else (a2, a2_on_b).

(** linearAlg2D.h pointLiesOnTheRightOfLine *)
Definition pointLiesOnTheRightOfLine (p p0 p1 : pt) : Z :=
  if p.1 <=? Z.max p0.1 p1.1 then
    let pd_y := p1.2 - p0.2 in
    if pd_y <? 0 then
      if (p1.2 <=? p.2) && (p.2 <? p0.2) then
        let dx := (p1.1 - p0.1) * (p1.2 - p.2) - (p1.1 - p.1) * pd_y in
        if dx =? 0 then 0 else if 0 <? dx then 1 else -1
      else -1
    else if p0.2 <=? p.2 then
      if p.2 <? p1.2 then
        let dx := (p1.1 - p0.1) * (p.2 - p0.2) - (p.1 - p0.1) * pd_y in
        if dx =? 0 then 0 else if 0 <? dx then 1 else -1
      else if p.2 =? p1.2 then
        if (p.1 =? p1.1) || ((pd_y =? 0) && (Z.min p0.1 p1.1 <=? p.1)) then 0 else -1
      else -1
    else -1
  else -1.

Definition INT64_MAX : Z := 2 ^ 63 - 1.

(** Shape.cpp:262-289: the loop over one polygon.  [None]: the function returned this polygon's index *)
Fixpoint findInside_poly (p : pt) (border_result : bool) (p0 : pt) (poly : list pt) (crossings min_x : Z)
    : option (Z * Z) :=
  match poly with
  | [] => Some (crossings, min_x)
  | p1 :: poly' =>
      let comp := pointLiesOnTheRightOfLine p p0 p1 in
      if comp =? 1 then
        let x := if p1.2 =? p0.2 then p0.1 else p0.1 + ((p1.1 - p0.1) * (p.2 - p0.2)) ÷ (p1.2 - p0.2) in
        findInside_poly p border_result p1 poly' (crossings + 1) (Z.min x min_x)
      else if border_result && (comp =? 0) then None
      else findInside_poly p border_result p1 poly' crossings min_x
  end.
(** Shape.cpp:258-291: [inr i]: returned i; poly.back() of an empty polygon is undefined behaviour *)
Fixpoint findInside_polys (p : pt) (border_result : bool) (idx : nat) (polys : list (list pt))
    : res (list (Z * Z) + nat) :=
  match polys with
  | [] => Ok (inl [])
  | poly :: polys' =>
      match last poly with
      | None => UB
      | Some p0 =>
          match findInside_poly p border_result p0 poly 0 INT64_MAX with
          | None => Ok (inr idx)
          | Some cm =>
              let! r := findInside_polys p border_result (S idx) polys' in
              match r with inl l => Ok (inl (cm :: l)) | inr i => Ok (inr i) end
          end
      end
  end.
(** Shape.cpp:293-308 *)
Fixpoint findInside_unevens (idx : nat) (l : list (Z * Z)) (n_unevens : Z) (min_x_uneven : Z) (ret : option nat)
    : Z * option nat :=
  match l with
  | [] => (n_unevens, ret)
  | (crossings, min_x) :: l' =>
      if Z.rem crossings 2 =? 1 then
        if min_x <? min_x_uneven then findInside_unevens (S idx) l' (n_unevens + 1) min_x (Some idx)
        else findInside_unevens (S idx) l' (n_unevens + 1) min_x_uneven ret
      else findInside_unevens (S idx) l' n_unevens min_x_uneven ret
  end.
(** Shape.cpp:246-314; [None] is NO_INDEX *)
Definition findInside (polys : list (list pt)) (p : pt) (border_result : bool) : res (option nat) :=
  match polys with
  | [] => Ok None
  | _ =>
      let! r := findInside_polys p border_result 0 polys in
      match r with
      | inr i => Ok (Some i)
      | inl l =>
          let '(n_unevens, ret) := findInside_unevens 0 l 0 INT64_MAX None in
          if Z.rem n_unevens 2 =? 0 then Ok None else Ok ret
      end
  end.

(** ClipperLib::PointInPolygon is an external function: a parameter *)
Section clipper.
  Variable PointInPolygon : pt -> list pt -> Z.
  (** ClosedPolyline.cpp:43-51 *)
  Definition poly_inside (poly : list pt) (p : pt) (border_result : bool) : bool :=
    let r := PointInPolygon p poly in if r =? -1 then border_result else r =? 1.
  (** Shape.cpp:231-244 *)
  Fixpoint shape_inside_loop (polys : list (list pt)) (p : pt) (border_result : bool) (n : Z) : bool :=
    match polys with
    | [] => Z.rem n 2 =? 1
    | poly :: polys' =>
        let r := PointInPolygon p poly in
        if r =? -1 then border_result else shape_inside_loop polys' p border_result (n + r)
    end.
  Definition shape_inside (polys : list (list pt)) (p : pt) (border_result : bool) : bool :=
    shape_inside_loop polys p border_result 0.
  (** SingleShape.cpp:11-31 *)
  Definition single_shape_inside (polys : list (list pt)) (p : pt) (border_result : bool) : bool :=
    match polys with
    | [] => false
    | outer :: holes =>
        if negb (poly_inside outer p border_result) then false
        else negb (existsb (fun hole => poly_inside hole p border_result) holes)
    end.
  (** ClosedPolyline.cpp:53-61: every vertex gives a non-zero result *)
  Definition poly_inside_path (poly path : list pt) : bool :=
    forallb (fun p => negb (PointInPolygon p path =? 0)) poly.
End clipper.

(** linearAlg2D.cpp:156-191 *)
Definition lineSegmentsCollide (a_from a_to b_from b_to : pt) : bool :=
  if ((a_from.2 <=? b_from.2) && (b_to.2 <=? a_from.2)) || ((a_from.2 <=? b_to.2) && (b_from.2 <=? a_from.2)) then
    if b_to.2 =? b_from.2 then
      let '(bf, bt) := if b_to.1 <? b_from.1 then (b_to.1, b_from.1) else (b_from.1, b_to.1) in
      if a_to.1 <? bf then false else if bt <? a_from.1 then false else true
    else
      let x := b_from.1 + ((b_to.1 - b_from.1) * (a_from.2 - b_from.2)) ÷ (b_to.2 - b_from.2) in
      (a_from.1 <=? x) && (x <=? a_to.1)
  else false.
