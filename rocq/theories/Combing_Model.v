(** Model of the finding of combing paths: src/pathPlanning/LinePolygonsCrossings.cpp:13-326.

    The matrix that turns the way from start to end along the X axis, and its inverse, are arguments; so are the test whether a way collides
    with the boundary (PolygonUtils::polygonCollidesWithLineSegment over the grid) and the corner of a polygon moved off the boundary
    (PolygonUtils::getBoundaryPointWithOffset).  Coordinates are unbounded integers; square roots and products with fractions are rounded exactly. *)
From Coq Require Import ZArith.
From stdpp Require Import prelude list.
From Verif Require Import Common Geo_Model.
Open Scope Z_scope.

(** std::llrint of a quotient: to the nearest integer, halves to the even one *)
Definition llrint (n d : Z) : Z :=
  let q := n / d in let r := n mod d in
  if 2 * r <? d then q else if d <? 2 * r then q + 1 else if Z.even q then q else q + 1.
(** include/geometry/Point2LL.h:147-150 *)
Definition vSize (p : pt) : Z := let n := vSize2 p in let r := Z.sqrt n in if n <=? r * r + r then r else r + 1.
(** [towards] + (p - [towards]) * frac, with the fraction in tenths; Point2LL.h:66-70 *)
Definition slid (towards p : pt) (tenths : Z) : pt :=
  (towards.1 + llrint ((p.1 - towards.1) * tenths) 10, towards.2 + llrint ((p.2 - towards.2) * tenths) 10).

(** LinePolygonsCrossings.h: Crossing *)
Record crossing := Crossing { poly_idx : nat; x_ : Z; point_idx : nat }.

Section comb.
  Variable apply unapply : pt -> pt.
  Variable collides : pt -> pt -> bool.
  Variable corner : list pt -> nat -> pt.
  Variable boundary : list (list pt).
  Variable start_point end_point : pt.
  Variable dist_to_move_boundary_point_outside : Z.

  Definition transformed_start_point : pt := apply start_point.
  Definition transformed_end_point : pt := apply end_point.

  (** LinePolygonsCrossings.cpp:28-45: whether the transformed edge yields a crossing, and where *)
  Definition edge_crossing (p0 p1 : pt) : option Z :=
    let y := transformed_start_point.2 in
    if ((y <=? p0.2) && (p1.2 <=? y)) || ((y <=? p1.2) && (p0.2 <=? y)) then
      if p1.2 =? p0.2 then None
      else
        let x := p0.1 + (p1.1 - p0.1) * (y - p0.2) ÷ (p1.2 - p0.2) in
        if (transformed_start_point.1 <=? x) && (x <=? transformed_end_point.1) then
          if negb (((p1.2 =? y) && (p1.2 <? p0.2)) || ((p0.2 =? y) && (p0.2 <? p1.2))) then Some x else None
        else None
    else None.
  (** LinePolygonsCrossings.cpp:25-47 *)
  Fixpoint polygon_crossings (poly : nat) (p0 : pt) (point : nat) (points : list pt) : list crossing :=
    match points with
    | [] => []
    | p :: points =>
        let p1 := apply p in
        let rest := polygon_crossings poly p1 (S point) points in
        match edge_crossing p0 p1 with Some x => Crossing poly x point :: rest | None => rest end
    end.
  (** LinePolygonsCrossings.cpp:22-53; None if it fails *)
  Fixpoint all_crossings (fail_on_unavoidable_obstacles : bool) (poly : nat) (polygons : list (list pt)) (crossings : list crossing)
      : res (option (list crossing)) :=
    match polygons with
    | [] => Ok (Some crossings)
    | points :: polygons =>
        let! back := of_opt (last points) in
        let crossings := crossings ++ polygon_crossings poly (apply back) 0 points in
        if fail_on_unavoidable_obstacles && Nat.odd (length crossings) then Ok None
        else all_crossings fail_on_unavoidable_obstacles (S poly) polygons crossings
    end.
  (** std::stable_sort by x *)
  Fixpoint insert_crossing (c : crossing) (l : list crossing) : list crossing :=
    match l with
    | [] => [c]
    | c' :: l' => if x_ c <=? x_ c' then c :: l else c' :: insert_crossing c l'
    end.
  Definition sort_crossings (l : list crossing) : list crossing := foldr insert_crossing [] l.
  (** LinePolygonsCrossings.cpp:20-63 *)
  Definition calcScanlineCrossings (fail_on_unavoidable_obstacles : bool) : res (option (list crossing)) :=
    let! r := all_crossings fail_on_unavoidable_obstacles 0 boundary [] in
    Ok (match r with Some crossings => Some (sort_crossings crossings) | None => None end).

  (** LinePolygonsCrossings.cpp:84-94 *)
  Definition edge_collides (p0 p1 : pt) : bool :=
    let y := transformed_start_point.2 in
    negb (p1.2 =? p0.2) && (((y <=? p0.2) && (p1.2 <=? y)) || ((y <=? p1.2) && (p0.2 <=? y))) &&
    (let x := p0.1 + (p1.1 - p0.1) * (y - p0.2) ÷ (p1.2 - p0.2) in
     (transformed_start_point.1 <? x) && (x <? transformed_end_point.1)).
  (** LinePolygonsCrossings.cpp:76-97 *)
  Fixpoint polygon_collides (p0 : pt) (points : list pt) : bool :=
    match points with
    | [] => false
    | p :: points => let p1 := apply p in if edge_collides p0 p1 then true else polygon_collides p1 points
    end.
  (** LinePolygonsCrossings.cpp:66-101 *)
  Fixpoint lineSegmentCollidesWithBoundary (polygons : list (list pt)) : res bool :=
    match polygons with
    | [] => Ok false
    | points :: polygons =>
        let! back := of_opt (last points) in
        if polygon_collides (apply back) points then Ok true else lineSegmentCollidesWithBoundary polygons
    end.

  (** LinePolygonsCrossings.cpp:158-164: the corners in the direction of the polygon, and the length so far *)
  Fixpoint forward (fuel : nat) (poly : list pt) (point max_point : nat) (prev : pt) : res (list pt * Z) :=
    match fuel with
    | O => NoFuel
    | S fuel =>
        if decide (point = max_point) then Ok ([], 0)
        else
          let p := corner poly point in
          let! r := forward fuel poly (if (point <? length poly - 1)%nat then S point else 0%nat) max_point p in
          Ok (p :: r.1, vSize (psub p prev) + r.2)
    end.
  (** LinePolygonsCrossings.cpp:179-190: in the other direction, until the way is longer than [fwd_len] *)
  Fixpoint backward (fuel : nat) (poly : list pt) (point max_point : nat) (prev : pt) (rev_len fwd_len : Z) : res (list pt * Z) :=
    match fuel with
    | O => NoFuel
    | S fuel =>
        if decide (point = max_point) then Ok ([], rev_len)
        else
          let p := corner poly point in
          let rev_len := rev_len + vSize (psub p prev) in
          if fwd_len <? rev_len then Ok ([p], rev_len)
          else
            let! r := backward fuel poly (if (0 <? point)%nat then (point - 1)%nat else (length poly - 1)%nat) max_point p rev_len fwd_len in
            Ok (p :: r.1, r.2)
    end.
  (** LinePolygonsCrossings.cpp:147-204 *)
  Definition around (fuel : nat) (min max : crossing) : res (list pt) :=
    let! poly := of_opt (boundary !! poly_idx min) in
    let first := unapply (x_ min - Z.abs dist_to_move_boundary_point_outside, transformed_start_point.2) in
    let! fwd := forward fuel poly (point_idx min) (point_idx max) first in
    let last_point := unapply (x_ max + Z.abs dist_to_move_boundary_point_outside, transformed_start_point.2) in
    let fwd_len := match last fwd.1 with Some back => fwd.2 + vSize (psub last_point back) | None => fwd.2 end in
    let min_idx := if (point_idx min =? 0)%nat then (length poly - 1)%nat else (point_idx min - 1)%nat in
    let max_idx := if (point_idx max =? 0)%nat then (length poly - 1)%nat else (point_idx max - 1)%nat in
    let! bwd := backward fuel poly min_idx max_idx first 0 fwd_len in
    let rev_len := match last bwd.1 with Some back => bwd.2 + vSize (psub last_point back) | None => bwd.2 end in
    Ok (first :: (if fwd_len <? rev_len then fwd.1 else bwd.1) ++ [last_point]).

  (** LinePolygonsCrossings.cpp:131-141: the next crossing of the same polygon, and the ones behind it *)
  Fixpoint next_same (poly : nat) (l : list crossing) : option (crossing * list crossing) :=
    match l with
    | [] => None
    | c :: l => if decide (poly_idx c = poly) then Some (c, l) else next_same poly l
    end.
  (** LinePolygonsCrossings.cpp:125-145 *)
  Fixpoint basic_path (fuel : nat) (crossings : list crossing) : res (list pt) :=
    match fuel with
    | O => NoFuel
    | S fuel' =>
        match crossings with
        | [] => Ok [end_point]
        | c :: crossings =>
            match next_same (poly_idx c) crossings with
            | None => basic_path fuel' crossings
            | Some (c', crossings) =>
                let! detour := around fuel c c' in
                let! rest := basic_path fuel' crossings in
                Ok (detour ++ rest)
            end
        end
    end.

  (** The optimized path is kept backwards: its head is the point added last. *)
  (** LinePolygonsCrossings.cpp:226-238, with the values n takes *)
  Fixpoint shortcut (ns : list nat) (p : pt) (path : list pt) : list pt :=
    match ns with
    | [] => path
    | n :: ns =>
        if (n =? 0)%nat then path
        else match path !! n with
             | Some q => if negb (collides q p) then drop n path else shortcut ns p path
             | None => shortcut ns p path
             end
    end.
  (** LinePolygonsCrossings.cpp:258-271 and 304-316: slides as long as the new place is good *)
  Fixpoint slide (good : pt -> bool) (towards : pt) (tenths : list Z) (p : pt) : pt :=
    match tenths with
    | [] => p
    | t :: tenths => let p' := slid towards p t in if good p' then slide good towards tenths p' else p
    end.
  Definition fractions : list Z := [9; 9; 7; 5].
  (** LinePolygonsCrossings.cpp:279-290 *)
  Fixpoint drop_corners (p : pt) (path : list pt) : list pt :=
    match path with
    | q :: (q' :: _) as rest => if collides q' p then path else drop_corners p rest
    | _ => path
    end.
  (** LinePolygonsCrossings.cpp:211-293; [first]: point_idx is 1 *)
  Definition optimize_step (first : bool) (previous current : pt) (path : list pt) : res (list pt) :=
    if decide (current = previous) then Ok path
    else
      let! current_point := of_opt (head path) in
      if collides current_point current then
        let n := Nat.min 8 (length path) in
        let path := shortcut [n; n / 2; n / 4; n / 8]%nat previous path in
        let added := if first then slide (fun p => negb (collides start_point p)) current fractions previous else previous in
        Ok (added :: path)
      else Ok (drop_corners current path).
  Fixpoint optimize_steps (first : bool) (previous : pt) (comb_path : list pt) (path : list pt) : res (list pt) :=
    match comb_path with
    | [] => Ok path
    | p :: comb_path => let! path := optimize_step first previous p path in optimize_steps false p comb_path path
    end.
  (** LinePolygonsCrossings.cpp:206-323; the flag that is set in the basic path (222) is never read *)
  Definition optimizePath (comb_path : list pt) : res (list pt) :=
    let! p := of_opt (head comb_path) in
    let! back := of_opt (last comb_path) in
    let! path := optimize_steps true p (tail comb_path) [start_point] in
    let path := match path with
                | q :: q' :: rest =>
                    if negb (collides q' back) then q' :: rest
                    else slide (fun p => negb (collides p back)) q' fractions q :: q' :: rest
                | _ => path
                end in
    Ok (rev (back :: path)).

  (** LinePolygonsCrossings.cpp:104-123; None if it returns false *)
  Definition generateCombingPath (fuel : nat) (max_comb_distance_ignored : Z) (fail_on_unavoidable_obstacles : bool) : res (option (list pt)) :=
    let! collision := if shorterThen (psub end_point start_point) max_comb_distance_ignored then Ok false else lineSegmentCollidesWithBoundary boundary in
    if negb collision then Ok (Some [start_point; end_point])
    else
      let! r := calcScanlineCrossings fail_on_unavoidable_obstacles in
      match r with
      | None => Ok None
      | Some crossings =>
          let! basicPath := basic_path fuel crossings in
          let! path := optimizePath basicPath in
          Ok (Some path)
      end.
End comb.
