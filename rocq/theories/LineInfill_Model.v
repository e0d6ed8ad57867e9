(** Model of the lines of infill: src/infill.cpp:47-56 (computeScanSegmentIdx), 613-643 (addLineInfill), 655-669
    (generateLineInfill) and 708-872 (generateLinearBasedInfill), with the NoZigZagConnectorProcessor, which does nothing.

    Coordinates are unbounded integers; in the code indices, distances and coordinates of crossings are 32-bit integers.
    The rotation matrix and its inverse are arguments of the model. *)
From Coq Require Import ZArith.
From stdpp Require Import prelude list.
From Verif Require Import Common Geo_Model Box_Model.
Open Scope Z_scope.

(** infill.cpp:47-56 *)
Definition computeScanSegmentIdx (x line_width : Z) : Z :=
  if x <? 0 then (x + 1) ÷ line_width - 1 else x ÷ line_width.

(** infill.cpp:745-762: a crossing without its X coordinate, which is the one of the scanline *)
Record crossing := Crossing { cy : Z; polygon_index : nat; vertex_index : nat }.

(** std::stable_sort by the Y coordinate *)
Fixpoint insert_crossing (c : crossing) (l : list crossing) : list crossing :=
  match l with
  | [] => [c]
  | c' :: l' => if cy c <=? cy c' then c :: l else c' :: insert_crossing c l'
  end.
Definition sort_crossings (l : list crossing) : list crossing := foldr insert_crossing [] l.
(** every two subsequent crossings *)
Fixpoint pairs {A} (l : list A) : list (A * A) :=
  match l with
  | a :: b :: l => (a, b) :: pairs l
  | _ => []
  end.

Section lines.
  Variable d : Z. (** line_distance *)
  Variable shift : Z. (** as computed by [shift_of] *)
  Variable scanline_min_idx : Z.

  Definition x_of (scanline_idx : Z) : Z := scanline_idx * d + shift.

  (** infill.cpp:822 and 825: cut_list and crossings_per_scanline hold the same crossings; the latter has no entry for
      scanline_min_idx (764) *)
  Definition push (scanline_idx : Z) (c : crossing) (cut_list : list (list crossing)) : res (list (list crossing)) :=
    let i := scanline_idx - scanline_min_idx in
    let! l := of_opt (if i <? 1 then None else cut_list !! Z.to_nat i) in
    Ok (<[Z.to_nat i := l ++ [c]]> cut_list).

  (** infill.cpp:816-826 *)
  Fixpoint scan (fuel : nat) (p0 p1 : pt) (poly_idx point_idx : nat) (scanline_idx stop direction : Z) (cut_list : list (list crossing))
      : res (list (list crossing)) :=
    match fuel with
    | O => NoFuel
    | S fuel =>
        if scanline_idx =? stop then Ok cut_list
        else
          let x := x_of scanline_idx in
          let y := p1.2 + (p0.2 - p1.2) * (x - p1.1) ÷ (p0.1 - p1.1) in
          let! cut_list := push scanline_idx (Crossing y poly_idx point_idx) cut_list in
          scan fuel p0 p1 poly_idx point_idx (scanline_idx + direction) stop direction cut_list
    end.

  (** infill.cpp:783-829 *)
  Definition cut_edge (fuel : nat) (p0 p1 : pt) (poly_idx point_idx : nat) (cut_list : list (list crossing)) : res (list (list crossing)) :=
    if p1.1 =? p0.1 then Ok cut_list
    else if p0.1 <? p1.1 then
      scan fuel p0 p1 poly_idx point_idx (computeScanSegmentIdx (p0.1 - shift) d + 1) (computeScanSegmentIdx (p1.1 - shift) d + 1) 1 cut_list
    else
      scan fuel p0 p1 poly_idx point_idx (computeScanSegmentIdx (p0.1 - shift) d) (computeScanSegmentIdx (p1.1 - shift) d + 1 + -1) (-1) cut_list.

  (** infill.cpp:781-830 *)
  Fixpoint cut_polygon (fuel : nat) (p0 : pt) (poly_idx point_idx : nat) (poly : list pt) (cut_list : list (list crossing))
      : res (list (list crossing)) :=
    match poly with
    | [] => Ok cut_list
    | p1 :: poly =>
        let! cut_list := cut_edge fuel p0 p1 poly_idx point_idx cut_list in
        cut_polygon fuel p1 poly_idx (S point_idx) poly cut_list
    end.
  (** infill.cpp:771-832 *)
  Fixpoint cut_polygons (fuel : nat) (poly_idx : nat) (polys : list (list pt)) (cut_list : list (list crossing)) : res (list (list crossing)) :=
    match polys with
    | [] => Ok cut_list
    | poly :: polys =>
        let! p0 := of_opt (last poly) in
        let! cut_list := cut_polygon fuel p0 poly_idx 0 poly cut_list in
        cut_polygons fuel (S poly_idx) polys cut_list
    end.

  (** infill.cpp:633-640: the lines of a scanline, in the rotated frame *)
  Definition scanline_lines (infill_line_width x : Z) (crossings : list crossing) : list (pt * pt) :=
    foldr (fun c result => if cy c.2 - cy c.1 <? infill_line_width ÷ 5 then result
                           else ((x, cy c.1), (x, cy c.2)) :: result) [] (pairs (sort_crossings crossings)).
  (** infill.cpp:624-642 *)
  Fixpoint addLineInfill (infill_line_width x max_x : Z) (cut_list : list (list crossing)) : list (pt * pt) :=
    match cut_list with
    | [] => []
    | crossings :: cut_list =>
        if x <? max_x then scanline_lines infill_line_width x crossings ++ addLineInfill infill_line_width (x + d) max_x cut_list
        else []
    end.
End lines.

(** infill.cpp:726-734 *)
Definition shift_of (d total_shift : Z) : Z :=
  if total_shift <? 0 then d - Z.rem (- total_shift) d else Z.rem total_shift d.

Section infill.
  Variable apply unapply : pt -> pt. (** rotation_matrix *)

  (** infill.cpp:724-743, 771-832: the crossings, where the first scanline is, and the box *)
  Definition find_crossings (fuel : nat) (outline : list (list pt)) (d shift : Z) : res (list (list crossing) * Z * AABB) :=
    let transformed_outline := map (map apply) outline in
    let boundary := aabb_calculate_shape transformed_outline in
    let scanline_min_idx := computeScanSegmentIdx ((bmin boundary).1 - shift) d in
    let line_count := computeScanSegmentIdx ((bmax boundary).1 - shift) d + 1 - scanline_min_idx in
    let! cut_list := cut_polygons d shift scanline_min_idx fuel 0 transformed_outline (replicate (Z.to_nat line_count) []) in
    Ok (cut_list, scanline_min_idx, boundary).

  (** infill.cpp:708-872 when the lines are not to be connected *)
  Definition generateLines (fuel : nat) (outline : list (list pt)) (d total_shift infill_line_width : Z) : res (list (pt * pt)) :=
    if (d =? 0) || (match outline with [] => true | _ => false end) then Ok []
    else
      let shift := shift_of d total_shift in
      let! r := find_crossings fuel outline d shift in
      Ok (map (fun s => (unapply s.1, unapply s.2))
            (addLineInfill d infill_line_width (r.1.2 * d + shift) (bmax r.2).1 r.1.1)).
End infill.
