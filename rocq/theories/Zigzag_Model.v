(** Model of zigzag infill: src/infill/ZigzagConnectorProcessor.cpp:17-190 and src/infill.cpp:671-683 (generateZigZagInfill), with the
    walk around the outline of src/infill.cpp:771-832 as the connector processor sees it.  The crossings and lines of the same
    walk are in LineInfill_Model; the two do not influence each other.

    Coordinates and scanline numbers are unbounded integers.  Polylines are collected in the rotated frame and rotated back at the end
    instead of one by one. *)
From Coq Require Import ZArith.
From stdpp Require Import prelude list.
From Verif Require Import Common Geo_Model Box_Model LineInfill_Model.
Open Scope Z_scope.

(** include/infill/ZigzagConnectorProcessor.h: the members that change; [result] is result_, before rotating back *)
Record zigzag := Zigzag {
  is_first_connector : bool;
  first_connector_end_scanline_index : Z;
  last_connector_index : Z;
  first_connector : list pt;
  current_connector : list pt;
  result : list (list pt)
}.

Section processor.
  Variable use_endpieces connected_endpieces skip_some_zags : bool.
  Variable zag_skip_count : Z.

  (** ZigzagConnectorProcessor.cpp:17-27 *)
  Definition registerVertex (vertex : pt) (s : zigzag) : zigzag :=
    if is_first_connector s then
      Zigzag (is_first_connector s) (first_connector_end_scanline_index s) (last_connector_index s) (first_connector s ++ [vertex]) (current_connector s) (result s)
    else
      Zigzag (is_first_connector s) (first_connector_end_scanline_index s) (last_connector_index s) (first_connector s) (current_connector s ++ [vertex]) (result s).

  (** ZigzagConnectorProcessor.cpp:29-89 *)
  Definition shouldAddCurrentConnector (start_scanline_idx end_scanline_idx : Z) : bool :=
    let direction := end_scanline_idx - start_scanline_idx in
    let is_this_endpiece := start_scanline_idx =? end_scanline_idx in
    let is_this_connection_even := Z.rem start_scanline_idx 2 =? 0 in
    let should_skip_this_connection :=
      if skip_some_zags && (0 <? zag_skip_count) then
        if 0 <? direction then Z.rem start_scanline_idx zag_skip_count =? 0 else Z.rem (start_scanline_idx - 1) zag_skip_count =? 0
      else false in
    (is_this_connection_even && negb is_this_endpiece && negb should_skip_this_connection) || (use_endpieces && is_this_endpiece).

  (** ZigzagConnectorProcessor.cpp:91-105 *)
  Definition handleConnectorTooCloseToSegment (s : zigzag) (scanline_x min_distance_to_scanline : Z) : bool :=
    match current_connector s with
    | [] => false
    | points => negb (existsb (fun point : pt => min_distance_to_scanline <=? Z.abs (point.1 - scanline_x)) points)
    end.

  (** ZigzagConnectorProcessor.cpp:159-172, 183-190 without the rotation *)
  Definition addZagConnector (points : list pt) (is_endpiece : bool) (result : list (list pt)) : list (list pt) :=
    if (length points <? 2)%nat then result
    else result ++ [if is_endpiece && negb connected_endpieces then removelast points else points].

  (** ZigzagConnectorProcessor.cpp:107-132 *)
  Definition registerScanlineSegmentIntersection (intersection : pt) (scanline_index min_distance_to_scanline : Z) (s : zigzag) : zigzag :=
    if is_first_connector s then
      Zigzag false scanline_index scanline_index (first_connector s ++ [intersection]) [intersection] (result s)
    else
      let result :=
        if shouldAddCurrentConnector (last_connector_index s) scanline_index
           && negb (handleConnectorTooCloseToSegment s intersection.1 min_distance_to_scanline)
        then addZagConnector (current_connector s ++ [intersection]) (scanline_index =? last_connector_index s) (result s)
        else result s in
      Zigzag false (first_connector_end_scanline_index s) scanline_index (first_connector s) [intersection] result.

  (** ZigzagConnectorProcessor.cpp:174-181 *)
  Definition reset (result : list (list pt)) : zigzag := Zigzag true 0 0 [] [] result.

  (** ZigzagConnectorProcessor.cpp:135-157 *)
  Definition registerPolyFinished (s : zigzag) : zigzag :=
    let scanline_start_index := last_connector_index s in
    let scanline_end_index := first_connector_end_scanline_index s in
    let is_endpiece := is_first_connector s || (negb (is_first_connector s) && (scanline_start_index =? scanline_end_index)) in
    if (is_endpiece && use_endpieces) || (negb is_endpiece && shouldAddCurrentConnector scanline_start_index scanline_end_index)
    then reset (addZagConnector (current_connector s ++ first_connector s) is_endpiece (result s))
    else reset (result s).

  Section walk.
    Variable d shift : Z.

    (** infill.cpp:816-826 *)
    Fixpoint zig_scan (fuel : nat) (p0 p1 : pt) (scanline_idx stop direction : Z) (s : zigzag) : res zigzag :=
      match fuel with
      | O => NoFuel
      | S fuel =>
          if scanline_idx =? stop then Ok s
          else
            let x := x_of d shift scanline_idx in
            let y := p1.2 + (p0.2 - p1.2) * (x - p1.1) ÷ (p0.1 - p1.1) in
            zig_scan fuel p0 p1 (scanline_idx + direction) stop direction (registerScanlineSegmentIntersection (x, y) scanline_idx (d ÷ 4) s)
      end.

    (** infill.cpp:783-829 *)
    Definition zig_edge (fuel : nat) (p0 p1 : pt) (s : zigzag) : res zigzag :=
      if p1.1 =? p0.1 then Ok (registerVertex p1 s)
      else
        let! s :=
          if p0.1 <? p1.1 then
            zig_scan fuel p0 p1 (computeScanSegmentIdx (p0.1 - shift) d + 1) (computeScanSegmentIdx (p1.1 - shift) d + 1) 1 s
          else
            zig_scan fuel p0 p1 (computeScanSegmentIdx (p0.1 - shift) d) (computeScanSegmentIdx (p1.1 - shift) d + 1 + -1) (-1) s in
        Ok (registerVertex p1 s).

    (** infill.cpp:781-830 *)
    Fixpoint zig_polygon (fuel : nat) (p0 : pt) (poly : list pt) (s : zigzag) : res zigzag :=
      match poly with
      | [] => Ok s
      | p1 :: poly =>
          let! s := zig_edge fuel p0 p1 s in
          zig_polygon fuel p1 poly s
      end.
    (** infill.cpp:771-832 *)
    Fixpoint zig_polygons (fuel : nat) (polys : list (list pt)) (s : zigzag) : res zigzag :=
      match polys with
      | [] => Ok s
      | poly :: polys =>
          let! p0 := of_opt (last poly) in
          let! s := zig_polygon fuel p0 poly (registerVertex p0 s) in
          zig_polygons fuel polys (registerPolyFinished s)
      end.
  End walk.

  (** infill.cpp:671-683, 708-872 when the lines are not to be connected in another way: the connectors, then the lines *)
  Definition generateZigZagInfill (apply unapply : pt -> pt) (fuel : nat) (outline : list (list pt)) (d total_shift infill_line_width : Z)
      : res (list (list pt)) :=
    if (d =? 0) || (match outline with [] => true | _ => false end) then Ok []
    else
      let shift := shift_of d total_shift in
      let! s := zig_polygons d shift fuel (map (map apply) outline) (reset []) in
      let! r := find_crossings apply fuel outline d shift in
      let cut_list := r.1.1 in
      let lines :=
        if (match cut_list with [] => true | _ => false end) then []
        else if connected_endpieces && (length cut_list =? 1)%nat && (length (default [] (head cut_list)) <=? 2)%nat then []
        else map (fun s => [s.1; s.2]) (addLineInfill d infill_line_width (r.1.2 * d + shift) (bmax r.2).1 cut_list) in
      Ok (map (map unapply) (result s ++ lines)).
End processor.
