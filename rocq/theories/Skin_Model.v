(** Model of src/skin.cpp: which places of a layer become skin and which infill, which of the skin is roofing or flooring,
    and which surfaces are the topmost and bottommost ones.

    An area (Shape) is the set of its points, as in Carve_Model; boolean operations of the geometry library are operations
    on sets.  Pushing several outlines into one Shape is modelled by their union (the parts of a layer do not overlap).
    Offsets, the removal of small areas and the emptiness test are arguments of the model. *)
From Coq Require Import ZArith QArith.
From stdpp Require Import prelude list.
From Verif Require Import Common Geo_Model Box_Model Carve_Model.
Open Scope Z_scope.

(** sliceDataStorage.h: the fields of SliceLayerPart read here *)
Record part := Part { outline : area; inner_area : area; boundaryBox : AABB }.
Notation mesh := (list (list part)).

(** skin.cpp:26 *)
Definition MIN_AREA_SIZE : Q := 4 # 25.
(** utils/Coord_t.h:20 *)
Definition EPSILON : Z := 5.

(** The settings read; sizes are not negative.  [min_infill_area] is in square millimetres. *)
Record skin_settings := Settings {
  bottom_layers : Z; initial_bottom_layers : Z; top_layers : Z; skin_line_width : Z;
  no_small_gaps_heuristic : bool; process_infill : bool;
  top_skin_preshrink : Z; bottom_skin_preshrink : Z; top_skin_expand_distance : Z; bottom_skin_expand_distance : Z;
  min_skin_width_for_expansion : Z; min_infill_area : Q }.
Record roof_settings := Roof {
  roofing_layer_count : Z; (** the smaller one of roofing_layer_count and top_layers (skin.cpp:457) *)
  roofing_differs : bool; (** not roofFloorSettingsEqual (skin.cpp:412-448) for roofing *)
  flooring_layer_count : Z; (** the smaller one of flooring_layer_count and bottom_layers *)
  flooring_differs : bool;
  skin_overlap : Z; roofing_expansion : Z; top_bottom_skin_merge_distance : Z }.

Section skin.
  (** Shape::offset(distance) and with jtMiter and a large miter limit, Shape::removeSmallAreas, Shape::empty *)
  Variable offset : Z -> area -> area.
  Variable offset_miter : Z -> area -> area.
  Variable removeSmallAreas : Q -> area -> area.
  Variable empty : area -> bool.
  Variable layers : mesh.

  Definition layer_count : Z := Z.of_nat (length layers).

  (** skin.cpp:64-80; a negative layer number would be read out of bounds *)
  Definition getOutlineOnLayer (part_here : part) (layer2_nr : Z) : res area :=
    if layer_count <=? layer2_nr then Ok a_empty
    else if layer2_nr <? 0 then UB
    else
      let! layer2 := of_opt (layers !! Z.to_nat layer2_nr) in
      Ok (foldr (fun part2 result => if aabb_hit (boundaryBox part_here) (boundaryBox part2)
                                     then a_union (outline part2) result else result) a_empty layer2).

  (** skin.cpp:198-201, 227-230, 534-538, 572-576: intersection with the outlines on [count] layers from [k] on *)
  Fixpoint intersect_layers (part_here : part) (count : nat) (k : Z) (not_air : area) : res area :=
    match count with
    | 0%nat => Ok not_air
    | S count =>
        let! o := getOutlineOnLayer part_here k in
        intersect_layers part_here count (k + 1) (a_inter not_air o)
    end.

  Section part.
    Variable s : skin_settings.
    Variable layer_nr : Z.

    (** skin.cpp:182-209 *)
    Definition calculateBottomSkin (p : part) (downskin : area) : res area :=
      if (bottom_layers s =? 0) && (initial_bottom_layers s =? 0) then Ok downskin
      else if layer_nr <? initial_bottom_layers s then Ok downskin
      else
        let start := Z.max 0 (layer_nr - bottom_layers s) in
        let! not_air := getOutlineOnLayer p start in
        let! not_air := (if no_small_gaps_heuristic s then Ok not_air
                         else intersect_layers p (Z.to_nat (layer_nr - (start + 1))) (start + 1) not_air) in
        let not_air := if negb (Qle_bool (min_infill_area s) 0) then removeSmallAreas (min_infill_area s) not_air else not_air in
        Ok (a_sub downskin not_air).

    (** skin.cpp:211-238 *)
    Definition calculateTopSkin (p : part) (upskin : area) : res area :=
      if (layer_count - top_layers s <? layer_nr) || (top_layers s <=? 0) then Ok upskin
      else
        let! not_air := getOutlineOnLayer p (layer_nr + top_layers s) in
        let! not_air := (if no_small_gaps_heuristic s then Ok not_air
                         else intersect_layers p (Z.to_nat (layer_nr + top_layers s - (layer_nr + 1))) (layer_nr + 1) not_air) in
        let not_air := if negb (Qle_bool (min_infill_area s) 0) then removeSmallAreas (min_infill_area s) not_air else not_air in
        Ok (a_sub upskin not_air).

    (** skin.cpp:246-313; the new areas above and below *)
    Definition applySkinExpansion (original_outline upskin downskin : area) : area * area :=
      let min_width := min_skin_width_for_expansion s ÷ 2 in
      let down_d := bottom_skin_expand_distance s in
      let up_d := top_skin_expand_distance s in
      let downskin :=
        if down_d =? 0 then downskin
        else if 0 <? min_width then a_union downskin (offset (min_width + down_d) (offset (- min_width) downskin))
        else offset down_d downskin in
      let upskin :=
        if up_d =? 0 then upskin
        else if 0 <? min_width then a_union upskin (offset (min_width + up_d) (offset (- min_width) upskin))
        else offset up_d upskin in
      let shrink_down := (0 <? bottom_skin_preshrink s) || ((min_width =? 0) && negb (down_d =? 0)) in
      let shrink_up := (0 <? top_skin_preshrink s) || ((min_width =? 0) && negb (up_d =? 0)) in
      let downskin :=
        if shrink_down
        then a_inter (offset_miter (bottom_skin_preshrink s ÷ 2) (offset_miter (- bottom_skin_preshrink s ÷ 2) downskin)) downskin
        else downskin in
      let upskin :=
        if shrink_up
        then offset_miter (top_skin_preshrink s ÷ 2) (offset_miter (- top_skin_preshrink s ÷ 2) upskin)
        else upskin in
      (if (0 <? up_d) || shrink_up then a_inter upskin original_outline else upskin,
       if (0 <? down_d) || shrink_down then a_inter downskin original_outline else downskin).

    (** skin.cpp:315-330 *)
    Definition applySkinFillSmallInfillGaps (skin infill : area) : area * area :=
      let opening_offset := skin_line_width s * 2 in
      let opened_skin := offset (- opening_offset - EPSILON) (offset opening_offset skin) in
      let filled_areas := a_sub opened_skin skin in
      let filled_areas_over_infill := offset EPSILON (a_inter filled_areas infill) in
      (a_union skin filled_areas_over_infill, a_sub infill filled_areas_over_infill).

    (** skin.cpp:131-174 with generateInfill (338-342): the skin and the infill of a part.  The skin is then split into parts. *)
    Definition generateSkinAndInfill (p : part) : res (area * area) :=
      let top_skin := if 0 <? top_layers s then inner_area p else a_empty in
      let bottom_skin := if (0 <? bottom_layers s) || (layer_nr <? initial_bottom_layers s) then inner_area p else a_empty in
      let! bottom_skin := calculateBottomSkin p bottom_skin in
      let! top_skin := calculateTopSkin p top_skin in
      let e := applySkinExpansion (inner_area p) top_skin bottom_skin in
      let skin := removeSmallAreas MIN_AREA_SIZE (a_union e.1 e.2) in
      let infill := a_sub (inner_area p) skin in
      let r := applySkinFillSmallInfillGaps skin infill in
      Ok (r.1, if process_infill s then removeSmallAreas MIN_AREA_SIZE r.2 else r.2).

    (** skin.cpp:111-124: nothing is done for a mesh with neither infill nor top and bottom layers *)
    Definition generateSkinAndInfillAreas (p : part) : res (option (area * area)) :=
      if negb (process_infill s) && (bottom_layers s =? 0) && (top_layers s =? 0) then Ok None
      else let! r := generateSkinAndInfill p in Ok (Some r).

    (** ** Roofing and flooring *)
    (** skin.cpp:528-560 *)
    Definition generateFilledAreaAbove (p : part) (count : Z) : res area :=
      let! filled := getOutlineOnLayer p (layer_nr + count) in
      let! filled := (if no_small_gaps_heuristic s then Ok filled
                      else intersect_layers p (Z.to_nat (layer_nr + count - (layer_nr + 1))) (layer_nr + 1) filled) in
      if 0 <? layer_nr then
        let! here := getOutlineOnLayer p layer_nr in
        let! below := getOutlineOnLayer p (layer_nr - 1) in
        let air_below := a_sub here below in
        Ok (if negb (empty air_below) then a_union filled air_below else filled)
      else Ok filled.

    (** skin.cpp:568-590 *)
    Definition generateFilledAreaBelow (p : part) (count : Z) : res (option area) :=
      if layer_nr <? count then Ok None
      else
        let lowest := layer_nr - count in
        let! filled := getOutlineOnLayer p lowest in
        let! filled := (if no_small_gaps_heuristic s then Ok filled
                        else intersect_layers p (Z.to_nat (layer_nr - (lowest + 1))) (lowest + 1) filled) in
        Ok (Some filled).

    (** polygonUtils.cpp:1567-1570 and 1555-1559 *)
    Definition getRawWideAreas (a : area) (min_width extra_widen : Z) : area :=
      offset (min_width ÷ 2 + extra_widen) (offset (- min_width ÷ 2) a).
    Definition getThinAreas (a : area) (max_width : Z) : area := a_sub a (getRawWideAreas a max_width EPSILON).
    (** polygonUtils.cpp:1522-1553 with allow_thin_areas_grow: the new source and destination *)
    Definition mergeThinOverlap (max_dist : Z) (source destination : area) : area * area :=
      if empty source || empty destination then (source, destination)
      else
        let allow_grow_area := getThinAreas destination max_dist in
        if empty allow_grow_area then (source, destination)
        else
          let actual_grow_area := offset EPSILON (a_inter (offset max_dist source) allow_grow_area) in
          if empty actual_grow_area then (source, destination)
          else (a_union source actual_grow_area, a_sub destination actual_grow_area).

    Record fills := Fills { skin_fill : area; roofing_fill : area; flooring_fill : area }.

    (** skin.cpp:468-509: one part [skin] of the skin *)
    Definition fill_skin_part (r : roof_settings) (has_roofing has_flooring : bool) (filled_area_above filled_area_below skin : area)
        : fills :=
      let roofing :=
        if has_roofing then
          let below_inside := a_inter skin filled_area_below in
          let roofing := a_sub below_inside filled_area_above in
          if 0 <? roofing_expansion r then a_inter (offset (roofing_expansion r) roofing) below_inside else roofing
        else a_empty in
      let flooring :=
        if has_flooring then a_sub (a_inter skin filled_area_above) filled_area_below else a_empty in
      let fill := a_inter (a_sub skin roofing) filled_area_below in
      let d := top_bottom_skin_merge_distance r in
      let m1 := if 0 <? d then mergeThinOverlap d fill roofing else (fill, roofing) in
      let m2 := if 0 <? d then mergeThinOverlap d m1.1 flooring else (m1.1, flooring) in
      let roofing := m1.2 in
      let flooring := m2.2 in
      let fill := a_sub (a_sub (offset (skin_overlap r) m2.1) roofing) flooring in
      let roofing := offset (skin_overlap r) roofing in
      Fills fill roofing (a_sub (offset (skin_overlap r) flooring) roofing).

    (** skin.cpp:455-510; [build_plate] is getRawMachineBorder() *)
    Definition generateSkinRoofingFlooringFill (r : roof_settings) (build_plate : area) (p : part) (skin_parts : list area)
        : res (list fills) :=
      let has_roofing := (0 <? roofing_layer_count r) && roofing_differs r in
      let has_flooring := (0 <? flooring_layer_count r) && flooring_differs r in
      let! above := (if has_roofing then generateFilledAreaAbove p (roofing_layer_count r) else Ok build_plate) in
      let! below := (if has_flooring
                     then let! b := generateFilledAreaBelow p (flooring_layer_count r) in Ok (default build_plate b)
                     else Ok build_plate) in
      Ok (map (fill_skin_part r has_roofing has_flooring above below) skin_parts).

    (** skin.cpp:512-526: the topmost and the bottommost surface *)
    Definition generateTopAndBottomMostSurfaces (p : part) : res (area * area) :=
      let! outline_above := getOutlineOnLayer p (layer_nr + 1) in
      let top := a_sub (outline p) outline_above in
      if 0 <? layer_nr then
        let! outline_below := getOutlineOnLayer p (layer_nr + 1) in
        Ok (top, a_sub (outline p) outline_below)
      else Ok (top, outline p).
  End part.
End skin.
