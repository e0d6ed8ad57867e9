(** Model of SkinInfillAreaComputation::generateInfillSupport (src/skin.cpp:583-620): infill is only kept where it supports
    something. *)
From Coq Require Import ZArith.
From stdpp Require Import prelude list.
From Verif Require Import Common Carve_Model.

(** sliceDataStorage.h SliceLayerPart: infill_area and infill_area_own *)
Record fpart := FPart { infill_area : area; infill_own : option area }.
(** sliceDataStorage.cpp:44-54 getOwnInfillArea *)
Definition own (p : fpart) : area := match infill_own p with Some a => a | None => infill_area p end.

Section infill_support.
  (** Shape::empty(), the offset by [-max_dist_from_lower_layer], and the one by [max_dist_from_lower_layer + 50] are arguments.
      So is therefore the support angle. *)
  Variable is_empty : area -> bool.
  Variable shrink grow : area -> area.

  (** skin.cpp:595-601: all areas of the layer above together *)
  Definition together (as_ : list area) : area := fold_left a_union as_ a_empty.
  (** lines 603-618, one part *)
  Definition support_part (inside_above infill_above : area) (p : fpart) : fpart :=
    if is_empty (infill_area p) then p
    else
      let unsupported := shrink (infill_area p) in
      let basic_overhang := a_sub unsupported inside_above in
      let overhang_extented := grow basic_overhang in
      let full_overhang := a_sub overhang_extented inside_above in
      let infill_support := a_union infill_above full_overhang in
      FPart (infill_area p) (Some (a_inter infill_support (own p))).
  (** lines 592-618, one layer *)
  Definition support_layer (above l : list fpart) : list fpart :=
    map (support_part (together (map infill_area above)) (together (map own above))) l.
  (** lines 590-619: from the layer below the top down; the lowest layer is first in the list *)
  Fixpoint generateInfillSupport (ls : list (list fpart)) : list (list fpart) :=
    match ls with
    | [] => []
    | l :: ls =>
        let ls := generateInfillSupport ls in
        match ls with
        | [] => [l]
        | above :: _ => support_layer above l :: ls
        end
    end.
End infill_support.
