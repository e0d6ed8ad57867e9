(** Model of SkinInfillAreaComputation::combineInfillLayers (src/skin.cpp:721-806): the infill of several layers printed at once
    on the uppermost of them.  AreaSupport::combineSupportInfillLayers (src/support.cpp:497-602) is the same for support and is
    not modelled separately.

    An area (Shape) is the set of its points, as in Carve_Model; pushing areas into one Shape is their union. *)
From Coq Require Import ZArith.
From stdpp Require Import prelude list.
From Verif Require Import Common Geo_Model Box_Model Carve_Model.

(** sliceDataStorage.h: a part of a layer: infill_area, boundaryBox and infill_area_per_combine_per_density, of which
    [c_areas !! d !! t] is printed [t + 1] layers thick with density [d] *)
Record cpart := CPart { c_infill : area; c_box : AABB; c_areas : list (list area) }.
Notation clayer := (list cpart).
Notation cmesh := (list (list cpart)).

Section combine.
  (** offset(-200).offset(200) (skin.cpp:775) *)
  Variable open : area -> area.

  (** skin.cpp:779-797: takes [a] from the thin infill of density [d] on the part below, or of all densities from [d] on *)
  Fixpoint remove_thin (d : nat) (last : bool) (a : area) (i : nat) (ls : list (list area)) : res (list (list area)) :=
    match ls with
    | [] => Ok []
    | l :: ls =>
        let! l := (if (i =? d)%nat || (last && (d <=? i)%nat)
                   then match l with [] => UB | h :: t => Ok (a_sub h a :: t) end
                   else Ok l) in
        let! ls := remove_thin d last a (S i) ls in
        Ok (l :: ls)
    end.

  (** skin.cpp:771-800: the loop over the parts of the layer below, for density [d] of a part; [here] is the area that was
      thickened so far.  The area thickened now, what is left of [here], and the layer below. *)
  Fixpoint combine_density (box : AABB) (d : nat) (last : bool) (here : area) (lower : clayer) : res (area * area * clayer) :=
    match lower with
    | [] => Ok (a_empty, here, [])
    | q :: lower =>
        if aabb_hit box (c_box q) then
          let intersection := open (a_inter here (c_infill q)) in
          let! areas := remove_thin d last intersection 0 (c_areas q) in
          let! r := combine_density box d last (a_sub here intersection) lower in
          Ok (a_union intersection r.1.1, r.1.2, CPart (c_infill q) (c_box q) areas :: r.2)
        else
          let! r := combine_density box d last here lower in
          Ok (r.1.1, r.1.2, q :: r.2)
    end.

  (** skin.cpp:767-803: the loop over the densities [d], ... of a part *)
  Fixpoint combine_densities (combine_count : nat) (box : AABB) (d : nat) (ls : list (list area)) (lower : clayer)
      : res (list (list area) * clayer) :=
    match ls with
    | [] => Ok ([], lower)
    | l :: ls =>
        let! here := of_opt (l !! (combine_count - 1)%nat) in
        let! r := combine_density box d (match ls with [] => true | _ => false end) here lower in
        let! r2 := combine_densities combine_count box (S d) ls r.2 in
        Ok ((<[(combine_count - 1)%nat := r.1.2]> l ++ [r.1.1]) :: r2.1, r2.2)
    end.

  (** skin.cpp:765-804: the loop over the parts of a layer *)
  Fixpoint combine_layer (combine_count : nat) (layer lower : clayer) : res (clayer * clayer) :=
    match layer with
    | [] => Ok ([], lower)
    | q :: layer =>
        let! r := combine_densities combine_count (c_box q) 0 (c_areas q) lower in
        let! r2 := combine_layer combine_count layer r.2 in
        Ok (CPart (c_infill q) (c_box q) r.1 :: r2.1, r2.2)
    end.

  (** skin.cpp:752-805: [count] rounds from [combine_count] on for layer [layer_idx] *)
  Fixpoint combine_rounds (min_layer layer_idx count combine_count : nat) (m : cmesh) : res cmesh :=
    match count with
    | O => Ok m
    | S count =>
        if (layer_idx <? combine_count)%nat || (layer_idx - combine_count <? min_layer)%nat then Ok m
        else
          let! layer := of_opt (m !! layer_idx) in
          let! lower := of_opt (m !! (layer_idx - combine_count)%nat) in
          let! r := combine_layer combine_count layer lower in
          combine_rounds min_layer layer_idx count (S combine_count)
            (<[layer_idx := r.1]> (<[(layer_idx - combine_count)%nat := r.2]> m))
    end.
  Fixpoint combine_all (min_layer amount : nat) (layer_idxs : list nat) (m : cmesh) : res cmesh :=
    match layer_idxs with
    | [] => Ok m
    | layer_idx :: layer_idxs =>
        let! m := combine_rounds min_layer layer_idx (amount - 1) 1 m in
        combine_all min_layer amount layer_idxs m
    end.

  (** skin.cpp:721-806: [amount] layers are combined; [bottom] is initial_bottom_layers, [top] top_layers *)
  Definition min_layer (bottom amount : nat) : nat := let m := (bottom + amount - 1)%nat in (m - m mod amount)%nat.
  Definition max_layer (size top amount : nat) : nat := let m := (size - 1 - top)%nat in (m - m mod amount)%nat.
  Definition combineInfillLayers (amount bottom top : nat) (infill_line_distance : Z) (m : cmesh) : res cmesh :=
    if (length m =? 0)%nat || (length m - 1 <? top)%nat || (infill_line_distance =? 0)%Z then Ok m
    else if (amount <=? 1)%nat then Ok m
    else
      let lo := min_layer bottom amount in
      let hi := max_layer (length m) top amount in
      combine_all lo amount (map (fun i => lo + i * amount)%nat (seq 0 (if (hi <? lo)%nat then 0 else (hi - lo) / amount + 1)))%nat m.
End combine.
