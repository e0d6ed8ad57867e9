(** Model of gradual infill: src/skin.cpp:622-718 (the areas per density) and src/FffGcodeWriter.cpp:2144-2370 (the distance of
    the lines printed in each of them).

    An area (Shape) is the set of its points, as in Carve_Model.  Doubles are exact rationals.  The emptiness test, the
    simplification of outlines and the removal of small areas are arguments of the model. *)
From Coq Require Import ZArith QArith Qround.
From stdpp Require Import prelude list.
From Verif Require Import Common Math_Model Geo_Model Box_Model Carve_Model.
Open Scope Z_scope.

(** sliceDataStorage.h: a part of a layer: getOwnInfillArea(), what generateWallToolPaths leaves of it inside of the infill
    walls (skin.cpp:656-663), and its bounding box *)
Record ipart := IPart { own_infill : area; within_walls : area; infill_box : AABB }.
Notation imesh := (list (list ipart)).

(** The settings read *)
Record gradual_settings := Gradual {
  gaps_heuristic : bool; (** skin_no_small_gaps_heuristic *)
  step_height : Z; layer_height : Z; max_infill_steps : nat; initial_bottom : Z; top : Z;
  is_connected : bool (** zig_zaggify_infill, or the zig-zag pattern (skin.cpp:647) *) }.

(** skin.cpp:625-638: the number of layers between the layers looked at, for [c] layers per step *)
Definition layer_skip_count (heuristic : bool) (c : Z) : Q :=
  let skip := if heuristic then 8 else 1 in
  let n_skip_steps := Z.max 1 (Qceiling (inject_Z c / inject_Z skip)) in
  (inject_Z c / inject_Z n_skip_steps)%Q.

Section gradual.
  (** Shape::empty and Simplify::polygon *)
  Variable empty : area -> bool.
  Variable simplify : area -> area.
  Variable layers : imesh.

  (** skin.cpp:688-696: the infill of the parts of a layer whose boxes touch the one of the part *)
  Definition relevant (here : ipart) (upper_layer : list ipart) : area :=
    foldr (fun q result => if aabb_hit (infill_box q) (infill_box here) then a_union (own_infill q) result else result) a_empty upper_layer.

  (** skin.cpp:680-698, one round per layer looked at *)
  Fixpoint look_up (fuel : nat) (here : ipart) (skip : Q) (upper max_layer : Q) (less_dense : area) : res area :=
    match fuel with
    | O => NoFuel
    | S fuel =>
        if Qle_bool upper max_layer then
          if Qle_bool (inject_Z (Z.of_nat (length layers))) upper then Ok a_empty
          else
            let! upper_layer := of_opt (layers !! Z.to_nat (Qfloor upper)) in
            look_up fuel here skip (upper + skip)%Q max_layer (a_inter less_dense (relevant here upper_layer))
        else Ok less_dense
    end.

  (** skin.cpp:675-711, one round per step: the areas of the steps and the sum of the denser ones *)
  Fixpoint density_steps (fuel : nat) (here : ipart) (connected : bool) (layer_idx c : Z) (skip : Q) (count : nat) (infill_step : Z)
      (less_dense sum_more_dense : area) : res (list area * area) :=
    match count with
    | O => Ok ([], sum_more_dense)
    | S count =>
        let min_layer := layer_idx + infill_step * c + Qfloor skip in
        let max_layer := layer_idx + (infill_step + 1) * c in
        let! less_dense := look_up fuel here skip (inject_Z min_layer) (inject_Z max_layer) less_dense in
        if empty less_dense then Ok ([], sum_more_dense)
        else
          let more_dense := a_sub (within_walls here) less_dense in
          let area_here := simplify (a_sub more_dense sum_more_dense) in
          let sum_more_dense := if connected then a_union sum_more_dense more_dense else sum_more_dense in
          let! r := density_steps fuel here connected layer_idx c skip count (infill_step + 1) less_dense sum_more_dense in
          Ok (area_here :: r.1, r.2)
    end.

  (** skin.cpp:622-718 for one part of layer [layer_idx]: the areas, the most dense one first *)
  Definition generateGradualInfill (fuel : nat) (s : gradual_settings) (layer_idx : Z) (here : ipart) : res (list area) :=
    let! c := round_divide (step_height s) (layer_height s) in
    let skip := layer_skip_count (gaps_heuristic s) c in
    let mesh_max_layer := Z.of_nat (length layers) - 1 - top s in
    if empty (within_walls here) || (layer_idx <? initial_bottom s) || (mesh_max_layer <? layer_idx) then Ok [a_empty]
    else
      let! r := density_steps fuel here (is_connected s) layer_idx c skip (max_infill_steps s) 0 (within_walls here) a_empty in
      Ok (r.1 ++ [simplify (a_sub (within_walls here) r.2)]).

  (** FffGcodeWriter.cpp:2202-2370: an area filled with lines; [for_skin] if to support the skin above *)
  Record job := Job { for_skin : bool; job_area : area; line_distance : Z }.
  (** Shape::removeSmallAreas with the threshold computed from the length of the outline *)
  Variable remove_small : area -> area.
  (** One density.  [below] is infill_below_skin, [not_below] infill_not_below_skin.  The distance is an int in the code,
      whose range is not modelled.  The lines cut at 2308-2313 and 2363-2368 are an empty set and left out. *)
  Definition jobs_of_density (d : Z) (cross : bool) (skin_distance : Z) (below not_below : area) (last_idx density_idx : nat) (a : area)
      : list job :=
    if empty a then []
    else
      let distance := d * 2 ^ (Z.of_nat density_idx + 1) in
      let distance := if (density_idx =? last_idx)%nat || cross then distance ÷ 2 else distance in
      if negb (empty below) then [Job true below skin_distance; Job false (remove_small not_below) distance]
      else [Job false (remove_small a) distance].
  Definition infill_jobs (d : Z) (cross : bool) (skin_distance : Z) (below : area) (areas : list area) : list job :=
    let last_idx := (length areas - 1)%nat in
    let not_below := a_sub (default a_empty (areas !! last_idx)) below in
    concat (rev (imap (jobs_of_density d cross skin_distance below not_below last_idx) areas)).
End gradual.
