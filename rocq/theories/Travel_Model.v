(** Model of the planning of a travel move: src/LayerPlan.cpp:331-347 (moveInsideCombBoundary), 369-530 (addTravel), 532-547 (addTravel_simple).

    The path that the combing finds and the place inside of the combing boundary are arguments.  Heights, the extruder and the configuration of
    the path are left out; the settings are those of the mesh or the extruder, whichever is used.  Coordinates are unbounded integers. *)
From Coq Require Import ZArith.
From stdpp Require Import prelude list.
From Verif Require Import Geo_Model Combing_Model.
Open Scope Z_scope.

Record settings := Settings {
  retraction_enable : bool; retraction_hop_enabled : bool; retraction_hop_after_extruder_switch : bool;
  retraction_min_travel_distance : Z; retraction_combing_max_distance : Z; maximum_travel_resolution : Z }.
(** include/pathPlanning/GCodePath.h, what is used here *)
Record path := Path { points : list pt; retract : bool; perform_z_hop : bool; unretract_before_last_travel_move : bool }.
Definition new_path : path := Path [] false false false.
(** include/pathPlanning/CombPaths.h, and the two flags that Comb::calc sets *)
Record comb_paths := CombPaths {
  ways : list (list pt * bool); (** the points of each way, and whether it crosses a boundary *)
  through_air : bool; unretract_before : bool; do_retracted_combing_move : bool }.
Inductive force := AUTOMATIC | RETRACTED | NOT_RETRACTED.
Record state := State {
  last_planned_position : option pt; was_inside : bool; is_inside : bool;
  first_travel_destination : option (pt * bool) }.

Section travel.
  Variable s : settings.
  Variable comb : option (pt -> pt -> option comb_paths). (** [None]: there is no combing; else what calc returns *)
  Variable inside : pt -> option pt. (** the place inside of the combing boundary, if the position is near it *)

  (** LayerPlan.cpp:532-547 *)
  Definition addTravel_simple (p : pt) (pa : path) (st : state) : path * state :=
    let first := match last_planned_position st with None => Some (p, is_inside st) | Some _ => first_travel_destination st end in
    (Path (points pa ++ [p]) (retract pa) (perform_z_hop pa) (unretract_before_last_travel_move pa),
     State (Some p) (was_inside st) (is_inside st) first).

  (** LayerPlan.cpp:469-477; points, distance and last point *)
  Definition add_comb_point (a : list pt * Z * pt) (comb_point : pt) : list pt * Z * pt :=
    let pts := a.1.1 in
    let adds := match last pts with None => true | Some b => maximum_travel_resolution s * maximum_travel_resolution s <? vSize2 (psub b comb_point) end in
    if adds then (pts ++ [comb_point], a.1.2 + vSize (psub a.2 comb_point), comb_point) else a.
  (** LayerPlan.cpp:463-482; also whether to retract *)
  Definition add_comb_path (p : pt) (do_retract : bool) (a : list pt * Z * pt * bool) (combPath : list pt * bool) : list pt * Z * pt * bool :=
    match combPath.1 with
    | [] => a
    | _ =>
        let b := foldl add_comb_point a.1 combPath.1 in
        let distance := b.1.2 + vSize (psub b.2 p) in
        (b.1.1, distance, b.2, do_retract || ((0 <? retraction_combing_max_distance s) && (retraction_combing_max_distance s <? distance) && retraction_enable s))
    end.
  (** LayerPlan.cpp:438-488 *)
  Definition add_combed (p last_point : pt) (c : comb_paths) (pa : path) : path :=
    let do_retract := retract pa || (((1 <? length (ways c))%nat || do_retracted_combing_move c) && retraction_enable s) in
    let do_retract := if negb do_retract then
                        if through_air c then retraction_enable s
                        else if existsb snd (ways c) then retraction_enable s else do_retract
                      else do_retract in
    let a := foldl (add_comb_path p do_retract) (points pa, 0, last_point, retract pa) (ways c) in
    Path a.1.1.1 a.2 (perform_z_hop pa) (a.2 && unretract_before c).

  Definition set_retract (b : bool) (pa : path) : path := Path (points pa) b (perform_z_hop pa) (unretract_before_last_travel_move pa).
  Definition set_z_hop (b : bool) (pa : path) : path := Path (points pa) (retract pa) b (unretract_before_last_travel_move pa).
  Definition is_forced (f : force) : bool := match f with RETRACTED => true | _ => false end.
  Definition is_unforced (f : force) : bool := match f with NOT_RETRACTED => true | _ => false end.

  (** LayerPlan.cpp:390-401: the first move of the layer *)
  Definition start_first (layer_nr : Z) (pa : path) : path :=
    if (layer_nr =? 0) && retraction_enable s && retraction_hop_enabled s then set_z_hop true (set_retract true pa) else pa.
  (** LayerPlan.cpp:402-412: any other move *)
  Definition start_other (force_retract : force) (short : bool) (pa : path) : path :=
    if is_forced force_retract && negb short then
      let pa := set_retract true pa in
      match comb with None => set_z_hop (retraction_hop_enabled s) pa | Some _ => pa end
    else pa.
  (** LayerPlan.cpp:414-437: what the combing finds *)
  Definition comb_answer (bypass_combing : bool) (l p : pt) : option comb_paths :=
    match comb with Some calc => if bypass_combing then None else calc l p | None => None end.
  (** LayerPlan.cpp:491-494 *)
  Definition unforce (force_retract : force) (pa : path) : path := if is_unforced force_retract then set_retract false pa else pa.
  (** LayerPlan.cpp:496-503 *)
  Definition shorten (short : bool) (pa : path) : path := if short then set_z_hop false (set_retract false pa) else pa.
  (** LayerPlan.cpp:505-521 *)
  Definition not_combed (l : pt) (pa : path) (st : state) : path * state :=
    let r := if was_inside st then match inside l with Some q => addTravel_simple q pa st | None => (pa, st) end else (pa, st) in
    (set_z_hop (retraction_enable s && retraction_hop_enabled s) (set_retract (retraction_enable s) r.1), r.2).
  (** LayerPlan.cpp:523-529 *)
  Definition finish (p : pt) (r : path * state) : path * state :=
    let r := addTravel_simple p r.1 r.2 in
    (r.1, State (last_planned_position r.2) (is_inside r.2) (is_inside r.2) (first_travel_destination r.2)).

  (** LayerPlan.cpp:369-530; [after_switch]: is_first_travel_of_extruder_after_switch; the result is the path and the state *)
  Definition addTravel (layer_nr : Z) (after_switch : bool) (p : pt) (force_retract : force) (pa : path) (st : state) : path * state :=
    let bypass_combing := after_switch && retraction_hop_after_extruder_switch s in
    match last_planned_position st with
    | None =>
        let st := State None (was_inside st) (is_inside st) (Some (p, is_inside st)) in
        finish p (unforce force_retract (start_first layer_nr pa), st)
    | Some l =>
        let short := shorterThen (psub l p) (retraction_min_travel_distance s) in
        let pa := start_other force_retract short pa in
        let answer := comb_answer bypass_combing l p in
        let pa := match answer with Some c => add_combed p l c pa | None => pa end in
        let pa := shorten short (unforce force_retract pa) in
        match answer with
        | None => if negb short then finish p (not_combed l pa st) else finish p (pa, st)
        | Some _ => finish p (pa, st)
        end
    end.
End travel.
