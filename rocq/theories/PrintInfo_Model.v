(** Model of what is reported about the whole print and of the speed changes for wide and narrow lines: src/PrintInformation.cpp,
    ExtruderPlan::hasExtrusion, calculateExtrusionBoundingBox, applyBackPressureCompensation (src/ExtruderPlan.cpp:73-140) and
    their callers in LayerPlan (src/LayerPlan.cpp:4049-4060, 4082-4109). *)
From Coq Require Import ZArith QArith Qminmax.
From stdpp Require Import prelude list.
From Verif Require Import Common Box_Model.
Open Scope Z_scope.

(** include/pathPlanning/GCodePath.h: GCodePath; of the points X and Y only, and of the configuration the line width and whether
    it is a bridge path.  doubles (width_factor and speed_back_pressure_factor) are rational numbers. *)
Record ipath := IPath { line_width : Z; bridge : bool; ipoints : list (Z * Z); width_factor : Q; back_pressure : Q }.
(** ExtruderPlan: extruder_nr_ and paths_ *)
Record iplan := IPlan { iextruder : nat; ipaths : list ipath }.
(** LayerPlan: layer_nr_ and extruder_plans_ *)
Record ilayer := ILayer { ilayer_nr : Z; iplans : list iplan }.

(** GCodePathConfig.cpp:51-54 *)
Definition isTravelPath (p : ipath) : bool := line_width p =? 0.

(** ExtruderPlan.cpp:102-110 *)
Definition hasExtrusion (e : iplan) : bool :=
  existsb (fun p => negb (isTravelPath p) && negb (match ipoints p with [] => true | _ => false end)) (ipaths e).

(** ExtruderPlan.cpp:117-137: the loop; [cur] is current_position *)
Fixpoint box_paths (ps : list ipath) (cur : option (Z * Z)) (b : AABB) : AABB :=
  match ps with
  | [] => b
  | p :: ps =>
      match last (ipoints p) with
      | None => box_paths ps cur b
      | Some e =>
          let b := if isTravelPath p then b
                   else fold_left aabb_include (ipoints p) (match cur with Some c => aabb_include b c | None => b end) in
          box_paths ps (Some e) b
      end
  end.
(** ExtruderPlan.cpp:112-140 *)
Definition plan_box (e : iplan) : AABB := box_paths (ipaths e) None aabb_empty.
(** LayerPlan.cpp:4099-4109 *)
Definition layer_box (l : ilayer) : AABB := fold_left (fun b e => aabb_include_box b (plan_box e)) (iplans l) aabb_empty.
(** LayerPlan.cpp:4082-4097 *)
Definition findInitialExtruderNr (l : ilayer) : option nat :=
  match List.find hasExtrusion (iplans l) with Some e => Some (iextruder e) | None => None end.

(** PrintInformation: initial_extruder_nr and initial_layer_bb *)
Record pinfo := PInfo { initial_extruder : option nat; initial_bb : AABB }.
Definition pinfo_0 : pinfo := PInfo None aabb_empty.
(** PrintInformation.cpp:10-22 *)
Definition updateWithLayer (i : pinfo) (l : ilayer) : pinfo :=
  let ex := match initial_extruder i with Some e => Some e | None => findInitialExtruderNr l end in
  let bb := if ilayer_nr l =? 0 then aabb_include_box (initial_bb i) (layer_box l) else initial_bb i in
  PInfo ex bb.

(** ExtruderPlan.cpp:73-87, one path *)
Definition compensate_path (c : Q) (p : ipath) : ipath :=
  if Qle_bool (width_factor p) 0 || (line_width p <=? 0) || isTravelPath p || bridge p then p
  else
    let nominal := inject_Z (line_width p) in
    let width := (width_factor p * nominal)%Q in
    IPath (line_width p) (bridge p) (ipoints p) (width_factor p) (Qmax (1 # 1000) (1 + (nominal / width - 1) * c)).
(** LayerPlan.cpp:4049-4060; [setting] is speed_equalize_flow_width_factor of each extruder *)
Definition applyBackPressureCompensation (setting : nat -> Q) (l : ilayer) : ilayer :=
  ILayer (ilayer_nr l)
    (map (fun e => if Qeq_bool (setting (iextruder e)) 0 then e
                   else IPlan (iextruder e) (map (compensate_path (setting (iextruder e))) (ipaths e))) (iplans l)).
