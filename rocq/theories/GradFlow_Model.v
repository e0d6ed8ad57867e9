(** Model of gradual flow: include/gradual_flow/FlowLimitedPath.h and Processor.h.  Doubles are exact rationals. *)
From Coq Require Import ZArith QArith Qround Qminmax.
From stdpp Require Import list.
From Verif Require Import Common GCode_Model Wall_Model.
Open Scope Q_scope.

(** include/pathPlanning/GCodePath.h: the fields used.  [g_volume] is flow * config.line_width *
    config.layer_thickness * config.getFlowRatio() (FlowLimitedPath.h:68-72); [g_speed] is
    config.speed_derivatives.speed; [g_other] stands for all other attributes, which are copied. *)
Record gpath := GPath {
  g_points : list pt3; g_volume : Q; g_speed : Q; g_factor : Q; g_retract : bool; g_other : nat }.

(** FlowLimitedPath.h:30-36.  total_length is a function of the points (they are never changed after the path is made). *)
Record fpath := FPath { orig : gpath; points : list pt3; speed : Q; flow : Q }.
(** FlowLimitedPath.h:38-41 *)
Definition targetSpeed (g : gpath) : Q := g_speed g * g_factor g * 1000.
(** The default member initialisers (FlowLimitedPath.h:34-36) *)
Definition make (g : gpath) (pts : list pt3) (spd : Q) : fpath := FPath g pts spd (g_volume g * spd).
(** FlowLimitedPath.h:89-92, 48-51, 58-61 *)
Definition targetFlow (g : gpath) : Q := g_volume g * targetSpeed g.
Definition isTravel (p : fpath) : bool := Qle_bool (targetFlow (orig p)) 0.
Definition isRetract (p : fpath) : bool := g_retract (orig p).

Definition Qltb (a b : Q) : bool := negb (Qle_bool b a).

Section gradual.
  (** std::hypot, applied to differences of coordinates *)
  Variable hypot : Z -> Z -> Q.
  Definition segment_length (a b : pt3) : Q := hypot (x3 b - x3 a) (y3 b - y3 a).

  (** FlowLimitedPath.h:136-149 *)
  Fixpoint path_length (last_point : pt3) (pts : list pt3) : Q :=
    match pts with
    | [] => 0
    | p :: pts' => segment_length last_point p + path_length p pts'
    end.
  Definition totalLength (pts : list pt3) : Q :=
    match pts with [] => 0 | p :: pts' => path_length p pts' end.
  (** FlowLimitedPath.h:156-159 *)
  Definition totalDuration (p : fpath) : Q := totalLength (points p) / speed p.

  (** FlowLimitedPath.h:204-207 *)
  Definition partition_coord (a b : Z) (ratio : Q) : Z := a + qtrunc (inject_Z (b - a) * ratio).
  Definition partition_at (a b : pt3) (ratio : Q) : pt3 :=
    P3 (partition_coord (x3 a) (x3 b) ratio) (partition_coord (y3 a) (y3 b) ratio) (partition_coord (z3 a) (z3 b) ratio).

  (** FlowLimitedPath.h:183-208: the loop.  [rest] are the points after prev_point in the direction of the
      iteration, [k] counts the points passed.  Running out of points is a read out of bounds. *)
  Fixpoint scan (partition_duration partition_speed : Q) (prev_point : pt3) (rest : list pt3) (current : Q) (k : nat)
      : res (nat * pt3) :=
    match rest with
    | [] => UB
    | next_point :: rest' =>
        let segment_duration := segment_length prev_point next_point / partition_speed in
        if Qltb (current + segment_duration) partition_duration
        then scan partition_duration partition_speed next_point rest' (current + segment_duration) (S k)
        else Ok (k, partition_at prev_point next_point ((partition_duration - current) / segment_duration))
    end.

  (** FlowLimitedPath.h:172-283.  The assertion on the ratio is not modelled (it holds with exact arithmetic). *)
  Definition partition (p : fpath) (partition_duration partition_speed : Q) (forward : bool) : res (fpath * option fpath * Q) :=
    let total_path_duration := totalLength (points p) / partition_speed in
    if Qle_bool total_path_duration partition_duration
    then Ok (make (orig p) (points p) partition_speed, None, partition_duration - total_path_duration)
    else
      match (if forward then points p else reverse (points p)) with
      | [] => UB
      | first :: rest =>
          let! r := scan partition_duration partition_speed first rest 0 0 in
          let partition_point_index := (if forward then r.1 + 1 else pred (length (points p)) - r.1)%nat in
          let left_points := take partition_point_index (points p) ++ [r.2] in
          let right_points := r.2 :: drop partition_point_index (points p) in
          if forward
          then Ok (make (orig p) left_points partition_speed, Some (make (orig p) right_points (speed p)), 0)
          else Ok (make (orig p) right_points partition_speed, Some (make (orig p) left_points (speed p)), 0)
      end.

  (** FlowLimitedPath.h:23-28, 301-310 *)
  Inductive flow_state := STABLE | TRANSITION | UNDEFINED.
  Record gstate := GState { current_flow : Q; duration_remaining : Q; fstate : flow_state }.
  Record params := Params {
    flow_acceleration : Q; flow_deceleration : Q; discretized_duration : Q; target_end_flow : Q; reset_flow_duration : Q }.
  Variable P : params.

  Definition state_of (remaining : Q) : flow_state := if Qltb 0 remaining then TRANSITION else STABLE.

  (** FlowLimitedPath.h:406-447: the while loop.  The two assertions are not modelled: the second one can fail,
      when a path takes exactly the time of a step. *)
  Fixpoint ramp (fuel : nat) (forward : bool) (target_flow volume : Q) (remaining_path : fpath) (done : list fpath) (st : gstate)
      : res (list fpath * gstate) :=
    if Qltb (current_flow st) target_flow then
      match fuel with
      | O => NoFuel
      | S fuel' =>
          let flow_delta := (if forward then flow_acceleration P else flow_deceleration P) * discretized_duration P in
          let current := Qmin target_flow (current_flow st + flow_delta) in
          let segment_speed := current / volume in
          if Qeq_bool current target_flow then
            let remaining_path := FPath (orig remaining_path) (points remaining_path) segment_speed (flow remaining_path) in
            let remaining := Qmax (duration_remaining st - totalDuration remaining_path) 0 in
            Ok (done ++ [remaining_path], GState current remaining (state_of remaining))
          else
            let! r := partition remaining_path (discretized_duration P) segment_speed forward in
            match r.1.2 with
            | Some new_remaining_path =>
                ramp fuel' forward target_flow volume new_remaining_path (done ++ [r.1.1])
                  (GState current (duration_remaining st) (fstate st))
            | None => Ok (done ++ [r.1.1], GState current r.2 TRANSITION)
            end
      end
    else Ok (done ++ [remaining_path], GState (current_flow st) (duration_remaining st) (state_of (duration_remaining st))).

  (** enough iterations for the while loop if the flow rises *)
  Definition ramp_fuel (forward : bool) (target_flow current : Q) : nat :=
    S (Z.to_nat (Qceiling ((target_flow - current) / ((if forward then flow_acceleration P else flow_deceleration P) * discretized_duration P)))).

  (** FlowLimitedPath.h:356-453 processGcodePath.  Result: the paths in the order they are made, and the state. *)
  Definition processGcodePath (path : fpath) (forward : bool) (st : gstate) : res (list fpath * gstate) :=
    if isTravel path then
      Ok ([path], if isRetract path || Qltb (reset_flow_duration P) (totalDuration path)
                  then GState (current_flow st) (duration_remaining st) UNDEFINED else st)
    else
      let current := match fstate st with UNDEFINED => if forward then targetFlow (orig path) else current_flow st
                     | _ => current_flow st end in
      let target_flow := flow path in
      if Qle_bool target_flow current then Ok ([path], GState target_flow 0 STABLE)
      else
        let volume := g_volume (orig path) in
        if Qltb 0 (duration_remaining st) then
          let! r := partition path (duration_remaining st) (current / volume) forward in
          let remaining := Qmax 0 (duration_remaining st - r.2) in
          match r.1.2 with
          | Some remaining_path =>
              ramp (ramp_fuel forward target_flow current) forward target_flow volume remaining_path [r.1.1]
                (GState current remaining (fstate st))
          | None => Ok ([r.1.1], GState current remaining TRANSITION)
          end
        else ramp (ramp_fuel forward target_flow current) forward target_flow volume path []
               (GState current (duration_remaining st) (fstate st)).

  (** FlowLimitedPath.h:317-325: the forward pass *)
  Fixpoint forward_pass (paths : list fpath) (st : gstate) : res (list fpath * gstate) :=
    match paths with
    | [] => Ok ([], st)
    | p :: paths' =>
        let! r := processGcodePath p true st in
        let! rs := forward_pass paths' r.2 in
        Ok (r.1 ++ rs.1, rs.2)
    end.
  (** FlowLimitedPath.h:336-344: the backward pass; the last path comes first, results are put in front *)
  Fixpoint backward_pass (paths : list fpath) (st : gstate) : res (list fpath * gstate) :=
    match paths with
    | [] => Ok ([], st)
    | p :: paths' =>
        let! rs := backward_pass paths' st in
        let! r := processGcodePath p false rs.2 in
        Ok (reverse r.1 ++ rs.1, r.2)
    end.
  (** FlowLimitedPath.h:312-347 *)
  Definition processGcodePaths (paths : list fpath) (st : gstate) : res (list fpath) :=
    let! f := forward_pass paths (GState (current_flow st) 0 (fstate st)) in
    let! b := backward_pass f.1 (GState (Qmin (current_flow f.2) (target_end_flow P)) 0 (fstate f.2)) in
    Ok b.1.
End gradual.

(** FlowLimitedPath.h:285-298 toClassicPath *)
Definition toClassicPath (include_first_point : bool) (p : fpath) : gpath :=
  GPath (if include_first_point then points p else tail (points p)) (g_volume (orig p))
    (speed p / 1000 / g_factor (orig p)) (g_factor (orig p)) (g_retract (orig p)) (g_other (orig p)).

(** Processor.h:34-55: the conversion; [previous] are the points of the path before.  A path without points
    makes points.back() undefined for the next one. *)
Fixpoint convert (previous : option (list pt3)) (paths : list gpath) : res (list fpath) :=
  match paths with
  | [] => Ok []
  | g :: paths' =>
      let! pts := match previous with
                  | None => Ok (g_points g)
                  | Some prev => let! b := of_opt (last prev) in Ok (b :: g_points g)
                  end in
      let! rest := convert (Some pts) paths' in
      Ok (make g pts (targetSpeed g) :: rest)
  end.

(** Processor.h:57-70: the first flow that is not zero *)
Fixpoint first_flow (paths : list fpath) : Q :=
  match paths with
  | [] => 0
  | p :: paths' => if Qeq_bool (flow p) 0 then first_flow paths' else flow p
  end.

(** Processor.h:26-98 with gradual_flow_enabled.  [acceleration] is the setting (layer_0_)max_flow_acceleration
    for this layer, [step] is gradual_flow_discretisation_step_size, [reset] is reset_flow_duration. *)
Definition process (hypot : Z -> Z -> Q) (acceleration step reset : Q) (paths : list gpath) : res (list gpath) :=
  let! gcode_paths := convert None paths in
  let flow_limit := acceleration * 1000000000 in
  let target_flow := first_flow gcode_paths in
  let! out := processGcodePaths hypot (Params flow_limit flow_limit step target_flow reset) gcode_paths
                (GState target_flow 0 UNDEFINED) in
  Ok (match out with [] => [] | p :: out' => toClassicPath true p :: map (toClassicPath false) out' end).
