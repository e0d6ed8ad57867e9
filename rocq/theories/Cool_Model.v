(** * Minimum layer time and fan speed

    Models [ExtruderPlan::forceMinimalLayerTime], [computeNaiveTimeEstimates],
    [processFanSpeedForMinimalLayerTime], [processFanSpeedForFirstLayers] and
    [LayerPlan::processFanSpeedAndMinimalLayerTime]
    (/repo/src/LayerPlan.cpp:3094-3364).

    Doubles are exact rationals.  The lengths of a path's segments are given
    instead of its points (the square root is not modelled).  A division by zero,
    which would give an infinity, gives 0 in Coq; the theorems exclude it. *)
From stdpp Require Import list.
From Coq Require Import ZArith QArith Qminmax Qabs.
From Verif Require Import Common.
Local Open Scope Q_scope.

(** A [GCodePath]: whether it is a travel path, whether it retracts, the lengths
    of its segments in mm, [config.getSpeed()], [speed_factor], and its time
    estimates (/repo/include/pathPlanning/TimeMaterialEstimates.h:10-17).
    Material is left out. *)
Record path := Path {
  travel : bool;
  retracts : bool;
  lens : list Q;
  cfg_speed : Q;
  speed_factor : Q;
  e_extrude : Q;
  e_unretracted : Q;
  e_retracted : Q;
  e_slowest : Q;
  e_minimum : Q
}.

(** [FanSpeedLayerTimeSettings] (/repo/include/FanSpeedLayerTime.h:24-89). *)
Record cool := Cool {
  min_layer_time : Q;
  min_layer_time_overhang : Q;
  overhang_min_length : Z;
  fan_max_time : Q;           (* cool_min_layer_time_fan_speed_max *)
  fan_0 : Q;
  fan_min : Q;
  fan_max : Q;
  min_speed : Q;
  fan_full_layer : Z
}.

(** The parts of an [ExtruderPlan] concerned (/repo/include/ExtruderPlan.h:154-200). *)
Record plan := Plan {
  extruder_nr : nat;
  layer_nr : Z;
  is_raft : bool;
  settings : cool;
  retract_distance : Q;
  retract_speed : Q;
  prime_speed : Q;
  paths : list path;
  p_extrude : Q;
  p_unretracted : Q;
  p_retracted : Q;
  slowest : option Q;         (* None: the largest double *)
  extra_time : Q;
  fan_speed : Q;
  temperature_factor : Q
}.

Definition set_paths (p : plan) (ps : list path) : plan :=
  Plan (extruder_nr p) (layer_nr p) (is_raft p) (settings p) (retract_distance p) (retract_speed p) (prime_speed p)
    ps (p_extrude p) (p_unretracted p) (p_retracted p) (slowest p) (extra_time p) (fan_speed p) (temperature_factor p).
Definition set_extrude (p : plan) (e : Q) : plan :=
  Plan (extruder_nr p) (layer_nr p) (is_raft p) (settings p) (retract_distance p) (retract_speed p) (prime_speed p)
    (paths p) e (p_unretracted p) (p_retracted p) (slowest p) (extra_time p) (fan_speed p) (temperature_factor p).
Definition set_extra_time (p : plan) (e : Q) : plan :=
  Plan (extruder_nr p) (layer_nr p) (is_raft p) (settings p) (retract_distance p) (retract_speed p) (prime_speed p)
    (paths p) (p_extrude p) (p_unretracted p) (p_retracted p) (slowest p) e (fan_speed p) (temperature_factor p).
Definition set_fan (p : plan) (f : Q) : plan :=
  Plan (extruder_nr p) (layer_nr p) (is_raft p) (settings p) (retract_distance p) (retract_speed p) (prime_speed p)
    (paths p) (p_extrude p) (p_unretracted p) (p_retracted p) (slowest p) (extra_time p) f (temperature_factor p).
Definition set_temperature_factor (p : plan) (f : Q) : plan :=
  Plan (extruder_nr p) (layer_nr p) (is_raft p) (settings p) (retract_distance p) (retract_speed p) (prime_speed p)
    (paths p) (p_extrude p) (p_unretracted p) (p_retracted p) (slowest p) (extra_time p) (fan_speed p) f.

(** [getTotalTime], [getTravelTime] (TimeMaterialEstimates.h:66-80). *)
Definition travel_time (p : plan) : Q := p_retracted p + p_unretracted p.
Definition total_time (p : plan) : Q := p_extrude p + p_unretracted p + p_retracted p.

(** ** [computeNaiveTimeEstimates] (LayerPlan.cpp:3188-3261) *)

(** The slowest extrusion path's speed (lines 3193-3201). *)
Definition slowest_step (value : option Q) (p : path) : option Q :=
  if travel p then value
  else let v := cfg_speed p * speed_factor p in
       match value with None => Some v | Some w => Some (Qmin w v) end.
Definition slowest_speed (ps : list path) : option Q := fold_left slowest_step ps None.

(** Lines 3212-3260, for one path.  [was_retracted] is never anything but false. *)
Definition naive_path (pl : plan) (slow : option Q) (p : path) : path :=
  let v := cfg_speed p * speed_factor p in
  let time := fold_left (fun t len => t + len / v) (lens p) in
  if travel p then
    let half :=
      if retracts p then (1 # 2) * (retract_distance pl / retract_speed pl) else 0 in
    let retracted := e_retracted p + half in
    let unretracted := e_unretracted p + half in
    Path (travel p) (retracts p) (lens p) (cfg_speed p) (speed_factor p) (e_extrude p)
      (if retracts p then unretracted else time unretracted)
      (if retracts p then time retracted else retracted) 0 0
  else
    let over w := fold_left (fun t len => if Qle_bool len 0 then t else t + len / w) (lens p) 0 in
    Path (travel p) (retracts p) (lens p) (cfg_speed p) (speed_factor p) (time (e_extrude p))
      (e_unretracted p) (e_retracted p)
      (match slow with Some w => over w | None => 0 end)
      (over (min_speed (settings pl))).

Definition naive (pl : plan) : plan :=
  let slow := slowest_speed (paths pl) in
  let ps := map (naive_path pl slow) (paths pl) in
  let sum f := fold_left (fun t p => t + f p) ps in
  Plan (extruder_nr pl) (layer_nr pl) (is_raft pl) (settings pl) (retract_distance pl) (retract_speed pl) (prime_speed pl)
    ps (sum e_extrude (p_extrude pl)) (sum e_unretracted (p_unretracted pl)) (sum e_retracted (p_retracted pl))
    slow (extra_time pl) (fan_speed pl) (temperature_factor pl).

(** ** [forceMinimalLayerTime] (LayerPlan.cpp:3094-3175) *)

Definition epsilon : Q := 1 # 100.
Definition Qltb (a b : Q) : bool := negb (Qle_bool b a).

(** The slow-down functions (lines 3117-3120, 3155-3159). *)
Definition slow_to (target : Q) (p : path) : Q := Qmin (target / (cfg_speed p * speed_factor p)) 1.
Definition slow_towards (slow factor : Q) (p : path) : Q :=
  let actual_target_speed := slow * (1 - factor) + cfg_speed p * speed_factor p * factor in
  Qmin (actual_target_speed / (cfg_speed p * speed_factor p)) 1.

(** Lines 3165-3174, for one path. *)
Definition slow_path (f : path -> Q) (p : path) : path :=
  if travel p then p
  else Path (travel p) (retracts p) (lens p) (cfg_speed p) (speed_factor p * f p) (e_extrude p / f p)
         (e_unretracted p) (e_retracted p) (e_slowest p) (e_minimum p).

Definition sum_of (f : path -> Q) (ps : list path) : Q := fold_left (fun t p => t + f p) ps 0.

Definition force_minimal (pl : plan) (minTime time_other : Q) : plan * bool :=
  let minimalSpeed := min_speed (settings pl) in
  let travelTime := travel_time pl in
  let extrudeTime := p_extrude pl in
  let totalTime := travelTime + extrudeTime + time_other in
  let at_minimum := sum_of e_minimum (paths pl) in
  let at_slowest := sum_of e_slowest (paths pl) in
  if Qltb totalTime (minTime - epsilon) && Qltb 0 extrudeTime then
    let minExtrudeTime := minTime - (totalTime - extrudeTime) in
    let slow := match slowest pl with Some w => w | None => 0 end in
    let r :=
      if Qle_bool at_minimum minExtrudeTime then
        let pl1 := set_extrude (set_temperature_factor pl 1) at_minimum in
        let wait := minTime - at_minimum - travelTime in
        (if Qltb epsilon wait then set_extra_time pl1 wait else pl1, slow_to minimalSpeed)
      else if Qle_bool at_slowest minExtrudeTime
              && Qle_bool epsilon (Qabs (at_minimum - at_slowest)) then
        let factor := (1 / at_minimum - 1 / minExtrudeTime) / (1 / at_minimum - 1 / at_slowest) in
        (set_extrude (set_temperature_factor pl (1 - factor)) minExtrudeTime,
         slow_to (minimalSpeed * (1 - factor) + slow * factor))
      else
        let factor := (1 / at_slowest - 1 / minExtrudeTime) / (1 / at_slowest - 1 / extrudeTime) in
        (set_extrude pl minExtrudeTime, slow_towards slow factor) in
    (set_paths r.1 (map (slow_path r.2) (paths pl)), true)
  else (pl, false).

(** ** Fan speed *)

(** [processFanSpeedForFirstLayers] (LayerPlan.cpp:3285-3313). *)
Definition fan_first_layers (c : cool) (layer : Z) (raft : bool) : Q :=
  if ((layer <? fan_full_layer c)%Z && (0 <? fan_full_layer c)%Z && negb raft)%bool
  then fan_0 c + (fan_min c - fan_0 c) * inject_Z (Z.max 0 layer) / inject_Z (fan_full_layer c)
  else fan_min c.

(** [Duration]'s operator- stops at 0 (/repo/include/settings/types/Duration.h:29-32, 50-53). *)
Definition duration_minus (a b : Q) : Q := if Qltb 0 (a - b) then a - b else 0.

(** [std::clamp] to 0..1. *)
Definition clamp01 (x : Q) : Q := if Qltb x 0 then 0 else if Qltb 1 x then 1 else x.

(** [processFanSpeedForMinimalLayerTime] (LayerPlan.cpp:3263-3283). *)
Definition fan_layer_time (c : cool) (regular total minTime : Q) : Q :=
  let layer_time_diff := duration_minus (fan_max_time c) minTime in
  let fraction_of_slope :=
    if Qeq_bool layer_time_diff 0 then 1 else clamp01 ((total - minTime) / layer_time_diff) in
  fan_max c + fraction_of_slope * (regular - fan_max c).

(** ** [processFanSpeedAndMinimalLayerTime] (LayerPlan.cpp:3315-3364) *)

(** The highest extruder number used (lines 3318-3324). *)
Definition last_extruder_nr (pls : list plan) : nat := fold_left (fun m p => Nat.max m (extruder_nr p)) pls 0%nat.

(** Lines 3329-3357, for one plan: estimates and fan speed. *)
Definition first_pass (pl : plan) : plan :=
  let n := naive pl in set_fan n (fan_first_layers (settings n) (layer_nr n) (is_raft n)).

(** The time of the other extruders' plans (lines 3337-3344), the longest minimum
    layer time (3346-3349), and the last plan of the last extruder (3337-3340). *)
Definition other_time (e : nat) (pls : list plan) : Q :=
  fold_left (fun t p => if Nat.eqb (extruder_nr p) e then t else t + total_time p) pls 0.
Definition wanted_time (max_overhang_length : Z) (pls : list plan) : Q :=
  fold_left (fun t p =>
    Qmax t (if (overhang_min_length (settings p) <? max_overhang_length)%Z
            then min_layer_time_overhang (settings p) else min_layer_time (settings p))) pls 0.
Fixpoint last_idx (e : nat) (pls : list plan) : option nat :=
  match pls with
  | [] => None
  | p :: r => match last_idx e r with
              | Some i => Some (S i)
              | None => if Nat.eqb (extruder_nr p) e then Some 0%nat else None
              end
  end.

(** The plans afterwards, and whether the minimum layer time played a role.  [UB]
    if there is no plan at all. *)
Definition process_layer (max_overhang_length : Z) (pls0 : list plan) : res (list plan * bool) :=
  let e := last_extruder_nr pls0 in
  let pls := map first_pass pls0 in
  match last_idx e pls with
  | None => UB
  | Some i =>
    match pls !! i with
    | None => UB
    | Some pl =>
      let other := other_time e pls in
      let minTime := wanted_time max_overhang_length pls in
      let r := force_minimal pl minTime other in
      let pl' := set_fan r.1 (fan_layer_time (settings pl) (fan_speed r.1) (total_time r.1 + other) minTime) in
      Ok (<[i := pl']> pls, r.2)
    end
  end.
