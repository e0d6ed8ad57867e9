(** Model of the print time estimator: src/timeEstimate.cpp and include/timeEstimate.h.  Doubles (and the single
    precision sqrtf) are real numbers; Velocity, Acceleration and Ratio are plain numbers (they wrap a double). *)
From Coq Require Import Reals Lra.
From stdpp Require Import list.
From Verif Require Import Common.
Open Scope R_scope.

(** include/timeEstimate.h:29-60: a position has four axes, X_AXIS .. E_AXIS = 0 .. 3; other indices are not used *)
Definition position := nat -> R.
Definition axes : list nat := [0; 1; 2; 3]%nat.

(** timeEstimate.h:62-84 Block.  delta, absDelta and maxTravel are only used while the block is made and left out. *)
Record block := Block {
  recalculate_flag : bool;
  accelerate_until : R; decelerate_after : R; initial_feedrate : R; final_feedrate : R;
  entry_speed : R; max_entry_speed : R; nominal_length_flag : bool;
  nominal_feedrate : R; distance : R; b_acceleration : R; feature : nat }.

(** timeEstimate.h:87-97: what setFirmwareDefaults sets and the calls do not change *)
Record settings := Settings {
  max_feedrate : nat -> R; max_acceleration : nat -> R; max_z_jerk : R; max_e_jerk : R; minimumfeedrate : R }.
(** timeEstimate.h:87-104 *)
Record state := State {
  acceleration : R; max_xy_jerk : R; extra_time : R;
  previous_feedrate : position; previous_nominal_feedrate : R; currentPosition : position; blocks : list block }.

Definition Rltb (a b : R) : bool := if Rlt_dec a b then true else false.
Definition Rleb (a b : R) : bool := if Rle_dec a b then true else false.
Definition Reqb (a b : R) : bool := if Req_EM_T a b then true else false.

(** timeEstimate.cpp:16 *)
Definition MINIMUM_PLANNER_SPEED : R := 5 / 100.
(** timeEstimate.cpp:66-69 *)
Definition maxAllowableSpeed (acc target_velocity dist : R) : R := R_sqrt.sqrt (target_velocity * target_velocity - 2 * acc * dist).
(** timeEstimate.cpp:72-79 *)
Definition estimateAccelerationDistance (initial_rate target_rate acc : R) : R :=
  if Reqb acc 0 then 0 else (target_rate * target_rate - initial_rate * initial_rate) / (2 * acc).
(** timeEstimate.cpp:85-118 *)
Definition intersectionDistance (initial_rate final_rate acc dist : R) : R :=
  if Reqb acc 0 then 0 else (2 * acc * dist - initial_rate * initial_rate + final_rate * final_rate) / (4 * acc).
(** timeEstimate.cpp:121-128 *)
Definition accelerationTimeFromDistance (initial dist acc : R) : R :=
  let discriminant := Rmax 0 (initial * initial - 2 * acc * - dist) in
  (- initial + R_sqrt.sqrt discriminant) / acc.

(** timeEstimate.cpp:130-159 *)
Definition calculateTrapezoidForBlock (b : block) (entry_factor exit_factor : R) : block :=
  let initial := nominal_feedrate b * entry_factor in
  let final := nominal_feedrate b * exit_factor in
  let accelerate_distance := estimateAccelerationDistance initial (nominal_feedrate b) (b_acceleration b) in
  let decelerate_distance := estimateAccelerationDistance (nominal_feedrate b) final (- b_acceleration b) in
  let plateau_distance := distance b - accelerate_distance - decelerate_distance in
  let '(accelerate_distance, plateau_distance) :=
    if Rltb plateau_distance 0
    then (Rmin (Rmax (intersectionDistance initial final (b_acceleration b) (distance b)) 0) (distance b), 0)
    else (accelerate_distance, plateau_distance) in
  Block (recalculate_flag b) accelerate_distance (accelerate_distance + plateau_distance) initial final
    (entry_speed b) (max_entry_speed b) (nominal_length_flag b) (nominal_feedrate b) (distance b) (b_acceleration b) (feature b).

(** timeEstimate.cpp:33-36, 38-41, 43-46, 48-51, 53-57 *)
Definition setPosition (p : position) (st : state) : state :=
  State (acceleration st) (max_xy_jerk st) (extra_time st) (previous_feedrate st) (previous_nominal_feedrate st) p (blocks st).
(** include/settings/types/Duration.h:31-34: a double becomes a duration, which is not negative *)
Definition duration (t : R) : R := if Rltb 0 t then t else 0.
Definition addTime (t : R) (st : state) : state :=
  State (acceleration st) (max_xy_jerk st) (extra_time st + duration t) (previous_feedrate st) (previous_nominal_feedrate st) (currentPosition st) (blocks st).
Definition setAcceleration (acc : R) (st : state) : state :=
  State acc (max_xy_jerk st) (extra_time st) (previous_feedrate st) (previous_nominal_feedrate st) (currentPosition st) (blocks st).
Definition setMaxXyJerk (jerk : R) (st : state) : state :=
  State (acceleration st) jerk (extra_time st) (previous_feedrate st) (previous_nominal_feedrate st) (currentPosition st) (blocks st).
Definition reset (st : state) : state :=
  State (acceleration st) (max_xy_jerk st) 0 (previous_feedrate st) (previous_nominal_feedrate st) (currentPosition st) [].

Section planner.
  Variable S : settings.

  (** timeEstimate.cpp:190-199: the part of the speed that the axes allow *)
  Definition feedrate_factor (current_feedrate : position) : R :=
    foldl (fun f n => if Rltb (max_feedrate S n) (Rabs (current_feedrate n))
                      then Rmin f (max_feedrate S n / Rabs (current_feedrate n)) else f) 1 axes.
  (** timeEstimate.cpp:212-219 *)
  Definition limit_acceleration (acc dist : R) (absDelta : position) : R :=
    foldl (fun a n => if Rltb (max_acceleration S n) (a * (absDelta n / dist)) then max_acceleration S n else a) acc axes.

  (** timeEstimate.cpp:161-275 *)
  Definition plan (newPos : position) (feedrate : R) (feat : nat) (st : state) : state :=
    let delta n := newPos n - currentPosition st n in
    let absDelta n := Rabs (delta n) in
    let maxTravel := foldl (fun m n => Rmax m (absDelta n)) 0 axes in
    if Rleb maxTravel 0 then st else
    let feedrate := if Rltb feedrate (minimumfeedrate S) then minimumfeedrate S else feedrate in
    let dist := R_sqrt.sqrt (absDelta 0%nat * absDelta 0%nat + absDelta 1%nat * absDelta 1%nat + absDelta 2%nat * absDelta 2%nat) in
    let dist := if Reqb dist 0 then absDelta 3%nat else dist in
    let current_feedrate n := (delta n * feedrate) / dist in
    let factor := feedrate_factor current_feedrate in
    let current_feedrate n := if Rltb factor 1 then current_feedrate n * factor else current_feedrate n in
    let nominal := if Rltb factor 1 then feedrate * factor else feedrate in
    let acc := limit_acceleration (acceleration st) dist absDelta in
    let vmax_junction := max_xy_jerk st / 2 in
    let vmax_junction := if Rltb (max_z_jerk S / 2) (Rabs (current_feedrate 2%nat)) then Rmin vmax_junction (max_z_jerk S / 2) else vmax_junction in
    let vmax_junction := if Rltb (max_e_jerk S / 2) (Rabs (current_feedrate 3%nat)) then Rmin vmax_junction (max_e_jerk S / 2) else vmax_junction in
    let safe_speed := Rmin vmax_junction nominal in
    let vmax_junction :=
      if (match blocks st with [] => false | _ => true end) && Rltb (1 / 10000) (previous_nominal_feedrate st)
      then
        let dx := current_feedrate 0%nat - previous_feedrate st 0%nat in
        let dy := current_feedrate 1%nat - previous_feedrate st 1%nat in
        let xy_jerk := R_sqrt.sqrt (dx * dx + dy * dy) in
        let z_jerk := Rabs (current_feedrate 2%nat - previous_feedrate st 2%nat) in
        let e_jerk := Rabs (current_feedrate 3%nat - previous_feedrate st 3%nat) in
        let jfactor := if Rltb (max_xy_jerk st) xy_jerk then max_xy_jerk st / xy_jerk else 1 in
        let jfactor := if Rltb (max_z_jerk S) z_jerk then Rmin jfactor (max_z_jerk S / z_jerk) else jfactor in
        let jfactor := if Rltb (max_e_jerk S) e_jerk then Rmin jfactor (max_e_jerk S / e_jerk) else jfactor in
        Rmin (previous_nominal_feedrate st) (nominal * jfactor)
      else safe_speed in
    let v_allowable := maxAllowableSpeed (- acc) MINIMUM_PLANNER_SPEED dist in
    let b := Block true 0 0 0 0 (Rmin vmax_junction v_allowable) vmax_junction (Rleb nominal v_allowable) nominal dist acc feat in
    let b := calculateTrapezoidForBlock b (entry_speed b / nominal) (safe_speed / nominal) in
    State (acceleration st) (max_xy_jerk st) (extra_time st) current_feedrate nominal newPos (blocks st ++ [b]).
End planner.

Definition set_entry (b : block) (v : R) : block :=
  Block true (accelerate_until b) (decelerate_after b) (initial_feedrate b) (final_feedrate b)
    v (max_entry_speed b) (nominal_length_flag b) (nominal_feedrate b) (distance b) (b_acceleration b) (feature b).
(** timeEstimate.cpp:298-324 *)
Definition plannerReversePassKernel (current next : block) : block :=
  if Reqb (entry_speed current) (max_entry_speed current) then current
  else if negb (nominal_length_flag current) && Rltb (entry_speed next) (max_entry_speed current)
  then set_entry current (Rmin (max_entry_speed current) (maxAllowableSpeed (- b_acceleration current) (entry_speed next) (distance current)))
  else set_entry current (max_entry_speed current).
(** timeEstimate.cpp:326-336: from the back; the last block has no next one, and the first block is never the current one *)
Fixpoint reverse_from (l : list block) : list block :=
  match l with
  | [] => []
  | b :: l' =>
      match reverse_from l' with
      | [] => [b]
      | (next :: _) as rest => plannerReversePassKernel b next :: rest
      end
  end.
Definition reversePass (l : list block) : list block :=
  match l with [] => [] | b :: l' => b :: reverse_from l' end.
(** timeEstimate.cpp:338-366 *)
Definition plannerForwardPassKernel (previous current : block) : block :=
  if nominal_length_flag previous then current
  else if Rltb (entry_speed previous) (entry_speed current)
  then
    let v := Rmin (entry_speed current) (maxAllowableSpeed (- b_acceleration previous) (entry_speed previous) (distance previous)) in
    if Reqb (entry_speed current) v then current else set_entry current v
  else current.
(** timeEstimate.cpp:368-379 *)
Fixpoint forward_from (previous : block) (l : list block) : list block :=
  match l with
  | [] => []
  | b :: l' => let b' := plannerForwardPassKernel previous b in b' :: forward_from b' l'
  end.
Definition forwardPass (l : list block) : list block :=
  match l with [] => [] | b :: l' => b :: forward_from b l' end.

Definition unflag (b : block) : block :=
  Block false (accelerate_until b) (decelerate_after b) (initial_feedrate b) (final_feedrate b)
    (entry_speed b) (max_entry_speed b) (nominal_length_flag b) (nominal_feedrate b) (distance b) (b_acceleration b) (feature b).
(** timeEstimate.cpp:381-409 *)
Fixpoint recalculateTrapezoids (l : list block) : list block :=
  match l with
  | [] => []
  | b :: l' =>
      match l' with
      | [] => [unflag (calculateTrapezoidForBlock b (entry_speed b / nominal_feedrate b) (MINIMUM_PLANNER_SPEED / nominal_feedrate b))]
      | next :: _ =>
          (if recalculate_flag b || recalculate_flag next
           then unflag (calculateTrapezoidForBlock b (entry_speed b / nominal_feedrate b) (entry_speed next / nominal_feedrate b))
           else b) :: recalculateTrapezoids l'
      end
  end.

(** timeEstimate.cpp:286-293: the three parts of the time of a block; each becomes a duration when it is added *)
Definition block_time (b : block) : R :=
  duration (accelerationTimeFromDistance (initial_feedrate b) (accelerate_until b) (b_acceleration b)) +
  duration ((decelerate_after b - accelerate_until b) / nominal_feedrate b) +
  duration (accelerationTimeFromDistance (final_feedrate b) (distance b - decelerate_after b) (b_acceleration b)).
Definition planned (l : list block) : list block := recalculateTrapezoids (forwardPass (reversePass l)).
(** include/PrintFeature.h:11 *)
Definition NoneType : nat := 0.
(** timeEstimate.cpp:277-296: the totals, by feature *)
Definition totals (extra : R) (l : list block) (f : nat) : R :=
  foldl (fun t b => if decide (feature b = f) then t + block_time b else t) (if decide (f = NoneType) then extra else 0) l.
Definition calculate (st : state) : (nat -> R) * state :=
  let l := planned (blocks st) in
  (totals (extra_time st) l,
   State (acceleration st) (max_xy_jerk st) (extra_time st) (previous_feedrate st) (previous_nominal_feedrate st) (currentPosition st) l).

(** The calls to an estimator.  [Update] is calculate followed by reset, the way src/gcode_export/gcodeExport.cpp:562-571 uses it. *)
Inductive call :=
| Plan (newPos : position) (feedrate : R) (feat : nat)
| SetPosition (p : position) | AddTime (t : R) | SetAcceleration (a : R) | SetMaxXyJerk (j : R) | Reset | Update.
Definition step (S : settings) (st : state) (c : call) : state :=
  match c with
  | Plan p v f => plan S p v f st
  | SetPosition p => setPosition p st
  | AddTime t => addTime t st
  | SetAcceleration a => setAcceleration a st
  | SetMaxXyJerk j => setMaxXyJerk j st
  | Reset => reset st
  | Update => reset (calculate st).2
  end.
Definition run (S : settings) (st : state) (cs : list call) : state := foldl (step S) st cs.
