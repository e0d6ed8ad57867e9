(** Specification of C48: the time a print takes at least, and motions a machine can make. *)
From Coq Require Import Reals.
From stdpp Require Import list.
From Verif Require Import Common Estimate_Model.
Open Scope R_scope.

(** The way from p to q: the distance in space, or the amount of filament if the head stands still. *)
Definition way (p q : position) : R :=
  let d := R_sqrt.sqrt ((q 0%nat - p 0%nat)² + (q 1%nat - p 1%nat)² + (q 2%nat - p 2%nat)²) in
  if Req_EM_T d 0 then Rabs (q 3%nat - p 3%nat) else d.

(** What happened since the last reset: where the head is, the moves (length, requested speed, feature) and the waiting times. *)
Record history := History { h_pos : position; h_moves : list (R * R * nat); h_extra : list R }.
Definition record (h : history) (c : call) : history :=
  match c with
  | Plan p v f => if Req_EM_T (way (h_pos h) p) 0 then h else History p (h_moves h ++ [(way (h_pos h) p, v, f)]) (h_extra h)
  | SetPosition p => History p (h_moves h) (h_extra h)
  | AddTime t => History (h_pos h) (h_moves h) (h_extra h ++ [t])
  | SetAcceleration _ | SetMaxXyJerk _ => h
  | Reset | Update => History (h_pos h) [] []
  end.
Definition recorded (p : position) (cs : list call) : history := foldl record (History p [] []) cs.

Definition sum (l : list R) : R := foldr Rplus 0 l.
(** The time for the moves of feature f at the requested speed (or the minimum speed of the machine), with the waiting times. *)
Definition least_time (minimum : R) (f : nat) (h : history) : R :=
  sum (map (fun m => if decide (m.2 = f) then m.1.1 / Rmax m.1.2 minimum else 0) (h_moves h)) +
  (if decide (f = NoneType) then sum (map (Rmax 0) (h_extra h)) else 0).

(** A block that a machine can run: it accelerates to a peak speed, cruises at the nominal speed if there is any distance left,
    and slows down to the final speed at the end of the block, always with the acceleration of the block. *)
Definition runs (b : block) (peak : R) : Prop :=
  0 <= accelerate_until b /\ accelerate_until b <= decelerate_after b /\ decelerate_after b <= distance b /\
  0 <= initial_feedrate b <= peak /\ 0 <= final_feedrate b <= peak /\ peak <= nominal_feedrate b /\
  peak² = (initial_feedrate b)² + 2 * b_acceleration b * accelerate_until b /\
  peak² = (final_feedrate b)² + 2 * b_acceleration b * (distance b - decelerate_after b) /\
  (accelerate_until b < decelerate_after b -> peak = nominal_feedrate b).
(** The time this takes. *)
Definition running_time (b : block) (peak : R) : R :=
  (peak - initial_feedrate b) / b_acceleration b + (decelerate_after b - accelerate_until b) / nominal_feedrate b +
  (peak - final_feedrate b) / b_acceleration b.
(** Each block starts with the speed with which the one before ends. *)
Definition joined (l : list block) : Prop :=
  forall i b n, l !! i = Some b -> l !! S i = Some n -> final_feedrate b = initial_feedrate n.
