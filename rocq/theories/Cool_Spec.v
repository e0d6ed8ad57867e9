(** * What C36 and C37 ask for *)
From stdpp Require Import list.
From Coq Require Import ZArith QArith Qminmax.
From Verif Require Import Cool_Model.
Local Open Scope Q_scope.

Fixpoint total (l : list Q) : Q := match l with [] => 0 | x :: r => x + total r end.

(** How fast a path is printed, and how long it is. *)
Definition speed (p : path) : Q := cfg_speed p * speed_factor p.
Definition length_of (p : path) : Q := total (lens p).

Definition extrusions (ps : list path) : list path := List.filter (fun p => negb (travel p)) ps.
Definition travels (ps : list path) : list path := List.filter travel ps.

(** The time to print all extrusion paths at their own speeds, or all at one speed. *)
Definition print_time (ps : list path) : Q := total (map (fun p => length_of p / speed p) (extrusions ps)).
Definition time_at (w : Q) (ps : list path) : Q := total (map (fun p => length_of p / w) (extrusions ps)).

(** The time of all travels; a retraction counts once for every retracted travel. *)
Definition travels_time (pl : plan) : Q :=
  total (map (fun p => length_of p / speed p +
                       (if retracts p then retract_distance pl / retract_speed pl else 0)) (travels (paths pl))).

(** The slowest extrusion path has speed [w]. *)
Definition slowest_is (w : Q) (ps : list path) : Prop :=
  (exists p, p ∈ extrusions ps /\ speed p == w) /\ (forall p, p ∈ extrusions ps -> w <= speed p).

(** A plan as made: no estimates yet, sensible numbers. *)
Record fresh (pl : plan) : Prop := {
  f_paths : Forall (fun p => e_extrude p = 0 /\ e_unretracted p = 0 /\ e_retracted p = 0) (paths pl);
  f_plan : p_extrude pl = 0 /\ p_unretracted pl = 0 /\ p_retracted pl = 0 /\ extra_time pl = 0;
  f_speeds : Forall (fun p => 0 < cfg_speed p /\ 0 < speed_factor p) (paths pl);
  f_lens : Forall (fun p => Forall (fun len => 0 <= len) (lens p)) (paths pl);
  f_min : 0 < min_speed (settings pl)
}.

(** The same path but for its speed. *)
Definition same_path (p q : path) : Prop :=
  travel q = travel p /\ retracts q = retracts p /\ lens q = lens p.
