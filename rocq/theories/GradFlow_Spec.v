(** Specification of C38: what gradual flow may do to the paths. *)
From Coq Require Import ZArith QArith Qabs.
From stdpp Require Import list relations.
From Verif Require Import Common GCode_Model GradFlow_Model.
Open Scope Q_scope.

(** Coordinate x is between a and b, less than one unit from the place t of the way. *)
Definition coord_between (t : Q) (a b x : Z) : Prop :=
  (Z.min a b <= x <= Z.max a b)%Z /\ Qabs (inject_Z x - (inject_Z a + t * inject_Z (b - a))) < 1.
(** A point on the segment from a to b, up to rounding. *)
Definition between (a b x : pt3) : Prop :=
  exists t, 0 <= t <= 1 /\ coord_between t (x3 a) (x3 b) (x3 x) /\ coord_between t (y3 a) (y3 b) (y3 x) /\
            coord_between t (z3 a) (z3 b) (z3 x).
(** One point is inserted on a segment. *)
Definition inserted (old new : list pt3) : Prop :=
  exists l a x b r, old = l ++ a :: b :: r /\ new = l ++ a :: x :: b :: r /\ between a b x.
(** Any number of points are inserted on segments, nothing else is changed. *)
Definition refined (old new : list pt3) : Prop := rtc inserted old new.

(** [linked ps r]: each of the lines ps starts where the one before ends; together they are r. *)
Inductive linked : list (list pt3) -> list pt3 -> Prop :=
| linked_one p : p <> [] -> linked [p] p
| linked_cons p x ps r : last p = Some x -> linked ps (x :: r) -> linked (p :: ps) (p ++ r).

Section flow.
  Variable hypot : Z -> Z -> Q.
  (** The path extrudes. *)
  Definition extrudes (p : fpath) : bool := if Qlt_le_dec 0 (flow p) then true else false.
  (** A retraction, or a travel longer than the time after which the flow is reset. *)
  Definition resets (reset : Q) (p : fpath) : bool :=
    g_retract (orig p) || if Qlt_le_dec reset (totalLength hypot (points p) / speed p) then true else false.

  (** From one extruding path to the next the flow rises by at most d, unless it was reset in between. *)
  Fixpoint rises_at_most (reset d : Q) (before : option Q) (ps : list fpath) : Prop :=
    match ps with
    | [] => True
    | p :: ps' =>
        if extrudes p
        then (match before with Some f => flow p <= f + d | None => True end) /\ rises_at_most reset d (Some (flow p)) ps'
        else rises_at_most reset d (if resets reset p then None else before) ps'
    end.
  (** From one extruding path to the next the flow falls by at most d. *)
  Fixpoint falls_at_most (d : Q) (before : option Q) (ps : list fpath) : Prop :=
    match ps with
    | [] => True
    | p :: ps' =>
        if extrudes p
        then (match before with Some f => f <= flow p + d | None => True end) /\ falls_at_most d (Some (flow p)) ps'
        else falls_at_most d before ps'
    end.
End flow.

(** The new paths for one path: the same attributes; a travel is left alone; extruding parts are not faster, not stopped. *)
Definition slowed (g : gpath) (gs : list gpath) : Prop :=
  gs <> [] /\
  Forall (fun g' => g_volume g' = g_volume g /\ g_factor g' = g_factor g /\ g_retract g' = g_retract g /\ g_other g' = g_other g /\
                    0 < g_speed g' <= g_speed g) gs /\
  (g_volume g == 0 -> exists g', gs = [g'] /\ g_points g' = g_points g /\ g_speed g' == g_speed g).
Definition all_points (gs : list gpath) : list pt3 := concat (map g_points gs).
(** The flows of the paths that extrude. *)
Definition flows (ps : list fpath) : list Q := map flow (filter (fun q => extrudes q = true) ps).
