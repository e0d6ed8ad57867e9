(** Vocabulary of the properties of retracting and priming while travelling. *)
From Coq Require Import ZArith QArith Qminmax.
From stdpp Require Import list.
From Verif Require Import Common Geo_Model Order_Model GCode_Model Coast_Model Ooze_Model.
Open Scope Q_scope.

(** Sensible settings. *)
Definition ok_config (c : rconfig) : Prop :=
  0 < rdistance c /\ 0 < rspeed c /\ 0 < pspeed c /\ 0 <= prime_extra c
  /\ 0 <= retract_ratio c /\ retract_ratio c <= 1 /\ 0 <= prime_ratio c /\ prime_ratio c <= 1.

(** The places of the head: the start and all points of the travel, seen from above. *)
Definition stops (start : pt) (points : list pt3) : list pt := start :: (toPoint2LL <$> points).

(** The time, in seconds, from one place to another (micrometres and millimetres per second). *)
Definition seconds (path_speed : Q) (a b : pt) : Q := inject_Z (vSize (psub b a)) / path_speed / 1000.

(** The times of all segments of a travel. *)
Fixpoint durs (v : Q) (a : pt) (ends : list pt) : list Q :=
  match ends with [] => [] | b :: ends' => duration (seconds v a b) :: durs v b ends' end.
Definition qsum (l : list Q) : Q := foldr Qplus 0 l.
(** The time at which the end of segment [k] is reached. *)
Definition reached (v : Q) (a : pt) (ends : list pt) (k : nat) : Q := qsum (take (S k) (durs v a ends)).

(** The head, on its way from [a] over [ends], is at [s] in segment [i] at time [D]: it is the start of that segment if the
    segment takes at most a millisecond, and otherwise the (rounded) position after the part of the segment which
    corresponds to the time. The time may be a millisecond too late. *)
Definition place_at (v : Q) (a : pt) (ends : list pt) (D : Q) (i : nat) (s : pt) : Prop :=
  exists c b, (a :: ends) !! i = Some c /\ ends !! i = Some b
    /\ let T := D - qsum (take i (durs v a ends)) in
       0 <= T /\ T <= seconds v c b + (1 # 1000)
       /\ ((seconds v c b <= 1 # 1000 /\ s = c)
           \/ ((1 # 1000) < seconds v c b /\ exists t, t * seconds v c b == T /\ s = lerp2 c b t)).

(** The time wanted, in addition to the hop, for a share [rho] of [d] at speed [v]; is there enough time to retract and prime
    as set, and, if not, which share of the time is missing? *)
Definition wanted (firmware : bool) (z d v rho : Q) : Q := Qmax 0 (d * (if firmware then 0 else rho) / v - z).
Definition total_wanted (firmware : bool) (c : rconfig) (z : Q) : Q :=
  wanted firmware z (rdistance c) (rspeed c) (retract_ratio c)
  + wanted firmware z (rdistance c + prime_extra c) (pspeed c) (prime_ratio c).
Definition enough (firmware : bool) (c : rconfig) (z travel : Q) : Prop := total_wanted firmware c z <= travel.
Definition missing (firmware : bool) (c : rconfig) (z travel : Q) : Q := 1 - travel / total_wanted firmware c z.

(** The moves to the points of a list, with the amounts to be reached there, or without. *)
Definition with_amounts (l : list pt3) (amounts : list Q) : list tmove := zip_with (fun p a => (p, Some a)) l amounts.
Definition without (l : list pt3) : list tmove := (fun p => (p, None)) <$> l.

(** Every element is at most (at least) the next one, from [low] and up to [high]. *)
Fixpoint rising (low : Q) (l : list Q) (high : Q) : Prop :=
  match l with [] => low <= high | x :: l' => low <= x /\ rising x l' high end.
Fixpoint falling (high : Q) (l : list Q) (low : Q) : Prop :=
  match l with [] => low <= high | x :: l' => x <= high /\ falling x l' low end.
