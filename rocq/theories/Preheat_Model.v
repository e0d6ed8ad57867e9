(** C34, C35: the flow-temperature graph and the heating model.  Doubles are exact rationals; a division by zero (an
    infinity or a NaN in the code) makes the result [None]. *)
From Coq Require Import QArith Qminmax.
From stdpp Require Import list.
Local Open Scope Q_scope.

Definition qdiv (a b : Q) : option Q := if Qeq_bool b 0 then None else Some (a / b).
Definition qlt (a b : Q) : bool := negb (Qle_bool b a).

(** ** FlowTempGraph *)

(** A datum (FlowTempGraph.h:24-33). *)
Record datum := Datum { flow : Q; temp : Q }.

(** The loop over the data after the first (FlowTempGraph.cpp:28-37); the last datum's temperature if the flow is larger
    than all (line 40). *)
Fixpoint find_temp (last : datum) (ds : list datum) (x : Q) : option Q :=
  match ds with
  | [] => Some (temp last)
  | d :: ds =>
    if Qle_bool x (flow d)
    then match qdiv ((temp d - temp last) * (x - flow last)) (flow d - flow last) with
         | Some q => Some (temp last + q)
         | None => None
         end
    else find_temp d ds x
  end.

(** FlowTempGraph::getTemp (FlowTempGraph.cpp:11-41).  The warnings are left out. *)
Definition get_temp (data : list datum) (x : Q) (print_temperature : Q) (dependent : bool) : option Q :=
  if negb dependent then Some print_temperature
  else match data with
       | [] => Some print_temperature
       | [d] => Some (temp d)
       | d :: ds => if qlt x (flow d) then Some (temp d) else find_temp d ds x
       end.

(** ** Preheat *)

(** The settings that Preheat reads (Preheat.cpp:19-35, 57-67). *)
Record rates := Rates { heat_up : Q; cool_down : Q; extrusion_cool_down : Q }.
Definition heat_speed (r : rates) (printing : bool) : Q := if printing then heat_up r - extrusion_cool_down r else heat_up r.
Definition cool_speed (r : rates) (printing : bool) : Q := if printing then cool_down r + extrusion_cool_down r else cool_down r.

(** Preheat::getTimeToGoFromTempToTemp (Preheat.cpp:17-41). *)
Definition time_to_go (r : rates) (before after : Q) (printing : bool) : option Q :=
  match (if qlt before after then qdiv (after - before) (heat_speed r printing)
         else qdiv (before - after) (cool_speed r printing)) with
  | Some t => Some (Qmax 0 t)
  | None => None
  end.

(** The results (Preheat.h:27-42): the time of heating or cooling and the lowest or highest temperature. *)
Record result := Result { time : Q; extreme : Q }.

(** Preheat::getWarmUpPointAfterCoolDown (Preheat.cpp:53-121). *)
Definition warm_up_point (r : rates) (window start mid end_ : Q) (printing : bool) : option result :=
  match qdiv 1 (cool_speed r printing), qdiv 1 (heat_speed r printing) with
  | Some cool1, Some heat1 =>
    let heating := if qlt start end_ then (end_ - start) * heat1 else 0 in
    let limited := if qlt start end_ then window - (end_ - start) * heat1 else window - (start - end_) * cool1 in
    let outer := if qlt start end_ then start else end_ in
    if qlt limited 0 then Some (Result 0 (Qmin start end_))
    else match qdiv cool1 heat1, time_to_go r mid outer printing with
         | Some ratio, Some to_heat =>
           if qlt (to_heat * (1 + ratio)) limited then Some (Result (heating + to_heat) mid)
           else match qdiv (limited * heat1) (cool1 + heat1) with
                | Some q =>
                  match qdiv (heating + q) heat1 with
                  | Some rise => Some (Result (heating + q) (Qmax mid (end_ - rise)))
                  | None => None
                  end
                | None => None
                end
         | _, _ => None
         end
  | _, _ => None
  end.

(** Preheat::getCoolDownPointAfterWarmUp (Preheat.cpp:123-192). *)
Definition cool_down_point (r : rates) (window start mid end_ : Q) (printing : bool) : option result :=
  match qdiv 1 (cool_speed r printing), qdiv 1 (heat_speed r printing) with
  | Some cool1, Some heat1 =>
    let cooling := if qlt start end_ then 0 else (start - end_) * cool1 in
    let limited := if qlt start end_ then window - (end_ - start) * heat1 else window - (start - end_) * cool1 in
    let outer := if qlt start end_ then end_ else start in
    if qlt limited 0 then Some (Result 0 (Qmax start end_))
    else match qdiv cool1 heat1, time_to_go r mid outer printing with
         | Some ratio, Some to_cool =>
           if qlt (to_cool * (1 + ratio)) limited then Some (Result (cooling + to_cool) mid)
           else match qdiv (limited * heat1) (cool1 + heat1) with
                | Some q =>
                  match qdiv (cooling + q) cool1 with
                  | Some fall => Some (Result (cooling + q) (Qmin mid (end_ + fall)))
                  | None => None
                  end
                | None => None
                end
         | _, _ => None
         end
  | _, _ => None
  end.
