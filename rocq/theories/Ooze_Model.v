(** Model of retracting and priming while travelling: LayerPlan::computeTravelDurations, computeAntiOozeAmounts,
    computeAntiOozeTravelSplit and writeTravelSegment (src/LayerPlan.cpp). Doubles are exact rationals. *)
From Coq Require Import ZArith QArith Qminmax.
From stdpp Require Import list.
From Verif Require Import Common Geo_Model Order_Model GCode_Model Coast_Model.
Open Scope Q_scope.

(** include/geometry/Point3LL.h:160: the first two coordinates *)
Definition toPoint2LL (p : pt3) : pt := (x3 p, y3 p).
(** include/geometry/Point3LL.h:40: a point without height *)
Definition toPoint3LL (p : pt) : pt3 := P3 p.1 p.2 0.
(** include/geometry/Point2LL.h:226-229 *)
Definition lerp2 (a b : pt) (t : Q) : pt := (lerp a.1 b.1 t, lerp a.2 b.2 t).

(** include/settings/types/Duration.h:31-34: a duration is never negative *)
Definition duration (v : Q) : Q := if Qle_bool v 0 then 0 else v.

(** include/LayerPlan.h:102-107 *)
Record ooze_settings := OozeSettings { distance : Q; ospeed : Q; during_travel : Q }.
(** include/LayerPlan.h:109-116: what is used later *)
Record intermediate := Inter { exp_duration : Q; exp_amount : Q }.
(** include/TravelAntiOozing.h *)
Record anti_oozing := AO {
  amount_while_still : Q; hop_amount : Q; hop_ratio : Q; amount_while_travel : Q;
  split_position : pt; amount_by_segment : list Q }.

(** include/RetractionConfig.h: the fields used; [prime_extra] is the prime volume in units of E *)
Record rconfig := RC {
  rdistance : Q; rspeed : Q; pspeed : Q; prime_extra : Q; retract_ratio : Q; prime_ratio : Q; keep_retracting : bool }.

(** LayerPlan.cpp:2546-2574 *)
Fixpoint travel_distance (start : pt) (points : list pt3) : Z :=
  match points with
  | [] => 0
  | p :: l => (vSize (psub (toPoint2LL p) start) + travel_distance (toPoint2LL p) l)%Z
  end.
Definition z_hop_duration (z_hop_height : Z) (z_hop_speed : Q) : Q :=
  if (0 <? z_hop_height)%Z then duration (inject_Z z_hop_height / z_hop_speed / 1000) else 0.
Definition travel_duration (start : pt) (points : list pt3) (travel_speed : Q) : Q :=
  duration (inject_Z (travel_distance start points) / travel_speed / 1000).

(** LayerPlan.cpp:2596-2619 compute_base_anti_ooze_amounts *)
Definition base_amounts (firmware : bool) (z_hop : Q) (s : ooze_settings) : intermediate * anti_oozing :=
  let ratio := if firmware then 0 else during_travel s in
  let total_expected := duration (distance s / ospeed s) in
  let expected_both := duration (total_expected * ratio) in
  let expected := Qmax 0 (duration (expected_both - z_hop)) in
  let distance_both := distance s * ratio in
  let still := distance s - distance_both in
  let possible := ospeed s * z_hop in
  let actual := if Qle_bool z_hop 0 then 0 else Qmin distance_both possible in
  let r := if Qle_bool z_hop 0 then 0 else actual / possible in
  (Inter expected (expected * ospeed s), AO still (still + actual) r 0 (0%Z, 0%Z) []).

(** LayerPlan.cpp:2710-2749: the loop over the segments of the travel, given as the start of the first segment and the
    ends of all; [reversed] is the travel backwards *)
Fixpoint split_loop (path_speed D : Q) (reversed : bool) (a : pt) (ends : list pt) (before : Q) (ao : anti_oozing) : anti_oozing :=
  match ends with
  | [] => ao
  | b :: ends' =>
      let sd := duration (inject_Z (vSize (psub b a)) / path_speed / 1000) in
      if Qle_bool (duration (D - (1 # 1000))) (before + sd) || match ends' with [] => true | _ => false end then
        let split := if Qle_bool sd (1 # 1000) then a else lerp2 a b (duration (D - before) / sd) in
        AO (amount_while_still ao) (hop_amount ao) (hop_ratio ao) (amount_while_travel ao) split
           (if reversed then hop_amount ao :: amount_by_segment ao else amount_by_segment ao ++ [amount_while_travel ao])
      else
        split_loop path_speed D reversed b ends' (before + sd)
          (AO (amount_while_still ao) (hop_amount ao) (hop_ratio ao) (amount_while_travel ao) (split_position ao)
              (amount_by_segment ao ++
                 [hop_amount ao + (before + sd) / D * (amount_while_travel ao - hop_amount ao)]))
  end.

(** LayerPlan.cpp:2692-2709. An amount of zero at speed zero is not a number, of which the duration is zero, as is the
    quotient here. *)
Definition travel_split (start : pt) (points : list pt3) (path_speed speed amount : Q) (reversed : bool) (ao : anti_oozing) : anti_oozing :=
  let l := if reversed then reverse (toPoint2LL <$> points) ++ [start] else start :: (toPoint2LL <$> points) in
  match l with
  | [] => ao
  | a :: ends => split_loop path_speed (duration (amount / speed)) reversed a ends 0 ao
  end.

Definition less_still (ao : anti_oozing) (d : Q) : anti_oozing :=
  AO (amount_while_still ao - d) (hop_amount ao - d) (hop_ratio ao) (amount_while_travel ao) (split_position ao) (amount_by_segment ao).
Definition with_travel (ao : anti_oozing) (a : Q) : anti_oozing :=
  AO (amount_while_still ao) (hop_amount ao) (hop_ratio ao) a (split_position ao) (amount_by_segment ao).
Definition shift (ao : anti_oozing) (d : Q) : anti_oozing :=
  AO (amount_while_still ao + d) (hop_amount ao + d) (hop_ratio ao) (amount_while_travel ao + d) (split_position ao)
     ((fun a => a + d) <$> amount_by_segment ao).

(** LayerPlan.cpp:2643-2661: keep the ratio of priming and retracting. With a reduced retraction of nothing the quotient is
    infinite, or not a number; so it is without retraction. *)
Definition keep_ratio (rdist pdist reduced_retract reduced_prime : Q) (r p : anti_oozing) : anti_oozing * anti_oozing :=
  if Qeq_bool rdist 0 then (r, p)
  else
    let expected := pdist / rdist in
    let prime_less := less_still p (reduced_prime - reduced_retract * expected) in
    if Qeq_bool reduced_retract 0 then
      if Qle_bool reduced_prime 0 then (r, p) else (r, prime_less)
    else
      let reduced := reduced_prime / reduced_retract in
      if negb (Qle_bool expected reduced) then (less_still r (reduced_retract - reduced_prime / expected), p)
      else if negb (Qle_bool reduced expected) then (r, prime_less)
      else (r, p).

(** LayerPlan.cpp:2576-2690; result: the amounts for retracting and for priming *)
Definition computeAntiOozeAmounts (firmware : bool) (c : rconfig) (z_hop : Q) (start : pt) (points : list pt3) (path_speed : Q)
    : anti_oozing * anti_oozing :=
  let travel := travel_duration start points path_speed in
  let rs := OozeSettings (rdistance c) (rspeed c) (retract_ratio c) in
  let ps := OozeSettings (rdistance c + prime_extra c) (pspeed c) (prime_ratio c) in
  let ir := (base_amounts firmware z_hop rs).1 in
  let ip := (base_amounts firmware z_hop ps).1 in
  let r0 := (base_amounts firmware z_hop rs).2 in
  let p0 := (base_amounts firmware z_hop ps).2 in
  let total := exp_duration ir + exp_duration ip in
  let free := travel - total in
  let short := negb (Qle_bool 0 free) in
  let reduction := - (free / total) in
  let r_less := exp_amount ir * reduction in
  let p_less := exp_amount ip * reduction in
  let r_actual := if short then exp_amount ir - r_less else exp_amount ir in
  let p_actual := if short then exp_amount ip - p_less else exp_amount ip in
  let rp := if short then keep_ratio (distance rs) (distance ps) (distance rs - r_less) (distance ps - p_less) r0 p0 else (r0, p0) in
  let r_speed :=
    if negb short && keep_retracting c && negb (Qle_bool free 0) then r_actual / (exp_duration ir + free) else ospeed rs in
  let r1 := with_travel rp.1 (hop_amount rp.1 + r_actual) in
  let p1 := with_travel rp.2 (hop_amount rp.2 + p_actual) in
  let r2 := travel_split start points path_speed r_speed r_actual false r1 in
  let p2 := travel_split start points path_speed (ospeed ps) p_actual true p1 in
  (r2, shift p2 (amount_while_travel r2 - amount_while_travel p2)).

(** include/LayerPlan.h:118-124 *)
Inductive travel_state := TNone | Retracting | Travelling | Priming.

(** A travel to a position, with the absolute amount of retracted material to be reached (gcode.writeTravel). The height of
    the layer, which is added to every position alike, is left out. *)
Definition tmove := (pt3 * option Q)%type.

Section write.
  Context (points : list pt3) (r p : anti_oozing).
  Let n : nat := length points.

  (** LayerPlan.cpp:2786-2829: the states from Travelling on. Where the amount is missing there is only an assert, and
      nothing is written. *)
  Definition write_priming (i : nat) : res (list tmove) :=
    let! pt := of_opt (points !! i) in
    match amount_by_segment p !! (n - 1 - i)%nat with
    | Some a => Ok [(pt, Some a)]
    | None => Ok []
    end.
  Definition write_travelling (i : nat) : res (travel_state * list tmove) :=
    if Nat.eqb (S (n - 1 - i)) (length (amount_by_segment p)) then
      let! m := write_priming i in Ok (Priming, (toPoint3LL (split_position p), None) :: m)
    else let! pt := of_opt (points !! i) in Ok (Travelling, [(pt, None)]).

  (** LayerPlan.cpp:2754-2785 *)
  Definition writeTravelSegment (s : travel_state) (i : nat) : res (travel_state * list tmove) :=
    match s with
    | TNone => let! pt := of_opt (points !! i) in Ok (TNone, [(pt, None)])
    | Retracting =>
        if Nat.eqb (S i) (length (amount_by_segment r)) then
          let! a := of_opt (amount_by_segment r !! i) in
          let! w := write_travelling i in Ok (w.1, (toPoint3LL (split_position r), Some a) :: w.2)
        else
          match amount_by_segment r !! i with
          | Some a => let! pt := of_opt (points !! i) in Ok (Retracting, [(pt, Some a)])
          | None => Ok (Retracting, [])
          end
    | Travelling => write_travelling i
    | Priming => let! m := write_priming i in Ok (Priming, m)
    end.

  (** LayerPlan.cpp:3724-3749: all segments in order (the unretraction before the last one does not move) *)
  Fixpoint write_segments (s : travel_state) (idxs : list nat) : res (list tmove) :=
    match idxs with
    | [] => Ok []
    | i :: l => let! w := writeTravelSegment s i in let! ms := write_segments w.1 l in Ok (w.2 ++ ms)
    end.
  (** LayerPlan.cpp:3713-3717 *)
  Definition write_travel : res (list tmove) :=
    write_segments (if Qle_bool (amount_while_travel r) 0 then TNone else Retracting) (seq 0 n).
End write.
