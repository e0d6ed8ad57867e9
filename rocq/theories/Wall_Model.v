(** Model of printing one wall: the choice of direction and start in InsetOrderOptimizer::addToLayer
    (src/InsetOrderOptimizer.cpp) and LayerPlan::addWallWithScarfSeam and LayerPlan::addSplitWall (src/LayerPlan.cpp).
    Doubles and floats are exact rationals, coord_t is Z and size_t is nat without overflow.
    Not modelled: distance_to_bridge_start, and what func_add_segment does with a sub-segment (the sequence of its calls is
    the result). *)
From Coq Require Import ZArith QArith Qround Qminmax.
From stdpp Require Import list.
From Verif Require Import Common Geo_Model Order_Model.
From Verif Require Coast_Model GCode_Model.
Open Scope Z_scope.

Notation pt3 := GCode_Model.pt3.
Notation P3 := GCode_Model.P3.
Notation z3 := GCode_Model.z3.
Notation llrint := Coast_Model.llrint.
Notation lerp := Coast_Model.lerp.

(** InsetOrderOptimizer.cpp:188-191: the direction and the start index. [inset] and [layer] are inset_idx_ and layer_nr_
    (the remainder of a negative layer number is not zero exactly for odd numbers) *)
Definition wall_direction (alternate : bool) (inset : nat) (layer : Z) (size : nat) (path_backwards : bool)
    (start_vertex : nat) : bool * nat :=
  let revert_inset := alternate && negb (inset mod 2 =? 0)%nat in
  let revert_layer := alternate && negb (Z.rem layer 2 =? 0) in
  let backwards := xorb path_backwards (xorb revert_inset revert_layer) in
  (backwards, if xorb backwards path_backwards then (size - (start_vertex + 1))%nat else start_vertex).

(** A wall seen through PathAdapter (src/PathAdapter.cpp): points and line widths *)
Notation wall := (list (pt * Z)).

(** ExtrusionLine.cpp:15-33: the sum of the lengths of the lines, with the closing line of a closed wall *)
Fixpoint open_length (prev : pt) (l : list pt) : Z :=
  match l with
  | [] => 0
  | next :: l' => vSize (psub next prev) + open_length next l'
  end.
Definition wall_length (closed : bool) (w : wall) : Z :=
  match w with
  | [] => 0
  | j :: _ =>
      open_length j.1 w.*1 + (if closed then vSize (psub j.1 (List.last w j).1) else 0)
  end.

(** The arguments of func_add_segment (LayerPlan.cpp:1541-1552); flow_ratio is constant and left out, [s_width] is
    line_width instead of its ratio to the constant nominal_line_width *)
Record seg := Seg {
  s_index : nat; s_ratio0 : Q; s_ratio1 : Q; s_from : pt3; s_to : pt3; s_speed : Q; s_width : Z; s_travel_to_z : bool }.
(** What is added to the plan: addTravel (1407), addExtrusionMove of a small feature (1448) and func_add_segment *)
Inductive move := MTravel (p : pt) | MSmall (p : pt) (width : Z) | MSeg (s : seg).

(** The parameters of addSplitWall (LayerPlan.cpp:1328-1354) *)
Record wpar := WPar {
  max_area_deviation : Z; max_resolution : Z;
  scarf_seam_length : Z; scarf_split_distance : Z; scarf_max_z_offset : Z;
  speed_split_distance : Z; start_speed_ratio : Q; accelerate_length : Z; end_speed_ratio : Q; decelerate_length : Z;
  is_small_feature : bool }.

(** The local variables that survive a sub-segment (LayerPlan.cpp:1360-1374): wall_processed_distance, split_origin,
    accelerate_factor_origin, decelerate_factor_origin, split_destination and keep_processing *)
Record wst := WSt {
  processed : Z; origin : pt3; acc_origin : Q; dec_origin : Q; split_dest : pt3; keep : bool }.

(** Point2LL.h:164-172 *)
Definition normal (p0 : pt) (length : Z) : pt :=
  let len := vSize p0 in
  if len <? 1 then (length, 0) else pdiv (pscale p0 length) len.

(** std::lerp *)
Definition qlerp (a b t : Q) : Q := (a + t * (b - a))%Q.
(** Point3LL(p) *)
Definition flat (p : pt) : pt3 := P3 p.1 p.2 0.
(** Point2LL.h:226-229 *)
Definition lerp2 (a b : pt) (t : Q) : pt := (lerp a.1 b.1 t, lerp a.2 b.2 t).

(** std::min_element of a list that is not empty *)
Definition min_list (l : list Z) (d : Z) : Z := foldr Z.min d l.

Section split.
  Context (P : wpar) (total : Z) (closure : bool).
  (** LayerPlan.cpp:1372 *)
  Definition start_decelerate_position : Z := total - decelerate_length P.

  (** LayerPlan.cpp:1464-1495 *)
  Definition process_scarf (st : wst) : bool := processed st <? scarf_seam_length P.
  Definition process_acceleration (st : wst) : bool := negb closure && (processed st <? accelerate_length P).
  Definition deceleration_started (st : wst) : bool :=
    negb closure && (0 <? decelerate_length P) && (start_decelerate_position <=? processed st).
  Definition split_positions (st : wst) : list Z :=
    (if process_scarf st then [scarf_seam_length P; processed st + scarf_split_distance P] else [])
    ++ (if process_acceleration st then [accelerate_length P; processed st + speed_split_distance P] else [])
    ++ (if negb closure && (0 <? decelerate_length P) then
          [if deceleration_started st then processed st + speed_split_distance P else start_decelerate_position]
        else []).

  (** LayerPlan.cpp:1497-1566: one sub-segment of the line from [p0] to [p1] *)
  Definition sub_segment (p0 p1 : pt) (line_length : Z) (index : nat) (width : Z) (st : wst) (seg_done remaining : Z)
      : seg * wst * Z :=
    let destination_position := min_list (split_positions st) (processed st + remaining) in
    let length_to_process := destination_position - processed st in
    let factor := (inject_Z (seg_done + length_to_process) / inject_Z line_length)%Q in
    let d2 := lerp2 p0 p1 factor in
    let scarf_factor := (inject_Z destination_position / inject_Z (scarf_seam_length P))%Q in
    let z := if process_scarf st && negb closure
             then llrint (qlerp (inject_Z (scarf_max_z_offset P)) 0 scarf_factor) else 0 in
    let destination := P3 d2.1 d2.2 z in
    let acc_dest := if process_acceleration st
                    then (inject_Z destination_position / inject_Z (accelerate_length P))%Q else 1%Q in
    let acc_speed := if process_acceleration st
                     then qlerp (start_speed_ratio P) 1 ((acc_origin st + acc_dest) / 2) else 1%Q in
    let dec_dest := if deceleration_started st
                    then (1 - inject_Z (total - destination_position) / inject_Z (decelerate_length P))%Q else 0%Q in
    let dec_speed := if deceleration_started st
                     then qlerp 1 (end_speed_ratio P) ((dec_origin st + dec_dest) / 2)
                     else if closure then end_speed_ratio P else 1%Q in
    (Seg index (inject_Z seg_done / inject_Z line_length) factor (origin st) destination (acc_speed * dec_speed) width
         (processed st =? 0),
     WSt destination_position destination acc_dest dec_dest destination
         (if closure then destination_position <? scarf_seam_length P else keep st),
     seg_done + length_to_process).

  (** LayerPlan.cpp:1455-1571: the while loop over the rest of a piece; result: state, segment_processed_distance, moves *)
  Fixpoint cut_piece (fuel : nat) (p0 p1 : pt) (line_length : Z) (index : nat) (width : Z) (st : wst)
      (seg_done remaining : Z) : res (wst * Z * list move) :=
    if (0 <? remaining) && keep st then
      match fuel with
      | O => NoFuel
      | S fuel' =>
          let r := sub_segment p0 p1 line_length index width st seg_done remaining in
          let! r' := cut_piece fuel' p0 p1 line_length index width r.1.2 r.2 (remaining - (r.2 - seg_done)) in
          Ok (r'.1.1, r'.1.2, MSeg r.1.1 :: r'.2)
      end
    else Ok (st, seg_done, []).

  (** LayerPlan.cpp:1430-1433; the divisors are at least one (1812-1813) *)
  Definition pieces_of (line_length delta_line_width : Z) : nat :=
    let line_area_deviation := (Z.abs delta_line_width * line_length) ÷ 4 in
    let pieces_limit_deviation := (line_area_deviation + max_area_deviation P - 1) ÷ max_area_deviation P in
    let pieces_limit_resolution := line_length ÷ max_resolution P in
    Z.to_nat (Z.max 1 (Z.min pieces_limit_deviation pieces_limit_resolution)).
  (** LayerPlan.cpp:1434 *)
  Definition piece_length_of (line_length : Z) (pieces : nat) : Z :=
    (line_length + Z.of_nat pieces ÷ 2) ÷ Z.of_nat pieces.
  (** LayerPlan.cpp:1438-1441 *)
  Definition piece_width (w0 w1 : Z) (pieces piece : nat) : Z :=
    llrint (inject_Z w0 + (inject_Z (Z.of_nat piece) + (1 # 2)) / inject_Z (Z.of_nat pieces) * inject_Z (w1 - w0))%Q.

  (** LayerPlan.cpp:1436-1572: the pieces of a line from number [piece] on, [n] of them left *)
  Fixpoint cut_line (fuel : nat) (p0 p1 : pt) (w0 w1 : Z) (line_length piece_length : Z) (pieces : nat) (index : nat)
      (n piece : nat) (st : wst) (seg_done : Z) : res (wst * Z * list move) :=
    match n with
    | O => Ok (st, seg_done, [])
    | S n' =>
        if negb (keep st) then Ok (st, seg_done, [])
        else
          let width := piece_width w0 w1 pieces piece in
          let! r :=
            (if is_small_feature P && negb closure then
               Ok (st, seg_done,
                   [MSmall (padd p0 (normal (psub p1 p0) (piece_length * Z.of_nat (piece + 1)))) width])
             else cut_piece fuel p0 p1 line_length index width st seg_done piece_length) in
          let! r' := cut_line fuel p0 p1 w0 w1 line_length piece_length pieces index n' (S piece) r.1.1 r.1.2 in
          Ok (r'.1, r.2 ++ r'.2)
    end.

  (** LayerPlan.cpp:1387-1590: the lines; [rest] are the vertices still to be visited with their indices *)
  Fixpoint cut_lines (fuel size : nat) (p0 : pt) (w0 : Z) (rest : list (nat * (pt * Z))) (st : wst)
      : res (wst * list move) :=
    match rest with
    | [] => Ok (st, [])
    | (actual, (p1, w1)) :: rest' =>
        if negb (keep st) then Ok (st, [])
        else
          let line_length := vSize (psub p1 p0) in
          let pieces := pieces_of line_length (w1 - w0) in
          let piece_length := piece_length_of line_length pieces in
          let index := ((actual + size - 1) mod size)%nat in
          let! r := cut_line fuel p0 p1 w0 w1 line_length piece_length pieces index pieces 0 st 0 in
          let! r' := cut_lines fuel size p1 w1 rest' r.1.1 in
          Ok (r'.1, r.2 ++ r'.2)
    end.
End split.

(** LayerPlan.cpp:1389: the index of a visited vertex *)
Definition actual_index (size start : nat) (reversed : bool) (point_idx : nat) : nat :=
  if reversed then ((size + start - point_idx) mod size)%nat else ((size + start + point_idx) mod size)%nat.
(** LayerPlan.cpp:1815: max_index *)
Definition max_index (closed : bool) (size : nat) : nat := if closed then (size + 1)%nat else size.
(** LayerPlan.cpp:1387-1393: the vertices in the order of the loop *)
Definition visited (w : wall) (start : nat) (closed reversed : bool) : res (list (nat * (pt * Z))) :=
  let n := length w in
  foldr (fun point_idx acc =>
           let! l := acc in
           let i := actual_index n start reversed point_idx in
           let! j := of_opt (w !! i) in Ok ((i, j) :: l))
        (Ok []) (seq 1 (max_index closed n - 1)).

(** LayerPlan.cpp:1327-1593: the first travel is made on the first line of a pass that is not the closure *)
Definition addSplitWall (fuel : nat) (P : wpar) (w : wall) (total : Z) (start : nat) (closed reversed closure : bool)
    : res (list move) :=
  let! j0 := of_opt (w !! start : option (pt * Z)) in
  let! rest := visited w start closed reversed in
  let z := if negb closure && (0 <? scarf_seam_length P) then scarf_max_z_offset P else 0 in
  let st := WSt 0 (P3 j0.1.1 j0.1.2 z) 0 0 (flat j0.1) true in
  let! r := cut_lines P total closure fuel (length w) j0.1 j0.2 rest st in
  Ok ((if negb closure && (0 <? length rest)%nat then [MTravel j0.1] else []) ++ r.2).

(** The settings read by addWallWithScarfSeam (LayerPlan.cpp:1807-1834); [layer_positive] is layer_nr_ > 0, [g_thickness]
    is layer_thickness_ and [g_small] is is_small_feature, [g_smooth] and [g_scarf] are the arguments smooth_speed and
    scarf_seam *)
Record wsettings := WSettings {
  g_deviation : Z; g_resolution : Z; g_scarf : bool; g_scarf_length : Z; g_scarf_start : Q; g_scarf_split : Z;
  g_thickness : Z; layer_positive : bool; g_smooth : bool; g_top_speed : Q; g_speed_split : Z;
  g_start_ratio : Q; g_acceleration : Z; g_end_ratio : Q; g_deceleration : Z; g_small : bool }.

(** static_cast<coord_t> of a double: towards zero *)
Definition qtrunc (q : Q) : Z := if Qle_bool 0 q then Qfloor q else - Qfloor (- q).
(** Coord_t.h:30 *)
Definition MM2INT (n : Q) : Z :=
  qtrunc (n * 1000 + (1 # 2) * (if Qle_bool n 0 then if Qle_bool 0 n then 0 else -1 else 1))%Q.

(** LayerPlan.cpp:1826 and 1831: the length over which the speed changes; with a rate of zero the division gives infinity,
    which has no value as coord_t *)
Definition ramp_length (smooth : bool) (top ratio : Q) (rate : Z) : res Z :=
  if smooth && negb (Qle_bool 1 ratio) then
    if rate =? 0 then UB
    else Ok (MM2INT ((top * top - top * ratio * (top * ratio)) / (2 * inject_Z rate))%Q)
  else Ok 0.

(** LayerPlan.cpp:1805-1831: the parameters of both passes *)
Definition wall_params (g : wsettings) (total : Z) (closed : bool) : res wpar :=
  let actual_scarf := g_scarf g && closed && layer_positive g in
  let start_ratio := if g_smooth g then g_start_ratio g else 1%Q in
  let end_ratio := if g_smooth g then g_end_ratio g else 1%Q in
  let! acc := ramp_length (g_smooth g) (g_top_speed g) start_ratio (g_acceleration g) in
  let! dec := ramp_length (g_smooth g) (g_top_speed g) end_ratio (g_deceleration g) in
  let seam := Z.min total (if actual_scarf then g_scarf_length g else 0) in
  let scarf_start := if actual_scarf then g_scarf_start g else 1%Q in
  Ok (WPar (Z.max (g_deviation g) 1) (Z.max (g_resolution g) 1) seam (g_scarf_split g)
           (qtrunc (- (1 - scarf_start) * inject_Z (g_thickness g))%Q)
           (g_speed_split g) start_ratio acc end_ratio dec (g_small g)).

(** LayerPlan.cpp:1787-1883: the pass with the start of the scarf and the pass that closes it *)
Definition addWallWithScarfSeam (fuel : nat) (g : wsettings) (w : wall) (start : nat) (closed reversed : bool)
    : res (list move) :=
  match w with
  | [] => Ok []
  | _ =>
      let total := wall_length closed w in
      let! P := wall_params g total closed in
      let! first := addSplitWall fuel P w total start closed reversed false in
      if 0 <? scarf_seam_length P then
        let! second := addSplitWall fuel P w total start closed reversed true in Ok (first ++ second)
      else Ok first
  end.
