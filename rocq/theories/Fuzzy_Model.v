(** Model of fuzzy skin: src/FffPolygonGenerator.cpp:1090-1206 (processFuzzyWalls), for the walls of one part.

    The numbers that rand() returns are an argument, a sequence of which each call takes the next; so is whether a point is inside of the area
    of holes.  Division by zero and reading outside of a vector are undefined behaviour.  The loop over layers and parts is left out. *)
From Coq Require Import ZArith.
From stdpp Require Import prelude list.
From Verif Require Import Common Geo_Model Combing_Model Lightning_Model.
Open Scope Z_scope.

(** include/utils/ExtrusionJunction.h:20-40 *)
Record junction := Junction { jp : pt; jw : Z; perimeter_index : Z }.
(** include/utils/ExtrusionLine.h, what is used here *)
Record wall_line := WallLine { inset_idx : nat; is_odd : bool; is_closed : bool; junctions : list junction }.
(** magic_fuzzy_skin_outside_only, magic_fuzzy_skin_thickness, magic_fuzzy_skin_point_dist *)
Record settings := Settings { apply_outside_only : bool; fuzziness : Z; avg_dist_between_points : Z }.

Section fuzzy.
  Variable s : settings.
  Variable rand : nat -> Z.
  Variable in_hole : pt -> bool.

  (** FffPolygonGenerator.cpp:1101-1102 *)
  Definition min_dist_between_points : Z := avg_dist_between_points s * 3 ÷ 4.
  Definition range_random_point_dist : Z := avg_dist_between_points s ÷ 2.
  (** rand() % m, where k numbers were taken before *)
  Definition rand_mod (k : nat) (m : Z) : res Z := if m =? 0 then UB else Ok (Z.rem (rand k) m).

  (** FffPolygonGenerator.cpp:1166, 1175; integers *)
  Definition width_at (p0 p1 : junction) (p : pt) (p0p1_size : Z) : Z :=
    (jw p1 * vSize (psub (jp p1) p) + jw p0 * vSize (psub (jp p0) p)) ÷ p0p1_size.
  (** FffPolygonGenerator.cpp:1169-1177: the points added, the distance and the numbers taken *)
  Fixpoint new_points (fuel : nat) (p0 p1 : junction) (p0p1_size p0pa_dist : Z) (k : nat) : res (list junction * Z * nat) :=
    match fuel with
    | O => NoFuel
    | S fuel' =>
        if p0pa_dist <? p0p1_size then
          let p0p1 := psub (jp p1) (jp p0) in
          let! m := rand_mod k (fuzziness s * 2) in
          let r := m - fuzziness s in
          let fuzz := normal (turn90CCW p0p1) r in
          let pa := padd (jp p0) (normal p0p1 p0pa_dist) in
          let width := width_at p0 p1 pa p0p1_size in
          let! st := rand_mod (S k) range_random_point_dist in
          let! rest := new_points fuel' p0 p1 p0p1_size (p0pa_dist + (min_dist_between_points + st)) (S (S k)) in
          Ok (Junction (padd pa fuzz) width (perimeter_index p1) :: rest.1.1, rest.1.2, rest.2)
        else Ok ([], p0pa_dist, k)
    end.
  (** FffPolygonGenerator.cpp:1151-1182: the points added, and the numbers taken *)
  Fixpoint walk (p0 : junction) (line : list junction) (dist_left_over : Z) (k : nat) : res (list junction) :=
    match line with
    | [] => Ok []
    | p1 :: line' =>
        if bool_decide (jp p0 = jp p1) then
          let! rest := walk p0 line' dist_left_over k in Ok (p1 :: rest)
        else
          let p0p1 := psub (jp p1) (jp p0) in
          let p0p1_size := vSize p0p1 in
          let middle := (if p0p1_size <=? dist_left_over then
                           let p := psub (jp p1) (pdiv p0p1 2) in [Junction p (width_at p0 p1 p p0p1_size) (perimeter_index p1)]
                         else []) in
          let! r := new_points (S (Z.to_nat p0p1_size)) p0 p1 p0p1_size dist_left_over k in
          let! rest := walk p1 line' (r.1.2 - p0p1_size) r.2 in
          Ok (middle ++ r.1.1 ++ rest)
    end.
  (** FffPolygonGenerator.cpp:1183-1192; point_idx starts anew in each turn.  Three turns suffice unless the vector is read outside. *)
  Fixpoint fill_up (fuel : nat) (line result : list junction) : res (list junction) :=
    match fuel with
    | O => NoFuel
    | S fuel' =>
        if (length result <? 3)%nat then
          if (length line <? 2)%nat then UB
          else
            let point_idx := (length line - 2)%nat in
            let! p := of_opt (line !! point_idx) in
            let result := result ++ [p] in
            if Nat.eqb point_idx 0 then Ok result else fill_up fuel' line result
        else Ok result
    end.
  (** FffPolygonGenerator.cpp:1145-1205 *)
  Definition fuzzy_line (line : list junction) (k : nat) : res (list junction) :=
    let! m := rand_mod k (min_dist_between_points ÷ 4) in
    let! front := of_opt (head line) in
    let! result := walk front line (min_dist_between_points ÷ 4 + m) (S k) in
    let! result := fill_up 4 line result in
    let result := if (length result <? 3)%nat then line else result in
    let! back := of_opt (last line) in
    if bool_decide (jp back = jp front) then
      let! first := of_opt (head result) in
      let! final := of_opt (last result) in
      Ok (removelast result ++ [Junction (jp first) (jw final) (perimeter_index final)])
    else Ok result.

  (** FffPolygonGenerator.cpp:1137-1206; [k]: the numbers taken before each line *)
  Fixpoint fuzzy_lines (k : nat -> nat) (i : nat) (lines : list wall_line) : res (list wall_line) :=
    match lines with
    | [] => Ok []
    | line :: lines' =>
        let! l := (if apply_outside_only s && existsb (fun j => in_hole (jp j)) (junctions line) then Ok line
                   else let! js := fuzzy_line (junctions line) (k i) in Ok (WallLine (inset_idx line) (is_odd line) (is_closed line) js)) in
        let! rest := fuzzy_lines k (S i) lines' in Ok (l :: rest)
    end.
  (** FffPolygonGenerator.cpp:1119-1207 *)
  Definition fuzzy_toolpath (k : nat -> nat) (toolpath : list wall_line) : res (list wall_line) :=
    let! front := of_opt (head toolpath) in
    if negb (Nat.eqb (inset_idx front) 0) then Ok toolpath else fuzzy_lines k 0 toolpath.
End fuzzy.
