(** Model of the infill patterns made of connected straight lines: src/infill.cpp:524-582 (the patterns), 655-669 (generateLineInfill) and the
    gathering of the lines of generateLinearBasedInfill, 764-780 and 832-856, followed by connectLines (Connect_Model).

    The crossings of the scanlines with the outline are in LineInfill_Model.  Coordinates are unbounded integers, rotation matrices are
    arguments, and so are the shifts that are computed from the height of the layer in floating point (532, 561). *)
From Coq Require Import ZArith.
From stdpp Require Import prelude list gmap.
From Verif Require Import Common Geo_Model Box_Model LineInfill_Model Connect_Model.
Open Scope Z_scope.

(** the arguments of one call of generateLinearBasedInfill; [total_shift] is extra_shift + shift_ (727) *)
Record direction := Direction { apply : pt -> pt; unapply : pt -> pt; distance : Z; total_shift : Z }.

(** the lines, the number of the next one, and crossings_on_line *)
Notation gathered := (heap * nat * list (list (list nat)))%type.

(** infill.cpp:852-853: crossings_on_line[polygon][vertex].push_back(line) *)
Definition put (c : crossing) (line : nat) (crossings_on_line : list (list (list nat))) : res (list (list (list nat))) :=
  let! on_polygon := of_opt (crossings_on_line !! polygon_index c) in
  let! on_edge := of_opt (on_polygon !! vertex_index c) in
  Ok (<[polygon_index c := <[vertex_index c := on_edge ++ [line]]> on_polygon]> crossings_on_line).

Section gather.
  Variable unapply : pt -> pt.
  (** infill.cpp:841-853 *)
  Definition gather_pair (x : Z) (first second : crossing) (g : gathered) : res gathered :=
    let unrotated_first := unapply (x, cy first) in
    let unrotated_second := unapply (x, cy second) in
    if decide (unrotated_first = unrotated_second) then Ok g
    else
      let new_segment := new_seg unrotated_first (vertex_index first) (polygon_index first) unrotated_second in
      let! crossings := put first g.1.2 g.2 in
      let! crossings := put second g.1.2 crossings in
      Ok (<[g.1.2 := new_segment]> g.1.1, S g.1.2, crossings).
  (** infill.cpp:839-854 *)
  Fixpoint gather_row (x : Z) (ps : list (crossing * crossing)) (g : gathered) : res gathered :=
    match ps with
    | [] => Ok g
    | p :: ps => let! g := gather_pair x p.1 p.2 g in gather_row x ps g
    end.
  (** infill.cpp:834-855 *)
  Fixpoint gather_rows (d x : Z) (rows : list (list crossing)) (g : gathered) : res gathered :=
    match rows with
    | [] => Ok g
    | crossings :: rows =>
        let! g := gather_row x (pairs (sort_crossings crossings)) g in
        gather_rows d (x + d) rows g
    end.
End gather.

(** infill.cpp:708-856 when the lines are to be connected; the first scanline that is gathered is scanline_min_idx + 1 (765) *)
Definition gather (fuel : nat) (outline : list (list pt)) (dir : direction) (g : gathered) : res gathered :=
  let d := distance dir in
  if (d =? 0) || (match outline with [] => true | _ => false end) then Ok g
  else
    let shift := shift_of d (total_shift dir) in
    let! r := find_crossings (apply dir) fuel outline d shift in
    gather_rows (unapply dir) d (x_of d shift (r.1.2 + 1)) (tail r.1.1) g.
Fixpoint gather_all (fuel : nat) (outline : list (list pt)) (dirs : list direction) (g : gathered) : res gathered :=
  match dirs with
  | [] => Ok g
  | dir :: dirs => let! g := gather fuel outline dir g in gather_all fuel outline dirs g
  end.

(** infill.cpp:768-780: the first call resizes crossings_on_line, later ones find it of that size *)
Definition no_crossings (outline : list (list pt)) : list (list (list nat)) := map (fun poly => replicate (length poly) []) outline.

(** infill.cpp:300-400 for a pattern made of lines: the lines of all directions, connected *)
Definition connectedInfill (resolve : seg -> seg -> bool -> bool -> resolution) (fuel : nat) (outline : list (list pt)) (dirs : list direction) : res (list (list pt)) :=
  let! g := gather_all fuel outline dirs (∅, O, no_crossings outline) in
  connectLines resolve fuel outline g.1.1 g.1.2 g.2.

(** The patterns.  [rotation a] is the matrix of the angle fill_angle_ + a and its inverse, [shift] is shift_. *)
Section patterns.
  Variable rotation : Z -> (pt -> pt) * (pt -> pt).
  Variable line_distance shift infill_line_width : Z.

  (** infill.cpp:655-669 *)
  Definition lines_at (d angle extra_shift : Z) : direction := Direction (rotation angle).1 (rotation angle).2 d (extra_shift + shift).
  (** infill.cpp:524-528 *)
  Definition grid : list direction := [lines_at line_distance 0 0; lines_at line_distance 90 0].
  (** infill.cpp:530-536; [z_shift] is one_over_sqrt_2 * z_, truncated *)
  Definition cubic (z_shift : Z) : list direction :=
    [lines_at line_distance 0 z_shift; lines_at line_distance 120 z_shift; lines_at line_distance 240 z_shift].
  (** infill.cpp:550-568; [z_shift] is one_over_sqrt_2 * (z_ + pattern_z_shift * period * 2), truncated *)
  Definition half_tetrahedral_shift (z_shift : Z) : Z :=
    let period := line_distance * 2 in
    let s := Z.rem z_shift period in
    let s := Z.min s (period - s) in
    let s := Z.min s (period ÷ 2 - infill_line_width ÷ 2) in
    Z.max s (infill_line_width ÷ 2).
  Definition half_tetrahedral (z_shift angle_shift : Z) : list direction :=
    let s := half_tetrahedral_shift z_shift in
    [lines_at (line_distance * 2) angle_shift s; lines_at (line_distance * 2) angle_shift (- s)].
  (** infill.cpp:538-548; the first shift is the one for 0.0, the second one the one for 0.0 or 0.5 *)
  Definition tetrahedral (z_shift z_shift' : Z) : list direction := half_tetrahedral z_shift 0 ++ half_tetrahedral z_shift' 90.
  (** infill.cpp:570-582 *)
  Definition triangles : list direction := [lines_at line_distance 0 0; lines_at line_distance 60 0; lines_at line_distance 120 0].
  Definition trihexagon : list direction :=
    [lines_at line_distance 0 0; lines_at line_distance 60 0; lines_at line_distance 120 (line_distance ÷ 2)].
End patterns.
