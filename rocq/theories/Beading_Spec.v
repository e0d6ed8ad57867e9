(** Specification of C47: beads that fit a thickness. *)
From Coq Require Import ZArith QArith.
From stdpp Require Import list.
From Verif Require Import Common Beading_Model.
Open Scope Z_scope.

Definition sum (l : list Z) : Z := foldr Z.add 0 l.

(** The beads of r fill the thickness from the outside in, up to rounding to whole micrometres: the widths and what is left
    over add up to the thickness, the widths are the same from both sides, the outer edge of the first bead is the
    outline, in the outer half each bead lies beside the one before, and each bead lies opposite to its counterpart. *)
Record fits (thickness : Z) (r : beading) : Prop := {
  fits_total : total_thickness r = thickness;
  fits_length : length (toolpath_locations r) = length (bead_widths r);
  fits_left_over : exists lo, left_over r = Some lo /\ sum (bead_widths r) + lo = thickness /\ Z.abs lo <= Z.of_nat (length (bead_widths r));
  fits_symmetric : reverse (bead_widths r) = bead_widths r;
  fits_first : forall w l, bead_widths r !! 0%nat = Some w -> toolpath_locations r !! 0%nat = Some l -> l = w ÷ 2;
  fits_next : forall (i : nat) w w' l l', (S i <= length (bead_widths r) / 2)%nat ->
    bead_widths r !! i = Some w -> bead_widths r !! S i = Some w' ->
    toolpath_locations r !! i = Some l -> toolpath_locations r !! S i = Some l' -> Z.abs (2 * (l' - l) - (w + w')) <= 4;
  fits_opposite : forall (i j : nat) l l', (i + j + 1 = length (bead_widths r))%nat ->
    toolpath_locations r !! i = Some l -> toolpath_locations r !! j = Some l' ->
    Z.abs (l + l' - thickness) <= 3 * Z.of_nat (length (bead_widths r)) }.

(** No walls: all of the thickness is left over *)
Definition empty (thickness : Z) (r : beading) : Prop := r = Beading thickness [] [] (Some thickness).

(** Parameters that make sense: widths are positive, thresholds are ratios, an even number of beads for the two sides *)
Record sensible (P : parameters) : Prop := {
  s_outer : 0 < preferred_bead_width_outer P;
  s_inner : 0 < preferred_bead_width_inner P;
  s_split : (0 < wall_split_middle_threshold P <= 1)%Q;
  s_add : (0 < wall_add_middle_threshold P <= 1)%Q;
  s_ratio : (0 <= minimum_variable_line_ratio P <= 1)%Q;
  s_max : exists k, 1 <= k /\ max_bead_count P = 2 * k }.

(** Without insets of the walls, or without widening of thin walls *)
Definition no_insets (P : parameters) : Prop := outer_wall_offset P <= 0 /\ inner_wall_offset P = 0.
Definition without_insets (P : parameters) : parameters :=
  Parameters (preferred_bead_width_outer P) (preferred_bead_width_inner P) (print_thin_walls P) (min_bead_width P) (min_feature_size P)
    (wall_split_middle_threshold P) (wall_add_middle_threshold P) (max_bead_count P) 0 0 (inward_distributed_center_wall_count P)
    (minimum_variable_line_ratio P).
Definition thin (P : parameters) (thickness : Z) : Prop := print_thin_walls P = true /\ thickness < preferred_bead_width_inner P.

(** The location of the wall with index i, when each wall has its preferred width *)
Definition preferred_location (P : parameters) (i : Z) : Z :=
  if i =? 0 then preferred_bead_width_outer P ÷ 2
  else preferred_bead_width_outer P + (i - 1) * preferred_bead_width_inner P + preferred_bead_width_inner P ÷ 2.
(** Insets move the first wall inward, but not beyond the middle, and the other ones by the inner offset. *)
Definition moved (P : parameters) (thickness i l : Z) : Z :=
  if i =? 0 then if 0 <? outer_wall_offset P then Z.min (l + outer_wall_offset P) (thickness ÷ 2) else l
  else l + inner_wall_offset P.

(** The number of walls with a width: where there is no room inside the two outer walls there are none *)
Definition walls (P : parameters) (thickness n : Z) : Z :=
  if (2 <? n) && (thickness <=? 2 * preferred_bead_width_outer P) then 2 else n.
(** Wide enough for a wall *)
Definition wide_enough (P : parameters) (thickness : Z) : Prop :=
  (minimum_variable_line_ratio P * inject_Z (preferred_bead_width_outer P) <= inject_Z thickness)%Q.
(** The walls of one side and, at the end, a marker without width that borders the innermost wall *)
Definition half_locations (P : parameters) (thickness : Z) (k : nat) : list Z :=
  map (fun i => moved P thickness (Z.of_nat i) (preferred_location P (Z.of_nat i))) (seq 0 k).
Definition innermost_width (P : parameters) (k : nat) : Z :=
  if (k =? 1)%nat then preferred_bead_width_outer P else preferred_bead_width_inner P.
Definition border (P : parameters) (thickness : Z) (k : nat) : Z :=
  moved P thickness (Z.of_nat (pred k)) (preferred_location P (Z.of_nat (pred k))) + innermost_width P k ÷ 2.
