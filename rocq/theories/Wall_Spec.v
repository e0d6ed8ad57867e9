(** What is expected of a printed wall, in terms of distances along it. *)
From Coq Require Import ZArith QArith Qround.
From stdpp Require Import list.
From Verif Require Import Common Geo_Model Order_Model Wall_Model.
Open Scope Z_scope.

(** A corner of a wall: its index, position and line width *)
Notation corner := (nat * (pt * Z))%type.
Definition place_of (c : corner) : pt := c.2.1.
Definition width_of (c : corner) : Z := c.2.2.
Definition numbered (w : wall) : list corner := imap pair w.

(** The corners in the order of printing: from the start, all the way round. A closed wall ends where it started. *)
Definition route (w : wall) (start : nat) (closed reversed : bool) : list corner :=
  let r := if reversed then reverse (take (S start) (numbered w)) ++ reverse (drop start (numbered w))
           else drop start (numbered w) ++ take (S start) (numbered w) in
  if closed then r else take (length w) r.

(** The rounded length of the line between two corners *)
Definition length_of (a b : corner) : Z := vSize (psub (place_of b) (place_of a)).

(** [lines first rest] has the corners after the first one, each with the length printed on the way to it. The line on
    which the place at distance [d] along the printed wall is, and how far along that line it is. *)
Fixpoint line_at (first : corner) (rest : list (corner * Z)) (d : Z) : option (corner * corner * Z) :=
  match rest with
  | [] => None
  | (next, l) :: rest' => if (0 <? l) && (d <=? l) then Some (first, next, d) else line_at next rest' (d - l)
  end.
Definition point_at (first : corner) (rest : list (corner * Z)) (d : Z) : pt :=
  match line_at first rest d with
  | Some (a, b, k) => lerp2 (place_of a) (place_of b) (inject_Z k / inject_Z (length_of a b))
  | None => place_of first
  end.
(** The distances at which the lines end *)
Fixpoint ends (d : Z) (rest : list (corner * Z)) : list Z :=
  match rest with
  | [] => []
  | (_, l) :: rest' => d + l :: ends (d + l) rest'
  end.
Definition sum (ls : list Z) : Z := foldr Z.add 0 ls.

(** The lengths of the lines between the corners *)
Fixpoint lengths (first : corner) (rest : list corner) : list Z :=
  match rest with
  | [] => []
  | next :: rest' => length_of first next :: lengths next rest'
  end.

(** No line is longer than the number of rounds that the model allows *)
Fixpoint short_lines (fuel : nat) (first : corner) (rest : list corner) : Prop :=
  match rest with
  | [] => True
  | next :: rest' => length_of first next <= Z.of_nat fuel /\ short_lines fuel next rest'
  end.

(** The length printed for a line: its length, but for a line of varying width only nearly so *)
Definition printed_for (P : wpar) (a b : corner) (l : Z) : Prop :=
  2 * Z.abs (l - length_of a b) * max_resolution P <= length_of a b /\
  (width_of a = width_of b -> l = length_of a b) /\
  (0 < length_of a b -> 0 < l) /\ 0 <= l.
Fixpoint printed_lengths (P : wpar) (first : corner) (rest : list (corner * Z)) : Prop :=
  match rest with
  | [] => True
  | (next, l) :: rest' => printed_for P first next l /\ printed_lengths P next rest'
  end.

Section spec.
  Context (P : wpar) (total : Z) (closure : bool) (size : nat) (first : corner) (rest : list (corner * Z)).

  (** The height relative to the layer: rising linearly over the scarf, zero after it and when closing the seam *)
  Definition height (d : Z) : Z :=
    if negb closure && (d <? scarf_seam_length P)
    then llrint (inject_Z (scarf_max_z_offset P) * (1 - inject_Z d / inject_Z (scarf_seam_length P)))%Q else 0.
  Definition place (d : Z) : pt3 :=
    let p := point_at first rest d in P3 p.1 p.2 (height d).

  (** The fractions of the acceleration and of the deceleration at a distance. When the wall is shorter than the
      deceleration, the code starts from zero nevertheless. *)
  Definition acc_at (d : Z) : Q := (inject_Z d / inject_Z (accelerate_length P))%Q.
  Definition dec_at (d : Z) : Q := (1 - inject_Z (total - d) / inject_Z (decelerate_length P))%Q.
  Definition dec_from (d : Z) : Q := if d =? 0 then 0%Q else dec_at d.
  Definition decelerating (a : Z) : bool := (0 <? decelerate_length P) && (total - decelerate_length P <=? a).
  (** The speed between two distances, as a fraction of the speed of the wall *)
  Definition speed (a b : Z) : Q :=
    if closure then end_speed_ratio P
    else ((if a <? accelerate_length P then qlerp (start_speed_ratio P) 1 ((acc_at a + acc_at b) / 2) else 1)
          * (if decelerating a then qlerp 1 (end_speed_ratio P) ((dec_from a + dec_at b) / 2) else 1))%Q.

  (** A sub-segment from distance [a] to distance [b] *)
  Record step (a b : Z) (s : seg) : Prop := {
    step_forward : a < b;
    step_from : s_from s = place a;
    step_to : s_to s = place b;
    step_speed : (s_speed s == speed a b)%Q;
    step_z : s_travel_to_z s = (a =? 0);
    step_line : exists c0 c1 k, line_at first rest b = Some (c0, c1, k) /\ b - a <= k /\
      (s_ratio0 s == inject_Z (k - (b - a)) / inject_Z (length_of c0 c1))%Q /\
      (s_ratio1 s == inject_Z k / inject_Z (length_of c0 c1))%Q /\
      Z.min (width_of c0) (width_of c1) <= s_width s <= Z.max (width_of c0) (width_of c1) /\
      s_index s = ((c1.1 + size - 1) mod size)%nat;
    step_scarf : a < scarf_seam_length P -> b <= scarf_seam_length P /\ b - a <= scarf_split_distance P;
    step_accelerate : closure = false -> a < accelerate_length P ->
      b <= accelerate_length P /\ b - a <= speed_split_distance P;
    step_decelerate : closure = false -> 0 < decelerate_length P ->
      if total - decelerate_length P <=? a then b - a <= speed_split_distance P
      else b <= total - decelerate_length P }.
  (** Sub-segments through the distances [ds], starting from [a] *)
  Fixpoint follows (a : Z) (ds : list Z) (segs : list seg) : Prop :=
    match ds, segs with
    | [], [] => True
    | b :: ds', s :: segs' => step a b s /\ follows b ds' segs'
    | _, _ => False
    end.
  (** Where a pass ends: the closure ends with the scarf *)
  Definition until (d : Z) : Z := if closure then Z.min d (scarf_seam_length P) else d.
End spec.
