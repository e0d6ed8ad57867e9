(** Specification of C22: what a stitched line is made of. *)
From Coq Require Import ZArith.
From stdpp Require Import list.
From Verif Require Import Common Geo_Model Order_Model.
Open Scope Z_scope.

Section spec.
  Context {J : Type} (make_point : J -> pt).
  (** The input lines, each with whether it is odd. *)
  Variable lines : list (list J * bool).
  (** The stitch distance and the snap distance. *)
  Variables mx sn : Z.

  (** Distance rounded to whole units. *)
  Definition dist (a b : J) : Z := vSize (psub (make_point a) (make_point b)).
  (** Length of a line, as the sum of the rounded lengths of its segments. *)
  Fixpoint path_length (c : list J) : Z :=
    match c with
    | a :: (b :: _) as c' => dist b a + path_length c'
    | _ => 0
    end.

  (** A line taken as it is, or reversed. *)
  Definition the_line (jr : nat * bool) : list J :=
    let l := match lines !! jr.1 with Some (l, _) => l | None => [] end in
    if jr.2 then reverse l else l.

  (** [joined c ls c']: [c'] is [c] followed by the lines [ls], one after the other.  Each starts within the
      stitch distance of where the line so far ends; if within the snap distance its first point is left out. *)
  Inductive joined : list J -> list (list J) -> list J -> Prop :=
  | joined_nil c : joined c [] c
  | joined_cons c b a l ls c' :
      last c = Some b -> dist b a <= mx ->
      joined (c ++ if dist b a <? sn then l else a :: l) ls c' ->
      joined c ((a :: l) :: ls) c'.

  (** A result: a first line, lines joined after it, then lines joined before it (nearest first).  Of each
      line, whether it is reversed. *)
  Record assembly := Assembly { before : list (nat * bool); start : nat; after : list (nat * bool) }.
  Definition used (a : assembly) : list nat := map fst (before a) ++ start a :: map fst (after a).
  (** [mid] is the result before anything is joined before it. *)
  Definition assembled (a : assembly) (mid r : list J) : Prop :=
    joined (the_line (start a, false)) (map the_line (after a)) mid /\
    joined (reverse mid) (map (fun jr => reverse (the_line jr)) (before a)) (reverse r).

  (** [is_end n x]: [x] is the first or the last point of line [n.1], namely its point number [n.2] *)
  Definition is_end (n : nat * nat) (x : J) : Prop :=
    exists l o, lines !! n.1 = Some (l, o) /\ l !! n.2 = Some x /\ (n.2 = 0%nat \/ S n.2 = length l).

  (** For walls: odd and even lines are kept apart, and even lines must not be reversed.  Seen from the end
      of a line to which [n] would be joined ([backwards]: its beginning, looking backwards). *)
  Definition even (i : nat) : Prop := exists l, lines !! i = Some (l, false).
  Definition odd (i : nat) : Prop := exists l, lines !! i = Some (l, true).
  Definition usable (walls backwards : bool) (i : nat) (n : nat * nat) : Prop :=
    walls = true -> (odd i <-> odd n.1) /\ (even n.1 -> (n.2 = 0%nat <-> backwards = false)).

  (** [x] is within the snap distance of [y]. *)
  Definition snaps (x y : J) : Prop := vSize2 (psub (make_point x) (make_point y)) < sn * sn.

  (** [n] may come next after the line [c], whose first line is number i: it is the end [x] of a line that is
      not taken yet, or it is where the line begins and the line is large enough to be closed. *)
  Definition allowed (walls backwards : bool) (i : nat) (taken : nat -> Prop) (c : list J) (n : nat * nat) (x : J) : Prop :=
    exists b f, last c = Some b /\ head c = Some f /\ is_end n x /\ dist x b <= mx /\ usable walls backwards i n /\
      ((~ snaps x f /\ ~ taken n.1) \/ (snaps x f /\ 3 * mx <= path_length c + dist x b /\ (2 < length c)%nat)).
  (** Closing counts as 10 more, or 10 less if it is wanted. *)
  Definition cost (wanted : bool) (c : list J) (x : J) (d : Z) : Prop :=
    exists b f, last c = Some b /\ head c = Some f /\
      ((~ snaps x f /\ d = dist x b) \/ (snaps x f /\ d = dist x b + if wanted then -10 else 10)).

  (** A line may be closed to a polygon: an end of some line is within the stitch distance of its end and
      within the snap distance of its beginning, and it is large enough. *)
  Definition can_close (c : list J) : Prop :=
    exists b f n x, last c = Some b /\ head c = Some f /\ is_end n x /\ dist x b <= mx /\ snaps x f /\
      3 * mx <= path_length c + dist x b /\ (2 < length c)%nat.

  (** A finished result, seen in the direction of its first line, and how it is put out. *)
  Record built := Built { parts : assembly; mid : list J; line : list J; closed : bool; out : list J }.
  Definition fits (walls : bool) (x : built) : Prop :=
    assembled (parts x) (mid x) (line x) /\
    (walls = true -> forall j rev, (j, rev) ∈ before (parts x) ++ after (parts x) ->
       (odd (start (parts x)) <-> odd j) /\ (even j -> rev = false)) /\
    (if closed x
     then out x = line x /\ (can_close (line x) \/ can_close (reverse (line x)))
     else out x = line x \/ (out x = reverse (line x) /\ ~ (walls = true /\ even (start (parts x))))).

  Definition within (x y : J) (d : Z) : Prop := vSize2 (psub (make_point x) (make_point y)) <= d * d.

  (** No end of line [j] could have been joined to [x]: where it is within reach of an end of [x] and may be
      used, it is within the snap distance of the opposite end (for the end: of the first line's beginning). *)
  Definition apart (walls : bool) (x : built) (j : nat) : Prop :=
    forall k e, is_end (j, k) e ->
      (forall l f, last (line x) = Some l -> head (the_line (start (parts x), false)) = Some f ->
         usable walls false (start (parts x)) (j, k) -> within e l mx -> snaps e f) /\
      (forall l f, last (line x) = Some l -> head (line x) = Some f ->
         usable walls true (start (parts x)) (j, k) -> within e f mx -> snaps e l).
End spec.
