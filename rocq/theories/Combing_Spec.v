(** Vocabulary of C71: ways along and across the boundary. *)
From Coq Require Import ZArith QArith.
From stdpp Require Import prelude list.
From Verif Require Import Geo_Model Combing_Model.
Open Scope Z_scope.

(** ** optimized paths *)
(** [q] is on the way from [a] to [b], each coordinate rounded by at most a half. *)
Definition between (a b q : pt) : Prop :=
  exists f : Q, (0 <= f <= 1)%Q /\
    (-(1#2) <= inject_Z q.1 - (inject_Z a.1 + f * inject_Z (b.1 - a.1)) <= 1#2)%Q /\
    (-(1#2) <= inject_Z q.2 - (inject_Z a.2 + f * inject_Z (b.2 - a.2)) <= 1#2)%Q.
Definition hop (path : list pt) (a b : pt) : Prop := exists i, path !! i = Some a /\ path !! S i = Some b.
(** A hop that was found free of collisions, one of the basic path, or a part of such a hop from one of its ends. *)
Inductive allowed (collides : pt -> pt -> bool) (basic : list pt) : pt -> pt -> Prop :=
| free a b : collides a b = false -> allowed collides basic a b
| given a b : hop basic a b -> allowed collides basic a b
| first_part a b b' : allowed collides basic a b -> between a b b' -> allowed collides basic a b'
| last_part a b a' : allowed collides basic a b -> between b a a' -> allowed collides basic a' b.

(** ** crossings of the boundary with the line from start to end, which is turned along the X axis *)
Section crossings.
  Context (apply : pt -> pt) (boundary : list (list pt)) (start_point end_point : pt).
  (** Edge number [v] of polygon number [p], turned: it leads to corner number [v]. *)
  Definition turned_edge (p v : nat) (e : pt * pt) : Prop :=
    exists polygon a b, boundary !! p = Some polygon /\ polygon !! v = Some b /\
      (if (v =? 0)%nat then last polygon else polygon !! (v - 1)%nat) = Some a /\ e = (apply a, apply b).
  (** Where the line through the edge meets the given height, exactly and rounded towards its first corner. *)
  Definition exact_x (y : Z) (e : pt * pt) : Q := (inject_Z e.1.1 + inject_Z ((e.2.1 - e.1.1) * (y - e.1.2)) / inject_Z (e.2.2 - e.1.2))%Q.
  Definition rounded_x (y : Z) (e : pt * pt) : Z := e.1.1 + (e.2.1 - e.1.1) * (y - e.1.2) ÷ (e.2.2 - e.1.2).
  (** One corner is below the line and the other one is not, and they meet between start and end. *)
  Definition crosses (e : pt * pt) : Prop :=
    let y := (apply start_point).2 in
    ((e.1.2 < y <= e.2.2) \/ (e.2.2 < y <= e.1.2)) /\ (apply start_point).1 <= rounded_x y e <= (apply end_point).1.
  (** No edge that reaches the height of the line meets it more than a unit away from its ends. *)
  Definition unobstructed : Prop :=
    forall p v e, turned_edge p v e -> let y := (apply start_point).2 in
      e.1.2 <> e.2.2 -> (e.1.2 <= y <= e.2.2 \/ e.2.2 <= y <= e.1.2) ->
      ~ (inject_Z (apply start_point).1 + 1 <= exact_x y e /\ exact_x y e <= inject_Z (apply end_point).1 - 1)%Q.
  (** The crossings, each one once, in the order in which they are on the line. *)
  Definition crossings_of (S : list crossing) : Prop :=
    NoDup S /\ (forall i j c c', (i < j)%nat -> S !! i = Some c -> S !! j = Some c' -> x_ c <= x_ c') /\
    forall c, c ∈ S <-> exists e, turned_edge (poly_idx c) (point_idx c) e /\ crosses e /\ x_ c = rounded_x (apply start_point).2 e.
  Definition crossings_with (p : nat) (S : list crossing) : nat := length (filter (fun c => poly_idx c = p) S).
End crossings.

(** From each crossing the way leads around the polygon to its next crossing; crossings in between are skipped, and so is a crossing
    without another one of the same polygon behind it. *)
Inductive plan : list crossing -> list (crossing * crossing) -> Prop :=
| arrived : plan [] []
| alone c S D : (forall c', c' ∈ S -> poly_idx c' <> poly_idx c) -> plan S D -> plan (c :: S) D
| round c skipped c' S D : poly_idx c' = poly_idx c -> (forall s, s ∈ skipped -> poly_idx s <> poly_idx c) -> plan S D ->
    plan (c :: skipped ++ c' :: S) ((c, c') :: D).

(** ** the ways around a polygon *)
(** The corners passed from edge [v] to edge [w] in the direction of the polygon of [n] corners, and in the other one. *)
Definition corners_forward (n v w : nat) : list nat := map (fun k => (v + k) mod n)%nat (seq 0 ((w + n - v) mod n)).
Definition corners_backward (n v w : nat) : list nat := map (fun k => (v + n - 1 - k) mod n)%nat (seq 0 ((v + n - w) mod n)).
Fixpoint way_length (path : list pt) : Z :=
  match path with a :: (b :: _) as rest => vSize (psub b a) + way_length rest | _ => 0 end.
(** From a little before the first crossing along the corners, moved off the boundary, to a little behind the second one, the shorter way. *)
Definition detour_of (unapply : pt -> pt) (corner : list pt -> nat -> pt) (boundary : list (list pt)) (y dist : Z) (cc : crossing * crossing) (detour : list pt) : Prop :=
  exists polygon, boundary !! poly_idx cc.1 = Some polygon /\
    let way := fun is => unapply (x_ cc.1 - Z.abs dist, y) :: map (corner polygon) is ++ [unapply (x_ cc.2 + Z.abs dist, y)] in
    let f := way (corners_forward (length polygon) (point_idx cc.1) (point_idx cc.2)) in
    let b := way (corners_backward (length polygon) (point_idx cc.1) (point_idx cc.2)) in
    (detour = f \/ detour = b) /\ way_length detour <= way_length f /\ way_length detour <= way_length b.
