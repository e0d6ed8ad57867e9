(** Specification for C82 and C83: voxels, the points of a line in space, and kernels. *)
From Coq Require Import ZArith QArith.
From stdpp Require Import list.
From Verif Require Import Common Geo_Model Voxel_Model.
Open Scope Z_scope.

(** The point at parameter t on the line from a to b. *)
Definition at3 (a b : pt3) (t : Q) (d : axis) : Q :=
  (inject_Z (get a d) + t * inject_Z (get b d - get a d))%Q.
(** Voxel number g reaches from g to g + 1 cell sizes in each direction: with its faces, and without. *)
Definition in_voxel (cs g : pt3) (u : axis -> Q) : Prop :=
  forall d, (inject_Z (get g d * get cs d) <= u d /\ u d <= inject_Z ((get g d + 1) * get cs d))%Q.
Definition inside_voxel (cs g : pt3) (u : axis -> Q) : Prop :=
  forall d, (inject_Z (get g d * get cs d) < u d /\ u d < inject_Z ((get g d + 1) * get cs d))%Q.
(** Two voxels that share a face. *)
Definition share_face (g h : pt3) : Prop :=
  exists d, Z.abs (get h d - get g d) = 1 /\ forall d', d' <> d -> get h d' = get g d'.

(** [cells] are voxels along the line from a to b: from one with a to one with b, each sharing a
    face with the one before, none twice, all met by the line; every point of the line is in one of
    them, and each voxel that the line goes through the inside of is one of them. *)
Definition voxels_along (cs a b : pt3) (cells : list pt3) : Prop :=
  (exists g, head cells = Some g /\ in_voxel cs g (at3 a b 0)) /\
  (exists g, last cells = Some g /\ in_voxel cs g (at3 a b 1)) /\
  (forall i g h, cells !! i = Some g -> cells !! S i = Some h -> share_face g h) /\
  NoDup cells /\
  (forall g, g ∈ cells -> exists t, (0 <= t <= 1)%Q /\ in_voxel cs g (at3 a b t)) /\
  (forall t, (0 <= t <= 1)%Q -> exists g, g ∈ cells /\ in_voxel cs g (at3 a b t)) /\
  (forall t g, (0 <= t <= 1)%Q -> inside_voxel cs g (at3 a b t) -> g ∈ cells).

(** The sides of a polygon: from the last point to the first, and from each to the next. *)
Definition sides (poly : list pt) : list (pt * pt) :=
  match last poly with Some l => zip (l :: poly) poly | None => [] end.

(** The part of a kernel to one side of the middle: how many cells there are on that side of the
    middle cell (at least 1, so that it can be divided by). *)
Definition side (k x : Z) : Z := Z.max 1 (if x <? 0 then k / 2 else k - k / 2 - 1).
(** How far a cell is from the middle cell, as a fraction of the size of the kernel on that side. *)
Definition fraction (k x : Z) : Q := (inject_Z (Z.abs x) / inject_Z (side k x))%Q.
