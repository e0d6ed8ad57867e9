(** Specification for C84: interlocking beams. *)
From Coq Require Import ZArith.
From stdpp Require Import prelude list.
From Verif Require Import Common Geo_Model Carve_Model Voxel_Model.
Open Scope Z_scope.

(** The voxel of a point (in the rotated system) on layer n: voxels are one beam of each mesh wide and two beams high. *)
Definition voxel_of (wa wb beam_layers : Z) (q : pt) (n : nat) : pt3 :=
  (q.1 / (wa + wb), q.2 / (wa + wb), Z.of_nat n / (2 * beam_layers)).
(** Whether a point on layer n is in a beam of the first mesh: beams go along Y in the lower half of a voxel and along X in
    the upper one, and take turns. *)
Definition beam_of_first (wa wb beam_layers : Z) (q : pt) (n : nat) : bool :=
  (if Z.even (Z.of_nat n / beam_layers) then q.1 mod (wa + wb) else q.2 mod (wa + wb)) <? wa.
(** What layer n of a mesh becomes: outside of the voxels nothing changes; in the voxels the mesh has what there is of either
    mesh in its own beams, and nothing else. *)
Definition interlocked (joined : pt -> bool) (own : pt -> bool) (both : area) (old new : area) : Prop :=
  forall p, new p = (if joined p then own p && (old p || both p) else old p).
