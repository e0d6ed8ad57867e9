(** Independent vocabulary for slicing a triangle mesh at height z. *)
From Coq Require Import ZArith.
From stdpp Require Import list.
From Verif Require Import Common Geo_Model Layers_Model Slicer_Model.
Open Scope Z_scope.

(** The height a corner counts as: its own z, except that (outside inclusive mode) a corner lying
    exactly on a slicing plane at or below the build plate counts as one micron lower. *)
Definition height (tol : slicing_tolerance) (z : Z) (p : pt3) : Z :=
  match tol with
  | INCLUSIVE => pz p
  | _ => if decide (pz p = z /\ z < 1) then z - 1 else pz p
  end.
Definition is_above (tol : slicing_tolerance) (z : Z) (p : pt3) : Prop := z < height tol z p.

(** Corner number i (mod 3) of a triangle. *)
Definition corner (t : pt3 * pt3 * pt3) (i : nat) : pt3 :=
  let '(a, b, c) := t in match i with 0 | 3 => a | 1 => b | _ => c end%nat.

(** [q] is the point where the edge from [a] to [b] meets height [z]: inside the edge's bounding box
    and, per coordinate, less than 5/4 micron from the exact point. *)
Definition meets_edge_coord (z az bz ac bc q : Z) : Prop :=
  az <> bz /\ Z.min az bz <= z <= Z.max az bz /\ Z.min ac bc <= q <= Z.max ac bc /\
  4 * Z.abs ((q - ac) * (bz - az) - (bc - ac) * (z - az)) < 5 * Z.abs (bz - az).
Definition meets_edge (tol : slicing_tolerance) (z : Z) (a b : pt3) (q : pt) : Prop :=
  meets_edge_coord z (height tol z a) (height tol z b) (px a) (px b) q.1 /\
  meets_edge_coord z (height tol z a) (height tol z b) (py a) (py b) q.2.

(** Directed edge number i (0,1,2) of a face, as a pair of vertex indices. *)
Definition directed_edge (f : mface) (i : nat) : nat * nat :=
  match i with 0 => (vi0 f, vi1 f) | 1 => (vi1 f, vi2 f) | _ => (vi2 f, vi0 f) end%nat.

(** A closed, consistently oriented mesh: corners exist; no directed edge is used twice; every edge
    of every face is linked to a face that has the same edge in the opposite direction. *)
Definition closed_mesh (m : mesh) : Prop :=
  (forall fi f, mfaces m !! fi = Some f ->
     (vi0 f < length (mvertices m))%nat /\ (vi1 f < length (mvertices m))%nat /\ (vi2 f < length (mvertices m))%nat) /\
  (forall fi f i gi g j, mfaces m !! fi = Some f -> mfaces m !! gi = Some g ->
     (i < 3)%nat -> (j < 3)%nat -> directed_edge f i = directed_edge g j -> fi = gi /\ i = j) /\
  (forall fi f i, mfaces m !! fi = Some f -> (i < 3)%nat ->
     exists gi g j, face_connected f i = Some gi /\ mfaces m !! gi = Some g /\ (j < 3)%nat /\
       directed_edge g j = ((directed_edge f i).2, (directed_edge f i).1)).

(** The points of a chain of segments: where the first one starts and where each one ends. *)
Definition chain_points (segs : list segment) (chain : list nat) (points : list pt) : Prop :=
  exists first ss, mapM (fun i => segs !! i) chain = Some (first :: ss) /\
    points = seg_start first :: map seg_end (first :: ss).

(** Each next segment of the chain starts within 10 micron of where the one before it ends. *)
Definition linked (segs : list segment) (i j : nat) : Prop :=
  exists s t, segs !! i = Some s /\ segs !! j = Some t /\
    vSize2 (psub (seg_end s) (seg_start t)) <= 10 * 10.
Fixpoint chain_linked (segs : list segment) (chain : list nat) : Prop :=
  match chain with
  | i :: rest => match rest with j :: _ => linked segs i j | [] => True end /\ chain_linked segs rest
  | [] => True
  end.
