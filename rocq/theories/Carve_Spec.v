(** Vocabulary of the properties of carving. *)
From Coq Require Import ZArith.
From stdpp Require Import list.
From Verif Require Import Common Geo_Model Slicer_Model Box_Model Carve_Model.
Open Scope Z_scope.

Definition at_layer (v : volume) (l : nat) : option area := layers v !! l.
(** Point [p] of layer [l] belongs to volume [k]. *)
Definition has (vols : list volume) (k l : nat) (p : pt) : bool :=
  match vols !! k with
  | Some v => match at_layer v l with Some a => a p | None => false end
  | None => false
  end.

(** All volumes have [L] layers. *)
Definition even_layers (L : nat) (vols : list volume) : Prop := Forall (fun v => length (layers v) = L) vols.

(** The settings of the volumes, and their numbers of layers, are the same. *)
Definition same_settings (vols vols' : list volume) : Prop :=
  length vols' = length vols
  /\ forall k v v', vols !! k = Some v -> vols' !! k = Some v' ->
       v' = with_layers v (layers v') /\ length (layers v') = length (layers v).

(** Everything lies in the box of its mesh; [z] are the heights of the layers. *)
Definition in_boxes (z : nat -> Z) (vols : list volume) : Prop :=
  forall k v l p, vols !! k = Some v -> has vols k l p = true ->
    px (b3min (box v)) <= p.1 <= px (b3max (box v)) /\ py (b3min (box v)) <= p.2 <= py (b3max (box v))
    /\ pz (b3min (box v)) <= z l <= pz (b3max (box v)).

(** Volumes which take part in carving: printed models, which are not infill, support or mere surfaces. *)
Definition carvable (vols : list volume) (k : nat) : Prop :=
  exists v, vols !! k = Some v /\ cutting v = false /\ other v = false /\ infill v = false /\ support v = false /\ surface v = false.

(** Where volumes [k] and [m] overlap on layer [l], [k] is kept: its order is lower, or it is the earlier of two with the same
    order; or it is the later of the two, on every second layer, if the order is to alternate. *)
Definition wins (alternate : bool) (vols : list volume) (l k m : nat) : Prop :=
  exists v w, vols !! k = Some v /\ vols !! m = Some w
    /\ (order v < order w \/ (order v = order w /\ if alternate && Nat.even l then (m < k)%nat else (k < m)%nat)).

(** Meshes from which cutting meshes take: printed, and not support. *)
Definition victim (vols : list volume) (k : nat) : bool :=
  match vols !! k with Some v => negb (cutting v) && negb (other v) && negb (support v) | None => false end.
Definition cutter (vols : list volume) (k : nat) : bool :=
  match vols !! k with Some v => cutting v | None => false end.
(** Cutting meshes with an extruder of their own become such a mesh as soon as they have cut. *)
Definition joins (vols : list volume) (k : nat) : bool :=
  match vols !! k with
  | Some v => cutting v && has_extruder v && negb (cutting_above v) && negb (other v) && negb (support v)
  | None => false
  end.
(** The settings after the cutting meshes before [j]: those with an extruder are no longer cutting meshes. *)
Definition cut_settings (j : nat) (vols vols' : list volume) : Prop :=
  length vols' = length vols
  /\ forall k v v', vols !! k = Some v -> vols' !! k = Some v' ->
       length (layers v') = length (layers v)
       /\ v' = with_layers (if decide (k < j)%nat then (if cutting v && has_extruder v then no_cutting v else v) else v) (layers v').
(** What the cutting meshes before [j] have made of point [p] of layer [l]. *)
Definition cut_spec (vols : list volume) (j k l : nat) (p : pt) : Prop :=
  has vols k l p = true
  /\ (victim vols k = true -> forall c, (c < j)%nat -> cutter vols c = true -> has vols c l p = false)
  /\ (cutter vols k = true -> (k < j)%nat ->
        (exists m, victim vols m = true /\ has vols m l p = true)
        /\ (forall c, (c < k)%nat -> cutter vols c = true -> joins vols c = false -> has vols c l p = false)
        /\ (joins vols k = true -> forall c, (k < c < j)%nat -> cutter vols c = true -> has vols c l p = false)).

Definition area_at (vols : list volume) (k l : nat) : area :=
  match vols !! k with Some v => default a_empty (at_layer v l) | None => a_empty end.
(** Volumes which take part in making overlaps: printed models, which are not infill or support. *)
Definition overlapping (vols : list volume) (k : nat) : bool :=
  match vols !! k with Some v => negb (cutting v) && negb (other v) && negb (infill v) && negb (support v) | None => false end.
Definition overlap_of (vols : list volume) (k : nat) : Z := match vols !! k with Some v => overlap v | None => 0 end.
(** The box of volume [m] touches that of volume [k], widened by the overlap of [k]. *)
Definition near (vols : list volume) (k m : nat) : Prop :=
  exists v w, vols !! k = Some v /\ vols !! m = Some w /\ aabb3_hit (box w) (aabb3_expandXY (box v) (overlap v)) = true.
(** What volume [k] becomes: it grows by half its overlap where that is also within 20 micrometres of another one. *)
Definition grown (offset : Z -> area -> area) (vols vols' : list volume) (k l : nat) (p : pt) : Prop :=
  area_at vols k l p = true
  \/ (overlapping vols k = true /\ overlap_of vols k ≠ 0 /\ offset (overlap_of vols k ÷ 2) (area_at vols k l) p = true
      /\ exists m, m ≠ k /\ overlapping vols m = true /\ near vols k m
           /\ offset 20 (area_at (if decide (m < k)%nat then vols' else vols) m l) p = true).
