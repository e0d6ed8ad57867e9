(** Specification for C88: infill that only supports. *)
From stdpp Require Import prelude list.
From Verif Require Import Common Geo_Model Carve_Model InfillSupport_Model.

(** Point [p] of part [q] has infill. *)
Definition has_infill (q : fpart) (p : pt) : Prop := own q p = true.
(** Point [p] is in the infill area of a part of the layer. *)
Definition inside_layer (l : list fpart) (p : pt) : Prop := exists q, q ∈ l /\ infill_area q p = true.
(** Some part of the layer has infill there. *)
Definition layer_infill (l : list fpart) (p : pt) : Prop := exists q, q ∈ l /\ has_infill q p.

(** Part [q'] is what is to become of [q] if the layer above is [above]: infill stays exactly where there is infill above, or where
    it supports an overhang: a place that is not inside above, and that belongs to (the enlarged [grow]) places too far from the
    border ([shrink]) which are not inside above.  If there is no infill area the part stays as it is. *)
Definition supports (is_empty : area -> bool) (shrink grow : area -> area) (above : list fpart) (q q' : fpart) : Prop :=
  infill_area q' = infill_area q /\
  (is_empty (infill_area q) = true -> q' = q) /\
  (is_empty (infill_area q) = false ->
   exists overhang : area,
     (forall p, overhang p = true <-> shrink (infill_area q) p = true /\ ~ inside_layer above p) /\
     forall p, has_infill q' p <->
       has_infill q p /\ (layer_infill above p \/ (grow overhang p = true /\ ~ inside_layer above p))).
