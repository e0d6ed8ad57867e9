(** Vocabulary of C66: what is printed where, and how thick. *)
From Coq Require Import ZArith.
From stdpp Require Import prelude list.
From Verif Require Import Geo_Model Box_Model Carve_Model Combine_Model.

(** Part [j] of layer [k] has infill of density [d] at [p], printed [t + 1] layers thick: down to layer [k - t]. *)
Definition printed (m : cmesh) (k j d t : nat) (p : pt) : Prop :=
  exists layer q l a, m !! k = Some layer /\ layer !! j = Some q /\ c_areas q !! d = Some l /\ l !! t = Some a /\ a p = true.
(** [p] is within the area for infill of part [j] of layer [k]. *)
Definition inside (m : cmesh) (k j : nat) (p : pt) : Prop :=
  exists layer q, m !! k = Some layer /\ layer !! j = Some q /\ c_infill q p = true.
(** [d] is the last density of part [j] of layer [k]. *)
Definition last_density (m : cmesh) (k j d : nat) : Prop :=
  exists layer q, m !! k = Some layer /\ layer !! j = Some q /\ length (c_areas q) = S d.
(** Before combining, all infill is one layer thick. *)
Definition thin_only (m : cmesh) : Prop :=
  forall layer q l, layer ∈ m -> q ∈ layer -> l ∈ c_areas q -> length l = 1%nat.
(** Infill lies within the area for infill, and these areas of the parts of a layer do not overlap. *)
Definition sound_parts (m : cmesh) : Prop :=
  (forall k j d t p, printed m k j d t p -> inside m k j p) /\
  (forall k j1 j2 p, inside m k j1 p -> inside m k j2 p -> j1 = j2).
(** The box of a part holds its infill. *)
Definition boxed (m : cmesh) : Prop :=
  forall layer q p, layer ∈ m -> q ∈ layer -> c_infill q p = true -> aabb_contains (c_box q) p = true.
(** Layers from which infill is combined downwards: every [amount]th layer, with [amount] layers above the bottom layers and not
    among the top layers. *)
Definition combining_layer (amount bottom top size L : nat) : Prop :=
  (L mod amount = 0 /\ bottom + amount <= L /\ L + top < size)%nat.
