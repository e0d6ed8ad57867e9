(** Vocabulary of C63 and C64: where a model is solid, and which places are near its surface. *)
From Coq Require Import ZArith QArith.
From stdpp Require Import prelude list.
From Verif Require Import Geo_Model Box_Model Carve_Model Skin_Model.
Open Scope Z_scope.

(** Place [p] is inside of the model on layer [k]; there is nothing below the first or above the last layer. *)
Definition solid (layers : mesh) (k : Z) (p : pt) : Prop :=
  exists parts part, 0 <= k /\ layers !! Z.to_nat k = Some parts /\ part ∈ parts /\ outline part p = true.

(** What lies inside of the walls of a part lies inside of its outline, and that inside of its box. *)
Definition sound_part (q : part) : Prop :=
  forall p, (inner_area q p = true -> outline q p = true) /\ (outline q p = true -> aabb_contains (boundaryBox q) p = true).
Definition sound_mesh (layers : mesh) : Prop := forall parts q, parts ∈ layers -> q ∈ parts -> sound_part q.

(** The layers looked at to decide whether layer [n] is near the surface: all within the number of top or bottom layers, or
    with the heuristic only the last one of them.  The build plate counts as solid. *)
Definition looked_above (heuristic : bool) (n top k : Z) : Prop :=
  0 < top /\ if heuristic then k = n + top else n < k <= n + top.
Definition looked_below (heuristic : bool) (n bottom k : Z) : Prop :=
  0 < bottom /\ if heuristic then k = Z.max 0 (n - bottom) else Z.max 0 (n - bottom) <= k < n.

(** Place [p] of layer [n] is enclosed in the model: solid on all the layers looked at, and above the initial bottom layers. *)
Definition enclosed (layers : mesh) (s : skin_settings) (n : Z) (p : pt) : Prop :=
  initial_bottom_layers s <= n /\
  (forall k, looked_above (no_small_gaps_heuristic s) n (top_layers s) k -> solid layers k p) /\
  (forall k, looked_below (no_small_gaps_heuristic s) n (bottom_layers s) k -> solid layers k p).

(** The settings ask to change neither the skin above nor the one below. *)
Definition no_expansion (s : skin_settings) : Prop :=
  top_skin_expand_distance s = 0 /\ bottom_skin_expand_distance s = 0 /\
  top_skin_preshrink s <= 0 /\ bottom_skin_preshrink s <= 0.
(** The settings never ask to make them smaller. *)
Definition no_shrinking (s : skin_settings) : Prop :=
  0 <= top_skin_expand_distance s /\ 0 <= bottom_skin_expand_distance s /\
  top_skin_preshrink s = 0 /\ bottom_skin_preshrink s = 0.
Definition plausible (s : skin_settings) : Prop :=
  0 <= top_layers s /\ 0 <= bottom_layers s /\ 0 <= initial_bottom_layers s.

(** ** Operations of the geometry library *)
(** An operation on areas that depends on the points of the area only. *)
Definition on_points (f : area -> area) : Prop := forall a b, (forall p, a p = b p) -> forall p, f a p = f b p.
(** An operation that gives a part of the area, or one that contains it. *)
Definition keeps_within (f : area -> area) : Prop := forall a p, f a p = true -> a p = true.
Definition extends (f : area -> area) : Prop := forall a p, a p = true -> f a p = true.

(** ** Roofing and flooring *)
(** The settings ask for roofing, or for flooring. *)
Definition wants_roofing (r : roof_settings) : Prop := 0 < roofing_layer_count r /\ roofing_differs r = true.
Definition wants_flooring (r : roof_settings) : Prop := 0 < flooring_layer_count r /\ flooring_differs r = true.
(** The model goes on above, and below, through the layers looked at. *)
Definition covered_above (layers : mesh) (heuristic : bool) (n count : Z) (p : pt) : Prop :=
  forall k, looked_above heuristic n count k -> solid layers k p.
Definition covered_below (layers : mesh) (heuristic : bool) (n count : Z) (p : pt) : Prop :=
  forall k, looked_below heuristic n count k -> solid layers k p.
(** There is nothing on the layer directly below. *)
Definition overhangs (layers : mesh) (n : Z) (p : pt) : Prop := 0 < n /\ ~ solid layers (n - 1) p.
(** Seen from above: there is air within the roofing layers above, and the place does not overhang. *)
Definition seen_from_above (layers : mesh) (heuristic : bool) (r : roof_settings) (n : Z) (p : pt) : Prop :=
  ~ covered_above layers heuristic n (roofing_layer_count r) p /\ ~ overhangs layers n p.
(** Seen from below: there is air within the flooring layers below. *)
Definition seen_from_below (layers : mesh) (heuristic : bool) (r : roof_settings) (n : Z) (p : pt) : Prop :=
  flooring_layer_count r <= n /\ ~ covered_below layers heuristic n (flooring_layer_count r) p.
