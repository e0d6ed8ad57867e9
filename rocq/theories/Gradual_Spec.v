(** Vocabulary of C65: how far the infill goes on above a place, and how densely a place is filled. *)
From Coq Require Import ZArith QArith Qround.
From stdpp Require Import prelude list.
From Verif Require Import Geo_Model Box_Model Carve_Model Gradual_Model.
Open Scope Z_scope.

(** There is infill at [p] on layer [k]. *)
Definition infill_at (layers : imesh) (k : Z) (p : pt) : Prop :=
  exists parts q, 0 <= k /\ layers !! Z.to_nat k = Some parts /\ q ∈ parts /\ own_infill q p = true.
(** What is inside of the infill walls is infill, and infill is inside of the box of its part. *)
Definition sound_infill (layers : imesh) : Prop := forall parts q p, parts ∈ layers -> q ∈ parts ->
  (within_walls q p = true -> own_infill q p = true) /\ (own_infill q p = true -> aabb_contains (infill_box q) p = true).

(** Step [i] of [c] layers looks at the layer [k] above: at every [skip]-th layer of the step, rounded down. *)
Definition looked_at (skip : Q) (c : Z) (i : nat) (k : Z) : Prop :=
  exists m : nat, let x := (inject_Z (Qfloor skip) + inject_Z (Z.of_nat m) * skip)%Q in
    (x <= inject_Z c)%Q /\ k = Z.of_nat i * c + Qfloor x.
(** The infill goes on for [j] steps above place [p] of layer [n]. *)
Definition goes_on (layers : imesh) (heuristic : bool) (c n : Z) (j : nat) (p : pt) : Prop :=
  forall i k, (i < j)%nat -> looked_at (layer_skip_count heuristic c) c i k -> infill_at layers (n + k) p.
(** [j] is the number of steps the infill goes on, but at most [most]. *)
Definition steps_above (layers : imesh) (heuristic : bool) (c n : Z) (most : nat) (p : pt) (j : nat) : Prop :=
  (j <= most)%nat /\ goes_on layers heuristic c n j p /\ (j = most \/ ~ goes_on layers heuristic c n (S j) p).

(** The density of the lines at [p]: each set of lines at distance [d] adds [1/d]. *)
Definition density (for_the_skin : bool) (jobs : list job) (p : pt) : Q :=
  foldr (fun j sum => if Bool.eqb (for_skin j) for_the_skin && job_area j p then (1 / inject_Z (line_distance j) + sum)%Q else sum) 0%Q jobs.
(** The layers with infill, according to the numbers of top and of initial bottom layers. *)
Definition infill_layer (layers : imesh) (s : gradual_settings) (n : Z) : Prop :=
  initial_bottom s <= n <= Z.of_nat (length layers) - 1 - top s.
