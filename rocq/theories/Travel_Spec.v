(** Vocabulary of C78: when a travel move retracts. *)
From Coq Require Import ZArith.
From stdpp Require Import prelude list.
From Verif Require Import Geo_Model Combing_Model Combing_Spec Travel_Model.
Open Scope Z_scope.

(** The move from [l] to [p] is at most [d] long. *)
Definition within (d : Z) (l p : pt) : Prop := vSize2 (psub l p) <= d * d.
(** The points of a way that are kept: the first one, and each that is farther than [res] from the one kept before. *)
Inductive thinned (res : Z) : option pt -> list pt -> list pt -> Prop :=
| thin_end o : thinned res o [] []
| thin_keep o q way kept : (forall b, o = Some b -> res * res < vSize2 (psub b q)) -> thinned res (Some q) way kept -> thinned res o (q :: way) (q :: kept)
| thin_skip b q way kept : vSize2 (psub b q) <= res * res -> thinned res (Some b) way kept -> thinned res (Some b) (q :: way) kept.
(** Reasons to retract on a combed move: several ways, the move is to be retracted, through air, or across a boundary. *)
Definition leaves_part (c : comb_paths) : Prop :=
  (1 < length (ways c))%nat \/ do_retracted_combing_move c = true \/ through_air c = true \/ exists way, way ∈ ways c /\ way.2 = true.
(** What the combing finds, unless there is no combing or the move is to hop because of a change of extruder. *)
Definition found (comb : option (pt -> pt -> option comb_paths)) (hops_after_switch : bool) (l p : pt) : option comb_paths :=
  match comb with Some calc => if hops_after_switch then None else calc l p | None => None end.
