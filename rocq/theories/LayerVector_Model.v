(** Model of include/utils/LayerVector.h. *)
From Coq Require Import ZArith.
From stdpp Require Import list.
From Verif Require Import Common Layers_Model.
Open Scope Z_scope.

Section LayerVector.
  Context {T : Type} (dflt : T).

  (** LayerVector.h:226-227: vector_ and delta_ (size_t) *)
  Record LayerVector := LV { lv_vector : list T; lv_delta : Z }.

  (** LayerVector.h:37 default constructor *)
  Definition lv_new : LayerVector := LV [] 0.
  (** LayerVector.h:46-55 init; reserve has no observable effect.  Raft::getTotalExtraLayers is a
      size_t and may divide by a zero layer height (UB). *)
  Definition lv_init (s : raft_settings) (contains_raft_layers : bool) : res LayerVector :=
    if contains_raft_layers then let! d := getTotalExtraLayers s in Ok (LV [] d) else Ok (LV [] 0).
  (** LayerVector.h:97-105: static_cast<size_t>(pos + delta_): negative sums become huge, out of
      bounds is undefined behaviour *)
  Definition lv_index (v : LayerVector) (pos : Z) : res T :=
    let i := pos + lv_delta v in
    if i <? 0 then UB else of_opt (lv_vector v !! Z.to_nat i).
  (** LayerVector.h:107-115 at: [None] is the exception std::out_of_range *)
  Definition lv_at (v : LayerVector) (pos : Z) : option T :=
    let i := pos + lv_delta v in
    if i <? 0 then None else lv_vector v !! Z.to_nat i.
  (** LayerVector.h:127-145 iterator_at: an iterator is its distance from begin() *)
  Definition lv_iterator_at (v : LayerVector) (pos : Z) : nat :=
    let i := pos + lv_delta v in
    if (0 <=? i) && (i <? Z.of_nat (length (lv_vector v))) then Z.to_nat i else length (lv_vector v).
  (** LayerVector.h:152-160 get *)
  Definition lv_get (v : LayerVector) (pos : Z) : T :=
    let i := pos + lv_delta v in
    if (0 <=? i) && (i <? Z.of_nat (length (lv_vector v)))
    then List.nth (Z.to_nat i) (lv_vector v) dflt else dflt.
  (** LayerVector.h:162-170 getLayer of a forward iterator *)
  Definition lv_getLayer (v : LayerVector) (it : nat) : Z := Z.of_nat it - lv_delta v.
  (** LayerVector.h:172-180 getLayer of a reverse iterator, given as its distance from rbegin() *)
  Definition lv_getLayer_rev (v : LayerVector) (rit : nat) : Z :=
    (Z.of_nat (length (lv_vector v)) - Z.of_nat rit) - 1 - lv_delta v.
  (** LayerVector.h:187-195 push_back *)
  Definition lv_push_back (v : LayerVector) (x : T) : LayerVector := LV (lv_vector v ++ [x]) (lv_delta v).
  (** LayerVector.h:182-185 pop_back; undefined on an empty vector *)
  Definition lv_pop_back (v : LayerVector) : res LayerVector :=
    match lv_vector v with [] => UB | _ => Ok (LV (removelast (lv_vector v)) (lv_delta v)) end.
  (** LayerVector.h:117-125 front *)
  Definition lv_front (v : LayerVector) : res T := of_opt (lv_vector v !! 0%nat).
End LayerVector.
Arguments LayerVector T : clear implicits.
