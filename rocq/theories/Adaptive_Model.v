(** Model of src/settings/AdaptiveLayerHeights.cpp (adaptive layer heights). *)
From Coq Require Import ZArith QArith.
From stdpp Require Import list.
From Verif Require Import Common Layers_Model.
Open Scope Z_scope.

(** AdaptiveLayerHeights.cpp:47-60 calculateAllowedLayerHeights: from thickest to thinnest. *)
Fixpoint allowed_loop (fuel : nat) (h low step : Z) : res (list Z) :=
  match fuel with
  | O => NoFuel
  | S fuel' =>
      if low <=? h then
        if h <=? 0 then Ok []
        else let! rest := allowed_loop fuel' (h - step) low step in Ok (h :: rest)
      else Ok []
  end.
Definition calculateAllowedLayerHeights (fuel : nat) (base variation step : Z) : res (list Z) :=
  allowed_loop fuel (base + variation) (base - variation) step.

(** A mesh face as seen by the algorithm (AdaptiveLayerHeights.cpp:186-236): its lowest and highest z
    (microns) and its angle.  The angle is computed there from the normal; here it is given. *)
Record aface := AFace { af_min : Z; af_max : Z; af_slope : Q }.

(** std::min_element *)
Definition min_height (h : Z) (hs : list Z) : Z := fold_left Z.min hs h.

Definition Qmin_bool (a b : Q) : Q := if Qle_bool a b then a else b.

Section adaptive.
  (** std::tan, on doubles; exact rationals stand for doubles *)
  Variable tan : Q -> Q.
  Variable faces : list aface.
  Variable middle : bool.   (* slicing_tolerance == MIDDLE *)
  Variable step threshold : Z.
  Variable allowed : list Z.
  Variable first_allowed minimum : Z.  (* allowed_layer_heights_[0], *std::min_element(...) *)

  (** AdaptiveLayerHeights.cpp:90-92 *)
  Definition upper_bound (z h : Z) : Z := z + (if middle then h ÷ 2 else h).

  (** AdaptiveLayerHeights.cpp:145-147, without the two last alternatives *)
  Definition slope_allows (h : Z) (slope : Q) : bool :=
    Qeq_bool (tan slope) 0 || Qle_bool (inject_Z h / tan slope) (inject_Z threshold).

  (** AdaptiveLayerHeights.cpp:85-157, the loop over the candidate heights for one layer; [None] is
      "no layer added" (has_added_layer false). *)
  Fixpoint choose_height (z prev : Z) (toi : list aface) (hs : list Z) : option Z :=
    match hs with
    | [] => None
    | h :: hs' =>
        let upper := upper_bound z h in
        let toi' :=
          if h =? first_allowed
          then filter (fun f => af_min f <= upper /\ z <= af_max f) faces
          else filter (fun f => af_min f <= upper) toi in
        match toi' with
        | [] => None
        | f :: fs =>
            let slope := fold_left Qmin_bool (map af_slope fs) (af_slope f) in
            let exceeded := (h <? prev) && (step <? prev - h) in
            if negb exceeded && (step <? h - prev) && (minimum <? h) then choose_height z prev toi' hs'
            else if slope_allows h slope || (h =? minimum) || exceeded then Some h
            else choose_height z prev toi' hs'
        end
    end.

  (** AdaptiveLayerHeights.cpp:80-170: the outer loop.  [n] is layers_.size(); a layer is
      (layer_height_, z_position_).  [last_allowed] is allowed_layer_heights_.back(). *)
  Fixpoint layers_loop (fuel : nat) (model_max_z last_allowed : Z) (n : nat) (z prev : Z)
      : res (list (Z * Z)) :=
    if (z <=? model_max_z) || (n <? 2)%nat then
      match fuel with
      | O => NoFuel
      | S fuel' =>
          let h := match choose_height z prev [] allowed with Some h => h | None => last_allowed end in
          let! rest := layers_loop fuel' model_max_z last_allowed (S n) (z + h) h in
          Ok ((h, z + h) :: rest)
      end
    else Ok [].
End adaptive.

(** AdaptiveLayerHeights.cpp:62-171 calculateLayers.  Dereferencing min_element, [0] or back() of
    an empty list of heights is undefined behaviour. *)
Definition calculateLayers (tan : Q -> Q) (fuel : nat) (faces : list aface) (tol : slicing_tolerance)
    (step threshold layer_height_0 model_max_z : Z) (allowed : list Z) : res (list (Z * Z)) :=
  match allowed with
  | [] => UB
  | a0 :: rest =>
      let minimum := min_height a0 rest in
      let middle := match tol with MIDDLE => true | _ => false end in
      let! ls := layers_loop tan faces middle step threshold allowed a0 minimum fuel model_max_z
                   (List.last allowed a0) 1 layer_height_0 layer_height_0 in
      Ok ((layer_height_0, layer_height_0) :: ls)
  end.

(** The constructor: allowed heights, then layers. *)
Definition adaptive_layers (tan : Q -> Q) (fuel : nat) (faces : list aface) (tol : slicing_tolerance)
    (base variation step threshold layer_height_0 model_max_z : Z) : res (list (Z * Z)) :=
  let! allowed := calculateAllowedLayerHeights fuel base variation step in
  calculateLayers tan fuel faces tol step threshold layer_height_0 model_max_z allowed.
