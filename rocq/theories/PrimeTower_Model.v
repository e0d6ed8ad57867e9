(** The interleaved prime tower: src/PrimeTower/PrimeTowerInterleaved.cpp, the ring generation of
    src/PrimeTower/PrimeTower.cpp and the ring helpers of src/utils/polygonUtils.cpp.

    A circle around the tower's middle is its radius; a wheel (makeWheel) is its two radii, its
    number of spokes is left out.  The length of a circle is an arbitrary function of its radius
    (the code measures a polygon with 32 vertices).  Volumes are exact rationals. *)
From Coq Require Import ZArith QArith.
From stdpp Require Import list.
From Verif Require Import Common ExtruderOrder_Model.
Open Scope Z_scope.

Inductive line := Circle (radius : Z) | Wheel (inner outer : Z).

(** PrimeTower.h, ExtruderToolPaths *)
Record toolpath := ToolPath {
  tp_extruder : nat;
  tp_lines : list line;
  tp_outer : Z;
  tp_inner : Z
}.

Record tower_settings := TowerSettings {
  tower_radius : Z;               (* prime_tower_size / 2 *)
  tower_layer_height : Z;         (* layer_height *)
  min_shell : Z;                  (* prime_tower_min_shell_thickness *)
  line_width : nat → Z;           (* prime_tower_line_width of the train *)
  required_volume : nat → Q;      (* prime_tower_min_volume * 1000000000 *)
  tower_flow : nat → Q;
  max_bridging : nat → Z;         (* prime_tower_max_bridging_distance *)
  circle_length : Z → Z           (* makeCircle(..).length() *)
}.

(** PrimeTower.cpp:126-132, the loop; [r] is current_outer_radius *)
Fixpoint prime_rings (fuel : nat) (t : tower_settings) (e : nat) (r : Z) (volume : Q) : res (list Z * Z) :=
  match fuel with
  | O => NoFuel
  | S fuel =>
      let semi := line_width t e ÷ 2 in
      if negb (Qle_bool (required_volume t e) volume) && (semi <=? r) then
        let! rest := prime_rings fuel t e (r - line_width t e)
          (volume + inject_Z (circle_length t r * line_width t e * tower_layer_height t) * tower_flow t e)%Q in
        Ok (r :: rest.1, rest.2)
      else Ok ([], r + semi)
  end.

(** PrimeTower.cpp:113-135; the fuel covers every run with a positive line width *)
Definition prime_toolpaths (t : tower_settings) (e : nat) (outer : Z) : res (list Z * Z) :=
  prime_rings (Z.to_nat outer + 2) t e (outer - line_width t e ÷ 2) 0%Q.

(** PrimeTower.cpp:137-175; the quotient that is rounded up is computed exactly *)
Definition support_toolpaths (t : tower_settings) (e : nat) (outer inner : Z) : res (list line) :=
  let lw := line_width t e in
  let bridge := Z.max (max_bridging t e) lw in
  let delta := outer - inner in
  let semi := lw ÷ 2 in
  if (lw =? 0) || (bridge <=? 0) then UB else
  let nb_annuli := - ((- delta) / bridge) in
  let nb_circles := delta ÷ lw in
  Ok (if nb_circles <=? nb_annuli then
        map (λ i, Circle (outer - semi - Z.of_nat i * lw)) (seq 0 (Z.to_nat nb_circles))
      else if 0 <? nb_annuli then
        let step := delta ÷ nb_annuli in
        map (λ i, Wheel (inner + Z.of_nat i * step + semi) (inner + (Z.of_nat i + 1) * step - semi))
            (seq 0 (Z.to_nat nb_annuli))
      else []).

(** PrimeTowerInterleaved.cpp:108-135 *)
Fixpoint polish (last_used : nat) (uses : list (Z * list extruder_use)) : list (Z * list extruder_use) :=
  match uses with
  | [] => []
  | (l, us) :: rest =>
      let us' := match last us with
                 | None => [Use last_used PSupport]
                 | Some u =>
                     if forallb (λ u, bool_decide (ex_prime u = PNone)) us
                     then take (length us - 1) us ++ [Use (ex_nr u) PSupport]
                     else us
                 end in
      (l, us') :: polish (active_after last_used us') rest
  end.

(** PrimeTowerInterleaved.cpp:58-77, the loop over the extruders of a layer: the next outer radius,
    the tool paths and the last extruder that prints support *)
Fixpoint prime_layer_paths (t : tower_settings) (us : list extruder_use) (next : Z) (support : nat)
  : res (Z * list toolpath * nat) :=
  match us with
  | [] => Ok (next, [], support)
  | u :: us =>
      match ex_prime u with
      | PPrime =>
          let! p := prime_toolpaths t (ex_nr u) next in
          let! r := prime_layer_paths t us p.2 support in
          Ok (r.1.1, ToolPath (ex_nr u) (map Circle p.1) next p.2 :: r.1.2, r.2)
      | PSupport => prime_layer_paths t us next (ex_nr u)
      | PNone => prime_layer_paths t us next support
      end
  end.

(** PrimeTowerInterleaved.cpp:49-103, one layer: the shell thickness before it (that is, of the layer
    above) to the shell thickness after it and the layer's tool paths, if any *)
Definition tower_layer (t : tower_settings) (shell : Z) (us : list extruder_use) : res (Z * option (list toolpath)) :=
  let! r := prime_layer_paths t us (tower_radius t) 0%nat in
  let next := r.1.1 in
  let tps := r.1.2 in
  let shell := Z.max shell (tower_radius t - next) in
  if 0 <? shell then
    let shell := Z.max shell (min_shell t) in
    let inner := tower_radius t - shell in
    if inner <? next then
      let tps := match tps with [] => [ToolPath r.2 [] next inner] | _ => tps end in
      match last tps with
      | Some tp =>
          let! lines := support_toolpaths t (tp_extruder tp) next inner in
          Ok (shell, Some (take (length tps - 1) tps
                           ++ [ToolPath (tp_extruder tp) (tp_lines tp ++ lines) next inner]))
      | None => UB
      end
    else Ok (shell, Some tps)
  else Ok (shell, None).

(** PrimeTowerInterleaved.cpp:39-106: the layers from top to bottom ([uses] is in that order); the
    result, a map, is listed from bottom to top *)
Fixpoint tower_layers (t : tower_settings) (shell : Z) (uses : list (Z * list extruder_use))
  : res (list (Z * list toolpath)) :=
  match uses with
  | [] => Ok []
  | (l, us) :: rest =>
      let! r := tower_layer t shell us in
      let! below := tower_layers t r.1 rest in
      Ok (below ++ match r.2 with Some tps => [(l, tps)] | None => [] end)
  end.

Definition tower_toolpaths (t : tower_settings) (start : nat) (uses : list (Z * list extruder_use))
  : res (list (Z * list toolpath)) :=
  tower_layers t 0 (reverse (polish start uses)).

(** polygonUtils.cpp:1573-1586 (generateCirculatOutset) *)
Fixpoint circular_outset (fuel : nat) (r outer lw : Z) : res (list Z) :=
  match fuel with
  | O => NoFuel
  | S fuel =>
      if r + lw ÷ 2 <=? outer then let! rest := circular_outset fuel (r + lw) outer lw in Ok (r :: rest)
      else Ok []
  end.

(** PrimeTower.cpp:79-90, the rings of the base that are added to the first tool path of a layer *)
Definition base_rings (t : tower_settings) (tps : list toolpath) (base_radius : Z) : res (list Z) :=
  match tps with
  | [] => Ok []
  | tp :: _ =>
      let lw := line_width t (tp_extruder tp) in
      circular_outset (Z.to_nat (base_radius - tp_outer tp) + 2) (tp_outer tp + lw ÷ 2) base_radius lw
  end.

(** polygonUtils.cpp:1588-1601 (generateCircularInset) *)
Fixpoint circular_inset (fuel : nat) (r lw : Z) : res (list Z) :=
  match fuel with
  | O => NoFuel
  | S fuel =>
      if lw <=? r - lw ÷ 2 then let! rest := circular_inset fuel (r - lw) lw in Ok (r :: rest)
      else Ok []
  end.

(** PrimeTower.cpp:95-111, the disc that fills the first layer *)
Definition inset_rings (t : tower_settings) (tps : list toolpath) : res (list Z) :=
  match last tps with
  | None => Ok []
  | Some tp =>
      let lw := line_width t (tp_extruder tp) in
      circular_inset (Z.to_nat (tp_inner tp) + 2) (tp_inner tp - lw ÷ 2) lw
  end.
