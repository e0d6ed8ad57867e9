(** Model of src/raft.cpp (layer bookkeeping), of the layer count, slicing heights and printing
    heights (src/FffPolygonGenerator.cpp, src/slicer.cpp, src/FffGcodeWriter.cpp).

    Settings are read from several extruder trains; each read is one field of [raft_settings].
    [size_t] settings are [nat]; [coord_t] is [Z]. *)
From Coq Require Import ZArith.
From stdpp Require Import list.
From Verif Require Import Common Math_Model.
Open Scope Z_scope.

Record raft_settings := RaftSettings {
  adhesion_is_raft : bool;        (* mesh group: adhesion_type == RAFT *)
  layer_height : Z;               (* mesh group: layer_height *)
  layer_height_0 : Z;             (* mesh group: layer_height_0 *)
  raft_airgap : Z;                (* surface train *)
  layer_0_z_overlap : Z;          (* surface train *)
  raft_base_thickness : Z;        (* base train *)
  raft_interface_layers : nat;    (* interface train *)
  raft_interface_thickness : Z;   (* interface train *)
  raft_interface_z_offset : Z;    (* interface train *)
  raft_surface_layers : nat;      (* surface train *)
  raft_surface_thickness : Z;     (* surface train *)
  raft_surface_z_offset : Z       (* read from the INTERFACE train, raft.cpp:139, FffGcodeWriter.cpp:923 *)
}.

(** include/raft.h, enum class LayerType *)
Inductive layer_type := RaftBase | RaftInterface | RaftSurface | Airgap | Model.

(** raft.cpp:130-140 *)
Definition getTotalThickness (s : raft_settings) : Z :=
  raft_base_thickness s + Z.of_nat (raft_interface_layers s) * raft_interface_thickness s
  + raft_interface_z_offset s + Z.of_nat (raft_surface_layers s) * raft_surface_thickness s
  + raft_surface_z_offset s.

(** raft.cpp:142-152 *)
Definition getZdiffBetweenRaftAndLayer0 (s : raft_settings) : Z :=
  if adhesion_is_raft s then Z.max 0 (raft_airgap s) else 0.

(** raft.cpp:154-158; both arguments are converted to uint64_t, so a negative layer height would
    wrap; callers ensure layer_height > 0 (FffPolygonGenerator.cpp:122-127). *)
Definition getFillerLayerCount (s : raft_settings) : res Z :=
  round_divide (getZdiffBetweenRaftAndLayer0 s) (layer_height s).

(** raft.cpp:160-170 *)
Definition getFillerLayerHeight (s : raft_settings) : res Z :=
  if adhesion_is_raft s then
    let! n := getFillerLayerCount s in round_divide (getZdiffBetweenRaftAndLayer0 s) n
  else Ok (layer_height s).

(** raft.cpp:177-185 *)
Definition getBaseLayers (s : raft_settings) : Z := if adhesion_is_raft s then 1 else 0.
(** raft.cpp:187-195 and 222-232 *)
Definition getInterfaceLayers (s : raft_settings) : Z :=
  if adhesion_is_raft s then Z.of_nat (raft_interface_layers s) else 0.
Definition getSurfaceLayers (s : raft_settings) : Z :=
  if adhesion_is_raft s then Z.of_nat (raft_surface_layers s) else 0.

(** raft.cpp:172-175 *)
Definition getTotalExtraLayers (s : raft_settings) : res Z :=
  let! f := getFillerLayerCount s in
  Ok (getBaseLayers s + getInterfaceLayers s + getSurfaceLayers s + f).

(** raft.cpp:197-220 *)
Definition getLayerType (s : raft_settings) (layer_index : Z) : res layer_type :=
  let! airgap := getFillerLayerCount s in
  let interface_layers := getInterfaceLayers s in
  let surface_layers := getSurfaceLayers s in
  Ok (if layer_index <? - (airgap + surface_layers + interface_layers) then RaftBase
      else if layer_index <? - (airgap + surface_layers) then RaftInterface
      else if layer_index <? - airgap then RaftSurface
      else if layer_index <? 0 then Airgap
      else Model).

(** settings/EnumSettings.h *)
Inductive slicing_tolerance := MIDDLE | EXCLUSIVE | INCLUSIVE.

(** slicer.cpp:980-1022 (Slicer::buildLayersWithHeight).  Writing to element 0 of an empty vector
    and reading the adaptive table out of range are undefined behaviour.  [adaptive] is
    [Some table] of z positions iff use_variable_layer_heights.  The int32 storage of z_ is not
    modelled. *)
Definition fixed_z0 (tol : slicing_tolerance) (initial thickness : Z) : Z :=
  match tol with
  | MIDDLE => initial ÷ 2
  | INCLUSIVE => 0
  | EXCLUSIVE => Z.max 0 (initial - thickness)
  end.
Definition fixed_offset (tol : slicing_tolerance) (initial thickness : Z) : Z :=
  match tol with MIDDLE => initial + thickness ÷ 2 | _ => initial end.

Definition buildLayersWithHeight (count : nat) (tol : slicing_tolerance) (initial thickness : Z)
    (adaptive : option (list Z)) : res (list Z) :=
  match count with
  | O => UB
  | S m =>
    match adaptive with
    | Some table =>
        if (count <=? length table)%nat then Ok (take count table) else UB
    | None =>
        Ok (fixed_z0 tol initial thickness ::
            map (fun layer_nr => fixed_offset tol initial thickness
                                 + thickness * (Z.of_nat layer_nr - 1)) (seq 1 m))
    end
  end.

(** FffPolygonGenerator.cpp:146-195: number of layers needed by one mesh. *)
Record sliced_mesh := SlicedMesh { mesh_is_printed : bool; mesh_height : Z; mesh_tolerance : slicing_tolerance }.

Definition mesh_layer_count (model_max_z initial thickness : Z) (m : sliced_mesh) : res Z :=
  let h := mesh_height m in
  match mesh_tolerance m with
  | MIDDLE =>
      if model_max_z <? initial then Ok (if initial ÷ 2 <? h then 1 else 0)
      else let! r := round_divide_signed (h - initial) thickness in Ok (r + 1)
  | EXCLUSIVE =>
      let! n := (if initial <=? h
                 then let! r := floor_divide_signed (h - 1 - initial) thickness in Ok (r + 1)
                 else Ok 0) in
      Ok (if 0 <? n then n + 1 else n)
  | INCLUSIVE =>
      if h <? initial then Ok (if 0 <? h then 1 else 0)
      else let! r := ceil_divide_signed (h - initial) thickness in Ok (r + 1)
  end.

(** FffPolygonGenerator.cpp:130 and 146-195: maximum over the printed meshes, starting at 0. *)
Fixpoint slice_layer_count (acc model_max_z initial thickness : Z) (ms : list sliced_mesh) : res Z :=
  match ms with
  | [] => Ok acc
  | m :: ms' =>
      if mesh_is_printed m then
        let! c := mesh_layer_count model_max_z initial thickness m in
        slice_layer_count (Z.max acc c) model_max_z initial thickness ms'
      else slice_layer_count acc model_max_z initial thickness ms'
  end.

(** FffPolygonGenerator.cpp:311-344: printZ of model layer [layer_nr] (fixed layer heights). *)
Definition model_print_z (s : raft_settings) (layer_nr : nat) : Z :=
  let z := layer_height_0 s + Z.of_nat layer_nr * layer_height s in
  if adhesion_is_raft s then
    let z' := z + (getTotalThickness s + raft_airgap s - layer_0_z_overlap s) in
    if Nat.eqb layer_nr 0 then z' + layer_0_z_overlap s else z'
  else z.

(** FffGcodeWriter.cpp:559-1097: the layer number and the z given to each raft LayerPlan, in order
    of creation.  [raft_loop] is the body shared by the two [for] loops: z += height. *)
Fixpoint raft_loop (n : nat) (layer_nr z height : Z) : list (Z * Z) * Z :=
  match n with
  | O => ([], z)
  | S n' => let '(ls, zf) := raft_loop n' (layer_nr + 1) (z + height) height in
            ((layer_nr, z + height) :: ls, zf)
  end.

Definition process_raft (s : raft_settings) : res (list (Z * Z)) :=
  let! total := getTotalExtraLayers s in
  let initial := - total in
  let z0 := raft_base_thickness s in
  let '(interface, z1) :=
    raft_loop (raft_interface_layers s) (initial + 1) (z0 + raft_interface_z_offset s)
              (raft_interface_thickness s) in
  let '(surface, _) :=
    raft_loop (raft_surface_layers s) (initial + 1 + Z.of_nat (raft_interface_layers s))
              (z1 + raft_surface_z_offset s) (raft_surface_thickness s) in
  Ok ((initial, z0) :: interface ++ surface).

(** FffGcodeWriter.cpp:1138-1147: z of a filler layer (layer_nr < 0). *)
Definition filler_print_z (s : raft_settings) (layer_nr : Z) : res Z :=
  let! n := getFillerLayerCount s in
  let! h := getFillerLayerHeight s in
  Ok (getTotalThickness s + (n + layer_nr + 1) * h).

(** FffGcodeWriter.cpp:140-155: first layer handed to processLayer. *)
Definition process_layer_starting_layer_nr (s : raft_settings) (fillers_used : bool) : res Z :=
  if adhesion_is_raft s && fillers_used
  then let! n := getFillerLayerCount s in Ok (- n) else Ok 0.

(** FffGcodeWriter.cpp:1129-1165: the z at which any layer handed to processLayer is printed. *)
Definition process_layer_z (s : raft_settings) (layer_nr : Z) : res Z :=
  if layer_nr <? 0 then filler_print_z s layer_nr
  else Ok (model_print_z s (Z.to_nat layer_nr)).
