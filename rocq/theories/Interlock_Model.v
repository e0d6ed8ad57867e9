(** Model of src/InterlockingGenerator.cpp: interlocking beams where two meshes meet.

    An area (Shape) is the set of its points, as in Carve_Model; of a rectangle the lower sides belong to it and the upper ones
    do not.  Rotating an area moves its points, without rounding.  Sets of voxels are lists.  The voxels near the surfaces
    (addBoundaryCells, lines 201-221), the closing of gaps by two offsets (line 238) and handleThinAreas (lines 92-150) are
    arguments of the model. *)
From Coq Require Import ZArith.
From stdpp Require Import prelude list.
From Verif Require Import Common Geo_Model Carve_Model Voxel_Model.
Open Scope Z_scope.

Section interlock.
  (** InterlockingGenerator.h:165-175: beam_width_a_, beam_width_b_, cell_size_, beam_layer_count_ *)
  Variables (beam_width_a beam_width_b : Z) (cell_size : pt3) (beam_layer_count : Z).
  (** rotation_ and its inverse, as maps of points *)
  Variables (rot unrot : pt -> pt).
  (** offset(ignored_gap_).offset(-ignored_gap_) (line 238) *)
  Variable close : area -> area.
  (** handleThinAreas: changes the layers of the two meshes *)
  Variable handle_thin : list pt3 -> list area * list area -> list area * list area.

  (** Shape::applyMatrix of rotation_ and of rotation_.inverse() *)
  Definition rotate (a : area) : area := fun q => a (unrot q).
  Definition unrotate (a : area) : area := fun p => a (rot p).

  (** InterlockingGenerator.cpp:249-250 *)
  Definition middle : Z := get cell_size AX * beam_width_a ÷ (beam_width_a + beam_width_b).
  (** lines 251-264 ([second] is mesh_idx = 1): the rectangle in a cell *)
  Definition beam (second : bool) : area := fun p =>
    let off := if second then middle else 0 in
    let width := if second then get cell_size AX - middle else middle in
    (off <=? p.1) && (p.1 <? off + width) && (0 <=? p.2) && (p.2 <? get cell_size AY).
  (** lines 265-276: cell_area_per_mesh_per_layer; in the second layer X and Y are swapped *)
  Definition cell_area (l : Z) (second : bool) : area := fun p =>
    if l =? 0 then beam second p else beam second (p.2, p.1).
  (** Shape::translate *)
  Definition translate (d : pt) (a : area) : area := fun p => a (p.1 - d.1, p.2 - d.2).

  (** lines 303-308: the layers of a cell.  A negative index becomes huge as a size_t (line 307); the comparisons with
      LayerIndex (LayerIndex.h:75-79) are signed. *)
  Fixpoint cell_layers (fuel : nat) (second : bool) (corner : pt) (layer_nr stop max_layer_count : Z)
      (structure : list area) : res (list area) :=
    if (layer_nr <? stop) && (layer_nr <? max_layer_count) then
      match fuel with
      | O => NoFuel
      | S fuel =>
          let i := layer_nr ÷ beam_layer_count in
          if i <? 0 then UB
          else
            let areas_here := translate corner (cell_area (Z.rem i 2) second) in
            let! s := of_opt (structure !! Z.to_nat i) in
            cell_layers fuel second corner (layer_nr + beam_layer_count) stop max_layer_count
              (<[Z.to_nat i := a_union s areas_here]> structure)
      end
    else Ok structure.

  (** lines 298-310: the loop over the cells, for one of the meshes (the two do not influence each other) *)
  Fixpoint structure_cells (second : bool) (max_layer_count : Z) (cells : list pt3) (structure : list area)
      : res (list area) :=
    match cells with
    | [] => Ok structure
    | g :: cells =>
        let x := vLowerCoord cell_size (get g AX) AX in
        let y := vLowerCoord cell_size (get g AY) AY in
        let z := vLowerCoord cell_size (get g AZ) AZ in
        let! structure := cell_layers (S (Z.to_nat (get cell_size AZ))) second (x, y) z (z + get cell_size AZ)
                            max_layer_count structure in
        structure_cells second max_layer_count cells structure
    end.

  (** lines 286-320: structure_per_layer of one mesh, rotated back *)
  Definition structure_of (second : bool) (max_layer_count : Z) (cells : list pt3) : res (list area) :=
    let n := (max_layer_count + beam_layer_count - 1) ÷ beam_layer_count in
    let! s := structure_cells second max_layer_count cells (replicate (Z.to_nat n) a_empty) in
    Ok (map unrotate s).

  (** lines 322-344: the layers of one mesh from number [n] on *)
  Fixpoint apply_layers (n : nat) (here other regions : list area) (mesh : list area) : res (list area) :=
    match mesh with
    | [] => Ok []
    | polygons :: mesh =>
        let i := Z.to_nat (Z.of_nat n ÷ beam_layer_count) in
        let! region := of_opt (regions !! n) in
        let! h := of_opt (here !! i) in
        let! o := of_opt (other !! i) in
        let! rest := apply_layers (S n) here other regions mesh in
        Ok (a_union (a_sub polygons o) (a_inter h (unrotate region)) :: rest)
    end.

  (** lines 280-345 *)
  Definition applyMicrostructure (cells : list pt3) (regions mesh_a mesh_b : list area) : res (list area * list area) :=
    let max_layer_count := Z.max (Z.of_nat (length mesh_a)) (Z.of_nat (length mesh_b)) in
    let! sa := structure_of false max_layer_count cells in
    let! sb := structure_of true max_layer_count cells in
    let! a := apply_layers 0 sa sb regions mesh_a in
    let! b := apply_layers 0 sb sa regions mesh_b in
    Ok (a, b).

  (** lines 228-237, one layer: the loop over the meshes is left when one has no such layer *)
  Definition layer_region (mesh_a mesh_b : list area) (n : nat) : area :=
    match mesh_a !! n with
    | None => a_empty
    | Some a => match mesh_b !! n with None => a | Some b => a_union a b end
    end.
  (** lines 223-242 *)
  Definition computeUnionedVolumeRegions (mesh_a mesh_b : list area) : list area :=
    map (fun n => rotate (close (layer_region mesh_a mesh_b n))) (seq 0 (S (Nat.max (length mesh_a) (length mesh_b)))).

  (** lines 152-175: [shell_a] and [shell_b] are the results of getShellVoxels, [air_cells] that of line 165.  After the merge
      (line 158) has_all_meshes is left with the voxels of the second mesh that the first one has as well. *)
  Definition generateInterlocking (air_filtering : bool) (shell_a shell_b air_cells : list pt3) (mesh_a mesh_b : list area)
      : res (list area * list area) :=
    let has_all := List.filter (fun g => bool_decide (g ∈ shell_a)) shell_b in
    let regions := computeUnionedVolumeRegions mesh_a mesh_b in
    if air_filtering then
      let has_all := List.filter (fun g => negb (bool_decide (g ∈ air_cells))) has_all in
      let m := handle_thin has_all (mesh_a, mesh_b) in
      applyMicrostructure has_all regions m.1 m.2
    else applyMicrostructure has_all regions mesh_a mesh_b.
End interlock.
