(** Model of FffPolygonGenerator::isEmptyLayer and removeEmptyFirstLayers (src/FffPolygonGenerator.cpp:752-835): layers with
    nothing to print are removed from the bottom. *)
From Coq Require Import ZArith.
From stdpp Require Import prelude list.
From Verif Require Import Common.
Open Scope Z_scope.

(** sliceDataStorage.h SliceLayer: printZ, thickness, the number of open polylines, and for each part the number of polygons of
    its print_outline *)
Record slayer := SLayer { printZ : Z; thickness : Z; open_polylines : nat; print_outlines : list nat }.
(** sliceDataStorage.h SliceMeshStorage: whether magic_mesh_surface_mode is NORMAL, layers, layer_nr_max_filled_layer *)
Record smesh := SMesh { surface_normal : bool; mlayers : list slayer; max_filled : Z }.
(** sliceDataStorage.h SupportStorage: generated, for each support layer whether it has infill parts, bottom or roof,
    layer_nr_max_filled_layer *)
Record ssupport := SSupport { generated : bool; support_layers : list bool; support_max_filled : Z }.
Record sstorage := SStorage { meshes : list smesh; support : ssupport }.

(** FffPolygonGenerator.cpp:767-781, one mesh *)
Definition mesh_empty_at (m : smesh) (i : nat) : bool :=
  match mlayers m !! i with
  | None => true
  | Some l =>
      if negb (surface_normal m) && (0 <? open_polylines l)%nat then false
      else forallb (fun n => (n =? 0)%nat) (print_outlines l)
  end.
(** FffPolygonGenerator.cpp:752-783 *)
Definition isEmptyLayer (s : sstorage) (i : nat) : bool :=
  if generated (support s) && default false (support_layers (support s) !! i) then false
  else forallb (fun m => mesh_empty_at m i) (meshes s).

(** lines 795-801 *)
Definition layer_highest (s : sstorage) (i : nat) : Z :=
  fold_left (fun z m => match mlayers m !! i with None => z | Some l => Z.max z (printZ l) end) (meshes s) 0.
(** lines 789-806: the loop from layer [i] on, with [todo] layers to go; n_empty_first_layers and hightest_empty_layer *)
Fixpoint count_empty (s : sstorage) (todo : nat) (i : nat) (highest : Z) : nat * Z :=
  match todo with
  | O => (i, highest)
  | S todo => if isEmptyLayer s i then count_empty s todo (S i) (Z.max highest (layer_highest s i)) else (i, highest)
  end.

(** std::vector::erase of the first [n] elements; undefined if there are fewer *)
Definition erase_first {A} (n : nat) (l : list A) : res (list A) :=
  if (length l <? n)%nat then UB else Ok (drop n l).

(** lines 818-822: the thickness of the first layer goes to the new first layer *)
Definition transfer_thickness (n : nat) (l : list slayer) : res (list slayer) :=
  if (n <? length l)%nat then
    let! l0 := of_opt (l !! 0%nat) in
    let! ln := of_opt (l !! n) in
    Ok (<[n := SLayer (printZ ln) (thickness l0) (open_polylines ln) (print_outlines ln)]> l)
  else Ok l.
(** lines 815-828: one mesh *)
Definition remove_from_mesh (n : nat) (highest : Z) (m : smesh) : res smesh :=
  let! l := transfer_thickness n (mlayers m) in
  let! l := erase_first n l in
  Ok (SMesh (surface_normal m)
        (map (fun x => SLayer (printZ x - highest) (thickness x) (open_polylines x) (print_outlines x)) l)
        (max_filled m - Z.of_nat n)).
Fixpoint remove_from_meshes (n : nat) (highest : Z) (ms : list smesh) : res (list smesh) :=
  match ms with
  | [] => Ok []
  | m :: ms => let! m := remove_from_mesh n highest m in let! ms := remove_from_meshes n highest ms in Ok (m :: ms)
  end.
(** lines 785-835; the storage and total_layers afterwards *)
Definition removeEmptyFirstLayers (s : sstorage) (total : nat) : res (sstorage * nat) :=
  let r := count_empty s total 0 0 in
  let n := r.1 in
  if (0 <? n)%nat then
    let! ms := remove_from_meshes n r.2 (meshes s) in
    let! sl := erase_first n (support_layers (support s)) in
    Ok (SStorage ms (SSupport (generated (support s)) sl (support_max_filled (support s) - Z.of_nat n)), (total - n)%nat)
  else Ok (s, total).
