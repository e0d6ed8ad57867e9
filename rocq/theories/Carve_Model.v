(** Model of src/multiVolumes.cpp: carving overlapping volumes, cutting meshes, and the overlap of volumes.
    An area (Shape) is the set of the points in it, given by its characteristic function; Clipper's boolean operations are
    the operations on sets. Open polylines are not modelled. *)
From Coq Require Import ZArith.
From stdpp Require Import list.
From Verif Require Import Common Geo_Model Slicer_Model Box_Model.
Open Scope Z_scope.

Definition area := pt -> bool.
Definition a_empty : area := fun _ => false.
(** Shape::difference, intersection, unionPolygons *)
Definition a_sub (a b : area) : area := fun p => a p && negb (b p).
Definition a_inter (a b : area) : area := fun p => a p && b p.
Definition a_union (a b : area) : area := fun p => a p || b p.

(** A Slicer and the settings of its mesh used here; [other] stands for anti_overhang_mesh or force_support_overhang_mesh,
    [surface] for the surface mode SURFACE; [cutting_above] is the value of cutting_mesh found when the mesh has none of its own. *)
Record volume := Vol {
  cutting : bool; cutting_above : bool; has_extruder : bool; other : bool; infill : bool; support : bool; surface : bool;
  order : Z; overlap : Z; box : AABB3D; layers : list area }.

(** mesh.cpp:118-127 *)
Definition isPrinted (v : volume) : bool := negb (cutting v) && negb (other v).
Definition isModelMesh (v : volume) : bool := isPrinted v && negb (infill v).

Definition with_layers (v : volume) (l : list area) : volume :=
  Vol (cutting v) (cutting_above v) (has_extruder v) (other v) (infill v) (support v) (surface v) (order v) (overlap v) (box v) l.
(** settings_.remove("cutting_mesh") *)
Definition no_cutting (v : volume) : volume :=
  Vol (cutting_above v) (cutting_above v) (has_extruder v) (other v) (infill v) (support v) (surface v) (order v) (overlap v) (box v) (layers v).

(** [volumes[k]->layers[l].polygons_]: read and write *)
Definition get_vol (vols : list volume) (k : nat) : res volume := of_opt (vols !! k).
Definition get_area (vols : list volume) (k l : nat) : res area :=
  let! v := get_vol vols k in of_opt (layers v !! l).
Definition set_area (vols : list volume) (k l : nat) (a : area) : list volume :=
  alter (fun v => with_layers v (<[l := a]> (layers v))) k vols.

(** ** carveMultipleVolumes *)
(** multiVolumes.cpp:24-31: a stable sort by infill_mesh_order, of which there is one result only; modelled as insertion
    sort of the indices of the volumes *)
Fixpoint rank_insert (ord : nat -> Z) (k : nat) (l : list nat) : list nat :=
  match l with
  | [] => [k]
  | m :: l' => if ord k <=? ord m then k :: l else m :: rank_insert ord k l'
  end.
Definition ranked (ord : nat -> Z) (n : nat) : list nat := foldr (rank_insert ord) [] (seq 0 n).
Definition order_of (vols : list volume) (k : nat) : Z := match vols !! k with Some v => order v | None => 0 end.

(** multiVolumes.cpp:35-39 and 43-47 *)
Definition skipped (v : volume) : bool := negb (isModelMesh v) || support v || surface v.

(** multiVolumes.cpp:54-64, one layer *)
Definition carve_layer (alternate : bool) (vols : list volume) (k1 k2 l : nat) : res (list volume) :=
  let! a1 := get_area vols k1 l in
  let! a2 := get_area vols k2 l in
  if alternate && (Z.rem (Z.of_nat l) 2 =? 0) && (order_of vols k1 =? order_of vols k2)
  then Ok (set_area vols k2 l (a_sub a2 a1))
  else Ok (set_area vols k1 l (a_sub a1 a2)).
Fixpoint carve_layers (alternate : bool) (vols : list volume) (k1 k2 : nat) (ls : list nat) : res (list volume) :=
  match ls with
  | [] => Ok vols
  | l :: ls' => let! vols' := carve_layer alternate vols k1 k2 l in carve_layers alternate vols' k1 k2 ls'
  end.
(** multiVolumes.cpp:40-66: volume k1 against the volumes ranked before it *)
Fixpoint carve_one (alternate : bool) (vols : list volume) (k1 : nat) (before : list nat) : res (list volume) :=
  match before with
  | [] => Ok vols
  | k2 :: before' =>
      let! v1 := get_vol vols k1 in
      let! v2 := get_vol vols k2 in
      let! vols' :=
        (if skipped v2 then Ok vols
         else if negb (aabb3_hit (box v1) (box v2)) then Ok vols
         else carve_layers alternate vols k1 k2 (seq 0 (length (layers v1)))) in
      carve_one alternate vols' k1 before'
  end.
(** multiVolumes.cpp:32-67: the volumes ranked [before] are done *)
Fixpoint carve_all (alternate : bool) (vols : list volume) (before todo : list nat) : res (list volume) :=
  match todo with
  | [] => Ok vols
  | k1 :: todo' =>
      let! v1 := get_vol vols k1 in
      let! vols' := (if skipped v1 then Ok vols else carve_one alternate vols k1 before) in
      carve_all alternate vols' (before ++ [k1]) todo'
  end.
(** multiVolumes.cpp:20-68 *)
Definition carveMultipleVolumes (alternate : bool) (vols : list volume) : res (list volume) :=
  match ranked (order_of vols) (length vols) with
  | [] => Ok vols
  | k :: l => carve_all alternate vols [k] l
  end.

(** ** generateMultipleVolumesOverlap; [offset d a] is Shape::offset *)
Section overlap.
  Context (offset : Z -> area -> area).

  (** AABB3D.cpp:100-112 *)
  Definition aabb3_expandXY (b : AABB3D) (outset : Z) : AABB3D :=
    let mn := Pt3 (px (b3min b) - outset) (py (b3min b) - outset) (pz (b3min b)) in
    let mx := Pt3 (px (b3max b) + outset) (py (b3max b) + outset) (pz (b3max b)) in
    if (px mx <? px mn) || (py mx <? py mn) then aabb3_empty else Aabb3 mn mx.

  (** multiVolumes.cpp:92-104 *)
  Fixpoint all_others (vols : list volume) (k l : nat) (bx : AABB3D) (ms : list nat) : res area :=
    match ms with
    | [] => Ok a_empty
    | m :: ms' =>
        let! v := get_vol vols m in
        if negb (isModelMesh v) || support v || negb (aabb3_hit (box v) bx) || Nat.eqb m k then all_others vols k l bx ms'
        else
          let! a := get_area vols m l in
          let! rest := all_others vols k l bx ms' in
          Ok (a_union (offset 20 a) rest)
    end.
  (** multiVolumes.cpp:90-108 *)
  Fixpoint overlap_layers (vols : list volume) (k : nat) (bx : AABB3D) (half : Z) (ls : list nat) : res (list volume) :=
    match ls with
    | [] => Ok vols
    | l :: ls' =>
        let! others := all_others vols k l bx (seq 0 (length vols)) in
        let! a := get_area vols k l in
        overlap_layers (set_area vols k l (a_union a (a_inter others (offset half a)))) k bx half ls'
    end.
  (** multiVolumes.cpp:80-109 *)
  Fixpoint overlap_all (vols : list volume) (ks : list nat) : res (list volume) :=
    match ks with
    | [] => Ok vols
    | k :: ks' =>
        let! v := get_vol vols k in
        let! vols' :=
          (if negb (isModelMesh v) || support v || (overlap v =? 0) then Ok vols
           else overlap_layers vols k (aabb3_expandXY (box v) (overlap v)) (overlap v ÷ 2) (seq 0 (length (layers v)))) in
        overlap_all vols' ks'
    end.
  (** multiVolumes.cpp:72-110 *)
  Definition generateMultipleVolumesOverlap (vols : list volume) : res (list volume) :=
    if (length vols <? 2)%nat then Ok vols else overlap_all vols (seq 0 (length vols)).
End overlap.

(** ** MultiVolumes::carveCuttingMeshes, for cutting meshes with the surface mode NORMAL *)
(** multiVolumes.cpp:122-148: the union of the printed meshes on a layer, if there is a printed mesh with that layer *)
Definition printable_union (vols : list volume) (l : nat) : option area :=
  foldl (fun u v => if isPrinted v then
                      match layers v !! l with
                      | None => u
                      | Some a => match u with Some b => Some (a_union b a) | None => Some a end
                      end
                    else u) None vols.
(** multiVolumes.cpp:209-228: carve the area from the meshes and collect what is carved *)
Fixpoint cut_meshes (vols : list volume) (l : nat) (cut : area) (ms : list nat) (outlines : area) : res (list volume * area) :=
  match ms with
  | [] => Ok (vols, outlines)
  | m :: ms' =>
      let! v := get_vol vols m in
      if negb (isPrinted v) || support v then cut_meshes vols l cut ms' outlines
      else
        let! a := get_area vols m l in
        cut_meshes (set_area vols m l (a_sub a cut)) l cut ms' (a_union outlines (a_inter cut a))
  end.
(** multiVolumes.cpp:161-230, one layer; in lines 183-204 the area of the cutting mesh is changed itself *)
Definition cut_layer (unions : nat -> option area) (vols : list volume) (k l : nat) : res (list volume) :=
  let! v := get_vol vols k in
  let! a := get_area vols k l in
  let cut := if has_extruder v then match unions l with Some u => a_inter a u | None => a_empty end else a in
  let! r := cut_meshes (set_area vols k l cut) l cut (seq 0 (length vols)) a_empty in
  Ok (set_area r.1 k l r.2).
Fixpoint cut_layers (unions : nat -> option area) (vols : list volume) (k : nat) (ls : list nat) : res (list volume) :=
  match ls with
  | [] => Ok vols
  | l :: ls' => let! vols' := cut_layer unions vols k l in cut_layers unions vols' k ls'
  end.
(** multiVolumes.cpp:150-243 *)
Fixpoint cut_all (unions : nat -> option area) (vols : list volume) (ks : list nat) : res (list volume) :=
  match ks with
  | [] => Ok vols
  | k :: ks' =>
      let! v := get_vol vols k in
      let! vols' :=
        (if negb (cutting v) then Ok vols
         else
           let! w := cut_layers unions vols k (seq 0 (length (layers v))) in
           Ok (if has_extruder v then alter no_cutting k w else w)) in
      cut_all unions vols' ks'
  end.
(** multiVolumes.cpp:112-244. The unions are only computed if they are needed. *)
Definition carveCuttingMeshes (vols : list volume) : res (list volume) :=
  cut_all (printable_union vols) vols (seq 0 (length vols)).
