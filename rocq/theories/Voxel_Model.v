(** Model of src/utils/VoxelUtils.cpp and include/utils/VoxelUtils.h: walking over the voxels along
    lines and polygons, and dilation kernels. *)
From Coq Require Import ZArith QArith.
From stdpp Require Import list.
From Verif Require Import Common Geo_Model Grid_Model.
Open Scope Z_scope.

(** Point3LL.h: three coordinates *)
Definition pt3 : Type := Z * Z * Z.
(** The index of Point3LL::operator[] (Point3LL.h:164-180) *)
Inductive axis := AX | AY | AZ.
Definition get (p : pt3) (d : axis) : Z :=
  match d with AX => p.1.1 | AY => p.1.2 | AZ => p.2 end.
Definition set_ (p : pt3) (d : axis) (v : Z) : pt3 :=
  match d with AX => (v, p.1.2, p.2) | AY => (p.1.1, v, p.2) | AZ => (p.1.1, p.1.2, v) end.
(** Point3LL.cpp:16-39 *)
Definition zip3 (f : Z -> Z -> Z) (p q : pt3) : pt3 := (f p.1.1 q.1.1, f p.1.2 q.1.2, f p.2 q.2).
Definition add3 := zip3 Z.add.
Definition sub3 := zip3 Z.sub.

Section voxels.
  (** VoxelUtils.h cell_size_ *)
  Variable cs : pt3.

  (** VoxelUtils.h:159-163 *)
  Definition vGridCoord (coord : Z) (d : axis) : Z := coord ÷ get cs d - (if coord <? 0 then 1 else 0).
  (** VoxelUtils.h:154-157 *)
  Definition vGridPoint (p : pt3) : pt3 := (vGridCoord (get p AX) AX, vGridCoord (get p AY) AY, vGridCoord (get p AZ) AZ).
  (** VoxelUtils.h:170-174 *)
  Definition vLowerCoord (g : Z) (d : axis) : Z := g * get cs d.

  Section walk.
    Variables (start end_ : pt3).
    (** VoxelUtils.cpp:51 *)
    Definition diff : pt3 := sub3 end_ start.
    (** VoxelUtils.cpp:78 *)
    Definition crossing_boundary (cell : pt3) (d : axis) : Z :=
      vLowerCoord (get cell d) d + (if 0 <? get diff d then get cs d else 0).
    (** VoxelUtils.cpp:79.  Simplification: exact rational instead of double. *)
    Definition percentage_here (cell : pt3) (d : axis) : Q :=
      (inject_Z (crossing_boundary cell d - get start d) / inject_Z (get diff d))%Q.
    (** VoxelUtils.cpp:72-85, one round.  [None] is stepping_dim = -1 with the largest double. *)
    Definition consider (cell : pt3) (best : option (axis * Q)) (d : axis) : option (axis * Q) :=
      if get diff d =? 0 then best
      else
        let p := percentage_here cell d in
        match best with
        | None => Some (d, p)
        | Some (_, q) => if Qlt_le_dec p q then Some (d, p) else best
        end.
    (** VoxelUtils.cpp:70-85 *)
    Definition stepping (cell : pt3) : option (axis * Q) := fold_left (consider cell) [AX; AY; AZ] None.
    (** VoxelUtils.cpp:92 *)
    Definition step (cell : pt3) (d : axis) : pt3 := set_ cell d (get cell d + (if 0 <? get diff d then 1 else -1)).

    (** VoxelUtils.cpp:61-93.  The callback has a state; [UB] if no dimension is found (line 86). *)
    Fixpoint walk_from {S} (fuel : nat) (f : S -> pt3 -> S * bool) (cell : pt3) (s : S) : res (S * bool) :=
      match fuel with
      | O => NoFuel
      | Datatypes.S fuel' =>
          let r := f s cell in
          if negb r.2 then Ok (r.1, false)
          else
            match stepping cell with
            | None => UB
            | Some (d, p) => if Qlt_le_dec 1 p then Ok (r.1, true) else walk_from fuel' f (step cell d) r.1
            end
      end.
    (** Enough fuel for the loop (this is proved) *)
    Definition walk_fuel : nat :=
      let n d := Z.to_nat (Z.abs (get (vGridPoint end_) d - get (vGridPoint start) d) + 1) in
      Datatypes.S (n AX + n AY + n AZ).
    (** VoxelUtils.cpp:49-95 *)
    Definition walkLine {S} (f : S -> pt3 -> S * bool) (s : S) : res (S * bool) :=
      if bool_decide (vGridPoint start = vGridPoint end_) then Ok (f s (vGridPoint start))
      else walk_from walk_fuel f (vGridPoint start) s.
  End walk.

  (** VoxelUtils.cpp:102-111: the lines of a polygon, each from the point before *)
  Fixpoint walk_lines {S} (f : S -> pt3 -> S * bool) (z : Z) (last_ : pt) (poly : list pt) (s : S) : res (S * bool) :=
    match poly with
    | [] => Ok (s, true)
    | p :: poly' =>
        let! r := walkLine (last_.1, last_.2, z) (p.1, p.2, z) f s in
        if negb r.2 then Ok (r.1, false) else walk_lines f z p poly' r.1
    end.
  (** VoxelUtils.cpp:98-114; poly.back() of an empty polygon is undefined *)
  Fixpoint walkPolygons {S} (f : S -> pt3 -> S * bool) (z : Z) (polys : list (list pt)) (s : S) : res (S * bool) :=
    match polys with
    | [] => Ok (s, true)
    | poly :: polys' =>
        let! l := of_opt (last poly) in
        let! r := walk_lines f z l poly s in
        if negb r.2 then Ok (r.1, false) else walkPolygons f z polys' r.1
    end.

  (** VoxelUtils.cpp:164-176 *)
  Definition dilate {S} (relative_cells : list pt3) (f : S -> pt3 -> S * bool) : S -> pt3 -> S * bool :=
    fun s loc => run (fun s rel => f s (add3 loc rel)) s relative_cells.
End voxels.

(** VoxelUtils.h:43-48 *)
Inductive ktype := CUBE | DIAMOND | PRISM.

(** VoxelUtils.cpp:30-36: the limit of one coordinate *)
Definition klimit (k x : Z) : Z :=
  let l := if x <? 0 then - (k ÷ 2) else k - k ÷ 2 - 1 in
  if l =? 0 then 1 else l.
(** VoxelUtils.cpp:37, one coordinate *)
Definition rel_dist (mult k x : Z) : Z := (mult * x) ÷ klimit k x.
(** VoxelUtils.cpp:28-42: whether a cell is kept *)
Definition keep_cell (k : pt3) (ty : ktype) (c : pt3) : bool :=
  let mult := get k AX * get k AY * get k AZ in
  let rx := rel_dist mult (get k AX) (get c AX) in
  let ry := rel_dist mult (get k AY) (get c AY) in
  let rz := rel_dist mult (get k AZ) (get c AZ) in
  match ty with
  | CUBE => true
  | DIAMOND => negb (mult <? rx + ry + rz)
  | PRISM => negb (mult <? rx + ry)
  end.
(** for (x = start; x < end; x++) with start = -(k / 2), end = k - k / 2 (VoxelUtils.cpp:17-25) *)
Definition krange (k : Z) : list Z := seqZ (- (k ÷ 2)) (k - k ÷ 2 - - (k ÷ 2)).
(** VoxelUtils.cpp:11-47: relative_cells_ *)
Definition relative_cells (k : pt3) (ty : ktype) : list pt3 :=
  List.filter (keep_cell k ty)
    (flat_map (fun x => flat_map (fun y => map (fun z => (x, y, z)) (krange (get k AZ))) (krange (get k AY)))
       (krange (get k AX))).

(** VoxelUtils.cpp:119: how far polygons are moved, per coordinate *)
Definition half_cell (cs k : pt3) (d : axis) : Z := (1 - Z.rem (get k d) 2) * get cs d ÷ 2.
(** VoxelUtils.cpp:116-125 *)
Definition walkDilatedPolygons {S} (cs k : pt3) (ty : ktype) (f : S -> pt3 -> S * bool) (z : Z)
    (polys : list (list pt)) (s : S) : res (S * bool) :=
  let tx := half_cell cs k AX in let ty_ := half_cell cs k AY in
  let translated :=
    if negb (tx =? 0) && negb (ty_ =? 0) then map (map (fun p : pt => (p.1 + tx, p.2 + ty_))) polys else polys in
  walkPolygons cs (dilate (relative_cells k ty) f) (z + half_cell cs k AZ) translated s.
