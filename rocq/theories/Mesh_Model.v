(** Model of src/mesh.cpp (building a mesh from triangles and linking neighbouring faces) and of the placement of the
    meshes of a group in src/MeshGroup.cpp.  UV coordinates, logging and the reading of files are left out;
    double-precision numbers are modelled as exact rationals. *)
From Coq Require Import ZArith QArith.
From stdpp Require Import list.
From Verif Require Import Common Geo_Model Layers_Model Slicer_Model Box_Model.
From Verif Require GCode_Model.
Open Scope Z_scope.

(** include/geometry/Point3LL.h: operator+, operator- *)
Definition p3add (a b : pt3) : pt3 := Pt3 (px a + px b) (py a + py b) (pz a + pz b).
Definition p3sub (a b : pt3) : pt3 := Pt3 (px a - px b) (py a - py b) (pz a - pz b).
(** include/geometry/Point3LL.h:132-135 *)
Definition vSize2_3 (a : pt3) : Z := px a * px a + py a * py a + pz a * pz a.
(** include/geometry/Point3LL.h:115-130 *)
Definition testLength (a : pt3) (len : Z) : bool :=
  if (len <? px a) || (px a <? - len) then false
  else if (len <? py a) || (py a <? - len) then false
  else if (len <? pz a) || (pz a <? - len) then false
  else vSize2_3 a <=? len * len.

(** mesh.cpp:15 *)
Definition vertex_meld_distance : Z := 30.
(** mesh.cpp:20-24: the 64-bit result is converted to uint32_t.  (Shifting a 64-bit number to the left may drop bits
    above the 64th, none of which survive that conversion.) *)
Definition pointHash (p : pt3) : Z :=
  let cell c := (c + vertex_meld_distance ÷ 2) ÷ vertex_meld_distance in
  Z.lxor (Z.lxor (cell (px p)) (Z.shiftl (cell (py p)) 10)) (Z.shiftl (cell (pz p)) 20) mod 2 ^ 32.

(** A mesh under construction: include/mesh.h:131-138.  The unordered map from hashes to vertex numbers is a function
    (operator[] creates an empty list for a hash not seen before). *)
Record building := Building { bmesh : mesh; bhash : Z -> list nat; bbox : AABB3D }.
Definition new_mesh : building := Building (Mesh [] []) (fun _ => []) aabb3_empty.

(** mesh.cpp:131-137: the first vertex of the bucket within the meld distance *)
Fixpoint first_close (vs : list mvertex) (v : pt3) (bucket : list nat) : res (option nat) :=
  match bucket with
  | [] => Ok None
  | k :: bucket' =>
      let! w := of_opt (vs !! k) in
      if testLength (p3sub (mv_p w) v) vertex_meld_distance then Ok (Some k) else first_close vs v bucket'
  end.
(** mesh.cpp:127-144 *)
Definition findIndexOfVertex (b : building) (v : pt3) : res (nat * building) :=
  let h := pointHash v in
  let vs := mvertices (bmesh b) in
  let! found := first_close vs v (bhash b h) in
  match found with
  | Some k => Ok (k, b)
  | None =>
      Ok (length vs,
          Building (Mesh (vs ++ [MVertex v []]) (mfaces (bmesh b)))
            (fun h' => if h' =? h then bhash b h ++ [length vs] else bhash b h')
            (aabb3_include (bbox b) v))
  end.
(** mesh.cpp:58-60: connected_faces_.push_back *)
Definition connect (idx : nat) (v : mvertex) : mvertex := MVertex (mv_p v) (mv_faces v ++ [idx]).
(** mesh.cpp:36-61 *)
Definition addFace (b : building) (v0 v1 v2 : pt3) : res building :=
  let! r0 := findIndexOfVertex b v0 in
  let! r1 := findIndexOfVertex r0.2 v1 in
  let! r2 := findIndexOfVertex r1.2 v2 in
  let i0 := r0.1 in let i1 := r1.1 in let i2 := r2.1 in
  let b' := r2.2 in
  if Nat.eqb i0 i1 || Nat.eqb i1 i2 || Nat.eqb i0 i2 then Ok b'
  else
    let idx := length (mfaces (bmesh b')) in
    Ok (Building
          (Mesh (alter (connect idx) i2 (alter (connect idx) i1 (alter (connect idx) i0 (mvertices (bmesh b')))))
                (mfaces (bmesh b') ++ [MFace i0 i1 i2 None None None]))
          (bhash b') (bbox b')).
(** mesh.cpp:63-68: the bounding box is not reset *)
Definition clear (b : building) : building := Building (Mesh [] []) (fun _ => []) (bbox b).

(** MeshGroup.cpp:149-180, 219-244 (the loops of the file readers): one addFace per triangle *)
Fixpoint add_faces (b : building) (ts : list (pt3 * pt3 * pt3)) : res building :=
  match ts with
  | [] => Ok b
  | t :: ts' => let! b' := addFace b t.1.1 t.1.2 t.2 in add_faces b' ts'
  end.

(** mesh.cpp:179-181: does the face have this corner? *)
Definition face_has (f : mface) (i : nat) : bool := Nat.eqb (vi0 f) i || Nat.eqb (vi1 f) i || Nat.eqb (vi2 f) i.
(** mesh.cpp:171-184 *)
Fixpoint candidate_faces (fs : list mface) (idx1 not_face : nat) (connected : list nat) : res (list nat) :=
  match connected with
  | [] => Ok []
  | f :: rest =>
      if Nat.eqb f not_face then candidate_faces fs idx1 not_face rest
      else
        let! g := of_opt (fs !! f) in
        let! r := candidate_faces fs idx1 not_face rest in
        Ok (if face_has g idx1 then f :: r else r)
  end.

(** include/utils/Point3D.h: cross and inner product.  Point3D(Point3LL) scales by 0.001; a positive factor changes no
    angle, so the products are computed on the integers here. *)
Definition cross3 (a b : pt3) : pt3 :=
  Pt3 (py a * pz b - pz a * py b) (pz a * px b - px a * pz b) (px a * py b - py a * px b).
Definition dot3 (a b : pt3) : Z := px a * px b + py a * py b + pz a * pz b.

(** mesh.cpp:232-236: the third corner of a candidate.  If there is none the code reads beyond the array. *)
Definition third_corner (f : mface) (idx0 idx1 : nat) : res nat :=
  let other i := negb (Nat.eqb i idx0) && negb (Nat.eqb i idx1) in
  if other (vi0 f) then Ok (vi0 f) else if other (vi1 f) then Ok (vi1 f) else if other (vi2 f) then Ok (vi2 f) else UB.
(** mesh.cpp:209-216, 238-243: the cosine and sine of the angle from the face to the candidate, times a positive factor
    (normalising the edge divides the sine by its length). *)
Definition turn_of (edge a0 a1 : pt3) : Z * Z :=
  let n0 := cross3 a0 edge in
  let n1 := cross3 edge a1 in
  (dot3 n0 n1, dot3 edge (cross3 n0 n1)).
(** mesh.cpp:243-245, 256: compares the angles atan2(sine, cosine) taken between 0 and a whole turn.  atan2(0, 0) is 0.
    Angles in the first half turn come before those in the second; within a half turn the cross product decides. *)
Definition second_half (t : Z * Z) : bool := (t.2 <? 0) || ((t.2 =? 0) && (t.1 <? 0)).
Definition angle_lt (t u : Z * Z) : bool :=
  let norm x := if (x.1 =? 0) && (x.2 =? 0) then (1, 0) else x in
  let t := norm t in let u := norm u in
  match second_half t, second_half u with
  | false, true => true
  | true, false => false
  | _, _ => 0 <? t.1 * u.2 - t.2 * u.1
  end.
(** mesh.cpp:225-262: the candidate with the smallest angle; the first one of equals *)
Fixpoint best_candidate (m : mesh) (idx0 idx1 : nat) (p0 edge a0 : pt3) (best : option (nat * (Z * Z)))
    (cands : list nat) : res (option nat) :=
  match cands with
  | [] => Ok (fst <$> best)
  | f :: rest =>
      let! g := of_opt (mfaces m !! f) in
      let! k := third_corner g idx0 idx1 in
      let! v := of_opt (mvertices m !! k) in
      let t := turn_of edge a0 (p3sub (mv_p v) p0) in
      let best' := match best with
                   | None => Some (f, t)
                   | Some (_, s) => if angle_lt t s then Some (f, t) else best
                   end in
      best_candidate m idx0 idx1 p0 edge a0 best' rest
  end.
(** mesh.cpp:168-272; -1 is [None] *)
Definition getFaceIdxWithPoints (m : mesh) (idx0 idx1 not_face not_vertex : nat) : res (option nat) :=
  let! v0 := of_opt (mvertices m !! idx0) in
  let! cands := candidate_faces (mfaces m) idx1 not_face (mv_faces v0) in
  match cands with
  | [] => Ok None
  | [f] => Ok (Some f)
  | _ =>
      let! v1 := of_opt (mvertices m !! idx1) in
      let! vn := of_opt (mvertices m !! not_vertex) in
      best_candidate m idx0 idx1 (mv_p v0) (p3sub (mv_p v1) (mv_p v0)) (p3sub (mv_p vn) (mv_p v0)) None cands
  end.
(** mesh.cpp:70-84.  The loop writes connected_face_index_ only, which getFaceIdxWithPoints never reads. *)
Fixpoint finish_faces (m : mesh) (i : nat) (fs : list mface) : res (list mface) :=
  match fs with
  | [] => Ok []
  | f :: fs' =>
      let! c0 := getFaceIdxWithPoints m (vi0 f) (vi1 f) i (vi2 f) in
      let! c1 := getFaceIdxWithPoints m (vi1 f) (vi2 f) i (vi0 f) in
      let! c2 := getFaceIdxWithPoints m (vi2 f) (vi0 f) i (vi1 f) in
      let! r := finish_faces m (S i) fs' in
      Ok (MFace (vi0 f) (vi1 f) (vi2 f) c0 c1 c2 :: r)
  end.
Definition finish (m : mesh) : res mesh :=
  let! fs := finish_faces m 0 (mfaces m) in Ok (Mesh (mvertices m) fs).
(** A mesh read from a file: all triangles are added, then finish is called (MeshGroup.cpp:179, 245) *)
Definition load_mesh (ts : list (pt3 * pt3 * pt3)) : res mesh :=
  let! b := add_faces new_mesh ts in finish (bmesh b).

(** ** Placing the meshes of a group *)

(** A mesh with the settings finalize reads: isModelMesh(), mesh_position_x/y/z, center_object *)
Record placed := Placed { pverts : list pt3; pbox : AABB3D; is_model : bool; position : pt3; center_object : bool }.
(** The settings of the group: machine_center_is_zero, machine_width, machine_depth, material_shrinkage_percentage_xy/z *)
Record group_settings := GroupSettings { center_is_zero : bool; machine_width : Z; machine_depth : Z;
                                         shrink_xy : Q; shrink_z : Q }.

Definition INT64_MAX : Z := 2 ^ 63 - 1.
(** MeshGroup.cpp:54-73 *)
Definition group_min (ms : list placed) : pt3 :=
  match ms with
  | [] => Pt3 0 0 0
  | _ => fold_left (fun r m => if is_model m
           then Pt3 (Z.min (px r) (px (b3min (pbox m)))) (Z.min (py r) (py (b3min (pbox m)))) (Z.min (pz r) (pz (b3min (pbox m))))
           else r) ms (Pt3 INT64_MAX INT64_MAX INT64_MAX)
  end.
(** MeshGroup.cpp:75-94 (starts from the 32-bit minimum) *)
Definition group_max (ms : list placed) : pt3 :=
  match ms with
  | [] => Pt3 0 0 0
  | _ => fold_left (fun r m => if is_model m
           then Pt3 (Z.max (px r) (px (b3max (pbox m)))) (Z.max (py r) (py (b3max (pbox m)))) (Z.max (pz r) (pz (b3max (pbox m))))
           else r) ms (Pt3 INT32_MIN INT32_MIN INT32_MIN)
  end.
(** AABB3D.cpp:77-82 *)
Definition aabb3_translate (b : AABB3D) (d : pt3) : AABB3D := Aabb3 (p3add (b3min b) d) (p3add (b3max b) d).
(** mesh.h:170-180 *)
Definition translate (m : placed) (d : pt3) : placed :=
  if bool_decide (px d = 0) && bool_decide (py d = 0) && bool_decide (pz d = 0) then m
  else Placed ((fun v => p3add v d) <$> pverts m) (aabb3_translate (pbox m) d) (is_model m) (position m) (center_object m).
(** MeshGroup.cpp:107-112 *)
Definition group_offset (s : group_settings) : pt3 :=
  if center_is_zero s then Pt3 0 0 0 else Pt3 (machine_width s ÷ 2) (machine_depth s ÷ 2) 0.
(** MeshGroup.cpp:115-126 *)
Definition place (s : group_settings) (m : placed) : placed :=
  let off := if center_object m
             then let mn := b3min (pbox m) in
                  let size := p3sub (b3max (pbox m)) mn in
                  p3add (position m) (Pt3 (- px mn - px size ÷ 2) (- py mn - py size ÷ 2) (- pz mn))
             else position m in
  translate m (p3add off (group_offset s)).

(** Matrix4x3D.cpp:18-31, 56-62: a scaling matrix has zeroes outside the diagonal and the last column; the result is
    truncated to an integer. *)
Definition scale_coord (f : Q) (origin c : Z) : Z :=
  GCode_Model.Qtrunc (f * inject_Z c + (f - 1) * inject_Z (- origin))%Q.
Definition scale_apply (fxy fz : Q) (origin p : pt3) : pt3 :=
  Pt3 (scale_coord fxy (px origin) (px p)) (scale_coord fxy (py origin) (py p)) (scale_coord fz (pz origin) (pz p)).
(** mesh.cpp:104-112 *)
Definition transform (fxy fz : Q) (origin : pt3) (m : placed) : placed :=
  Placed (scale_apply fxy fz origin <$> pverts m)
         (Aabb3 (scale_apply fxy fz origin (b3min (pbox m))) (scale_apply fxy fz origin (b3max (pbox m))))
         (is_model m) (position m) (center_object m).
(** MeshGroup.cpp:136-146 *)
Definition scaleFromBottom (fxy fz : Q) (ms : list placed) : list placed :=
  let mn := group_min ms in let mx := group_max ms in
  let origin := Pt3 ((px mx + px mn) ÷ 2) ((py mx + py mn) ÷ 2) 0 in
  transform fxy fz origin <$> ms.
(** MeshGroup.cpp:104-134 *)
Definition finalize (s : group_settings) (ms : list placed) : list placed :=
  scaleFromBottom (shrink_xy s) (shrink_z s) (place s <$> ms).
