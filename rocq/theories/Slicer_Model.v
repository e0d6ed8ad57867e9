(** Model of src/slicer.cpp: from mesh faces to the segments of one layer, and from segments to
    polygons and open polylines. *)
From Coq Require Import ZArith.
From stdpp Require Import list.
From Verif Require Import Common Math_Model Geo_Model Layers_Model.
Open Scope Z_scope.

(** Point3LL *)
Record pt3 := Pt3 { px : Z; py : Z; pz : Z }.

(** include/mesh.h: MeshVertex (position and connected_faces_) *)
Record mvertex := MVertex { mv_p : pt3; mv_faces : list nat }.
(** include/mesh.h: MeshFace: vertex_index_[3] and connected_face_index_[3]; -1 is [None].
    UV coordinates are not modelled. *)
Record mface := MFace { vi0 : nat; vi1 : nat; vi2 : nat;
                        cf0 : option nat; cf1 : option nat; cf2 : option nat }.
Record mesh := Mesh { mvertices : list mvertex; mfaces : list mface }.

(** include/slicer.h:29-43 SlicerSegment without UVs; [endOtherFaceIdx]: -1 is [None];
    [endVertex]: index of the vertex pointed to. [addedToPolygon] is kept separately. *)
Record segment := Segment {
  seg_start : pt; seg_end : pt;
  seg_face : nat; seg_otherFace : option nat; seg_endVertex : option nat }.

(** slicer.cpp:1163-1224 project2D without the UV part. *)
Definition project2D (p0 p1 p2 : pt3) (z : Z) : res (pt * pt) :=
  let! sx := interpolate z (pz p0) (pz p1) (px p0) (px p1) in
  let! sy := interpolate z (pz p0) (pz p1) (py p0) (py p1) in
  let! ex := interpolate z (pz p0) (pz p2) (px p0) (px p2) in
  let! ey := interpolate z (pz p0) (pz p2) (py p0) (py p2) in
  Ok ((sx, sy), (ex, ey)).

(** slicer.cpp:877-883: shift points exactly on the slicing plane, only at z < 1. *)
Definition compensate (tol : slicing_tolerance) (z : Z) (p : pt3) : pt3 :=
  match tol with
  | INCLUSIVE => p
  | _ => Pt3 (px p) (py p) (pz p + (if pz p =? z then 1 else 0) * - (if pz p <? 1 then 1 else 0))
  end.

(** slicer.cpp:1120-1161 and 858-861: the quick z range test of a face. *)
Definition z_skip (p0 p1 p2 : pt3) (z : Z) : bool :=
  let mn := let m := if pz p1 <? pz p0 then pz p1 else pz p0 in if pz p2 <? m then pz p2 else m in
  let mx := let m := if pz p0 <? pz p1 then pz p1 else pz p0 in if m <? pz p2 then pz p2 else m in
  (z <? mn) || (mx <? z).

(** slicer.cpp:915-962: the six cases.  Result: start, end, end_edge_idx (0,1,2) and which of
    v0,v1,v2 is the end vertex. *)
Definition slice_cases (p0 p1 p2 : pt3) (z : Z) : res (option (pt * pt * nat * option nat)) :=
  let mk (r : res (pt * pt)) (edge : nat) (ev : option nat) :=
    let! se := r in Ok (Some (se.1, se.2, edge, ev)) in
  let ev (p : pt3) (i : nat) := if pz p =? z then Some i else None in
  if (pz p0 <? z) && (z <? pz p1) && (z <? pz p2) then mk (project2D p0 p2 p1 z) 0%nat None
  else if (z <? pz p0) && (pz p1 <=? z) && (pz p2 <=? z) then mk (project2D p0 p1 p2 z) 2%nat (ev p2 2%nat)
  else if (pz p1 <? z) && (z <? pz p0) && (z <? pz p2) then mk (project2D p1 p0 p2 z) 1%nat None
  else if (z <? pz p1) && (pz p0 <=? z) && (pz p2 <=? z) then mk (project2D p1 p2 p0 z) 0%nat (ev p0 0%nat)
  else if (pz p2 <? z) && (z <? pz p1) && (z <? pz p0) then mk (project2D p2 p1 p0 z) 2%nat None
  else if (z <? pz p2) && (pz p1 <=? z) && (pz p0 <=? z) then mk (project2D p2 p0 p1 z) 1%nat (ev p1 1%nat)
  else Ok None.

(** One triangle: quick test, compensation, cases. *)
Definition slice_triangle (tol : slicing_tolerance) (z : Z) (p0 p1 p2 : pt3)
    : res (option (pt * pt * nat * option nat)) :=
  if z_skip p0 p1 p2 z then Ok None
  else slice_cases (compensate tol z p0) (compensate tol z p1) (compensate tol z p2) z.

Definition face_vertex (f : mface) (i : nat) : nat :=
  match i with 0 => vi0 f | 1 => vi1 f | _ => vi2 f end%nat.
Definition face_connected (f : mface) (i : nat) : option nat :=
  match i with 0 => cf0 f | 1 => cf1 f | _ => cf2 f end%nat.

(** slicer.cpp:856-974, body of the loop over faces.  Indexing the vertex list out of range is
    undefined behaviour. *)
Definition slice_face (m : mesh) (tol : slicing_tolerance) (z : Z) (fi : nat) (f : mface)
    : res (option segment) :=
  let! v0 := of_opt (mvertices m !! vi0 f) in
  let! v1 := of_opt (mvertices m !! vi1 f) in
  let! v2 := of_opt (mvertices m !! vi2 f) in
  let! r := slice_triangle tol z (mv_p v0) (mv_p v1) (mv_p v2) in
  Ok (match r with
      | None => None
      | Some (s, e, edge, ev) =>
          Some (Segment s e fi (face_connected f edge) (face_vertex f <$> ev))
      end).

(** slicer.cpp:856-974: all faces in order; segments_ in order of creation.  The map
    face_idx_to_segment_idx_ sends each face to its segment (each face has at most one). *)
Fixpoint build_segments (m : mesh) (tol : slicing_tolerance) (z : Z) (fi : nat) (fs : list mface)
    : res (list segment) :=
  match fs with
  | [] => Ok []
  | f :: fs' =>
      let! o := slice_face m tol z fi f in
      let! rest := build_segments m tol z (S fi) fs' in
      Ok (match o with None => rest | Some s => s :: rest end)
  end.

(** face_idx_to_segment_idx_.find: the first (only) segment created by the face. *)
Fixpoint find_face_segment (fi : nat) (k : nat) (segs : list segment) : option nat :=
  match segs with
  | [] => None
  | s :: segs' => if Nat.eqb (seg_face s) fi then Some k else find_face_segment fi (S k) segs'
  end.

(** ** Joining segments *)

(** slicer.cpp:33 *)
Definition largest_neglected_gap_first_phase : Z := 10.

Section join.
  (** the layer being processed: its segments, the face to segment map, and for each vertex index
      the list connected_faces_ of that vertex *)
  Variable segs : list segment.
  Variable face_to_seg : nat -> option nat.
  Variable vertex_faces : nat -> list nat.

  (** slicer.cpp:72-97; -1 is [None]; [added] are the addedToPolygon flags. *)
  Definition tryFaceNextSegmentIdx (added : list bool) (s : segment) (face start : nat) : res (option nat) :=
    match face_to_seg face with
    | None => Ok None
    | Some k =>
        let! t := of_opt (segs !! k) in
        if shorterThen (psub (seg_end s) (seg_start t)) largest_neglected_gap_first_phase then
          if Nat.eqb k start then Ok (Some start)
          else let! a := of_opt (added !! k) in
               if (a : bool) then Ok None else Ok (Some k)
        else Ok None
    end.

  (** slicer.cpp:116-129: loop over connected_faces_ of the end vertex *)
  Fixpoint try_faces (added : list bool) (s : segment) (faces : list nat) (start : nat)
      (next : option nat) : res (option nat) :=
    match faces with
    | [] => Ok next
    | f :: fs =>
        let! r := tryFaceNextSegmentIdx added s f start in
        match r with
        | Some k => if Nat.eqb k start then Ok (Some start) else try_faces added s fs start (Some k)
        | None => try_faces added s fs start next
        end
    end.

  (** slicer.cpp:99-133 *)
  Definition getNextSegmentIdx (added : list bool) (s : segment) (start : nat) : res (option nat) :=
    match seg_endVertex s with
    | None =>
        match seg_otherFace s with
        | None => Ok None
        | Some f => tryFaceNextSegmentIdx added s f start
        end
    | Some v => try_faces added s (vertex_faces v) start None
    end.

  (** slicer.cpp:49-70: loop of makeBasicPolygonLoop.  [acc] is poly; result: flags, whether the
      polygon was closed, points. *)
  Fixpoint basic_loop (fuel : nat) (added : list bool) (idx start : nat) (acc : list pt)
      : res (list bool * bool * list pt) :=
    match fuel with
    | O => NoFuel
    | S fuel' =>
        let! s := of_opt (segs !! idx) in
        let acc' := acc ++ [seg_end s] in
        let added' := <[idx := true]> added in
        let! next := getNextSegmentIdx added' s start in
        match next with
        | None => Ok (added', false, acc')
        | Some k => if Nat.eqb k start then Ok (added', true, acc')
                    else basic_loop fuel' added' k start acc'
        end
    end.

  (** slicer.cpp:37-47 and 49-53; accumulates (polygons_, open_polylines). *)
  Fixpoint basic_loops (starts : list nat) (added : list bool) (polys opens : list (list pt))
      : res (list (list pt) * list (list pt)) :=
    match starts with
    | [] => Ok (polys, opens)
    | i :: starts' =>
        let! a := of_opt (added !! i) in
        if (a : bool) then basic_loops starts' added polys opens
        else
          let! s := of_opt (segs !! i) in
          let! r := basic_loop (S (length segs)) added i i [seg_start s] in
          let '(added', closed, points) := r in
          if (closed : bool) then basic_loops starts' added' (polys ++ [points]) opens
          else basic_loops starts' added' polys (opens ++ [points])
    end.

  Definition makeBasicPolygonLoops : res (list (list pt) * list (list pt)) :=
    basic_loops (seq 0 (length segs)) (replicate (length segs) false) [] [].
End join.

(** One layer of a mesh: segments, then loops. *)
Definition slice_layer_loops (m : mesh) (tol : slicing_tolerance) (z : Z)
    : res (list (list pt) * list (list pt)) :=
  let! segs := build_segments m tol z 0 (mfaces m) in
  makeBasicPolygonLoops segs (fun f => find_face_segment f 0 segs)
    (fun v => match mvertices m !! v with Some mv => mv_faces mv | None => [] end).
