(** Model of the reading of STL files: src/MeshGroup.cpp:39-52 (fgets_), 148-179 (loadMeshSTL_ascii), 181-247 (loadMeshSTL_binary),
    249-304 (loadMeshSTL).

    A file is the list of its bytes.  What sscanf finds in a line, and which point twelve bytes stand for (three floats, to which the matrix is
    applied), are arguments.  UV coordinates and logging are left out.  Opening the file is taken to succeed. *)
From Coq Require Import ZArith.
From stdpp Require Import prelude list.
From Verif Require Import Common Slicer_Model Box_Model Mesh_Model.
Open Scope Z_scope.

Notation byte := Z (only parsing).
(** MeshGroup.cpp:39-52; the line and the rest of the file, [None] for nullptr *)
Fixpoint fgets_ (len : nat) (f : list byte) : option (list byte * list byte) :=
  match len, f with
  | S len', c :: f' =>
      if (c =? 10) || (c =? 13) then Some ([], f')
      else match fgets_ len' f' with Some r => Some (c :: r.1, r.2) | None => None end
  | _, _ => None
  end.
(** fread of one item of n bytes *)
Definition fread (n : nat) (f : list byte) : option (list byte * list byte) := if (n <=? length f)%nat then Some (take n f, drop n f) else None.
(** isspace in the C locale *)
Definition isspace (c : byte) : bool := ((9 <=? c) && (c <=? 13)) || (c =? 32).
(** tolower in the C locale *)
Definition tolower (c : byte) : byte := if (65 <=? c) && (c <=? 90) then c + 32 else c.
(** include/utils/string.h:21-31, whether the result is 0; the strings end at a zero *)
Fixpoint same_nocase (a b : list byte) : bool :=
  match a, b with
  | x :: a', y :: b' =>
      if negb (x =? 0) && negb (y =? 0) then if negb (tolower x =? tolower y) then false else same_nocase a' b' else x =? y
  | _, _ => false
  end.
Definition solid : list byte := [115; 111; 108; 105; 100; 0].

Section stl.
  Variable sscanf_vertex : list byte -> option pt3. (** the point, if the line is read as a vertex with three numbers *)
  Variable point_of : list byte -> pt3. (** of twelve bytes *)

  (** MeshGroup.cpp:155-175 *)
  Fixpoint ascii_loop (fuel : nat) (f : list byte) (n : nat) (v0 v1 : pt3) (b : building) : res building :=
    match fuel with
    | O => NoFuel
    | S fuel' =>
        match fgets_ 1024 f with
        | None => Ok b
        | Some r =>
            match sscanf_vertex r.1 with
            | None => ascii_loop fuel' r.2 n v0 v1 b
            | Some vertex =>
                match S n with
                | 1%nat => ascii_loop fuel' r.2 (S n) vertex v1 b
                | 2%nat => ascii_loop fuel' r.2 (S n) v0 vertex b
                | 3%nat => let! b' := addFace b v0 v1 vertex in ascii_loop fuel' r.2 0 v0 v1 b'
                | _ => ascii_loop fuel' r.2 (S n) v0 v1 b
                end
            end
        end
    end.
  (** MeshGroup.cpp:148-179; it always succeeds.  The result has the faces linked. *)
  Definition loadMeshSTL_ascii (f : list byte) (b : building) : res building :=
    let! b' := ascii_loop (S (length f)) f 0 (Pt3 0 0 0) (Pt3 0 0 0) b in
    let! m := finish (bmesh b') in
    Ok (Building m (bhash b') (bbox b')).

  (** MeshGroup.cpp:217-243 *)
  Fixpoint read_faces (face_count : nat) (f : list byte) (b : building) : res (option building) :=
    match face_count with
    | O => Ok (Some b)
    | S face_count' =>
        match fread 50 f with
        | None => Ok None
        | Some r =>
            let v k := point_of (take 12 (drop (12 + 12 * k) r.1)) in
            let! b' := addFace b (v 0%nat) (v 1%nat) (v 2%nat) in
            read_faces face_count' r.2 b'
        end
    end.
  (** MeshGroup.cpp:181-247; [None]: false is returned.  The number of faces is computed in size_t. *)
  Definition loadMeshSTL_binary (f : list byte) (b : building) : res (option building) :=
    let face_count := ((Z.of_nat (length f) - 80 - 4) mod 2 ^ 64) ÷ 50 in
    match fread 80 f with
    | None => Ok None
    | Some r =>
        match fread 4 r.2 with
        | None => Ok None
        | Some r' =>
            let! o := read_faces (Z.to_nat face_count) r'.2 b in
            match o with
            | None => Ok None
            | Some b' => let! m := finish (bmesh b') in Ok (Some (Building m (bhash b') (bbox b')))
            end
        end
    end.

  (** MeshGroup.cpp:261-276; [None]: the end of the file was reached *)
  Fixpoint count_whitespace (f : list byte) : option nat :=
    match f with
    | [] => None
    | c :: f' => if isspace c then S <$> count_whitespace f' else Some 0%nat
    end.
  (** MeshGroup.cpp:249-304; [None]: false is returned *)
  Definition loadMeshSTL (f : list byte) : res (option building) :=
    match count_whitespace f with
    | None => Ok None
    | Some num_whitespace =>
        match fread 5 (drop num_whitespace f) with
        | None => Ok None
        | Some r =>
            if same_nocase (r.1 ++ [0]) solid then
              let! b := loadMeshSTL_ascii f new_mesh in
              if (length (mfaces (bmesh b)) <? 1)%nat then loadMeshSTL_binary f (clear b) else Ok (Some b)
            else loadMeshSTL_binary f new_mesh
        end
    end.
End stl.
