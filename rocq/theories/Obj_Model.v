(** Model of the reading of OBJ files: src/MeshGroup.cpp:306-413 (loadMeshOBJ).

    A file is the list of its bytes.  Which lines are vertices (with the point, to which the matrix was applied) and which are faces (with the
    text behind the letter) is an argument: the two regular expressions for that are not modelled, the one for the corners of a face is.
    UV coordinates are left out except for the reading of their numbers. *)
From Coq Require Import ZArith.
From stdpp Require Import prelude list.
From Verif Require Import Common Slicer_Model Box_Model Mesh_Model.
Open Scope Z_scope.

Notation byte := Z (only parsing).
Inductive recognised := VertexLine (p : pt3) | FaceLine (payload : list byte) | OtherLine.

Definition isdigit (c : byte) : bool := (48 <=? c) && (c <=? 57).
(** A run of digits and what follows *)
Fixpoint span_digits (s : list byte) : list byte * list byte :=
  match s with
  | c :: s' => if isdigit c then let r := span_digits s' in (c :: r.1, r.2) else ([], s)
  | [] => ([], [])
  end.
(** std::stoul; an exception, which nothing catches, is UB here *)
Definition stoul (d : list byte) : res Z :=
  let v := foldl (fun v c => 10 * v + (c - 48)) 0 d in if v <? 2 ^ 64 then Ok v else UB.
(** A slash with digits, if there is one: the groups after the number in face_indices_regex, MeshGroup.cpp:322 *)
Definition slash_digits (s : list byte) : list byte * list byte :=
  match s with
  | c :: s' => if c =? 47 then span_digits s' else ([], s)
  | [] => ([], [])
  end.
(** MeshGroup.cpp:368-386: the vertex numbers found in a face line; subtracting 1 wraps around in size_t *)
Fixpoint face_indices (fuel : nat) (s : list byte) : res (list Z) :=
  match fuel with
  | O => NoFuel
  | S fuel' =>
      match s with
      | [] => Ok []
      | c :: s' =>
          if isdigit c then
            let number := span_digits s in
            let uv := slash_digits number.2 in
            let normal := slash_digits uv.2 in
            let! v := stoul number.1 in
            let! _ := (match uv.1 with [] => Ok 0 | _ => stoul uv.1 end) in
            let! rest := face_indices fuel' normal.2 in
            Ok ((v - 1) mod 2 ^ 64 :: rest)
          else face_indices fuel' s'
      end
  end.

(** MeshGroup.cpp:391-405: the triangles around the first corner; a triangle with a number that does not exist is left out *)
Fixpoint add_fan (vertices : list pt3) (i0 : Z) (indices : list Z) (b : building) : res building :=
  match indices with
  | i1 :: ((i2 :: _) as rest) =>
      let n := Z.of_nat (length vertices) in
      let! b' := (if (i0 <? n) && (i1 <? n) && (i2 <? n) then
                    let! v0 := of_opt (vertices !! Z.to_nat i0) in
                    let! v1 := of_opt (vertices !! Z.to_nat i1) in
                    let! v2 := of_opt (vertices !! Z.to_nat i2) in
                    addFace b v0 v1 v2
                  else Ok b) in
      add_fan vertices i0 rest b'
  | _ => Ok b
  end.

(** std::getline: the lines; the last one need not end *)
Fixpoint getlines (current f : list byte) : list (list byte) :=
  match f with
  | [] => match current with [] => [] | _ => [current] end
  | c :: f' => if c =? 10 then current :: getlines [] f' else getlines (current ++ [c]) f'
  end.

Section obj.
  Variable recognise : list byte -> recognised.
  (** MeshGroup.cpp:333-409: one line *)
  Definition read_line (s : list pt3 * building) (line : list byte) : res (list pt3 * building) :=
    match recognise line with
    | VertexLine p => Ok (s.1 ++ [p], s.2)
    | FaceLine payload =>
        let! indices := face_indices (S (length payload)) payload in
        let! b := (match indices with
                   | i0 :: rest => if (3 <=? length indices)%nat then add_fan s.1 i0 rest s.2 else Ok s.2
                   | [] => Ok s.2
                   end) in
        Ok (s.1, b)
    | OtherLine => Ok s
    end.
  Fixpoint read_lines (s : list pt3 * building) (lines : list (list byte)) : res (list pt3 * building) :=
    match lines with
    | [] => Ok s
    | line :: lines' => let! s' := read_line s line in read_lines s' lines'
    end.
  (** MeshGroup.cpp:306-413; the mesh and what is returned *)
  Definition loadMeshOBJ (f : list byte) : res (mesh * bool) :=
    let! s := read_lines ([], new_mesh) (getlines [] f) in
    let! m := finish (bmesh s.2) in
    Ok (m, negb (bool_decide (mfaces m = []))).
End obj.
