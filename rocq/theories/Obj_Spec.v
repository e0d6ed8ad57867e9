(** Vocabulary of C80: what an OBJ file says. *)
From Coq Require Import ZArith.
From stdpp Require Import prelude list.
From Verif Require Import Slicer_Model Mesh_Spec.
Open Scope Z_scope.

Definition digits (d : list Z) : Prop := Forall (fun c => 48 <= c <= 57) d.
Definition decimal (d : list Z) (v : Z) : Prop := d <> [] /\ digits d /\ v = foldl (fun v c => 10 * v + (c - 48)) 0 d.
(** A corner: a number, possibly followed by a slash and the number of a texture point, and by another slash and the number of a normal;
    these numbers may be missing. *)
Inductive corner : list Z -> Z -> Prop :=
| corner_number d v : decimal d v -> corner d v
| corner_texture d v t : decimal d v -> digits t -> foldl (fun v c => 10 * v + (c - 48)) 0 t < 2 ^ 64 -> corner (d ++ 47 :: t) v
| corner_normal d v t n : decimal d v -> digits t -> foldl (fun v c => 10 * v + (c - 48)) 0 t < 2 ^ 64 -> digits n -> corner (d ++ 47 :: t ++ 47 :: n) v.
(** Corners with spaces or tabs between, before and after them *)
Definition blank (c : Z) : Prop := c = 32 \/ c = 9.
Inductive corners : list Z -> list Z -> Prop :=
| corners_none blanks : Forall blank blanks -> corners blanks []
| corners_last blanks w v : Forall blank blanks -> corner w v -> corners (blanks ++ w) [v]
| corners_more blanks w v b rest vs : Forall blank blanks -> corner w v -> blank b -> corners (b :: rest) vs -> corners (blanks ++ w ++ b :: rest) (v :: vs).

(** What a line says: a vertex, a face with the numbers of its corners, or nothing *)
Inductive statement := Vertex (p : pt3) | Face (numbers : list Z) | Nothing.
(** Vertex number v, counted from 1, of those that were given so far *)
Definition nth_vertex (ps : list pt3) (v : Z) : option pt3 := if bool_decide (1 <= v) then ps !! Z.to_nat (v - 1) else None.
(** The triangles of a face: the first corner with each two adjacent other ones; those with a corner that does not exist are left out. *)
Fixpoint fan (ps : list pt3) (first : Z) (others : list Z) : list triangle :=
  match others with
  | v :: ((w :: _) as rest) =>
      match nth_vertex ps first, nth_vertex ps v, nth_vertex ps w with
      | Some a, Some b, Some c => [(a, b, c)]
      | _, _, _ => []
      end ++ fan ps first rest
  | _ => []
  end.
Fixpoint obj_triangles (ps : list pt3) (ss : list statement) : list triangle :=
  match ss with
  | [] => []
  | Vertex p :: ss' => obj_triangles (ps ++ [p]) ss'
  | Face (v :: vs) :: ss' => fan ps v vs ++ obj_triangles ps ss'
  | _ :: ss' => obj_triangles ps ss'
  end.
