(** Vocabulary of C79: what an STL file says. *)
From Coq Require Import ZArith.
From stdpp Require Import prelude list.
From Verif Require Import Slicer_Model Mesh_Spec.
Open Scope Z_scope.

Definition line_end (c : Z) : bool := bool_decide (c = 10 \/ c = 13).
(** The lines of a file that are ended by a line feed or carriage return. *)
Fixpoint ended_lines (current f : list Z) : list (list Z) :=
  match f with
  | [] => []
  | c :: f' => if line_end c then current :: ended_lines [] f' else ended_lines (current ++ [c]) f'
  end.
(** Those before the first one with more than 1023 characters *)
Fixpoint before_long (ls : list (list Z)) : list (list Z) :=
  match ls with
  | [] => []
  | l :: ls' => if bool_decide (length l <= 1023)%nat then l :: before_long ls' else []
  end.
Definition text_lines (f : list Z) : list (list Z) := before_long (ended_lines [] f).
(** Three points at a time; up to two at the end are left over. *)
Fixpoint by_three (ps : list pt3) : list triangle :=
  match ps with
  | a :: b :: c :: ps' => (a, b, c) :: by_three ps'
  | _ => []
  end.
(** The triangles of a text file, given which lines are vertices *)
Definition text_triangles (vertex : list Z -> option pt3) (f : list Z) : list triangle := by_three (omap vertex (text_lines f)).

(** Some bytes of the file *)
Definition bytes (from n : nat) (f : list Z) : list Z := take n (drop from f).
(** The triangle number i of a binary file: 84 bytes before the first one, 50 for each; 12 bytes for the normal, then 12 for each corner. *)
Definition binary_triangle (point : list Z -> pt3) (f : list Z) (i : nat) : triangle :=
  let at_ k := point (bytes (84 + 50 * i + 12 + 12 * k) 12 f) in (at_ 0, at_ 1, at_ 2)%nat.
(** As many as fit in the file *)
Definition binary_triangles (point : list Z -> pt3) (f : list Z) : list triangle :=
  map (binary_triangle point f) (seq 0 ((length f - 84) / 50)).

(** White space, at least five other bytes at the first of which the white space ends, and the rest *)
Definition space (c : Z) : Prop := c ∈ [9; 10; 11; 12; 13; 32].
Definition starts_with (word f : list Z) : Prop :=
  exists spaces rest, f = spaces ++ word ++ rest /\ Forall space spaces /\ length word = 5%nat /\ forall c, head word = Some c -> ~ space c.
(** The word solid, in small or capital letters *)
Definition says_solid (word : list Z) : Prop := Forall2 (fun c small => c = small \/ c = small - 32) word [115; 111; 108; 105; 100].
