(** Vocabulary for C14: which line encloses which, and how far a line is from an outer wall. *)
From Coq Require Import ZArith.
From stdpp Require Import list relations.

Section nesting.
  Context (n : nat) (area : nat -> Z) (closed outer : nat -> bool) (inside : nat -> nat -> bool).
  (** Lines are compared by the area of their bounding box, the earlier one being the smaller if that is the same. *)
  Definition smaller (i j : nat) : Prop := (area i < area j)%Z \/ (area i = area j /\ (i < j)%nat).
  (** j is a larger closed line around the first point of i *)
  Definition around (j i : nat) : Prop :=
    (i < n)%nat /\ (j < n)%nat /\ smaller i j /\ closed j = true /\ inside j i = true.
  (** j is the smallest of them *)
  Definition encloses (j i : nat) : Prop := around j i /\ forall k, around k i -> k <> j -> smaller j k.
  Definition adjacent (i j : nat) : Prop := encloses i j \/ encloses j i.
  (** Line i can be reached from an outer wall in k steps. *)
  Inductive steps : nat -> nat -> Prop :=
  | steps_outer o : (o < n)%nat -> outer o = true -> steps 0 o
  | steps_next k i j : steps k i -> adjacent i j -> steps (S k) j.
  Definition distance (k i : nat) : Prop := steps k i /\ forall k', steps k' i -> (k <= k')%nat.
End nesting.

(** A constraint says that one line is printed before another; when the outer walls come first, the line nearer to the
    outer wall comes first. *)
Definition near_of (outer_to_inner : bool) (c : nat * nat) : nat := if outer_to_inner then c.1 else c.2.
Definition far_of (outer_to_inner : bool) (c : nat * nat) : nat := if outer_to_inner then c.2 else c.1.
(** No line has to be printed before itself, directly or through others. *)
Definition acyclic (order : list (nat * nat)) : Prop := forall i, ~ tc (fun a b => (a, b) ∈ order) i i.
