(** Specification for C85: empty layers at the bottom. *)
From Coq Require Import ZArith.
From stdpp Require Import prelude list.
From Verif Require Import Common EmptyFirst_Model.
Open Scope Z_scope.

(** Whether there is something to print on layer i: an outline of a part, or an open line of a mesh the surface of which is
    printed, or support. *)
Definition printable (s : sstorage) (i : nat) : Prop :=
  (exists m l, m ∈ meshes s /\ mlayers m !! i = Some l /\
     ((exists n, n ∈ print_outlines l /\ n <> 0%nat) \/ (surface_normal m = false /\ open_polylines l <> 0%nat))) \/
  (generated (support s) = true /\ support_layers (support s) !! i = Some true).

(** All meshes and the support have this many layers. *)
Definition same_layers (s : sstorage) (total : nat) : Prop :=
  (forall m, m ∈ meshes s -> length (mlayers m) = total) /\ length (support_layers (support s)) = total.

(** [new] is mesh [old] without its first [n] layers, lowered by [h].  The new first layer has the thickness of the old one. *)
Definition lowered (n : nat) (h : Z) (old new : smesh) : Prop :=
  surface_normal new = surface_normal old /\ max_filled new = max_filled old - Z.of_nat n /\
  length (mlayers new) = (length (mlayers old) - n)%nat /\
  forall i l l', mlayers old !! (n + i)%nat = Some l -> mlayers new !! i = Some l' ->
    printZ l' = printZ l - h /\ open_polylines l' = open_polylines l /\ print_outlines l' = print_outlines l /\
    (if decide (i = 0%nat) then forall l0, mlayers old !! 0%nat = Some l0 -> thickness l' = thickness l0
     else thickness l' = thickness l).
