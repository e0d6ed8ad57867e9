(** Vocabulary of C75-C77: what has to be supported, and how trees grow. *)
From Coq Require Import ZArith.
From stdpp Require Import prelude list.
From Verif Require Import Geo_Model Combing_Model Lightning_Model Lightning_Spec Grow_Model.
Open Scope Z_scope.

(** The lines with which the area is filled go up and down at multiples of the cell size, and do not overlap. *)
Definition lower (line : pt * pt) : Z := Z.min line.1.2 line.2.2.
Definition upper (line : pt * pt) : Z := Z.max line.1.2 line.2.2.
Record vertical_lines (c : Z) (lines : list (pt * pt)) : Prop := {
  vertical : forall line, line ∈ lines -> line.1.1 = line.2.1 /\ (c | line.1.1);
  apart : forall i j l1 l2, (i < j)%nat -> lines !! i = Some l1 -> lines !! j = Some l2 -> l1.1.1 = l2.1.1 -> upper l1 <= lower l2 \/ upper l2 <= lower l1 }.
(** A point to support: on one of these lines, at a multiple of the cell size. *)
Definition to_support (c : Z) (lines : list (pt * pt)) (p : pt) : Prop :=
  exists line, line ∈ lines /\ p.1 = line.1.1 /\ lower line <= p.2 < upper line /\ (c | p.2).
Definition near (r : Z) (p q : pt) : Prop := vSize2 (psub p q) <= r * r.

(** Roots of trees to be reconnected, and the others. *)
Definition on_outlines (closest : pt -> pt) (intersection : pt -> pt -> option pt) (p : pt) : Prop :=
  (exists q, p = closest q) \/ (exists a b, intersection a b = Some p).
(** The number of branches that meet in a node; how far it counts to be from a place: nodes with one to three branches attract. *)
Definition neighbours (pl : place) (t : tree) : Z := Z.of_nat (length (children_of t)) + (if decide (pl.2 = []) then 0 else 1).
Definition cost (r : Z) (pl : place) (t : tree) (u : pt) : Z :=
  vSize (psub (loc_of t) u) - (if decide (1 <= neighbours pl t <= 3) then 4 * r else 0).
(** A node to which a branch from [u] can be led. *)
Definition eligible (collides : pt -> pt -> bool) (trees : list tree) (excluded : option nat) (u : pt) (pl : place) (t : tree) : Prop :=
  node_of trees pl = Some t /\ excluded <> Some pl.1 /\ collides u (loc_of t) = false.

(** A branch without its direction. *)
Definition undirected (e : pt * pt) : pt * pt :=
  if decide (e.1.1 < e.2.1 \/ e.1.1 = e.2.1 /\ e.1.2 <= e.2.2) then e else swap e.
