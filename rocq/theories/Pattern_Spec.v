(** Vocabulary of C70: lines in several directions across an outline. *)
From Coq Require Import ZArith QArith Sorting.Sorted.
From stdpp Require Import prelude list.
From Verif Require Import Geo_Model LineInfill_Spec Pattern_Model.
Open Scope Z_scope.

Section outline.
  Context (outline : list (list pt)).
  (** Edge number [v] of polygon number [p] leads from corner [e.1] to corner [e.2], which has the same number. *)
  Definition edge_of (p v : nat) (e : pt * pt) : Prop :=
    exists polygon, outline !! p = Some polygon /\ polygon !! v = Some e.2 /\
      (if (v =? 0)%nat then last polygon else polygon !! (v - 1)%nat) = Some e.1.
  (** One of the two corners of the edge, or, turned back, a place where a scanline of one of the directions cuts the turned edge, less than a
      unit above or below the exact crossing. *)
  Definition on_edge (dirs : list direction) (p v : nat) (q : pt) : Prop :=
    exists e, edge_of p v e /\
      (q = e.1 \/ q = e.2 \/
       exists dir k y, dir ∈ dirs /\ let x := k * distance dir + total_shift dir in let e' := (apply dir e.1, apply dir e.2) in
         cuts x e' = true /\ (inject_Z y - 1 < height x e')%Q /\ (height x e' < inject_Z y + 1)%Q /\ q = unapply dir (x, y)).
  (** The spans, from left to right and from below to above, are the parts of the scanlines of a direction that are inside of the turned outline. *)
  Definition spans_of (dir : direction) (spans : list (pt * pt)) : Prop :=
    let turned := map (map (apply dir)) outline in
    StronglySorted before spans /\
    (forall a b, (a, b) ∈ spans ->
      a.1 = b.1 /\ (exists k, a.1 = k * distance dir + total_shift dir) /\ a.2 <= b.2 /\
      (forall y, a.2 < y < b.2 -> inside turned a.1 y) /\ at_boundary turned a.1 a.2 /\ at_boundary turned b.1 b.2) /\
    (forall k y, let x := k * distance dir + total_shift dir in
      inside turned x y -> (exists a b, (a, b) ∈ spans /\ a.1 = x /\ a.2 < y < b.2) \/ at_boundary turned x y).
  (** No two successive corners are the same and no place of a scanline is turned back to a corner. *)
  Definition clear_corners (dirs : list direction) : Prop :=
    forall polygon v corner, polygon ∈ outline -> polygon !! v = Some corner -> polygon !! S v <> Some corner /\
      forall dir k y, dir ∈ dirs -> unapply dir (k * distance dir + total_shift dir, y) <> corner.
End outline.

(** The lines, turned back; those of no length are left out. *)
Definition turned_back (dir : direction) (spans : list (pt * pt)) : list (pt * pt) :=
  filter (fun s => s.1 <> s.2) (map (fun s => (unapply dir s.1, unapply dir s.2)) spans).
