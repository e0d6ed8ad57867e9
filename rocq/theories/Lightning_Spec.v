(** Vocabulary of C72-C74: trees and their branches. *)
From Coq Require Import ZArith.
From stdpp Require Import prelude list.
From Verif Require Import Geo_Model Combing_Model Combing_Spec Lightning_Model.
Open Scope Z_scope.

(** All nodes of a tree; all branches, from child to parent; the nodes without children. *)
Fixpoint nodes (t : tree) : list pt := match t with Node p _ cs => p :: concat (map nodes cs) end.
Fixpoint branches (t : tree) : list (pt * pt) := match t with Node p _ cs => concat (map (fun c => (loc_of c, p) :: branches c) cs) end.
Fixpoint tips (t : tree) : list pt := match t with Node p _ cs => match cs with [] => [p] | _ => concat (map tips cs) end end.
(** The distance along the branches to the farthest tip. *)
Fixpoint height (t : tree) : Z := match t with Node p _ cs => foldr Z.max 0 (map (fun c => height c + vSize (psub p (loc_of c))) cs) end.

(** The place at the given distance from [a] on the way to [b], rounded to whole units. *)
Definition along (a b : pt) (dist : Z) : pt := padd a (pdiv (pscale (psub b a) dist) (vSize (psub b a))).

(** ** pruning: what is left is what is at least [d] away from some tip *)
Inductive pruned (d : Z) : tree -> tree -> Prop :=
| Pruned p g g' cs cs' : pruned_children d p cs cs' -> pruned d (Node p g cs) (Node p g' cs')
with pruned_children (d : Z) : pt -> list tree -> list tree -> Prop :=
| no_children p : pruned_children d p [] []
| gone p c cs cs' : height c < d -> height c + vSize (psub p (loc_of c)) <= d -> pruned_children d p cs cs' -> pruned_children d p (c :: cs) cs'
| cut p c cs cs' g : height c < d -> d < height c + vSize (psub p (loc_of c)) -> pruned_children d p cs cs' ->
    pruned_children d p (c :: cs) (Node (along (loc_of c) p (d - height c)) g [] :: cs')
| kept p c c' cs cs' : d <= height c -> pruned d c c' -> pruned_children d p cs cs' -> pruned_children d p (c :: cs) (c' :: cs').

(** ** straightening: nodes are moved by at most [m], up to rounding, and nodes with a single child can be left out *)
Inductive straightened (m : Z) : tree -> tree -> Prop :=
| moved p p' g cs cs' : vSize2 (psub p' p) <= (m + 1) * (m + 1) -> Forall2 (straightened m) cs cs' -> straightened m (Node p g cs) (Node p' g cs')
| left_out p g c c' : straightened m c c' -> straightened m (Node p g [c]) c'.

(** ** realigning *)
Section outlines.
  Context (inside : pt -> bool) (blocked : pt -> pt -> bool).
  (** A branch that stays: both ends are inside of the outlines, and the way between them too. *)
  Definition intact (e : pt * pt) : bool := inside e.1 && inside e.2 && negb (blocked e.1 e.2).
  (** A branch that breaks, the upper end of which is a root then. *)
  Definition broken (e : pt * pt) : bool := inside e.1 && negb (intact e).
  Definition new_root (e : pt * pt) : pt * option pt := (e.1, if inside e.2 then None else Some e.2).
End outlines.
Definition forest_nodes (ts : list tree) : list pt := concat (map nodes ts).
Definition forest_branches (ts : list tree) : list (pt * pt) := concat (map branches ts).

(** ** lines *)
Definition hops (line : list pt) : list (pt * pt) := zip line (tail line).
(** The line without the last [r] of its length. *)
Definition shortened (r : Z) (l l' : list pt) : Prop :=
  exists front b a back t, l = front ++ b :: a :: back /\ l' = front ++ [b; along a b t] /\ way_length (a :: back) + t = r /\ 0 <= t <= vSize (psub b a).
Definition too_short (r : Z) (l : list pt) : Prop := (length l <= 1)%nat \/ way_length l < r.

(** ** changing the root *)
Fixpoint node_at (t : tree) (path : list nat) : option pt :=
  match path, t with
  | [], Node p _ _ => Some p
  | i :: path, Node _ _ cs => match cs !! i with Some c => node_at c path | None => None end
  end.
Definition swap (e : pt * pt) : pt * pt := (e.2, e.1).
