(** Vocabulary of C67: what is inside of an outline, and where its boundary is. *)
From Coq Require Import ZArith QArith.
From stdpp Require Import prelude list.
From Verif Require Import Geo_Model.
Open Scope Z_scope.

(** The edges of a polygon, from each corner to the next one, and the ones of an outline of several polygons. *)
Definition edges (poly : list pt) : list (pt * pt) :=
  match poly with [] => [] | p :: rest => zip poly (rest ++ [p]) end.
Definition all_edges (outline : list (list pt)) : list (pt * pt) := concat (map edges outline).

(** The vertical line at [x] cuts the edge.  (Corners on the line count as being to the left of it if they are its left end.) *)
Definition cuts (x : Z) (e : pt * pt) : bool :=
  ((e.1.1 <? x) && (x <=? e.2.1)) || ((e.2.1 <? x) && (x <=? e.1.1)).
(** The exact height where it does. *)
Definition height (x : Z) (e : pt * pt) : Q :=
  (inject_Z e.2.2 + inject_Z ((e.1.2 - e.2.2) * (x - e.2.1)) / inject_Z (e.1.1 - e.2.1))%Q.
(** The even-odd rule: an odd number of edges is cut below [(x, y)]. *)
Definition inside (outline : list (list pt)) (x y : Z) : Prop :=
  Nat.odd (length (List.filter (fun e => cuts x e && negb (Qle_bool (inject_Z y) (height x e))) (all_edges outline))) = true.
(** The boundary passes [(x, y)] at less than a unit above or below. *)
Definition at_boundary (outline : list (list pt)) (x y : Z) : Prop :=
  exists e, e ∈ all_edges outline /\ cuts x e = true /\ (inject_Z y - 1 < height x e)%Q /\ (height x e < inject_Z y + 1)%Q.
(** No corner is farther to the right. *)
Definition rightmost (outline : list (list pt)) (x : Z) : Prop :=
  forall poly p, poly ∈ outline -> p ∈ poly -> p.1 <= x.
(** A line is completely to the left of another one, or below it on the same scanline. *)
Definition before (s t : pt * pt) : Prop := s.1.1 < t.1.1 \/ (s.1.1 = t.1.1 /\ s.2.2 <= t.1.2).
