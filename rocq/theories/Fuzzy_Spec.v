(** Vocabulary of C81: walls with fuzzy skin. *)
From Coq Require Import ZArith.
From stdpp Require Import prelude list.
From Verif Require Import Geo_Model Combing_Model Fuzzy_Model.
Open Scope Z_scope.

(** The rounded length of the way from a to b *)
Definition len (a b : pt) : Z := vSize (psub b a).
(** q is the point at distance [along] on the way from a to b, moved [aside] to the left of it, up to less than [err] in each coordinate.
    (Multiplied by the length of the way.) *)
Definition beside (a b : pt) (along aside err : Z) (q : pt) : Prop :=
  Z.abs (len a b * (q.1 - a.1) - (along * (b.1 - a.1) - aside * (b.2 - a.2))) < err * len a b /\
  Z.abs (len a b * (q.2 - a.2) - (along * (b.2 - a.2) + aside * (b.1 - a.1))) < err * len a b.
(** The mean of the widths of a and b in which each counts by its distance from q *)
Definition mean_width (a b : junction) (q : pt) : Z := (jw b * len q (jp b) + jw a * len q (jp a)) ÷ len (jp a) (jp b).
(** A new point at [along]: moved aside by at most the fuzziness *)
Definition fuzzed_at (fuzz : Z) (a b : junction) (along : Z) (q : junction) : Prop :=
  exists on aside, beside (jp a) (jp b) along 0 1 on /\ - fuzz <= aside < fuzz /\ beside (jp a) (jp b) along aside 2 (jp q) /\
    jw q = mean_width a b on /\ perimeter_index q = perimeter_index b.
(** The point in the middle, up to one half in each coordinate *)
Definition in_middle (a b : junction) (q : junction) : Prop :=
  Z.abs (2 * (jp q).1 - ((jp a).1 + (jp b).1)) <= 1 /\ Z.abs (2 * (jp q).2 - ((jp a).2 + (jp b).2)) <= 1 /\
  jw q = mean_width a b (jp q) /\ perimeter_index q = perimeter_index b.
(** The points for a wall that goes on from [a], [start] from its beginning; the new points are at the distances [arcs] from its beginning. *)
Inductive fuzzed (fuzz : Z) : junction -> Z -> list junction -> list Z -> list junction -> Prop :=
| fuzzed_end a start : fuzzed fuzz a start [] [] []
| fuzzed_same a start b line arcs qs : jp b = jp a -> fuzzed fuzz a start line arcs qs -> fuzzed fuzz a start (b :: line) arcs (b :: qs)
| fuzzed_short a start b line arcs m qs : jp b <> jp a -> in_middle a b m -> fuzzed fuzz b (start + len (jp a) (jp b)) line arcs qs ->
    fuzzed fuzz a start (b :: line) arcs (m :: qs)
| fuzzed_long a start b line here arcs ms qs : jp b <> jp a -> here <> [] ->
    Forall2 (fun arc q => start <= arc < start + len (jp a) (jp b) /\ fuzzed_at fuzz a b (arc - start) q) here ms ->
    fuzzed fuzz b (start + len (jp a) (jp b)) line arcs qs -> fuzzed fuzz a start (b :: line) (here ++ arcs) (ms ++ qs).
(** The length of a wall *)
Fixpoint wall_length (a : pt) (line : list junction) : Z :=
  match line with [] => 0 | b :: line' => len a (jp b) + wall_length (jp b) line' end.
(** Distances that start at [next] and go on to the end; each is farther than the one before by at least [lo] and less than [hi] *)
Inductive spaced (lo hi : Z) : Z -> Z -> list Z -> Prop :=
| spaced_end next total : total <= next -> spaced lo hi next total []
| spaced_next next total next' arcs : next < total -> lo <= next' - next < hi -> spaced lo hi next' total arcs -> spaced lo hi next total (next :: arcs).
