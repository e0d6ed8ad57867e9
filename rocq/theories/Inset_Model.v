(** Model of src/InsetOrderOptimizer.cpp (choice of the walls and the order between them) and include/utils/views/dfs.h.
    Lines are known by their number in walls_to_be_added_. *)
From Coq Require Import ZArith.
From stdpp Require Import gmap list.
From Verif Require Import Common.

(** * Which walls *)
(** InsetOrderOptimizer.cpp:532-539 *)
Definition shouldReversePath (use_one_extruder current_extruder_is_wall_x outer_to_inner : bool) : bool :=
  if use_one_extruder && current_extruder_is_wall_x then negb outer_to_inner else current_extruder_is_wall_x.

(** InsetOrderOptimizer.cpp:541-571; [empty] says whether a line has no junctions.  drop_last(1) on the reversed view leaves
    out the first inset. *)
Definition getWallsToBeAdded {A} (empty : A -> bool) (paths : list (list A)) (reverse_ use_one_extruder : bool) : list A :=
  match paths with
  | [] => []
  | _ =>
      let view :=
        if reverse_ then if use_one_extruder then reverse paths else take (length paths - 1) (reverse paths)
        else if use_one_extruder then paths else take 1 paths in
      filter (fun l => empty l = false) (concat view)
  end.

(** * By inset *)
(** The fields of ExtrusionLine.h:24-60 that matter *)
Record wline := WLine { l_inset : nat; l_odd : bool }.

(** InsetOrderOptimizer.cpp:481-500: resize when needed, then emplace_back *)
Definition bin_add (bins : list (list nat)) (k i : nat) : list (list nat) :=
  let bins' := if decide (length bins <= k)%nat then bins ++ replicate (k + 1 - length bins) [] else bins in
  alter (fun b => b ++ [i]) k bins'.
Fixpoint bin_lines (i : nat) (lines : list wline) (walls fillers : list (list nat)) : list (list nat) * list (list nat) :=
  match lines with
  | [] => (walls, fillers)
  | l :: lines' =>
      if l_odd l then bin_lines (S i) lines' walls (bin_add fillers (l_inset l) i)
      else bin_lines (S i) lines' (bin_add walls (l_inset l) i) fillers
  end.
(** InsetOrderOptimizer.cpp:474-530 *)
Definition getInsetOrder (lines : list wline) (outer_to_inner : bool) : list (nat * nat) :=
  let b := bin_lines 0 lines [] [] in
  let walls := b.1 in let fillers := b.2 in
  let between k :=
    concat ((fun line => (fun inner => if outer_to_inner then (line, inner) else (inner, line)) <$> nth (k + 1) walls [])
            <$> nth k walls []) in
  let fill k :=
    concat ((fun line => if decide (length walls <= k - 1)%nat then [] else
                           (fun wall => (wall, line)) <$> nth (k - 1) walls [])
            <$> nth k fillers []) in
  concat (between <$> seq 0 (length walls - 1)) ++ concat (fill <$> seq 1 (length fillers - 1)).

(** * Depth first *)
Section dfs.
  Context {St Acc : Type} (adj : nat -> list nat) (handle : nat -> St -> Acc -> Acc) (next : nat -> St -> St).

  (** dfs.h:41-66.  [adj] lists the neighbours as get_neighbours does; [handle] is the effect of handle_node and [next] the
      state it returns. *)
  Fixpoint dfs (fuel : nat) (node : nat) (st : St) (visited : list nat) (acc : Acc) : res (list nat * Acc) :=
    match fuel with
    | O => NoFuel
    | S fuel' =>
        if decide (node ∈ visited) then Ok (visited, acc)
        else
          (fix loop l visited acc :=
             match l with
             | [] => Ok (visited, acc)
             | x :: l' => let! r := dfs fuel' x (next node st) visited acc in loop l' r.1 r.2
             end) (adj node) (node :: visited) (handle node st acc)
    end.
End dfs.

(** * By region *)
Section region.
  (** [area i]: area of the bounding box; [closed i]: is_closed_; [outer i]: is_outer_wall(); [inside j i]: the first
      junction of line i is inside the polygon of line j (Shape::inside, without its border). *)
  Context (n : nat) (area : nat -> Z) (closed outer : nat -> bool) (inside : nat -> nat -> bool).
  (** The order of equal_range in the multimap is not specified. *)
  Context (ord : nat -> list nat -> list nat).

  (** InsetOrderOptimizer.cpp:337-364: stable_sort by area *)
  Fixpoint insert_by_area (i : nat) (l : list nat) : list nat :=
    match l with
    | [] => [i]
    | j :: l' => if (area i <? area j)%Z then i :: l else j :: insert_by_area i l'
    end.
  Definition sorted_lines : list nat := fold_left (fun l i => insert_by_area i l) (seq 0 n) [].

  (** InsetOrderOptimizer.cpp:372-408: one line; the graph as pairs in both directions, and the lines without a parent *)
  Definition nest_step (s : list (nat * nat) * list nat) (x : nat) : list (nat * nat) * list nat :=
    if closed x then
      let children := filter (fun p => inside x p = true) s.2 in
      (s.1 ++ concat ((fun p => [(x, p); (p, x)]) <$> children), filter (fun p => inside x p = false) s.2 ++ [x])
    else (s.1, s.2 ++ [x]).
  Definition nesting : list (nat * nat) := (fold_left nest_step sorted_lines ([], [])).1.
  (** dfs.h:28-38 *)
  Definition neighbours_of (i : nat) : list nat := ord i (snd <$> filter (fun e => fst e = i) nesting).

  (** InsetOrderOptimizer.cpp:410 *)
  Definition outer_walls : list nat := filter (fun i => outer i = true) (seq 0 n).

  (** InsetOrderOptimizer.cpp:417-426: min_depth and closest_outer_wall_line, which have the same keys *)
  Definition update_nodes (wall : nat) (node depth : nat) (m : gmap nat (nat * nat)) : gmap nat (nat * nat) :=
    match m !! node with
    | None => <[node := (depth, wall)]> m
    | Some d => if (depth <? d.1)%nat then <[node := (depth, wall)]> m else m
    end.
  (** InsetOrderOptimizer.cpp:415-428, dfs.h:81-91 *)
  Fixpoint all_depths (walls : list nat) (m : gmap nat (nat * nat)) : res (gmap nat (nat * nat)) :=
    match walls with
    | [] => Ok m
    | w :: walls' =>
        let! r := dfs neighbours_of (update_nodes w) (fun _ d => S d) (n + 2) w 0 [] m in all_depths walls' r.2
    end.

  (** InsetOrderOptimizer.cpp:437-453 *)
  Definition set_order_constraints (m : gmap nat (nat * nat)) (outer_to_inner : bool) (wall : nat)
      (node : nat) (parent : option nat) (order : list (nat * nat)) : list (nat * nat) :=
    match m !! node, parent with
    | Some d, Some p =>
        if decide (d.2 = wall) then order ++ [if outer_to_inner then (p, node) else (node, p)] else order
    | _, _ => order
    end.
  (** InsetOrderOptimizer.cpp:434-456, dfs.h:68-79 *)
  Fixpoint all_orders (m : gmap nat (nat * nat)) (outer_to_inner : bool) (walls : list nat) (order : list (nat * nat))
    : res (list (nat * nat)) :=
    match walls with
    | [] => Ok order
    | w :: walls' =>
        let! r := dfs neighbours_of (set_order_constraints m outer_to_inner w) (fun x _ => Some x) (n + 2) w None [] order in
        all_orders m outer_to_inner walls' r.2
    end.

  (** InsetOrderOptimizer.cpp:328-459 *)
  Definition getRegionOrder (outer_to_inner : bool) : res (list (nat * nat)) :=
    let! m := all_depths outer_walls ∅ in all_orders m outer_to_inner outer_walls [].
End region.
