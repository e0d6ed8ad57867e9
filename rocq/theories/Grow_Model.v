(** Model of the growing of lightning trees: src/utils/polygonUtils.cpp:41-68 (spreadDotsArea), src/infill/LightningDistanceField.cpp,
    src/infill/LightningLayer.cpp:17-217 (generateNewTrees, getBestGroundingLocation, attach, reconnectRoots), src/infill/LightningTreeNode.cpp:13-23, 49-64.

    The closest point of the outlines, the intersections and collisions with them, and which nodes the locator returns are arguments.
    A node is given by the number of its tree and the path to it. *)
From Coq Require Import ZArith.
From stdpp Require Import prelude list.
From Verif Require Import Common Geo_Model Grid_Model Combing_Model Lightning_Model.
Open Scope Z_scope.

(** ** the points to support *)
(** polygonUtils.cpp:60-65 *)
Fixpoint dots_from (fuel : nat) (grid_size x lo hi y : Z) : res (list pt) :=
  if y <? hi then
    match fuel with
    | O => NoFuel
    | S fuel => let! r := dots_from fuel grid_size x lo hi (y + grid_size) in Ok (if y <? lo then r else (x, y) :: r)
    end
  else Ok [].
(** polygonUtils.cpp:50-67; the lines are what the infill of the area with lines gives *)
Fixpoint spreadDots (grid_size : Z) (result_lines : list (pt * pt)) : res (list pt) :=
  match result_lines with
  | [] => Ok []
  | line :: result_lines =>
      let ab := if line.2.2 <? line.1.2 then (line.2, line.1) else (line.1, line.2) in
      let first := ab.1.2 - Z.rem ab.1.2 grid_size - grid_size in
      let! dots := dots_from (Z.to_nat (ab.2.2 - first)) grid_size ab.1.1 ab.1.2 ab.2.2 first in
      let! r := spreadDots grid_size result_lines in
      Ok (dots ++ r)
  end.

(** ** LightningDistanceField *)
(** LightningDistanceField.h: unsupported_points_ (in order) and unsupported_points_grid_, the point instead of the iterator *)
Definition field : Type := list pt * list (pt * pt).
Fixpoint at_cell (grid : list (pt * pt)) (cell : pt) : option pt :=
  match grid with [] => None | e :: grid => if decide (e.1 = cell) then Some e.2 else at_cell grid cell end.
(** LightningDistanceField.cpp:35-39: emplace does nothing if there is something already; [unsupported_points] have been sorted *)
Definition field_of (cell_size : Z) (unsupported_points : list pt) : field :=
  (unsupported_points,
   foldl (fun grid loc => let cell := toGridPoint cell_size loc in match at_cell grid cell with Some _ => grid | None => grid ++ [(cell, loc)] end) [] unsupported_points).
Fixpoint erase_point (loc : pt) (points : list pt) : list pt :=
  match points with [] => [] | p :: points => if decide (p = loc) then points else p :: erase_point loc points end.
Section field.
  Variable cell_size supporting_radius : Z.
  (** LightningDistanceField.cpp:54-68 *)
  Definition process_cell (added_leaf : pt) (s : field) (grid_loc : pt) : field * bool :=
    (match at_cell s.2 grid_loc with
     | Some loc => if shorterThen (psub loc added_leaf) supporting_radius
                   then (erase_point loc s.1, filter (fun e : pt * pt => e.1 <> grid_loc) s.2) else s
     | None => s
     end, true).
  (** LightningDistanceField.cpp:52-83; the inner line of cells begins in the number of a cell, as in the code *)
  Definition update (to_node added_leaf : pt) (s : field) : res field :=
    let ab := psub added_leaf to_node in
    let extent := normal (turn90CCW ab) supporting_radius in
    let! r := processLineCells
                (fun (s : res field) p => (let! s := s in let! r := processLineCells (process_cell added_leaf) cell_size (p, padd p ab) s in Ok r.1, true))
                cell_size (padd to_node extent, psub to_node extent) (Ok s) in
    let! s := r.1 in
    Ok (run (process_cell added_leaf) s (nearby_cells cell_size added_leaf supporting_radius)).1.
End field.

(** ** grounding *)
Definition place : Type := nat * list nat.
Fixpoint subtree_at (t : tree) (path : list nat) : option tree :=
  match path, t with
  | [], t => Some t
  | i :: path, Node _ _ cs => match cs !! i with Some c => subtree_at c path | None => None end
  end.
Definition node_of (trees : list tree) (pl : place) : option tree := t ← trees !! pl.1; subtree_at t pl.2.
(** LightningLayer.h GroundingLocation: a point of the outlines, or a node *)
Inductive grounding := Boundary (p : pt) | TreeNode (pl : place) (p : pt).
(** LightningLayer.cpp:22-33 *)
Definition ground_p (g : grounding) : pt := match g with Boundary p => p | TreeNode _ p => p end.
(** LightningTreeNode.cpp:13-23 *)
Definition weighted_distance (t : tree) (is_root : bool) (unsupported_location : pt) (supporting_radius : Z) : Z :=
  let valence := ((if is_root then 0 else 1) + length (children_of t))%nat in
  let valence_boost := if (0 <? valence)%nat && (valence <? 4)%nat then 4 * supporting_radius else 0 in
  vSize (psub (loc_of t) unsupported_location) - valence_boost.
Section grounding.
  Variable closest : pt -> pt. (** PolygonUtils::findClosest on the outlines *)
  Variable collides : pt -> pt -> bool. (** PolygonUtils::polygonCollidesWithLineSegment *)
  Variable nearby : list tree -> pt -> Z -> list place. (** tree_node_locator.getNearbyVals *)
  Variable supporting_radius : Z.
  Definition is_root (pl : place) : bool := match pl.2 with [] => true | _ => false end.
  (** LightningLayer.cpp:82-125; [excluded]: the number of the tree that is excluded, if any *)
  Definition getBestGroundingLocation (wall_supporting_radius : Z) (trees : list tree) (excluded : option nat) (unsupported_location : pt) : grounding :=
    let node_location := closest unsupported_location in
    let within_dist := vSize (psub node_location unsupported_location) in
    let current_dist := vSize (psub node_location unsupported_location) in
    let sub_tree :=
      if wall_supporting_radius <=? current_dist then
        (foldl (fun (s : option (place * pt) * Z) candidate =>
                  match node_of trees candidate with
                  | Some t =>
                      if negb (bool_decide (excluded = Some candidate.1)) && negb (collides unsupported_location (loc_of t)) then
                        let candidate_dist := weighted_distance t (is_root candidate) unsupported_location supporting_radius in
                        if candidate_dist <? s.2 then (Some (candidate, loc_of t), candidate_dist) else s
                      else s
                  | None => s
                  end) (None, current_dist) (nearby trees unsupported_location (Z.min current_dist within_dist))).1
      else None in
    match sub_tree with None => Boundary node_location | Some e => TreeNode e.1 e.2 end.

  (** LightningTreeNode.cpp:56-64, at the end of the path *)
  Fixpoint add_child (t : tree) (path : list nat) (child : tree) : res tree :=
    match path, t with
    | [], Node p g cs => Ok (Node p g (cs ++ [child]))
    | i :: path, Node p g cs =>
        let! c := of_opt (cs !! i) in
        let! c := add_child c path child in
        Ok (Node p g (<[i := c]> cs))
    end.
  Definition add_child_at (trees : list tree) (pl : place) (child : tree) : res (list tree) :=
    let! t := of_opt (trees !! pl.1) in
    let! t := add_child t pl.2 child in
    Ok (<[pl.1 := t]> trees).
  (** LightningLayer.cpp:127-143 *)
  Definition attach (unsupported_location : pt) (grounding_loc : grounding) (trees : list tree) : res (list tree) :=
    match grounding_loc with
    | Boundary p => Ok (trees ++ [Node p (Some p) [Node unsupported_location None []]])
    | TreeNode pl _ => add_child_at trees pl (Node unsupported_location None [])
    end.
  Variable wall_supporting_radius : Z.
  (** LightningLayer.cpp:59-79 *)
  Fixpoint grow (fuel : nat) (cell_size : Z) (trees : list tree) (distance_field : field) : res (list tree) :=
    match distance_field.1 with
    | [] => Ok trees
    | unsupported_location :: _ =>
        match fuel with
        | O => NoFuel
        | S fuel =>
            let grounding_loc := getBestGroundingLocation wall_supporting_radius trees None unsupported_location in
            let! trees := attach unsupported_location grounding_loc trees in
            let! distance_field := update cell_size supporting_radius (ground_p grounding_loc) unsupported_location distance_field in
            grow fuel cell_size trees distance_field
        end
    end.
  (** LightningDistanceField.cpp:13-40 (the sorted points are an argument), LightningLayer.cpp:46-80 *)
  Definition generateNewTrees (fuel : nat) (sorted : list pt) (trees : list tree) : res (list tree) :=
    let cell_size := supporting_radius ÷ 6 in
    grow fuel cell_size trees (field_of cell_size sorted).

  (** ** LightningLayer.cpp:145-217; the trees to be reconnected have numbers *)
  Variable intersection : pt -> pt -> option pt. (** PolygonUtils::lineSegmentPolygonsIntersection *)
  Definition numbered : Type := option nat * tree.
  Definition reconnect_root (k : nat) (roots : list numbered) : res (list numbered) :=
    let! found := of_opt (list_find (fun r : numbered => r.1 = Some k) roots) in
    let i := found.1 in
    let t := found.2.2 in
    let regrounded :=
      match ground_of t with
      | Some ground_loc => if decide (ground_loc = loc_of t) then None else intersection (loc_of t) ground_loc
      | None => None
      end in
    match regrounded with
    | Some new_root_pt =>
        let! t' := add_child t [] (Node new_root_pt (Some new_root_pt) []) in
        let! t' := reroot [] t' [length (children_of t)] in
        Ok (<[i := (None, t')]> roots)
    | None =>
        let tree_connecting_ignore_width := wall_supporting_radius - 100 in
        match getBestGroundingLocation tree_connecting_ignore_width (map snd roots) (Some i) (loc_of t) with
        | Boundary p =>
            if decide (p = loc_of t) then Ok roots
            else
              let! t' := reroot [] t (closestNode p t).1 in
              Ok (<[i := (None, Node p (Some p) [t'])]> roots)
        | TreeNode pl p =>
            let! t' := reroot [] t (closestNode p t).1 in
            let! r := of_opt (roots !! pl.1) in
            let! r' := add_child r.2 pl.2 t' in
            let roots := <[pl.1 := (r.1, r')]> roots in
            let! back := of_opt (last roots) in
            Ok (removelast (<[i := back]> roots))
        end
    end.
  Fixpoint reconnect (ks : list nat) (roots : list numbered) : res (list numbered) :=
    match ks with [] => Ok roots | k :: ks => let! roots := reconnect_root k roots in reconnect ks roots end.
  (** LightningGenerator.cpp:160-164: the trees to be reconnected are the first [n], which came from the layer above *)
  Definition number (n : nat) (trees : list tree) : list numbered :=
    map (fun k => (Some k.1, k.2)) (zip (seq 0 n) (take n trees)) ++ map (fun t => (None, t)) (drop n trees).
  Definition reconnectRoots (n : nat) (trees : list tree) : res (list tree) :=
    let! roots := reconnect (seq 0 n) (number n trees) in Ok (map snd roots).
End grounding.

(** LightningDistanceField.cpp:27-34: whether the first point comes before the second one; a point is given by its distance to the boundary and
    the remainder of its hash value *)
Definition comes_before (radius : Z) (a b : Z * Z) : bool :=
  if radius <? Z.abs (b.1 - a.1) then a.1 <? b.1 else a.2 <? b.2.
