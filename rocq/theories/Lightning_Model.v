(** Model of the trees of lightning infill: src/infill/LightningTreeNode.cpp:66-82, 114-130 (copying), 132-152 (reroot), 154-171 (closestNode),
    173-224 (realign), 226-307 (straighten), 309-351 (prune), 358-432 (convertToPolylines, removeJunctionOverlap).

    A tree is an inductive structure; the pointer to the parent and the mark of the root are given by the place in it.  The tests against the
    outlines and the distance of a point from a line segment are arguments.  Coordinates are unbounded integers. *)
From Coq Require Import ZArith.
From stdpp Require Import prelude list.
From Verif Require Import Common Geo_Model Combing_Model.
Open Scope Z_scope.

(** LightningTreeNode.h: location, last grounding location, children *)
Inductive tree := Node (loc : pt) (ground : option pt) (children : list tree).
Definition loc_of (t : tree) : pt := match t with Node p _ _ => p end.
Definition ground_of (t : tree) : option pt := match t with Node _ g _ => g end.
Definition children_of (t : tree) : list tree := match t with Node _ _ cs => cs end.

(** include/geometry/Point2LL.h:164-172 *)
Definition normal (p0 : pt) (length : Z) : pt :=
  let len := vSize p0 in if len <? 1 then (length, 0) else pdiv (pscale p0 length) len.

(** LightningTreeNode.cpp:114-130 *)
Fixpoint copy_below (t : tree) : tree := match t with Node p _ cs => Node p None (map copy_below cs) end.
Definition deepCopy (t : tree) : tree := match t with Node p g cs => Node p (Some (default p g)) (map copy_below cs) end.

(** LightningTreeNode.cpp:309-351: the tree and how far was pruned *)
Section prune.
  Variable pruning_distance : Z.
  (** 318-347, for one child that was pruned already: what is left of it, and how far *)
  Definition prune_child (a : pt) (child : tree) (dist_pruned_child : Z) : option tree * Z :=
    if pruning_distance <=? dist_pruned_child then (Some child, dist_pruned_child)
    else
      let b := loc_of child in
      let ba := psub a b in
      let ab_len := vSize ba in
      if dist_pruned_child + ab_len <=? pruning_distance then (None, dist_pruned_child + ab_len)
      else
        let n := padd b (normal ba (pruning_distance - dist_pruned_child)) in
        (Some (Node n (ground_of child) (children_of child)), pruning_distance).
  Fixpoint prune (t : tree) : tree * Z :=
    if pruning_distance <=? 0 then (t, 0)
    else match t with
         | Node p g cs =>
             let rs := map (fun c => let r := prune c in prune_child p r.1 r.2) cs in
             (Node p g (omap fst rs), foldl (fun m r => Z.max m r.2) 0 rs)
         end.
End prune.

Section straighten.
  Variable getDist2FromLineSegment : pt -> pt -> pt -> Z.
  Variable magnitude max_remove_colinear_dist2 : Z.
  Definition junction_magnitude : Z := magnitude * 3 ÷ 4.
  (** LightningTreeNode.cpp:243-257 *)
  Definition straight_place (p above below : pt) (accumulated_dist total : Z) : pt :=
    if decide (above = below) then p
    else
      let ab := psub below above in
      let destination := padd above (pdiv (pscale ab accumulated_dist) (Z.max 1 total)) in
      if shorterThen (psub destination p) magnitude then destination else padd p (normal (psub destination p) magnitude).
  (** LightningTreeNode.cpp:297-304 *)
  Definition junction_move (dir : pt) : pt :=
    let len := vSize dir in if junction_magnitude <? len then pdiv (pscale dir junction_magnitude) len else dir.
  (** LightningTreeNode.cpp:231-307; [parent]: the location of the parent, if it is not the root *)
  Fixpoint straighten (parent : option pt) (junction_above : pt) (accumulated_dist : Z) (t : tree) : tree * (Z * pt) :=
    match t with
    | Node p g [child] =>
        let r := straighten (Some p) junction_above (accumulated_dist + vSize (psub p (loc_of child))) child in
        let child' := r.1 in
        let p' := straight_place p junction_above r.2.2 accumulated_dist r.2.1 in
        match parent with
        | Some q => if (vSize2 (psub (loc_of child') q) <? max_remove_colinear_dist2) && (getDist2FromLineSegment q p' (loc_of child') <? 10)
                    then (child', r.2) else (Node p' g [child'], r.2)
        | None => (Node p' g [child'], r.2)
        end
    | Node p g cs =>
        let rs := map (fun c => straighten (Some p) p (vSize (psub p (loc_of c))) c) cs in
        let dir := foldl (fun d r => padd d (normal (psub r.2.2 p) 1000)) (normal (psub junction_above p) 1000) rs in
        let prevent_junction_moving := existsb (fun r => r.2.1 <? magnitude) rs in
        let moves := bool_decide (dir <> (0, 0)) && bool_decide (cs <> []) && bool_decide (parent <> None) && negb prevent_junction_moving in
        let p' := if moves then padd p (junction_move dir) else p in
        (Node p' g (map fst rs), (accumulated_dist, p'))
    end.
  (** LightningTreeNode.cpp:226-229; the argument for collinear nodes is squared there *)
  Definition straighten_root (t : tree) : tree := (straighten None (loc_of t) 0 t).1.
End straighten.

Section realign.
  Variable no_outlines : bool. (** outlines.empty() *)
  Variable inside : pt -> bool.
  Variable blocked : pt -> pt -> bool. (** the way from the child to the parent meets the outlines *)
  (** LightningTreeNode.cpp:173-224: whether the tree stays, the tree, and the parts it lost, which are put behind the given ones *)
  Fixpoint realign (t : tree) (rerooted_parts : list tree) : bool * tree * list tree :=
    match t with
    | Node p g cs =>
        if no_outlines then (false, t, rerooted_parts)
        else if inside p then
          let step := fun (s : list tree * bool * list tree) (realigned : list tree -> bool * tree * list tree) =>
            let r := realigned s.2 in
            let child := r.1.2 in
            if r.1.1 then
              if blocked (loc_of child) p then (s.1.1, true, r.2 ++ [Node (loc_of child) None (children_of child)])
              else (s.1.1 ++ [child], s.1.2, r.2)
            else (s.1.1, s.1.2, r.2) in
          let s := foldl step ([], false, rerooted_parts) (map realign cs) in
          (true, Node p (if s.1.2 then None else g) s.1.1, s.2)
        else
          let step := fun (parts : list tree) (realigned : list tree -> bool * tree * list tree) =>
            let r := realigned parts in
            let child := r.1.2 in
            if r.1.1 then r.2 ++ [Node (loc_of child) (Some p) (children_of child)] else r.2 in
          (false, Node p g [], foldl step rerooted_parts (map realign cs))
    end.
End realign.

(** LightningTreeNode.cpp:66-82 *)
Definition propagateToNextLayer (getDist2FromLineSegment : pt -> pt -> pt -> Z) (no_outlines : bool) (inside : pt -> bool) (blocked : pt -> pt -> bool)
    (prune_distance smooth_magnitude max_remove_colinear_dist : Z) (next_trees : list tree) (t : tree) : list tree :=
  let t := (prune prune_distance (deepCopy t)).1 in
  let t := straighten_root getDist2FromLineSegment smooth_magnitude (max_remove_colinear_dist * max_remove_colinear_dist) t in
  let r := realign no_outlines inside blocked t next_trees in
  if r.1.1 then r.2 ++ [r.1.2] else r.2.

(** ** lines *)
Section polylines.
  Variable rand : nat -> nat. (** the random numbers, in order *)
  Definition put (idx : nat) (p : pt) (output : list (list pt)) : list (list pt) := alter (fun l => l ++ [p]) idx output.
  (** LightningTreeNode.cpp:367-387; the state is how many random numbers were used, and the output *)
  Fixpoint convert (t : tree) (long_line_idx : nat) (s : nat * list (list pt)) : nat * list (list pt) :=
    match t with
    | Node p _ cs =>
        match map convert cs with
        | [] => (s.1, put long_line_idx p s.2)
        | fs =>
            let first_child_idx := (rand s.1 mod length fs)%nat in
            let rotated := drop first_child_idx fs ++ take first_child_idx fs in
            match rotated with
            | [] => s
            | f :: rotated =>
                let s := f long_line_idx (S s.1, s.2) in
                let s := (s.1, put long_line_idx p s.2) in
                foldl (fun (s : nat * list (list pt)) (f : nat -> nat * list (list pt) -> nat * list (list pt)) =>
                         let child_line_idx := length s.2 in
                         let s := f child_line_idx (s.1, s.2 ++ [[]]) in
                         (s.1, put child_line_idx p s.2)) s rotated
            end
        end
    end.
End polylines.

(** LightningTreeNode.cpp:401-419: shortens the line, given backwards; [a]: its last point *)
Fixpoint reduce (to_be_reduced : Z) (a : pt) (rest : list pt) : res (list pt) :=
  match rest with
  | [] => Ok [a]
  | b :: rest' =>
      let ab := psub b a in
      let ab_len := vSize ab in
      if to_be_reduced <=? ab_len then
        if ab_len =? 0 then UB else Ok (padd a (pdiv (pscale ab to_be_reduced) ab_len) :: rest)
      else reduce (to_be_reduced - ab_len) b rest'
  end.
(** LightningTreeNode.cpp:389-432; a line that is left out is replaced by the last one.  [before] has been done. *)
Fixpoint removeJunctionOverlap (fuel : nat) (reduction : Z) (before lines : list (list pt)) : res (list (list pt)) :=
  match fuel with
  | O => NoFuel
  | S fuel =>
      match lines with
      | [] => Ok before
      | polyline :: lines =>
          let replaced := match last lines with Some l => l :: removelast lines | None => [] end in
          if (length polyline <=? 1)%nat then removeJunctionOverlap fuel reduction before replaced
          else
            match rev polyline with
            | [] => removeJunctionOverlap fuel reduction before replaced
            | a :: rest =>
                let! reduced := reduce reduction a rest in
                if (length reduced <=? 1)%nat then removeJunctionOverlap fuel reduction before replaced
                else removeJunctionOverlap fuel reduction (before ++ [rev reduced]) lines
            end
      end
  end.
(** LightningTreeNode.cpp:358-365 *)
Definition convertToPolylines (fuel : nat) (rand : nat -> nat) (line_width : Z) (t : tree) : res (list (list pt)) :=
  removeJunctionOverlap fuel (line_width ÷ 2) [] (convert rand t 0 (0%nat, [[]])).2.

(** ** changing the root *)
(** LightningTreeNode.cpp:132-152: makes the node at the end of [path] (child numbers from the root) the root; [up]: what was above *)
Fixpoint reroot (up : list tree) (t : tree) (path : list nat) : res tree :=
  match path, t with
  | [], Node p g cs => Ok (Node p g (cs ++ up))
  | i :: path, Node p g cs =>
      let! c := of_opt (cs !! i) in
      reroot [Node p g (delete i cs ++ up)] c path
  end.
(** LightningTreeNode.cpp:154-171: the path to the closest node, and its squared distance *)
Fixpoint closestNode (loc : pt) (t : tree) : list nat * Z :=
  match t with
  | Node p _ cs =>
      (foldl (fun (s : nat * (list nat * Z)) (candidate : list nat * Z) =>
                (S s.1, if candidate.2 <? s.2.2 then (s.1 :: candidate.1, candidate.2) else s.2))
             (0%nat, ([], vSize2 (psub p loc))) (map (closestNode loc) cs)).2
  end.
