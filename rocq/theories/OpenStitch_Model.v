(** Model of src/slicer.cpp: the stitching of open polylines of a layer (connectOpenPolylines, stitch, stitch_extensive). *)
From Coq Require Import ZArith.
From stdpp Require Import list.
From Verif Require Import Common Geo_Model Order_Model Grid_Model.
Open Scope Z_scope.

(** slicer.h:146-240 Terminus: its index; INVALID_TERMINUS is None where it can occur *)
Notation terminus := nat (only parsing).
Definition Terminus (polyline_idx : nat) (is_end : bool) : nat := (polyline_idx * 2 + if is_end then 1 else 0)%nat.
Definition getPolylineIdx (t : nat) : nat := (t / 2)%nat.
Definition isEnd (t : nat) : bool := Nat.odd t.
(** slicer.h:270-301 PossibleStitch *)
Record possible_stitch := Stitch { stitch_dist2 : Z; terminus_0 : nat; terminus_1 : nat }.
Definition in_order (s : possible_stitch) : bool := isEnd (terminus_0 s) && negb (isEnd (terminus_1 s)).
(** slicer.cpp:151-193 PossibleStitch::operator< *)
Definition stitch_less (s other : possible_stitch) : bool :=
  if stitch_dist2 other <? stitch_dist2 s then true
  else if stitch_dist2 s <? stitch_dist2 other then false
  else if negb (in_order s) && in_order other then true
  else if (terminus_0 other <? terminus_0 s)%nat then true
  else if (terminus_0 s <? terminus_0 other)%nat then false
  else if (terminus_1 other <? terminus_1 s)%nat then true
  else if (terminus_1 s <? terminus_1 other)%nat then false
  else false.

(** The lines with their numbers *)
Definition numbered (lines : list (list pt)) : list (nat * list pt) := zip (seq 0 (length lines)) lines.
(** slicer.cpp:203-210 StitchGridVal: number of the polyline and the end point; the locator takes the point *)
Definition locator (v : nat * pt) : pt := v.2.
(** slicer.cpp:229-240: what is inserted in grid_ends *)
Definition end_vals (lines : list (list pt)) : list (nat * pt) :=
  flat_map (fun il : nat * list pt => match last il.2 with Some p => [(il.1, p)] | None => [] end) (numbered lines).
(** slicer.cpp:243-257: what is inserted in grid_starts *)
Definition start_vals (lines : list (list pt)) : list (nat * pt) :=
  flat_map (fun il : nat * list pt => match head il.2 with Some p => [(il.1, p)] | None => [] end) (numbered lines).
(** slicer.cpp:227-240, 243-257 *)
Definition grid_ends_of (cell_size : Z) (lines : list (list pt)) : gridmap (nat * pt) :=
  fold_left (point_insert locator cell_size) (end_vals lines) [].
Definition grid_starts_of (cell_size : Z) (allow_reverse : bool) (lines : list (list pt)) : gridmap (nat * pt) :=
  if allow_reverse then fold_left (point_insert locator cell_size) (start_vals lines) [] else [].

(** slicer.cpp:195-340 findPossibleStitches: the stitches in the order in which they are pushed.  The grids are arguments
    because the order of a cell's elements is not determined (see the theorems). *)
Definition nearby_stitches (grid : gridmap (nat * pt)) (max_dist cell_size : Z) (skip : nat -> bool) (from : pt) (at_end : bool)
    (terminus_1 : nat) : list possible_stitch :=
  flat_map (fun v : nat * pt =>
      if skip v.1 then [] else
      let dist2 := vSize2 (psub v.2 from) in
      if dist2 <? max_dist * max_dist then [Stitch dist2 (Terminus v.1 at_end) terminus_1] else [])
    (getNearby cell_size grid from max_dist).
Definition findPossibleStitches (grid_ends grid_starts : gridmap (nat * pt)) (lines : list (list pt)) (max_dist cell_size : Z)
    (allow_reverse : bool) : list possible_stitch :=
  flat_map (fun il : nat * list pt =>
      match head il.2, last il.2 with
      | Some first, Some back =>
          nearby_stitches grid_ends max_dist cell_size (fun _ => false) first true (Terminus il.1 false) ++
          (if allow_reverse
           then nearby_stitches grid_ends max_dist cell_size (fun j => (j =? il.1)%nat) back true (Terminus il.1 true) ++
                nearby_stitches grid_starts max_dist cell_size (fun j => (j =? il.1)%nat) first false (Terminus il.1 false)
           else [])
      | _, _ => []
      end) (numbered lines).

(** slicer.cpp:342-389 planPolylineStitch: the two terminuses, possibly swapped, and which of the two polylines to reverse *)
Definition planPolylineStitch (lines : list (list pt)) (terminus_0 terminus_1 : nat) : res (nat * nat * (bool * bool)) :=
  let size t := length <$> lines !! getPolylineIdx t in
  let! size_0 := of_opt (size terminus_0) in
  let! size_1 := of_opt (size terminus_1) in
  Ok (if isEnd terminus_0 then
        if isEnd terminus_1 then
          if (size_0 <? size_1)%nat then (terminus_1, terminus_0, (false, true)) else (terminus_0, terminus_1, (false, true))
        else (terminus_0, terminus_1, (false, false))
      else
        if isEnd terminus_1 then (terminus_1, terminus_0, (false, false))
        else if (size_1 <? size_0)%nat then (terminus_1, terminus_0, (true, false)) else (terminus_0, terminus_1, (true, false))).
(** slicer.cpp:391-415 joinPolylines, for two different polylines: the new polyline_0; polyline_1 becomes empty.
    The loop that swaps points of polyline_0 reverses it. *)
Definition joinPolylines (polyline_0 polyline_1 : list pt) (reverse_ : bool * bool) : list pt :=
  (if reverse_.1 then reverse polyline_0 else polyline_0) ++ (if reverse_.2 then reverse polyline_1 else polyline_1).

(** slicer.h:308-399 TerminusTrackingMap *)
Record tracking := Tracking { old_to_cur : list (option nat); cur_to_old : list (option nat) }.
(** Reading and writing a vector of Terminus *)
Definition get (m : list (option nat)) (i : nat) : res (option nat) := of_opt (m !! i).
Definition put (m : list (option nat)) (i : nat) (t : option nat) : res (list (option nat)) :=
  if (i <? length m)%nat then Ok (<[i := t]> m) else UB.
(** slicer.cpp:417-426 *)
Definition new_tracking (end_idx : nat) : tracking :=
  Tracking (map Some (seq 0 end_idx)) (map Some (seq 0 end_idx)).
(** slicer.h:356-361 markRemoved; the index of INVALID_TERMINUS is out of bounds *)
Definition markRemoved (m : tracking) (cur : nat) : res tracking :=
  let! old := get (cur_to_old m) cur in
  let! old := of_opt old in
  let! o := put (old_to_cur m) old None in
  let! c := put (cur_to_old m) cur None in
  Ok (Tracking o c).
(** slicer.cpp:428-456 updateMap *)
Fixpoint old_terms (m : tracking) (cur_terms : list nat) : res (list (option nat)) :=
  match cur_terms with
  | [] => Ok []
  | t :: ts => let! o := get (cur_to_old m) t in let! os := old_terms m ts in Ok (o :: os)
  end.
Fixpoint update_terms (m : tracking) (l : list (option nat * option nat)) : res tracking :=
  match l with
  | [] => Ok m
  | (old, next) :: l' =>
      let! old_idx := of_opt old in
      let! o := put (old_to_cur m) old_idx next in
      let! c := match next with Some t => put (cur_to_old m) t old | None => Ok (cur_to_old m) end in
      update_terms (Tracking o c) l'
  end.
Fixpoint remove_terms (c : list (option nat)) (l : list nat) : res (list (option nat)) :=
  match l with
  | [] => Ok c
  | t :: l' => let! c := put c t None in remove_terms c l'
  end.
Definition updateMap (m : tracking) (cur_terms : list nat) (next_terms : list (option nat)) (removed_cur_terms : list nat) : res tracking :=
  let! olds := old_terms m cur_terms in
  let! m := update_terms m (zip olds next_terms) in
  let! c := remove_terms (cur_to_old m) removed_cur_terms in
  Ok (Tracking (old_to_cur m) c).

(** The lines, the polygons of the layer, and the map *)
Record state := State { open_polylines : list (list pt); polygons : list (list pt); tracked : tracking }.
(** slicer.cpp:469-536: one round of the loop, for the stitch taken from the queue *)
Definition connect_step (st : state) (next_stitch : possible_stitch) : res state :=
  let! cur_0 := get (old_to_cur (tracked st)) (terminus_0 next_stitch) in
  match cur_0 with
  | None => Ok st
  | Some t0 =>
      let! cur_1 := get (old_to_cur (tracked st)) (terminus_1 next_stitch) in
      match cur_1 with
      | None => Ok st
      | Some t1 =>
          if (getPolylineIdx t0 =? getPolylineIdx t1)%nat then
            let i := getPolylineIdx t0 in
            let! polyline_0 := of_opt (open_polylines st !! i) in
            let! m := markRemoved (tracked st) (Terminus i false) in
            let! m := markRemoved m (Terminus i true) in
            Ok (State (<[i := []]> (open_polylines st)) (polygons st ++ [polyline_0]) m)
          else
            let! plan := planPolylineStitch (open_polylines st) t0 t1 in
            let i := getPolylineIdx plan.1.1 in
            let j := getPolylineIdx plan.1.2 in
            let rev := plan.2 in
            let! polyline_0 := of_opt (open_polylines st !! i) in
            let! polyline_1 := of_opt (open_polylines st !! j) in
            let lines := <[j := []]> (<[i := joinPolylines polyline_0 polyline_1 rev]> (open_polylines st)) in
            let next_0 := if rev.1 then [None; Some (Terminus i false)] else [Some (Terminus i false); None] in
            let next_1 := if rev.2 then [Some (Terminus i true); None] else [None; Some (Terminus i true)] in
            let! m := updateMap (tracked st) [Terminus i false; Terminus i true; Terminus j false; Terminus j true]
                        (next_0 ++ next_1) [Terminus j false; Terminus j true] in
            Ok (State lines (polygons st) m)
      end
  end.
(** slicer.cpp:469-537: the loop, over the stitches in the order in which the priority queue gives them *)
Fixpoint connect (st : state) (queue : list possible_stitch) : res state :=
  match queue with
  | [] => Ok st
  | s :: queue' => let! st' := connect_step st s in connect st' queue'
  end.
(** slicer.cpp:462-467: what the loop starts with *)
Definition initial (polys lines : list (list pt)) : state := State lines polys (new_tracking (length lines * 2)).

(** slicer.cpp:34-36 *)
Definition largest_neglected_gap_first_phase : Z := 10.
Definition largest_neglected_gap_second_phase : Z := 20.
Definition max_stitch1 : Z := 10000.
(** slicer.cpp:134-147: the parameters of connectOpenPolylines and stitch: max_dist, cell_size, allow_reverse *)
Definition connectOpenPolylines_parameters : Z * Z * bool := (largest_neglected_gap_second_phase, largest_neglected_gap_first_phase * 2, false).
Definition stitch_parameters : Z * Z * bool := (max_stitch1, max_stitch1, true).

(** ** Extensive stitching *)
(** slicer.cpp:705-737 findPolygonPointClosestTo: one polygon; the points with their indices *)
Fixpoint closest_in (input p0 : pt) (l : list (nat * pt)) : option nat :=
  match l with
  | [] => None
  | (i, p1) :: l' =>
      let pDiff := psub p1 p0 in
      let lineLength := vSize pDiff in
      if 1 <? lineLength then
        let distOnLine := dot pDiff (psub input p0) ÷ lineLength in
        if (0 <=? distOnLine) && (distOnLine <=? lineLength) then
          let q := padd p0 (pdiv (pscale pDiff distOnLine) lineLength) in
          if shorterThen (psub q input) 100 then Some i else closest_in input p1 l'
        else closest_in input p1 l'
      else closest_in input p1 l'
  end.
(** the polygons with their numbers; the last point of an empty one is out of bounds *)
Fixpoint findPolygonPointClosestTo (input : pt) (polys : list (nat * list pt)) : res (option (nat * nat)) :=
  match polys with
  | [] => Ok None
  | (n, poly) :: polys' =>
      let! p0 := of_opt (last poly) in
      match closest_in input p0 (zip (seq 0 (length poly)) poly) with
      | Some i => Ok (Some (n, i))
      | None => findPolygonPointClosestTo input polys'
      end
  end.
(** for (i = a; i != b; i = (i + 1) % size): the indices visited *)
Fixpoint stretch (fuel size a b : nat) : res (list nat) :=
  if (a =? b)%nat then Ok []
  else match fuel with
       | O => NoFuel
       | S fuel' => let! l := stretch fuel' size ((a + 1) mod size)%nat b in Ok (a :: l)
       end.
(** slicer.h:51-59 GapCloserResult *)
Record gap_closer := GapCloser { gc_len : Z; gc_polygon : nat; gc_A : nat; gc_B : nat; gc_AtoB : bool }.
(** The points of a stretch of a polygon *)
Fixpoint points_at (poly : list pt) (l : list nat) : res (list pt) :=
  match l with
  | [] => Ok []
  | i :: l' => let! p := of_opt (poly !! i) in let! ps := points_at poly l' in Ok (p :: ps)
  end.
Definition stretch_points (poly : list pt) (a b : nat) : res (list pt) :=
  let! l := stretch (length poly) (length poly) a b in points_at poly l.
(** The length along points *)
Fixpoint path_length (p0 : pt) (l : list pt) : Z :=
  match l with [] => 0 | p1 :: l' => vSize (psub p0 p1) + path_length p1 l' end.
(** slicer.cpp:648-703 findPolygonGapCloser *)
Definition findPolygonGapCloser (polys : list (list pt)) (ip0 ip1 : pt) : res (option gap_closer) :=
  let! c1 := findPolygonPointClosestTo ip0 (numbered polys) in
  let! c2 := findPolygonPointClosestTo ip1 (numbered polys) in
  match c1, c2 with
  | Some (n, a), Some (n', b) =>
      if (n =? n')%nat then
        if (a =? b)%nat then Ok (Some (GapCloser (vSize (psub ip0 ip1)) n a b true))
        else
          let! poly := of_opt (polys !! n) in
          let! pa := of_opt (poly !! a) in
          let! pb := of_opt (poly !! b) in
          let! ab := stretch_points poly a b in
          let! ba := stretch_points poly b a in
          let lenA := vSize (psub pa ip0) + path_length pa (ab ++ [ip1]) in
          let lenB := vSize (psub pb ip1) + path_length pb (ba ++ [ip0]) in
          Ok (Some (if lenA <? lenB then GapCloser lenA n a b true else GapCloser lenB n a b false))
      else Ok None
  | _, _ => Ok None
  end.
(** slicer.cpp:549-583: the best pair of ends.  [pairs] are the pairs of lines in the order in which the loops visit them *)
Definition try_pair (polys lines : list (list pt)) (best : option (nat * nat * gap_closer)) (ij : nat * nat) : res (option (nat * nat * gap_closer)) :=
  match head (default [] (lines !! ij.1)), last (default [] (lines !! ij.2)) with
  | Some ip0, Some ip1 =>
      let! r := findPolygonGapCloser polys ip0 ip1 in
      Ok match r with
         | Some g => match best with
                     | None => Some (ij, g)
                     | Some (_, best_g) => if gc_len g <? gc_len best_g then Some (ij, g) else best
                     end
         | None => best
         end
  | _, _ => Ok best
  end.
Fixpoint best_pair (polys lines : list (list pt)) (best : option (nat * nat * gap_closer)) (pairs : list (nat * nat)) : res (option (nat * nat * gap_closer)) :=
  match pairs with
  | [] => Ok best
  | ij :: pairs' => let! best := try_pair polys lines best ij in best_pair polys lines best pairs'
  end.
Definition all_pairs (n : nat) : list (nat * nat) :=
  flat_map (fun i => (i, i) :: map (pair i) (filter (fun j => j <> i) (seq 0 n))) (seq 0 n).
(** slicer.cpp:585-641: what is done with the best pair: new lines and polygons *)
Definition close_gap (polys lines : list (list pt)) (i j : nat) (g : gap_closer) : res (list (list pt) * list (list pt)) :=
  let! line_1 := of_opt (lines !! i) in
  let! line_2 := of_opt (lines !! j) in
  let! poly := of_opt (polys !! gc_polygon g) in
  if (i =? j)%nat then
    if (gc_A g =? gc_B g)%nat then Ok (<[i := []]> lines, polys ++ [line_1])
    else if gc_AtoB g then
      let! detour := stretch_points poly (gc_A g) (gc_B g) in
      Ok (<[i := []]> lines, polys ++ [detour ++ reverse line_1])
    else
      let! detour := stretch_points poly (gc_B g) (gc_A g) in
      Ok (<[i := []]> lines, polys ++ [line_1 ++ detour])
  else
    if (gc_A g =? gc_B g)%nat then Ok (<[i := []]> (<[j := line_2 ++ line_1]> lines), polys)
    else if gc_AtoB g then
      let! detour := stretch_points poly (gc_A g) (gc_B g) in
      Ok (<[i := []]> (<[j := line_2 ++ reverse detour ++ line_1]> lines), polys)
    else
      let! detour := stretch_points poly (gc_B g) (gc_A g) in
      Ok (<[i := []]> (<[j := line_2 ++ detour ++ reverse line_1]> lines), polys).
(** slicer.cpp:540-646 stitch_extensive: the lines and polygons afterwards *)
Fixpoint stitch_extensive (fuel : nat) (polys lines : list (list pt)) : res (list (list pt) * list (list pt)) :=
  match fuel with
  | O => NoFuel
  | S fuel' =>
      let! best := best_pair polys lines None (all_pairs (length lines)) in
      match best with
      | None => Ok (lines, polys)
      | Some (i, j, g) => let! r := close_gap polys lines i j g in stitch_extensive fuel' r.2 r.1
      end
  end.
