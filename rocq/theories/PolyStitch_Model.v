(** Model of src/utils/PolylineStitcher.cpp: PolylineStitcher::stitch. *)
From Coq Require Import ZArith.
From stdpp Require Import list.
From Verif Require Import Common Geo_Model Order_Model Grid_Model.
Open Scope Z_scope.

(** std::numeric_limits<coord_t>::max() *)
Definition COORD_MAX : Z := 9223372036854775807.

Section stitch.
  (** The template parameter Junction with make_point (ExtrusionJunction.h:45-60). *)
  Context {J : Type} (make_point : J -> pt).
  (** Which instantiation: [true] for ExtrusionLineStitcher, [false] for the two others. *)
  Variable walls : bool.
  (** The input: the points of each line, and ExtrusionLine::is_odd_ (only read if [walls]).  Input lines
      are open (ExtrusionLine::is_closed_ is false: ExtrusionLine::length would count a closing line). *)
  Variable lines : list (list J * bool).
  Variables max_stitch_distance snap_distance : Z.

  (** PathsPointIndex: line number and point number *)
  Notation ppi := (nat * nat)%type.

  Definition odd_of (i : nat) : bool := default false (snd <$> lines !! i).
  (** PolylineStitcher.cpp:16-39 *)
  Definition canReverse (n : ppi) : bool := if walls then odd_of n.1 else true.
  (** PolylineStitcher.cpp:41-57; the chain is odd if its first line is (it is a copy of it) *)
  Definition canConnect (chain_odd : bool) (i : nat) : bool := if walls then eqb chain_odd (odd_of i) else true.
  (** PolylineStitcher.cpp:59-75 *)
  Definition isOdd (i : nat) : bool := if walls then odd_of i else false.

  Definition points_of (i : nat) : list J := default [] (fst <$> lines !! i).
  (** PathsPointIndex::p(); only points that exist are put in the grid (see [populate]) *)
  Definition p_of (n : ppi) : pt := default (0, 0) (make_point <$> (points_of n.1 !! n.2)).

  (** PolylineStitcher.cpp:108-117.  Both ends of every line; on an empty line reading the point is
      out of bounds. *)
  Definition ends : list ppi := flat_map (fun i => [(i, 0%nat); (i, pred (length (points_of i)))]) (seq 0 (length lines)).
  Definition populate : res (gridmap ppi) :=
    if forallb (fun l : list J * bool => negb (bool_decide (l.1 = []))) lines
    then Ok (fold_left (point_insert p_of max_stitch_distance) ends [])
    else UB.

  (** Polyline.cpp:135-145 and ExtrusionLine.cpp:15-33 (which adds a zero first) *)
  Fixpoint length_of (c : list J) : Z :=
    match c with
    | a :: (b :: _) as c' => vSize (psub (make_point b) (make_point a)) + length_of c'
    | _ => 0
    end.

  (** The variables closest, closest_is_closing_polygon, closest_distance *)
  Record search := Search { closest : option ppi; closing : bool; closest_distance : Z }.

  (** PolylineStitcher.cpp:160-217: the callback *)
  Definition visit (go_in_reverse_direction should_close chain_odd : bool) (from front : pt) (chain_size : nat)
      (chain_length : Z) (processed : list bool) (s : search) (nearby : ppi) : search * bool :=
    let dist := vSize (psub (p_of nearby) from) in
    if max_stitch_distance <? dist then (s, true)
    else
      let near_front := vSize2 (psub (p_of nearby) front) <? snap_distance * snap_distance in
      if near_front && ((chain_length + dist <? 3 * max_stitch_distance) || (chain_size <=? 2)%nat) then (s, true)
      else if negb near_front && default true (processed !! nearby.1) then (s, true)
      else
        let dist := if near_front then (if negb should_close then dist + 10 else dist - 10) else dist in
        let nearby_would_be_reversed := xorb (negb (nearby.2 =? 0)%nat) go_in_reverse_direction in
        if negb (canReverse nearby) && nearby_would_be_reversed then (s, true)
        else if negb (canConnect chain_odd nearby.1) then (s, true)
        else
          let s' := if dist <? closest_distance s then Search (Some nearby) near_front dist else s in
          (s', negb (dist <? snap_distance)).

  (** PolylineStitcher.cpp:255-258: the length added by the points from position [old_size] on *)
  Definition added_length (last : J) (added : list J) : Z := length_of (last :: added).

  (** The local variables of one line: chain, chain_length, should_close, processed *)
  Record chain_st := Chain { chain : list J; chain_length : Z; should_close : bool; processed : list bool }.

  Variable grid : gridmap ppi.

  (** PolylineStitcher.cpp:147-218: closest and closest_is_closing_polygon after asking the grid *)
  Definition find_next (go_in_reverse_direction chain_odd : bool) (from front : pt) (st : chain_st) (is_closing : bool) : search :=
    (processNearby max_stitch_distance grid from max_stitch_distance
       (visit go_in_reverse_direction (should_close st) chain_odd from front
          (length (chain st)) (chain_length st) (processed st))
       (Search None is_closing COORD_MAX)).1.

  (** PolylineStitcher.cpp:145-262: while (true).  Result: the variables and closest_is_closing_polygon.
      A failing assert is [UB]. *)
  Fixpoint extend (fuel : nat) (go_in_reverse_direction chain_odd : bool) (st : chain_st) (is_closing : bool)
      : res (chain_st * bool) :=
    match fuel with
    | O => NoFuel
    | S fuel' =>
        let! back := of_opt (last (chain st)) in
        let! front := of_opt (head (chain st)) in
        let from := make_point back in
        let s := find_next go_in_reverse_direction chain_odd from (make_point front) st is_closing in
        match closest s with
        | None => Ok (st, closing s)
        | Some n =>
            if closing s then Ok (st, true)
            else
              let segment_dist := vSize (psub from (p_of n)) in
              let line := if (n.2 =? 0)%nat then points_of n.1 else reverse (points_of n.1) in
              let added := if segment_dist <? snap_distance then tail line else line in
              if max_stitch_distance + 10 <? segment_dist then UB
              else if default true (processed st !! n.1) then UB
              else
                extend fuel' go_in_reverse_direction chain_odd
                  (Chain (chain st ++ added) (chain_length st + added_length back added)
                     (should_close st && negb (isOdd n.1)) (<[n.1 := true]> (processed st)))
                  false
        end
    end.

  (** PolylineStitcher.cpp:121-292: one line that is not yet processed.  Result: processed, and the
      chain with whether it is pushed to the closed result. *)
  Definition stitch_line (fuel line_idx : nat) (processed0 : list bool) : res (list bool * (list J * bool)) :=
    let odd := isOdd line_idx in
    let line := points_of line_idx in
    let! f := extend fuel false (odd_of line_idx) (Chain line (length_of line) odd (<[line_idx := true]> processed0)) false in
    if (f.2 : bool) then Ok (processed f.1, (chain f.1, true))
    else
      let c := reverse (chain f.1) in
      let! b := extend fuel true (odd_of line_idx) (Chain c (length_of c) (should_close f.1) (processed f.1)) f.2 in
      if (b.2 : bool) then Ok (processed b.1, (reverse (chain b.1), true))
      else Ok (processed b.1, (if canReverse (line_idx, 0%nat) then chain b.1 else reverse (chain b.1), false)).

  (** PolylineStitcher.cpp:121-294: for all lines; results are added to result_lines and result_polygons. *)
  Fixpoint stitch_lines (fuel : nat) (idxs : list nat) (processed0 : list bool) (result_lines result_polygons : list (list J))
      : res (list (list J) * list (list J)) :=
    match idxs with
    | [] => Ok (result_lines, result_polygons)
    | i :: idxs' =>
        if default true (processed0 !! i) then stitch_lines fuel idxs' processed0 result_lines result_polygons
        else
          let! r := stitch_line fuel i processed0 in
          if (r.2.2 : bool) then stitch_lines fuel idxs' r.1 result_lines (result_polygons ++ [r.2.1])
          else stitch_lines fuel idxs' r.1 (result_lines ++ [r.2.1]) result_polygons
    end.
End stitch.
Arguments Chain {J}.
Arguments chain {J}.
Arguments chain_length {J}.
Arguments should_close {J}.
Arguments processed {J}.

(** PolylineStitcher.cpp:94-295.  The order in which the grid stores its elements is [order], any
    permutation.  The grid constructor asserts that its cell size is positive (SquareGrid.cpp:12-16). *)
Definition stitch {J} (make_point : J -> pt) (walls : bool) (order : gridmap (nat * nat) -> gridmap (nat * nat))
    (lines : list (list J * bool)) (result_lines result_polygons : list (list J)) (max_stitch_distance snap_distance : Z)
    : res (list (list J) * list (list J)) :=
  if bool_decide (lines = []) then Ok (result_lines, result_polygons)
  else if max_stitch_distance <=? 0 then UB
  else
    let! g := populate make_point lines max_stitch_distance in
    stitch_lines make_point walls lines max_stitch_distance snap_distance (order g) (S (length lines))
      (seq 0 (length lines)) (replicate (length lines) false) result_lines result_polygons.
