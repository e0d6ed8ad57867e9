(** Model of the monotonic ordering of lines: PathOrderMonotonic (include/PathOrderMonotonic.h,
    src/PathOrderMonotonic.cpp) and PathOrder::detectLoops (include/PathOrder.h:119-135).

    Lines are numbered by the order in which they were added; [L i] is the vertex data of line [i] ([converted_]).
    The [start_vertex_] and [backwards_] fields of the paths are the functions [sv] and [bw].  Doubles are exact
    rationals.  The order in which an unordered container is iterated is not determined by the code: [shuffle] is the
    order in which the hash grid stores its entries and [walk] the order in which the set of starting lines is
    iterated; the theorems hold for every choice of both. *)
From Coq Require Import ZArith QArith Qminmax Qround.
From stdpp Require Import prelude gmap list.
From Verif Require Import Common Geo_Model Grid_Model.
Open Scope Z_scope.

(** PathOrder.h:98 *)
Definition coincident_point_distance : Z := 10.
(** PathOrderMonotonic.h:64 *)
Definition precision_factor : Q := 10.
(** std::numeric_limits<coord_t>::max() *)
Definition coord_max : Z := 2 ^ 63 - 1.

(** std::llround: to the nearest integer, halfway cases away from zero. *)
Definition llround (q : Q) : Z :=
  if Qle_bool 0 q then Qfloor (q + (1 # 2)) else - Qfloor (- q + (1 # 2)).

(** PathOrderMonotonic.h:96-99 [projectToVector], with Point2D::dot (geometry/Point2D.h:86-89) *)
Definition projectToVector (p : pt) (d : Q * Q) : Q := (inject_Z p.1 * d.1 + inject_Z p.2 * d.2)%Q.
(** geometry/Point2D.h:56-59 *)
Definition rotated90CCW (d : Q * Q) : Q * Q := (- d.2, d.1)%Q.

(** The mutable fields of the paths. *)
Record marks := Marks { sv : nat -> nat; bw : nat -> bool }.
Definition mark (m : marks) (i : nat) (s : nat) (b : bool) : marks :=
  Marks (fun j => if (j =? i)%nat then s else sv m j) (fun j => if (j =? i)%nat then b else bw m j).

(** What the result says of a line: which one, where it starts, and its [backwards_]. *)
Definition planned := (nat * nat * bool)%type.

Section mono.
  Variable L : nat -> list pt.
  Variable monotonic_vector : Q * Q.
  Variable start_point : pt.
  Variable shuffle : gridmap (pt * nat) -> gridmap (pt * nat).
  Variable walk : list nat -> list nat.

  (** [front()] and [back()]; only asked of lines with at least two vertices (PathOrderMonotonic.cpp:35). *)
  Definition front (i : nat) : pt := List.hd (0, 0) (L i).
  Definition back (i : nat) : pt := List.last (L i) (0, 0).
  Definition size (i : nat) : nat := length (L i).
  Definition vertex (i : nat) (k : nat) : pt := List.nth k (L i) (0, 0).

  Definition projectToMonotonicVector (p : pt) : Q := projectToVector p monotonic_vector.

  (** PathOrderMonotonic.h:66-78 *)
  Definition setStartVertex (m : marks) (i : nat) (backwards : bool) : marks :=
    if backwards then mark m i (size i - 1) true else mark m i 0 false.

  (** PathOrderMonotonic.h:80-91, with the new position *)
  Definition optimizeClosestStartPoint (m : marks) (i : nat) (current_pos : pt) : marks * pt :=
    let m' := if (sv m i =? size i)%nat
              then setStartVertex m i (vSize2 (psub current_pos (back i)) <=? vSize2 (psub current_pos (front i)))
              else m in
    (m', vertex i (size i - 1 - sv m' i)).

  (** PathOrderMonotonic.h:111-123 *)
  Definition getFarthestEndpoint (i : nat) (p : pt) : nat :=
    if vSize2 (psub (front i) p) <? vSize2 (psub (back i) p) then (size i - 1)%nat else 0%nat.

  (** PathOrderMonotonic.h:132-136 *)
  Definition canConnectToPolyline (m : marks) (nearby_endpoint : pt) (found : pt * nat) : bool :=
    (sv m found.2 =? size found.2)%nat &&
    (vSize2 (psub found.1 nearby_endpoint) <? coincident_point_distance * coincident_point_distance).

  (** PathOrderMonotonic.cpp:255-263: the hash grid of the endpoints, with cells of 2 mm *)
  Definition cell_size : Z := 2000.
  Definition endpoints (polylines : list nat) : list (pt * nat) :=
    concat (map (fun i => if (size i =? 0)%nat then [] else [(front i, i); (back i, i)]) polylines).
  Definition line_bucket_grid (polylines : list nat) : gridmap (pt * nat) :=
    shuffle (fold_left (point_insert fst cell_size) (endpoints polylines) []).

  (** PathOrderMonotonic.cpp:122-128 and the three copies of it: the first nearby line that can be connected *)
  Definition close_line (g : gridmap (pt * nat)) (m : marks) (e : pt) : option (pt * nat) :=
    List.find (canConnectToPolyline m e) (getNearby cell_size g e coincident_point_distance).

  (** PathOrderMonotonic.cpp:138-154 *)
  Fixpoint grow_front (fuel : nat) (g : gridmap (pt * nat)) (m : marks) (result : list nat) (first_endpoint : pt)
      (close_line_before : option (pt * nat)) : res (marks * list nat * pt) :=
    match close_line_before with
    | None => Ok (m, result, first_endpoint)
    | Some f =>
        match fuel with
        | 0%nat => NoFuel
        | S fuel =>
            let farthest_vertex := getFarthestEndpoint f.2 f.1 in
            let m := mark m f.2 farthest_vertex (negb (farthest_vertex =? 0)%nat) in
            let first_endpoint := vertex f.2 farthest_vertex in
            grow_front fuel g m (f.2 :: result) first_endpoint (close_line g m first_endpoint)
        end
    end.

  (** PathOrderMonotonic.cpp:155-171 *)
  Fixpoint grow_back (fuel : nat) (g : gridmap (pt * nat)) (m : marks) (result : list nat) (last_endpoint : pt)
      (close_line_after : option (pt * nat)) : res (marks * list nat * pt) :=
    match close_line_after with
    | None => Ok (m, result, last_endpoint)
    | Some f =>
        match fuel with
        | 0%nat => NoFuel
        | S fuel =>
            let farthest_vertex := getFarthestEndpoint f.2 f.1 in
            let m := mark m f.2 (if (farthest_vertex =? 0)%nat then (size f.2 - 1)%nat else 0%nat)
                       (negb (farthest_vertex =? 0)%nat) in
            let last_endpoint := vertex f.2 farthest_vertex in
            grow_back fuel g m (result ++ [f.2]) last_endpoint (close_line g m last_endpoint)
        end
    end.

  (** PathOrderMonotonic.cpp:180-184: turning one path of the string around *)
  Definition flip (m : marks) (i : nat) : marks :=
    mark m i (if (sv m i =? 0)%nat then (size i - 1)%nat else 0%nat) (negb (bw m i)).

  (** PathOrderMonotonic.cpp:107-192.  [close_line_after] is looked up before the first loop runs.  The fuel of the two
      loops is the number of lines plus two. *)
  Definition findPolylineString (fuel : nat) (g : gridmap (pt * nat)) (m : marks) (polyline : nat)
      : res (marks * list nat) :=
    if (size polyline =? 0)%nat then Ok (m, [])
    else
      let m := mark m polyline 0 (bw m polyline) in
      let close_line_before := close_line g m (front polyline) in
      let close_line_after := close_line g m (back polyline) in
      let! r := grow_front fuel g m [polyline] (front polyline) close_line_before in
      let! r' := grow_back fuel g r.1.1 r.1.2 (back polyline) close_line_after in
      let m := r'.1.1 in
      let result := r'.1.2 in
      let flipped := negb (Qle_bool (projectToMonotonicVector r.2) (projectToMonotonicVector r'.2)) in
      let result' := if flipped then rev result else result in
      let m := if flipped then fold_left flip result' m else m in
      match result' with
      | [i] => Ok (mark m i (size i) (bw m i), result')
      | _ => Ok (m, result')
      end.

  Definition low (d : Q * Q) (i : nat) : Q := Qmin (projectToVector (front i) d) (projectToVector (back i) d).
  Definition high (d : Q * Q) (i : nat) : Q := Qmax (projectToVector (front i) d) (projectToVector (back i) d).

  (** PathOrderMonotonic.cpp:215-243: the loop over the lines after this one; [adj] is [max_adjacent_distance] *)
  Fixpoint overlapping (adj : Z) (me : nat) (later : list nat) : list nat :=
    match later with
    | [] => []
    | they :: later =>
        let v := monotonic_vector in
        let h := rotated90CCW v in
        let far_padded := (high v me + inject_Z adj)%Q in
        let near_padded := (low v me - inject_Z adj)%Q in
        if negb (Qle_bool (low v they) far_padded) || negb (Qle_bool near_padded (high v they)) then []
        else
          let my_closest := (low h me - inject_Z adj)%Q in
          let my_farthest := (high h me + inject_Z adj)%Q in
          if (Qle_bool (low h they) my_closest && Qle_bool my_closest (high h they))
             || (Qle_bool (low h they) my_farthest && Qle_bool my_farthest (high h they))
             || (Qle_bool my_closest (low h they) && Qle_bool (high h they) my_farthest)
          then they :: overlapping adj me later
          else overlapping adj me later
    end.

  (** What follows line [i] in the list: [std::find] and then [+ 1]. *)
  Fixpoint after (i : nat) (polylines : list nat) : list nat :=
    match polylines with
    | [] => []
    | j :: rest => if (j =? i)%nat then rest else after i rest
    end.

  (** PathOrderMonotonic.cpp:195-246.  Lines occur once in [polylines], so that the iterator passed by the caller and the
      one found by [std::find] are the same. *)
  Definition getOverlappingLines (i : nat) (polylines : list nat) (adj : Z) : list nat :=
    overlapping adj i (after i polylines).

  (** PathOrderMonotonic.cpp:281-283 *)
  Record links := Links { connected : gset nat; starting : gset nat; connections : gmap nat nat }.

  (** PathOrderMonotonic.cpp:296-318: the loop over the pairs of a string *)
  Fixpoint link_string (adj : Z) (polylines polystring rest : list nat) (k : links) : links :=
    match rest with
    | a :: ((b :: _) as rest') =>
        let over := List.filter (fun o => negb (bool_decide (o ∈ polystring))) (getOverlappingLines a polylines adj) in
        let starting' := match over with
                         | [] => starting k
                         | _ => {[b]} ∪ (list_to_set over ∪ starting k)
                         end in
        link_string adj polylines polystring rest'
          (Links ({[b]} ∪ connected k) starting' (<[a := b]> (connections k)))
    | _ => k
    end.

  (** PathOrderMonotonic.cpp:321-347 *)
  Definition link_single (adj : Z) (polylines : list nat) (i : nat) (k : links) : links :=
    let starting' := if bool_decide (i ∈ connected k) then starting k else {[i]} ∪ starting k in
    match getOverlappingLines i polylines adj with
    | [o] =>
        if bool_decide (o ∈ connected k)
        then Links (connected k) ({[o]} ∪ starting') (<[i := o]> (connections k))
        else Links ({[o]} ∪ connected k) starting' (<[i := o]> (connections k))
    | over => Links (connected k) (list_to_set over ∪ starting') (connections k)
    end.

  (** PathOrderMonotonic.cpp:285-349: one line *)
  Definition link_line (g : gridmap (pt * nat)) (adj : Z) (polylines : list nat) (s : marks * links) (i : nat)
      : res (marks * links) :=
    if bool_decide (is_Some (connections s.2 !! i)) then Ok s
    else
      let! r := findPolylineString (length polylines + 2) g s.1 i in
      match r.2 with
      | a :: _ :: _ =>
          Ok (r.1, link_string adj polylines r.2 r.2
                     (Links (connected s.2) ({[a]} ∪ starting s.2) (connections s.2)))
      | _ => Ok (r.1, link_single adj polylines i s.2)
      end.

  Fixpoint link_lines (g : gridmap (pt * nat)) (adj : Z) (polylines : list nat) (s : marks * links) (todo : list nat)
      : res (marks * links) :=
    match todo with
    | [] => Ok s
    | i :: todo => let! s := link_line g adj polylines s i in link_lines g adj polylines s todo
    end.

  (** PathOrderMonotonic.cpp:351-367: LineProjections and its order *)
  Definition LineProjections (i : nat) : Z * Z :=
    let a := llround (projectToVector (front i) monotonic_vector / precision_factor) in
    let b := llround (projectToVector (back i) monotonic_vector / precision_factor) in
    (Z.min a b, Z.max a b).
  Definition key_lt (a b : Z * Z) : bool := (a.1 <? b.1) || ((a.1 =? b.1) && (a.2 <? b.2)).

  (** [std::multimap::insert]: behind the entries whose key is not larger *)
  Fixpoint pre_order_insert (i : nat) (l : list nat) : list nat :=
    match l with
    | [] => [i]
    | j :: l' => if key_lt (LineProjections i) (LineProjections j) then i :: l else j :: pre_order_insert i l'
    end.

  (** [equal_range] of the first key: the entries not larger than the first *)
  Fixpoint row (i : nat) (l : list nat) : list nat :=
    match l with
    | [] => []
    | j :: l' => if key_lt (LineProjections i) (LineProjections j) then [] else j :: row i l'
    end.

  (** PathOrderMonotonic.cpp:386-403: the closest line of the row *)
  Definition closest_step (current_pos : pt) (best : option (nat * bool) * Z) (i : nat) : option (nat * bool) * Z :=
    let dist_start := vSize2 (psub current_pos (front i)) in
    let dist_end := vSize2 (psub current_pos (back i)) in
    let best := if dist_start <? best.2 then (Some (i, false), dist_start) else best in
    if dist_end <? best.2 then (Some (i, true), dist_end) else best.

  (** PathOrderMonotonic.cpp:411-428: the lines printed together with the closest one.  [connection] is the
      iterator of the last line.  The connections do not change any more, so that of the checked ones only the first
      parts matter. *)
  Fixpoint follow (fuel : nat) (k : links) (m : marks) (pos : pt) (checked : gset nat) (line : nat)
      (reordered : list planned) : res (marks * pt * list planned) :=
    match connections k !! line with
    | None => Ok (m, pos, reordered)
    | Some next =>
        if bool_decide (next ∈ starting k) || bool_decide (line ∈ checked) then Ok (m, pos, reordered)
        else match fuel with
             | 0%nat => NoFuel
             | S fuel =>
                 let r := optimizeClosestStartPoint m next pos in
                 follow fuel k r.1 r.2 ({[line]} ∪ checked) next (reordered ++ [(next, sv r.1 next, bw r.1 next)])
             end
    end.

  (** PathOrderMonotonic.cpp:376-429; without a closest line the end iterator would be dereferenced.  A line occurs once
      in the multimap, so that erasing the iterator erases the line. *)
  Fixpoint print_rows (fuel : nat) (k : links) (m : marks) (pos : pt) (pre : list nat) (reordered : list planned)
      : res (marks * list planned) :=
    match pre with
    | [] => Ok (m, reordered)
    | first :: _ =>
        match fuel with
        | 0%nat => NoFuel
        | S fuel =>
            match (fold_left (closest_step pos) (row first pre) (None, coord_max)).1 with
            | None => UB
            | Some (i, backwards) =>
                let m := setStartVertex m i backwards in
                let pos := vertex i (size i - 1 - sv m i) in
                let! r := follow (S (base.size (connections k))) k m pos ∅ i (reordered ++ [(i, sv m i, bw m i)]) in
                print_rows fuel k r.1.1 r.1.2 (List.filter (fun j => negb (j =? i)%nat) pre) r.2
            end
        end
    end.

  (** PathOrderMonotonic.cpp:248-432 *)
  Definition makeOrderedPath (m : marks) (polylines : list nat) (adj : Z) : res (marks * list planned) :=
    let g := line_bucket_grid polylines in
    let! s := link_lines g adj polylines (m, Links ∅ ∅ ∅) polylines in
    let pre := fold_left (fun l i => pre_order_insert i l) (walk (elements (starting s.2))) [] in
    print_rows (length pre) s.2 s.1 start_point pre [].

  (** PathOrderMonotonic.cpp:48-62: [std::stable_sort] by the smaller projection; a stable sort has one result only *)
  Fixpoint sort_insert (i : nat) (l : list nat) : list nat :=
    match l with
    | [] => [i]
    | j :: l' => if Qle_bool (low monotonic_vector i) (low monotonic_vector j) then i :: l else j :: sort_insert i l'
    end.
  Definition sort_lines (l : list nat) : list nat := fold_right sort_insert [] l.

  (** PathOrderMonotonic.cpp:75-90: the two passes; [second] tells in which of the two the last line was put.
      The division of max_adjacent_distance_ by two is a division of coord_t. *)
  Fixpoint split_passes (adj : Z) (cur : option (bool * Q)) (l : list nat) : list nat * list nat :=
    match l with
    | [] => ([], [])
    | i :: l =>
        let p := projectToMonotonicVector (front i) in
        let cur' := match cur with
                    | None => (false, p)
                    | Some (second, q) => if Qle_bool (p - q) (inject_Z (adj ÷ 2)) then (second, q) else (negb second, p)
                    end in
        let r := split_passes adj (Some cur') l in
        if cur'.1 then (r.1, i :: r.2) else (i :: r.1, r.2)
    end.

  (** PathOrder.h:119-135: is this a loop?  [closed i] is [is_closed_] as given by the caller. *)
  Definition detectLoop (closed : nat -> bool) (i : nat) : bool :=
    closed i || ((3 <=? size i)%nat && (vSize2 (psub (back i) (front i)) <? coincident_point_distance * coincident_point_distance)).

  (** PathOrderMonotonic.cpp:15-104, for [n] lines *)
  Definition optimize (n : nat) (closed : nat -> bool) (m : marks) (adj : Z) (interlaced : bool) : res (list planned) :=
    let is_loop i := detectLoop closed i || (size i <=? 1)%nat in
    let loops := List.filter is_loop (seq 0 n) in
    let lines := List.filter (fun i => negb (is_loop i)) (seq 0 n) in
    let m0 := fold_left (fun m i => mark m i (size i) (bw m i)) lines m in
    let polylines := sort_lines lines in
    let reordered := map (fun i => (i, sv m i, bw m i)) loops in
    if interlaced then
      let passes := split_passes adj None polylines in
      let! r1 := makeOrderedPath m0 passes.1 (adj * 2) in
      let! r2 := makeOrderedPath r1.1 passes.2 (adj * 2) in
      Ok (r2.2 ++ r1.2 ++ reordered)
    else
      let! r := makeOrderedPath m0 polylines adj in
      Ok (r.2 ++ reordered).
End mono.
