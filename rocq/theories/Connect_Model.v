(** Model of the connecting of infill lines along the outline: src/infill.cpp:924-1115 (connectLines), 1146-1170 (swapDirection, appendTo).

    Pointers to segments are numbers, the heap is a finite map; a segment that was deleted is not in it.  The union-find structure is
    modelled in UnionFind_Model (C01); here it is the partition it stands for: the lines in the order in which they were added, each with the
    handle of its group.  Whether two lines cross near the outline and what resolveIntersection (infill.cpp:874-922, 1009-1020) computes in that
    case is an argument of the model.  Coordinates are unbounded integers. *)
From Coq Require Import ZArith.
From stdpp Require Import prelude list gmap.
From Verif Require Import Common Geo_Model.
Open Scope Z_scope.

(** include/infill.h:258-382 (InfillLineSegment); the segment and the polygon of the end are never read *)
Record seg := Seg {
  start : pt;
  end_ : pt;
  altered_start : pt;
  altered_end : pt;
  start_bend : option pt;
  end_bend : option pt;
  start_segment : nat;
  start_polygon : nat;
  previous : option nat;
  next : option nat
}.
(** infill.h:268-280 *)
Definition new_seg (a : pt) (segment polygon : nat) (b : pt) : seg := Seg a b a b None None segment polygon None None.

(** infill.cpp:1146-1152; start_segment_ is not swapped *)
Definition swapDirection (s : seg) : seg :=
  Seg (end_ s) (start s) (altered_end s) (altered_start s) (end_bend s) (start_bend s) (start_segment s) (start_polygon s) (next s) (previous s).
(** infill.cpp:1154-1170 *)
Definition appendTo (include_start : bool) (s : seg) : list pt :=
  (if include_start then [altered_start s] else []) ++ option_list (start_bend s) ++ option_list (end_bend s) ++ [altered_end s].

(** What resolveIntersection does: not called, or it finds the two bends and the new ends, or it gives up, having overwritten the altered ends. *)
Inductive resolution := NotTried | Resolved (bend_a bend_b end_a end_b : pt) | Failed (end_a end_b : pt).

Notation heap := (gmap nat seg).
Record state := State {
  segs : heap;
  fresh_id : nat;
  groups : list (nat * nat); (** connected_lines *)
  drawing : option (nat * nat) (** previous_crossing and previous_segment, either both or none *)
}.

(** UnionFind.h:61-70, 99-117, see C01 *)
Fixpoint find_group (line : nat) (g : list (nat * nat)) : option nat :=
  match g with
  | [] => None
  | (l, group) :: g => if decide (l = line) then Some group else find_group line g
  end.
Definition unite (first second : nat) (g : list (nat * nat)) : list (nat * nat) :=
  map (fun x => (x.1, if decide (x.2 = first) then second else x.2)) g.

(** infill.cpp:926-940 *)
Definition add_line (g : list (nat * nat)) (line : nat) : list (nat * nat) :=
  match find_group line g with Some _ => g | None => g ++ [(line, line)] end.
Definition add_lines (crossings_on_line : list (list (list nat))) : list (nat * nat) :=
  foldl add_line [] (concat (concat crossings_on_line)).

Section connect.
  Variable resolve : seg -> seg -> bool -> bool -> resolution.

  (** whether the start of the segment is the end that is on the given edge; if not, it is the other one *)
  Definition at_start (polygon_index vertex_index : nat) (s : seg) : bool :=
    (start_segment s =? vertex_index)%nat && (start_polygon s =? polygon_index)%nat.
  Definition end_at (forward : bool) (s : seg) : pt := if forward then start s else end_ s.
  Definition set_link (forward : bool) (link : option nat) (s : seg) : seg :=
    if forward then Seg (start s) (end_ s) (altered_start s) (altered_end s) (start_bend s) (end_bend s) (start_segment s) (start_polygon s) link (next s)
    else Seg (start s) (end_ s) (altered_start s) (altered_end s) (start_bend s) (end_bend s) (start_segment s) (start_polygon s) (previous s) link.
  (** infill.cpp:880-914: the end of the segment is moved, with a bend; or only its altered end *)
  Definition move_end (forward : bool) (bend new_end : pt) (s : seg) : seg :=
    if forward then Seg new_end (end_ s) new_end (altered_end s) (Some bend) (end_bend s) (start_segment s) (start_polygon s) (previous s) (next s)
    else Seg (start s) new_end (altered_start s) new_end (start_bend s) (Some bend) (start_segment s) (start_polygon s) (previous s) (next s).
  Definition spoil_end (forward : bool) (new_end : pt) (s : seg) : seg :=
    if forward then Seg (start s) (end_ s) new_end (altered_end s) None (end_bend s) (start_segment s) (start_polygon s) (previous s) (next s)
    else Seg (start s) (end_ s) (altered_start s) new_end (start_bend s) None (start_segment s) (start_polygon s) (previous s) (next s).

  (** infill.cpp:960-973: the distance of the end on this edge from the vertex before; the order is stable *)
  Definition rounded_sqrt (n : Z) : Z := let r := Z.sqrt n in if n <=? r * r + r then r else r + 1.
  Definition crossing_key (polygon_index vertex_index : nat) (vertex_before : pt) (h : heap) (line : nat) : Z :=
    match h !! line with
    | Some s => let p := end_at (at_start polygon_index vertex_index s) s in rounded_sqrt (vSize2 (p.1 - vertex_before.1, p.2 - vertex_before.2))
    | None => 0
    end.
  Fixpoint insert_line (key : nat -> Z) (c : nat) (l : list nat) : list nat :=
    match l with
    | [] => [c]
    | c' :: l' => if key c <=? key c' then c :: l else c' :: insert_line key c l'
    end.
  Definition sort_lines (key : nat -> Z) (l : list nat) : list nat := foldr (insert_line key) [] l.

  (** infill.cpp:994-1034: joins the two segments *)
  Definition join (polygon_index vertex_index previous_segment crossing : nat) (h : heap) (n : nat) : res (heap * nat) :=
    let! p := of_opt (h !! previous_segment) in
    let! c := of_opt (h !! crossing) in
    let previous_forward := at_start polygon_index vertex_index p in
    let next_forward := at_start polygon_index vertex_index c in
    if decide (end_at previous_forward p = end_at next_forward c) then
      Ok (<[crossing := set_link next_forward (Some previous_segment) c]>
            (<[previous_segment := set_link previous_forward (Some crossing) p]> h), n)
    else
      let pc := match resolve p c previous_forward next_forward with
                | NotTried => (p, c)
                | Resolved bend_a bend_b end_a end_b => (move_end previous_forward bend_a end_a p, move_end next_forward bend_b end_b c)
                | Failed end_a end_b => (spoil_end previous_forward end_a p, spoil_end next_forward end_b c)
                end in
      let p := pc.1 in let c := pc.2 in
      let s := new_seg (end_at previous_forward p) vertex_index polygon_index (end_at next_forward c) in
      Ok (<[crossing := set_link next_forward (Some n) c]>
            (<[previous_segment := set_link previous_forward (Some n) p]>
               (<[n := set_link false (Some crossing) (set_link true (Some previous_segment) s)]> h)), S n).

  (** infill.cpp:975-1039 *)
  Definition step (polygon_index vertex_index : nat) (st : state) (crossing : nat) : res state :=
    match drawing st with
    | None => Ok (State (segs st) (fresh_id st) (groups st) (Some (crossing, crossing)))
    | Some (previous_crossing, previous_segment) =>
        let! crossing_handle := of_opt (find_group crossing (groups st)) in
        let! previous_crossing_handle := of_opt (find_group previous_crossing (groups st)) in
        if decide (crossing_handle = previous_crossing_handle) then Ok st
        else
          let! r := join polygon_index vertex_index previous_segment crossing (segs st) (fresh_id st) in
          Ok (State r.1 r.2 (unite crossing_handle previous_crossing_handle (groups st)) None)
    end.
  Fixpoint steps (polygon_index vertex_index : nat) (st : state) (crossings : list nat) : res state :=
    match crossings with
    | [] => Ok st
    | c :: crossings => let! st := step polygon_index vertex_index st c in steps polygon_index vertex_index st crossings
    end.

  (** infill.cpp:1041-1059 *)
  Definition corner (polygon_index vertex_index : nat) (vertex_after : pt) (st : state) : res state :=
    match drawing st with
    | None => Ok st
    | Some (previous_crossing, previous_segment) =>
        let! p := of_opt (segs st !! previous_segment) in
        let choose_side := at_start polygon_index vertex_index p in
        if decide (end_at choose_side p = vertex_after) then Ok (State (segs st) (fresh_id st) (groups st) None)
        else
          let n := fresh_id st in
          let s := set_link true (Some previous_segment) (new_seg (end_at choose_side p) vertex_index polygon_index vertex_after) in
          Ok (State (<[previous_segment := set_link choose_side (Some n) p]> (<[n := s]> (segs st))) (S n) (groups st) (Some (previous_crossing, n)))
    end.

  (** infill.cpp:953-1063 *)
  Fixpoint vertices (polygon_index vertex_index : nat) (vertex_before : pt) (polygon : list pt) (crossings_on_polygon : list (list nat)) (st : state) : res state :=
    match polygon with
    | [] => Ok st
    | vertex_after :: polygon =>
        let! crossings := of_opt (head crossings_on_polygon) in
        let! st := steps polygon_index vertex_index st (sort_lines (crossing_key polygon_index vertex_index vertex_before (segs st)) crossings) in
        let! st := corner polygon_index vertex_index vertex_after st in
        vertices polygon_index (S vertex_index) vertex_after polygon (tail crossings_on_polygon) st
    end.

  (** infill.cpp:942-1064 *)
  Fixpoint polygons (polygon_index : nat) (outline : list (list pt)) (crossings_on_line : list (list (list nat))) (st : state) : res state :=
    match outline with
    | [] => Ok st
    | polygon :: outline =>
        let st := State (segs st) (fresh_id st) (groups st) None in
        let! st := match last polygon with
                   | None => Ok st
                   | Some vertex_before =>
                       let! crossings_on_polygon := of_opt (head crossings_on_line) in
                       vertices polygon_index 0 vertex_before polygon crossings_on_polygon st
                   end in
        polygons (S polygon_index) outline (tail crossings_on_line) st
    end.

  (** infill.cpp:1076-1086: the end of the polyline *)
  Fixpoint to_end (fuel : nat) (h : heap) (current : nat) (previous_vertex : pt) : res nat :=
    match fuel with
    | O => NoFuel
    | S fuel =>
        let! s := of_opt (h !! current) in
        match next s, previous s with
        | Some n, Some p =>
            let choose_side := bool_decide (previous_vertex = start s) in
            to_end fuel h (if choose_side then n else p) (if choose_side then end_ s else start s)
        | _, _ => Ok current
        end
    end.
  (** infill.cpp:1098-1112 *)
  Fixpoint trace (fuel : nat) (h : heap) (current : option nat) (previous_vertex : pt) : res (heap * list pt) :=
    match current with
    | None => Ok (h, [])
    | Some i =>
        match fuel with
        | O => NoFuel
        | S fuel =>
            let! s := of_opt (h !! i) in
            let s := if decide (previous_vertex = start s) then s else swapDirection s in
            let! r := trace fuel (delete i h) (next s) (end_ s) in
            Ok (r.1, appendTo false s ++ r.2)
        end
    end.
  (** infill.cpp:1076-1112 *)
  Definition output (fuel : nat) (h : heap) (line : nat) : res (heap * list pt) :=
    let! s := of_opt (h !! line) in
    let! i := to_end fuel h line (start s) in
    let! s := of_opt (h !! i) in
    let s := match previous s with Some _ => swapDirection s | None => s end in
    let! r := trace fuel (delete i h) (next s) (end_ s) in
    Ok (r.1, appendTo true s ++ r.2).
  (** infill.cpp:1066-1115 *)
  Fixpoint outputs (fuel : nat) (lines : list (nat * nat)) (completed_groups : list nat) (h : heap) : res (list (list pt)) :=
    match lines with
    | [] => Ok []
    | (line, group) :: lines =>
        if decide (group ∈ completed_groups) then outputs fuel lines completed_groups h
        else
          let! r := output fuel h line in
          let! rest := outputs fuel lines (group :: completed_groups) r.1 in
          Ok (r.2 :: rest)
    end.

  (** infill.cpp:924-1115; the lines are given by their numbers and the heap *)
  Definition connectLines (fuel : nat) (outline : list (list pt)) (lines : heap) (n : nat) (crossings_on_line : list (list (list nat))) : res (list (list pt)) :=
    let! st := polygons 0 outline crossings_on_line (State lines n (add_lines crossings_on_line) None) in
    outputs fuel (groups st) [] (segs st).
End connect.
