(** Model of PathOrderOptimizer without order requirements (include/PathOrderOptimizer.h:178-414 and
    594-767): the greedy order, start vertices and directions. *)
From Coq Require Import ZArith.
From stdpp Require Import list.
From Verif Require Import Common Geo_Model.
Open Scope Z_scope.

Definition COORD_MAX : Z := 2 ^ 63 - 1.

(** path_ordering.h:27-90: vertex data, whether it is closed, and whether the seam type of the path
    has a precomputed start (RANDOM, USER_SPECIFIED or SHARPEST_CORNER) *)
Record opath := OPath { verts : list pt; given_closed : bool; precomputed_type : bool }.
(** start_vertex_ and backwards_ of all paths, and prefer_longest_path_ *)
Record pstate := PState { starts : nat -> nat; backs : nat -> bool; longest : bool }.
(** a path in the output: index of the input path, start_vertex_, backwards_ *)
Definition placed := (nat * Z * bool)%type.

Section optimizer.
  Variable paths : list opath.
  Variable start_point : pt.
  Variable detect_loops : bool.
  (** getCombingDistance, if there is a combing boundary: an arbitrary function of the two points *)
  Variable combing : option (pt -> pt -> Z).
  (** findStartLocation of a closed path: an arbitrary function of the path and the target position *)
  Variable seam : nat -> pt -> nat.
  (** seam_config_.pos_ *)
  Variable seam_pos : pt.
  (** line_bucket_grid.getNearbyVals around a position: arbitrary path indices *)
  Variable nearby : pt -> list nat.
  (** converted_->length() *)
  Variable path_length : nat -> Z.

  Definition get_path (i : nat) : res opath := of_opt (paths !! i).
  Definition getDirectDistance (a b : pt) : Z := vSize2 (psub a b).

  (** PathOrderOptimizer.h:912-919 and 194-203 *)
  Definition isLoopingPolyline (l : list pt) : bool :=
    match head l, last l with
    | Some a, Some b => vSize2 (psub b a) <? 10 * 10
    | _, _ => false
    end.
  Definition is_closed (p : opath) : bool := given_closed p || (detect_loops && isLoopingPolyline (verts p)).

  (** PathOrderOptimizer.h:751-765 (open polylines), closed ones by [seam]; the path is not empty *)
  Definition findStartLocation (i : nat) (p : opath) (target : pt) : nat :=
    if is_closed p then seam i target
    else match head (verts p), last (verts p) with
         | Some front, Some back =>
             let back_distance := match combing with None => getDirectDistance back target | Some f => f back target end in
             if (back_distance <? getDirectDistance front target)
                || match combing with None => false | Some f => back_distance <? f front target end
             then (length (verts p) - 1)%nat else 0%nat
         | _, _ => 0%nat
         end.

  (** PathOrderOptimizer.h:244-259: the precomputed starts; all others are 0 (path_ordering.h:36) *)
  Definition initial_start (precompute_start : bool) (i : nat) : nat :=
    match paths !! i with
    | Some p => if precompute_start && precomputed_type p && is_closed p && negb (bool_decide (verts p = [])) then seam i seam_pos else 0%nat
    | None => 0%nat
    end.

  Definition upd {A} (f : nat -> A) (i : nat) (a : A) : nat -> A := fun j => if Nat.eqb j i then a else f j.

  (** PathOrderOptimizer.h:646-688 *)
  Fixpoint findClosestPath (pos : pt) (cands : list nat) (best_d : Z) (best : option nat) (st : pstate)
      : res (option nat * pstate) :=
    match cands with
    | [] => Ok (best, st)
    | i :: cands' =>
        let! p := get_path i in
        if bool_decide (verts p = []) then
          findClosestPath pos cands' best_d (if best_d =? COORD_MAX then Some i else best) st
        else
          let st1 :=
            if negb (is_closed p) || negb (precomputed_type p) then
              let s := findStartLocation i p pos in
              PState (upd (starts st) i s) (if is_closed p then backs st else upd (backs st) i (Nat.ltb 0 s)) (longest st)
            else st in
          let! cand := of_opt (verts p !! starts st1 i) in
          let d0 := getDirectDistance pos cand in
          let d := match combing with Some f => if d0 <? best_d then f pos cand else d0 | None => d0 end in
          if d <? best_d then findClosestPath pos cands' d (Some i) st1
          else findClosestPath pos cands' best_d best st1
    end.
  (** PathOrderOptimizer.h:633-644: the first longest *)
  Fixpoint findLongestPath (cands : list nat) (best : option nat) : option nat :=
    match cands with
    | [] => best
    | i :: cands' => findLongestPath cands' (match best with
                                             | None => Some i
                                             | Some b => if path_length b <? path_length i then Some i else best
                                             end)
    end.
  (** PathOrderOptimizer.h:626-631 *)
  Definition findBestPath (pos : pt) (cands : list nat) (st : pstate) : res (option nat * pstate) :=
    if longest st then Ok (findLongestPath cands None, PState (starts st) (backs st) false)
    else findClosestPath pos cands COORD_MAX None st.

  (** PathOrderOptimizer.h:398-409: where the nozzle is after printing a path *)
  Definition position_after (p : opath) (start : nat) (pos : pt) : res pt :=
    if bool_decide (verts p = []) then Ok pos
    else if is_closed p then of_opt (verts p !! start)
    else if Nat.eqb start 0 then of_opt (last (verts p)) else of_opt (head (verts p)).

  (** PathOrderOptimizer.h:356-413: the loop, [picked] holds the paths already in the output *)
  Fixpoint order_loop (fuel : nat) (picked : list nat) (pos : pt) (st : pstate) : res (list placed) :=
    if decide (length picked = length paths) then Ok []
    else match fuel with
    | O => NoFuel
    | S fuel' =>
        let available := filter (fun i => i ∉ picked) (nearby pos) in
        let cands := match available with [] => filter (fun i => i ∉ picked) (seq 0 (length paths)) | _ => available end in
        let! r := findBestPath pos cands st in
        match r.1 with
        | None => UB
        | Some i =>
            let! p := get_path i in
            let! pos' := position_after p (starts r.2 i) pos in
            let! rest := order_loop fuel' (i :: picked) pos' r.2 in
            Ok ((i, Z.of_nat (starts r.2 i), backs r.2 i) :: rest)
        end
    end.

  (** PathOrderOptimizer.h:594-609: reversing; size_t arithmetic wraps for paths without vertices *)
  Definition reverse_placed (o : placed) : placed :=
    let '(i, s, b) := o in
    match paths !! i with
    | Some p => (i, if is_closed p then s else (Z.of_nat (length (verts p)) - 1 - s) mod 2 ^ 64, negb b)
    | None => o
    end.

  (** PathOrderOptimizer.h:178-290 *)
  Definition optimize_paths (precompute_start prefer_longest reverse_direction : bool) : res (list placed) :=
    let! out := order_loop (length paths) [] start_point
                  (PState (initial_start precompute_start) (fun _ => false) prefer_longest) in
    Ok (if reverse_direction then map reverse_placed (reverse out) else out).
End optimizer.

(** PathOrderOptimizer.h:709-733: walk on from the best position while it is in the disallowed area *)
Fixpoint pathIfZseamIsInDisallowedArea (fuel : nat) (inside : pt -> bool) (path : list pt) (best_pos analysed : nat) : res nat :=
  match fuel with
  | O => NoFuel
  | S fuel' =>
      if decide (analysed < length path)%nat then
        let! cand := of_opt (path !! best_pos) in
        if inside cand then
          let next := if decide (best_pos + 1 < length path)%nat then (best_pos + 1)%nat else 0%nat in
          pathIfZseamIsInDisallowedArea fuel' inside path next (S analysed)
        else Ok best_pos
      else Ok best_pos
  end.
