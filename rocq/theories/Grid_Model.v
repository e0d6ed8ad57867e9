(** Model of src/utils/SquareGrid.cpp, include/utils/SparseGrid.h, SparsePointGrid.h and
    SparseLineGrid.h. *)
From Coq Require Import ZArith.
From stdpp Require Import list.
From Verif Require Import Common Geo_Model.
Open Scope Z_scope.

(** A callback taking the next item and saying whether to go on.  Its effects are a state. *)
Fixpoint run {S A : Type} (f : S -> A -> S * bool) (s : S) (l : list A) : S * bool :=
  match l with
  | [] => (s, true)
  | a :: l' => let '(s', ok) := f s a in if (ok : bool) then run f s' l' else (s', false)
  end.

(** SquareGrid.cpp:24-33 (truncating division; cell_size > 0 is asserted in the constructor) *)
Definition toGridCoord (cell_size coord : Z) : Z := coord ÷ cell_size.
(** SquareGrid.cpp:18-21 *)
Definition toGridPoint (cell_size : Z) (p : pt) : pt := (toGridCoord cell_size p.1, toGridCoord cell_size p.2).
(** SquareGrid.cpp:42-51 *)
Definition toLowerCoord (cell_size g : Z) : Z := g * cell_size.
(** SquareGrid.cpp:191-194 *)
Definition nonzeroSign (z : Z) : Z := if 0 <=? z then 1 else -1.

(** for (x = lo; x <= hi; ++x) *)
Definition range (lo hi : Z) : list Z := seqZ lo (hi - lo + 1).

(** SquareGrid.cpp:169-189: the cells visited by processNearby, in order (all of them unless the
    callback stops) *)
Definition nearby_cells (cell_size : Z) (query : pt) (radius : Z) : list pt :=
  let min_grid := toGridPoint cell_size (query.1 - radius, query.2 - radius) in
  let max_grid := toGridPoint cell_size (query.1 + radius, query.2 + radius) in
  flat_map (fun y => map (fun x => (x, y)) (range min_grid.1 max_grid.1)) (range min_grid.2 max_grid.2).

Section sparse.
  Context {E : Type}.
  (** The multimap from cells to elements: a list of pairs.  equal_range gives the elements of a cell
      in some order; here the order of the list, and the theorems hold for every order. *)
  Definition gridmap := list (pt * E).

  (** SparseGrid.h processFromCell *)
  Definition cell_elems (g : gridmap) (cell : pt) : list E :=
    map snd (filter (fun ce : pt * E => ce.1 = cell) (g : list (pt * E))).
  Definition processFromCell {S} (g : gridmap) (cell : pt) (f : S -> E -> S * bool) (s : S) : S * bool :=
    run f s (cell_elems g cell).
  (** SparseGrid.h processNearby over SquareGrid::processNearby *)
  Definition processNearby {S} (c : Z) (g : gridmap) (query : pt) (radius : Z) (f : S -> E -> S * bool) (s : S)
      : S * bool :=
    run (fun s cell => processFromCell g cell f s) s (nearby_cells c query radius).
  (** SparseGrid.h getNearby *)
  Definition getNearby (c : Z) (g : gridmap) (query : pt) (radius : Z) : list E :=
    (processNearby c g query radius (fun ret e => (ret ++ [e], true)) []).1.
  (** SparseGrid.h getNearest; [point] is elem.point; result: the element, if one was found *)
  Definition getNearest (point : E -> pt) (c : Z) (g : gridmap) (query : pt) (radius : Z) (precondition : E -> bool)
      : option E :=
    let f (s : option E * Z) (e : E) :=
      if negb (precondition e) then (s, true)
      else let dist2 := vSize2 (psub (point e) query) in
           if dist2 <? s.2 then ((Some e, dist2), true) else (s, true) in
    ((processNearby c g query radius f (None, radius * radius)).1).1.
  (** SparsePointGrid.h insert *)
  Definition point_insert (locator : E -> pt) (c : Z) (g : gridmap) (e : E) : gridmap :=
    g ++ [(toGridPoint c (locator e), e)].
  (** SparsePointGrid.h getAnyNearby *)
  Definition getAnyNearby (locator : E -> pt) (c : Z) (g : gridmap) (query : pt) (radius : Z) : option E :=
    (processNearby c g query radius
       (fun ret e => if shorterThen (psub (locator e) query) radius then (Some e, false) else (ret, true)) None).1.
End sparse.
Arguments gridmap E : clear implicits.

(** SquareGrid.cpp:60-125 processLineCells.  Result: state after the callbacks and the returned
    value; [UB] where the assertion "We should have returned already" would fail. *)
Section line.
  Context {S : Type} (f : S -> pt -> S * bool).
  Variable c : Z.
  Variables (start end_ : pt).   (* after the swap: start.X <= end.X *)
  Definition start_cell := toGridPoint c start.
  Definition end_cell := toGridPoint c end_.
  Definition y_diff := end_.2 - start.2.
  Definition y_dir := nonzeroSign y_diff.

  (** lines 85-86 *)
  Definition nearest_next_y (cell_y : Z) : Z :=
    toLowerCoord c (cell_y + (if (nonzeroSign cell_y =? y_dir) || (cell_y =? 0) then y_dir else 0)).
  (** lines 87-103 *)
  Definition x_cell_end (x_cell_start cell_y : Z) : Z :=
    if y_diff =? 0 then end_cell.1
    else
      let area := (end_.1 - start.1) * (nearest_next_y cell_y - start.2) in
      let corresponding_x := start.1 + area ÷ y_diff in
      let e := toGridCoord c (corresponding_x + (if (corresponding_x <? 0) && negb (Z.rem area y_diff =? 0) then 1 else 0)) in
      if e <? start_cell.1 then x_cell_start else e.

  (** lines 105-116: one row; [inl s] goes on, [inr (s, r)] returns r *)
  Fixpoint line_row (s : S) (xs : list Z) (cell_y : Z) : S + (S * bool) :=
    match xs with
    | [] => inl s
    | x :: xs' =>
        let '(s', ok) := f s (x, cell_y) in
        if negb ok then inr (s', false)
        else if bool_decide ((x, cell_y) = end_cell) then inr (s', true)
        else line_row s' xs' cell_y
    end.

  (** lines 82-125 *)
  Fixpoint line_rows (fuel : nat) (s : S) (x_cell_start cell_y : Z) : res (S * bool) :=
    if cell_y * y_dir <=? end_cell.2 * y_dir then
      match fuel with
      | O => NoFuel
      | Datatypes.S fuel' =>
          let xe := x_cell_end x_cell_start cell_y in
          match line_row s (range x_cell_start xe) cell_y with
          | inr r => Ok r
          | inl s' => line_rows fuel' s' xe (cell_y + y_dir)
          end
      end
    else UB.
End line.

Definition processLineCells {S} (f : S -> pt -> S * bool) (c : Z) (line : pt * pt) (s : S) : res (S * bool) :=
  let '(start, end_) := if line.2.1 <? line.1.1 then (line.2, line.1) else (line.1, line.2) in
  line_rows f c start end_ (Datatypes.S (Z.to_nat (Z.abs ((end_cell c end_).2 - (start_cell c start).2))))
    s (start_cell c start).1 (start_cell c start).2.

(** SparseLineGrid.h insert: the element is added to every cell along its line. *)
Definition line_insert {E} (locator : E -> pt * pt) (c : Z) (g : gridmap E) (e : E) : res (gridmap E) :=
  let! r := processLineCells (fun g cell => (g ++ [(cell, e)], true)) c (locator e) g in Ok r.1.
