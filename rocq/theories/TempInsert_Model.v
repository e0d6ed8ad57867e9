(** * Temperature commands planned inside an extruder plan

    Models [ExtruderPlan::insertCommand], [handleInserts],
    [handleAllRemainingInserts] (/repo/src/ExtruderPlan.cpp:31-62), the ordering
    of inserts (/repo/include/pathPlanning/NozzleTempInsert.h:21-37) and the
    calls made to them by [LayerPlan::writeGCode]
    (/repo/src/LayerPlan.cpp:3505-3525, 3528-3839, 3857). *)
From stdpp Require Import list sorting.
From Coq Require Import QArith Qminmax.
From Verif Require Import Common.

(** [NozzleTempInsert] (NozzleTempInsert.h:21-27).  Temperatures and times are
    exact rationals. *)
Record tinsert := TInsert {
  ti_path : nat;
  ti_extruder : nat;
  ti_temp : Q;
  ti_wait : bool;
  ti_time : Q
}.

(** [operator<=>] used as "less" (NozzleTempInsert.h:29-36). *)
Definition ti_ltb (a b : tinsert) : bool :=
  if Nat.eqb (ti_path a) (ti_path b)
  then negb (Qle_bool (ti_time b) (ti_time a))
  else Nat.ltb (ti_path a) (ti_path b).

(** [insertCommand] (ExtruderPlan.cpp:31-34): appended at the back. *)
Definition insert_command (l : list tinsert) (i : tinsert) : list tinsert := l ++ [i].

(** [inserts_.sort()] (LayerPlan.cpp:3505): [std::list::sort] is stable, and a
    stable sort has one result only; modelled as insertion sort. *)
Fixpoint ti_place (i : tinsert) (l : list tinsert) : list tinsert :=
  match l with
  | [] => [i]
  | j :: r => if ti_ltb j i then j :: ti_place i r else i :: l
  end.

Definition ti_sort (l : list tinsert) : list tinsert := foldr ti_place [] l.

(** [handleInserts] (ExtruderPlan.cpp:36-52): the inserts written, then those
    left. *)
Fixpoint handle_inserts (path_idx : nat) (cumulative_path_time : Q) (l : list tinsert)
  : list tinsert * list tinsert :=
  match l with
  | [] => ([], [])
  | i :: r =>
    let in_future_path := Nat.ltb path_idx (ti_path i) in
    let in_current_path_at_future_time :=
      Nat.eqb (ti_path i) path_idx && negb (Qle_bool (ti_time i) cumulative_path_time) in
    if in_future_path || in_current_path_at_future_time then ([], l)
    else let w := handle_inserts path_idx cumulative_path_time r in (i :: w.1, w.2)
  end.

(** What the loop body does for one path, as far as inserts are concerned:
    [Tick dt] is a call of [insertTempOnTime(dt, path_idx)] (LayerPlan.cpp:
    3520-3525; called at 3650, 3758, 3942, 3959) and [Move m] stands for the
    G-code of one move or other command.  Everything else in the body is left
    out. *)
Inductive op (A : Type) :=
| Tick (dt : Q)
| Move (m : A).
Arguments Tick {A}. Arguments Move {A}.

(** What ends up in the G-code.  [EMove idx t m]: a move written by the loop body
    started at path [idx], with [t] the value of [cumulative_path_time] then. *)
Inductive event (A : Type) :=
| EInsert (i : tinsert)
| EMove (idx : nat) (t : Q) (m : A).
Arguments EInsert {A}. Arguments EMove {A}.

(** The operations of one path. *)
Fixpoint run_ops {A} (idx : nat) (cum : Q) (l : list tinsert) (ops : list (op A))
  : list (event A) * list tinsert * Q :=
  match ops with
  | [] => ([], l, cum)
  | Tick dt :: r =>
    let cum' := (cum + dt)%Q in
    let w := handle_inserts idx cum' l in
    let k := run_ops idx cum' w.2 r in
    (map EInsert w.1 ++ k.1.1, k.1.2, k.2)
  | Move m :: r =>
    let k := run_ops idx cum l r in
    (EMove idx cum m :: k.1.1, k.1.2, k.2)
  end.

(** The loop over the paths (LayerPlan.cpp:3528-3839): the pairs are the value of
    [path_idx] at the start of an iteration and what the iteration does.  A run
    of spiralized paths is written by one iteration (lines 3789-3837). *)
Fixpoint run_paths {A} (cum : Q) (l : list tinsert) (its : list (nat * list (op A)))
  : list (event A) * list tinsert :=
  match its with
  | [] => ([], l)
  | it :: r =>
    let w := handle_inserts it.1 cum l in
    let k := run_ops it.1 0 w.2 it.2 in
    let t := run_paths k.2 k.1.2 r in
    (map EInsert w.1 ++ k.1.1 ++ t.1, t.2)
  end.

(** One extruder plan: sort, loop, [handleAllRemainingInserts]
    (ExtruderPlan.cpp:54-62). *)
Definition write_plan {A} (inserts : list tinsert) (its : list (nat * list (op A)))
  : list (event A) :=
  let k := run_paths 0 (ti_sort inserts) its in
  k.1 ++ map EInsert k.2.
