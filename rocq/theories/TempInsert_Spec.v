(** * What it means for temperature inserts to be written properly *)
From stdpp Require Import list sorting.
From Coq Require Import QArith.
From Verif Require Import Common TempInsert_Model.

(** The inserts and the moves in a trace. *)
Definition inserts_of {A} (tr : list (event A)) : list tinsert :=
  omap (fun e => match e with EInsert i => Some i | _ => None end) tr.
Definition moves_of {A} (tr : list (event A)) : list A :=
  omap (fun e => match e with EMove _ _ m => Some m | _ => None end) tr.

(** All moves asked for. *)
Definition moves_asked {A} (its : list (nat * list (op A))) : list A :=
  concat (map (fun it => omap (fun o => match o with Move m => Some m | _ => None end) it.2) its).

(** By path, then by time. *)
Definition not_after (a b : tinsert) : Prop :=
  (ti_path a < ti_path b)%nat \/ (ti_path a = ti_path b /\ (ti_time a <= ti_time b)%Q).

(** [b] comes with neither before nor after [a]. *)
Definition same_moment (a b : tinsert) : bool :=
  Nat.eqb (ti_path a) (ti_path b) && Qeq_bool (ti_time a) (ti_time b).

(** The time an iteration takes. *)
Fixpoint duration {A} (ops : list (op A)) : Q :=
  match ops with
  | [] => 0
  | Tick dt :: r => dt + duration r
  | Move _ :: r => duration r
  end.

Definition ticks_ok {A} (ops : list (op A)) : Prop :=
  Forall (fun o => match o with Tick dt => (0 <= dt)%Q | _ => True end) ops.

(** Iterations start at ever higher paths and times don't run backwards. *)
Definition proper {A} (its : list (nat * list (op A))) : Prop :=
  StronglySorted lt (map fst its) /\ Forall (fun it => ticks_ok it.2) its.

(** The duration of the iteration before the one that starts at path [p]. *)
Definition previous_takes {A} (its : list (nat * list (op A))) (p : nat) (d : Q) : Prop :=
  exists l1 q ops0 ops l2,
    its = l1 ++ (q, ops0) :: (p, ops) :: l2 /\ d = duration ops0.
