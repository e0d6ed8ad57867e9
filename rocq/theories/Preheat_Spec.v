(** What C34 and C35 ask for. *)
From Coq Require Import QArith Qminmax.
From stdpp Require Import list.
From Verif Require Import Preheat_Model.
Local Open Scope Q_scope.

(** The data are sorted by flow, without repetition. *)
Fixpoint increasing (ds : list datum) : Prop :=
  match ds with
  | d :: ((e :: _) as r) => flow d < flow e /\ increasing r
  | _ => True
  end.

(** [q] is on the straight line through two data at flow [x]. *)
Definition on_line (d e : datum) (x q : Q) : Prop := (q - temp d) * (flow e - flow d) == (temp e - temp d) * (x - flow d).

(** A nozzle that cools at rate [c] towards [low] for a time, or heats at rate [h] towards [high]. *)
Definition cooled (c low from t : Q) : Q := Qmax (Qmin low from) (from - c * t).
Definition heated (h from t : Q) : Q := from + h * t.
Definition heated_to (h high from t : Q) : Q := Qmin (Qmax high from) (from + h * t).
