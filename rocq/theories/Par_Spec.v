(** What C42 asks for, in terms of the calls of parallel_for and of the loop body that the program sees. *)
From Coq Require Import ZArith.
From stdpp Require Import list list_numbers.
From Verif Require Import Par_Model.

Global Instance event_dec : EqDecision event.
Proof. solve_decision. Defined.

(** How often something happened. *)
Fixpoint times (e : event) (l : list event) : nat :=
  match l with [] => 0 | d :: l => (if decide (d = e) then 1 else 0) + times e l end.

(** Everything that was asked of call [c] before it returned, and nothing more, was done in [l]: the body was entered
    and left exactly once for each index of its range, and for no other index. *)
Definition done_in (c : nat) (l : list event) : Prop :=
  exists first last, Called c first last ∈ l /\
    forall i, times (Began c i) l = (if decide (first <= i < last)%Z then 1 else 0) /\
              times (Finished c i) l = (if decide (first <= i < last)%Z then 1 else 0).

(** How many of the moves are steps of the program, and how many are wake-ups for no reason. *)
Definition is_go (m : move) : bool := match m with Go _ _ => true | _ => false end.
Definition go_steps (ms : list move) : nat := length (List.filter is_go ms).
Definition spurious_steps (ms : list move) : nat := length (List.filter (fun m => negb (is_go m)) ms).
