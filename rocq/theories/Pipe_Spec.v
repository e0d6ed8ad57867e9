(** What C43 asks for: the calls of the consumer that its caller sees. *)
From Coq Require Import ZArith.
From stdpp Require Import list list_numbers.
From Verif Require Import Pipe_Model.
Local Open Scope Z_scope.

(** The items [first .. first+n-1], each handed to the consumer once, and finished with before the next. *)
Definition consumed_in_order {V} (producer : Z -> V) (first n : Z) : list (event V) :=
  flat_map (fun i => [CBegin (producer i); CEnd]) (seqZ first n).

(** How many of the moves are steps of the program, and how many are wake-ups for no reason. *)
Definition is_go (m : move) : bool := match m with Go _ _ => true | _ => false end.
Definition go_steps (ms : list move) : Z := Z.of_nat (length (List.filter is_go ms)).
Definition spurious_steps (ms : list move) : Z := Z.of_nat (length (List.filter (fun m => negb (is_go m)) ms)).
