(** Shared vocabulary of the models: outcomes of C++ computations. *)
From stdpp Require Export prelude.

(** Outcome of a modelled C++ call.
    [Ok a]    the call returned [a];
    [UB]      the C++ code would have undefined behaviour at this point
              (out-of-bounds access, division by zero, null dereference, ...);
    [NoFuel]  the modelled loop/recursion did not finish within the fuel it was
              given (used to make non-termination visible). *)
Inductive res (A : Type) : Type :=
| Ok (a : A)
| UB
| NoFuel.
Arguments Ok {A} a.
Arguments UB {A}.
Arguments NoFuel {A}.

Definition rbind {A B} (m : res A) (f : A -> res B) : res B :=
  match m with Ok a => f a | UB => UB | NoFuel => NoFuel end.

Notation "'let!' x := m 'in' k" := (rbind m (fun x => k))
  (at level 200, x pattern, m at level 100, k at level 200, right associativity).

(** Reading an optional slot as C++ vector access: [None] is out of bounds. *)
Definition of_opt {A} (o : option A) : res A :=
  match o with Some a => Ok a | None => UB end.

Lemma rbind_ok {A B} (m : res A) (f : A -> res B) b :
  rbind m f = Ok b <-> exists a, m = Ok a /\ f a = Ok b.
Proof. destruct m; simpl; naive_solver. Qed.

Lemma of_opt_ok {A} (o : option A) a : of_opt o = Ok a <-> o = Some a.
Proof. destruct o; simpl; naive_solver. Qed.
