(** Independent meaning of the rounding modes, on the exact quotient n/d written
    without division. *)
From Coq Require Import ZArith Lia.
Open Scope Z_scope.

(** [q] is the floor of n/d: q <= n/d < q+1 *)
Definition is_floor (n d q : Z) : Prop :=
  (0 < d -> q * d <= n < (q + 1) * d) /\ (d < 0 -> (q + 1) * d < n <= q * d).
(** [q] is the ceiling of n/d: q-1 < n/d <= q *)
Definition is_ceil (n d q : Z) : Prop :=
  (0 < d -> (q - 1) * d < n <= q * d) /\ (d < 0 -> q * d <= n < (q - 1) * d).
(** [q] is nearest to n/d, ties going away from zero:
    |n/d - q| <= 1/2, and when it equals 1/2 then |q| > |n/d|. *)
Definition is_round_half_away (n d q : Z) : Prop :=
  2 * Z.abs (n - q * d) <= Z.abs d /\
  (2 * Z.abs (n - q * d) = Z.abs d -> Z.abs n < Z.abs (q * d)).
