(** * Specification of exact 64-bit computation (C53) *)
From Coq Require Import ZArith.
From stdpp Require Import list.
From Verif Require Import Common Geo_Model Order_Model Overflow_Model.
Open Scope Z_scope.

(** A computation, given as a function of its integer type, is exact in 64 bits: no operation
    overflows, and the result is the one that unbounded integers give. *)
Definition exact_in_64_bits {A} (f : (Z -> res Z) -> res A) : Prop :=
  exists r, f i64 = Ok r /\ f Ok = Ok r.

(** No two of the points are further than D apart in x or in y. *)
Definition spread (D : Z) (ps : list pt) : Prop :=
  forall p q, p ∈ ps -> q ∈ ps -> Z.abs (p.1 - q.1) <= D /\ Z.abs (p.2 - q.2) <= D.
(** The coordinates are at most 2^62 in absolute value (4.6 million kilometres). *)
Definition sane (ps : list pt) : Prop :=
  forall p, p ∈ ps -> Z.abs p.1 <= 2 ^ 62 /\ Z.abs p.2 <= 2 ^ 62.
(** A vector with components of at most D. *)
Definition vec (D : Z) (v : pt) : Prop := Z.abs v.1 <= D /\ Z.abs v.2 <= D.

(** A little more than one kilometre. *)
Definition kilometre : Z := 2 ^ 30 - 1.
(** 1.66 metres. *)
Definition plate : Z := 1664510.

(** A vector scaled to a length, truncated; a zero vector becomes a vector along the x axis. *)
Definition scaled (v : pt) (len : Z) : pt :=
  if vSize v <? 1 then (len, 0) else ((v.1 * len) ÷ vSize v, (v.2 * len) ÷ vSize v).
