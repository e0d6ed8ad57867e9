(** Model of include/geometry/Point2LL.h (integer operations). coord_t is [Z] without overflow. *)
From Coq Require Import ZArith.
From stdpp Require Import list.
From Verif Require Import Common.
Open Scope Z_scope.

(** Point2LL.h:38 Point2LL = (X, Y) *)
Definition pt := (Z * Z)%type.
(** Point2LL.h:47-60 *)
Definition padd (a b : pt) : pt := (a.1 + b.1, a.2 + b.2).
Definition psub (a b : pt) : pt := (a.1 - b.1, a.2 - b.2).
(** Point2LL.h:62-65 *)
Definition pscale (a : pt) (i : Z) : pt := (a.1 * i, a.2 * i).
(** Point2LL.h:79-82; truncating division, the caller must not pass 0 *)
Definition pdiv (a : pt) (i : Z) : pt := (a.1 ÷ i, a.2 ÷ i).
(** Point2LL.h:121-124 *)
Definition vSize2 (a : pt) : Z := a.1 * a.1 + a.2 * a.2.
(** Point2LL.h:131-142 *)
Definition shorterThen (a : pt) (len : Z) : bool :=
  if (len <? a.1) || (a.1 <? - len) then false
  else if (len <? a.2) || (a.2 <? - len) then false
  else vSize2 a <=? len * len.
(** Point2LL.h:176-179 *)
Definition turn90CCW (a : pt) : pt := (- a.2, a.1).
(** Point2LL.h:190-193 *)
Definition dot (a b : pt) : Z := a.1 * b.1 + a.2 * b.2.
(** Point2LL.h:195-198 *)
Definition cross (a b : pt) : Z := a.1 * b.2 - a.2 * b.1.

Global Instance pt_inhabited : Inhabited pt := populate (0, 0).
