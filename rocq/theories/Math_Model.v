(** Model of include/utils/math.h (integer part) and of Slicer::interpolate.
    int64_t is [Z] (no overflow here; overflow is treated in the Overflow files);
    C++ [/] and [%] are [Z.quot] and [Z.rem].  Division by zero is undefined in
    C++: every function returns [UB] for divisor 0. *)
From Coq Require Import ZArith.
From Verif Require Import Common.
Open Scope Z_scope.

(** math.h:36-43 *)
Definition round_divide_signed (dividend divisor : Z) : res Z :=
  if divisor =? 0 then UB
  else if xorb (dividend <? 0) (divisor <? 0)
       then Ok ((dividend - divisor ÷ 2) ÷ divisor)
       else Ok ((dividend + divisor ÷ 2) ÷ divisor).

(** math.h:53-65 *)
Definition ceil_divide_signed (dividend divisor : Z) : res Z :=
  if divisor =? 0 then UB
  else
    let quotient := dividend ÷ divisor in
    let remainder := Z.rem dividend divisor in
    if negb (remainder =? 0) &&
       (((0 <? dividend) && (0 <? divisor)) || ((dividend <? 0) && (divisor <? 0)))
    then Ok (quotient + 1)
    else Ok quotient.

(** math.h:75-84 *)
Definition floor_divide_signed (dividend divisor : Z) : res Z :=
  if divisor =? 0 then UB
  else
    let quotient := dividend ÷ divisor in
    let remainder := Z.rem dividend divisor in
    if negb (remainder =? 0) &&
       (((0 <? dividend) && (divisor <? 0)) || ((dividend <? 0) && (0 <? divisor)))
    then Ok (quotient - 1)
    else Ok quotient.

(** math.h:93-96; uint64_t arguments are non-negative [Z]; wrap-around of
    [dividend + divisor/2] beyond 2^64 is not modelled here. *)
Definition round_divide (dividend divisor : Z) : res Z :=
  if divisor =? 0 then UB else Ok ((dividend + divisor ÷ 2) ÷ divisor).

(** math.h:105-108 *)
Definition round_up_divide (dividend divisor : Z) : res Z :=
  if divisor =? 0 then UB else Ok ((dividend + divisor - 1) ÷ divisor).

(** src/slicer.cpp:1233-1239 (Slicer::interpolate). *)
Definition interpolate (x x0 x1 y0 y1 : Z) : res Z :=
  let dx := x1 - x0 in
  let num := (y1 - y0) * (x - x0) in
  let num' := num + (if 0 <? num then dx ÷ 4 else (- dx) ÷ 4) in
  if dx =? 0 then UB else Ok (y0 + num' ÷ dx).
