(** Specification for C86 and C87. *)
From Coq Require Import ZArith QArith.
From stdpp Require Import prelude list.
From Verif Require Import Common Box_Model PrintInfo_Model.
Open Scope Z_scope.

(** Path number [i] of the plan prints: it has a line width and goes somewhere. *)
Definition prints (e : iplan) (i : nat) (p : ipath) : Prop :=
  ipaths e !! i = Some p /\ line_width p <> 0 /\ ipoints p <> [].

(** Path [i] starts at [x]: the last path before it that has points ends there. *)
Definition starts_at (e : iplan) (i : nat) (x : Z * Z) : Prop :=
  exists j p, (j < i)%nat /\ ipaths e !! j = Some p /\ last (ipoints p) = Some x /\
    forall k q, (j < k < i)%nat -> ipaths e !! k = Some q -> ipoints q = [].

(** [x] is an end of a line printed by the plan: it is a point of a path that prints, or the start of one. *)
Definition printed_point (e : iplan) (x : Z * Z) : Prop :=
  exists i p, prints e i p /\ (x ∈ ipoints p \/ starts_at e i x).

(** The point is in the box. *)
Definition inside (b : AABB) (x : Z * Z) : Prop :=
  (bmin b).1 <= x.1 <= (bmax b).1 /\ (bmin b).2 <= x.2 <= (bmax b).2.
(** [b] is the smallest box around the points that satisfy [P]; the empty box if there are none. *)
Definition smallest_box (P : Z * Z -> Prop) (b : AABB) : Prop :=
  (forall x, P x -> inside b x) /\
  ((forall x, ~ P x) /\ b = aabb_empty \/
   (exists x, P x /\ x.1 = (bmin b).1) /\ (exists x, P x /\ x.1 = (bmax b).1) /\
   (exists x, P x /\ x.2 = (bmin b).2) /\ (exists x, P x /\ x.2 = (bmax b).2)).

(** All coordinates are 64 bit numbers. *)
Definition coord_range (x : Z * Z) : Prop := POINT_MIN <= x.1 <= POINT_MAX /\ POINT_MIN <= x.2 <= POINT_MAX.
Definition in_range (l : ilayer) : Prop :=
  forall e p x, e ∈ iplans l -> p ∈ ipaths e -> x ∈ ipoints p -> coord_range x.

(** Plan [e] prints nothing. *)
Definition prints_nothing (e : iplan) : Prop := forall i p, ~ prints e i p.
(** [n] is the extruder that prints first. *)
Definition prints_first (ls : list ilayer) (n : nat) : Prop :=
  exists ls1 l ls2 es1 e es2, ls = ls1 ++ l :: ls2 /\ iplans l = es1 ++ e :: es2 /\ iextruder e = n /\
    (exists i p, prints e i p) /\ (forall e', e' ∈ es1 -> prints_nothing e') /\
    (forall l' e', l' ∈ ls1 -> e' ∈ iplans l' -> prints_nothing e').

Open Scope Q_scope.
(** The paths that are treated: lines of some width, not bridges. *)
Definition treated (p : ipath) : Prop := 0 < width_factor p /\ (0 < line_width p)%Z /\ bridge p = false.

(** What becomes of a path with compensation [c]: only the factor for its speed changes, and only if it is treated.  The printed
    width is [w] times the nominal one: full compensation makes speed times width the same as for the nominal width, and others are
    in proportion; the speed is never less than a thousandth. *)
Definition compensated (c : Q) (p p' : ipath) : Prop :=
  line_width p' = line_width p /\ bridge p' = bridge p /\ ipoints p' = ipoints p /\ width_factor p' = width_factor p /\
  (~ treated p -> back_pressure p' = back_pressure p) /\
  (treated p -> let w := width_factor p in
     1 # 1000 <= back_pressure p' /\
     ((1 # 1000) * w <= w + (1 - w) * c -> back_pressure p' * w == w + (1 - w) * c) /\
     (w + (1 - w) * c <= (1 # 1000) * w -> back_pressure p' == 1 # 1000)).
