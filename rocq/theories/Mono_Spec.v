(** Vocabulary of C62: lines to be printed in monotonic order, told without reference to the ordering algorithm. *)
From Coq Require Import ZArith QArith Qminmax.
From stdpp Require Import prelude.
From Verif Require Import Geo_Model Geo_Spec.
Open Scope Z_scope.

(** The two ends of a line. *)
Definition end_point (line : list pt) (far : bool) : pt := if far then List.last line (0, 0) else List.hd (0, 0) line.
(** Two points closer than 10 micrometres. *)
Definition coincide (p q : pt) : Prop := dist2 p q < 100.

(** A line that is printed as a line, rather than as a closed contour or as a point: the caller did not mark it as
    closed, it has two vertices at least, and if it has more, its ends do not coincide. *)
Definition is_line (closed : bool) (line : list pt) : Prop :=
  closed = false /\ (2 <= length line)%nat /\
  ((3 <= length line)%nat -> ~ coincide (end_point line true) (end_point line false)).

(** No end of a line coincides with an end of another line. *)
Definition ends_apart (closed : nat -> bool) (lines : list (list pt)) : Prop :=
  forall i j a b li lj, i <> j ->
    lines !! i = Some li -> lines !! j = Some lj -> is_line (closed i) li -> is_line (closed j) lj ->
    ~ coincide (end_point li a) (end_point lj b).
(** Ends of lines may coincide, but no three of them do. *)
Definition no_three_meet (closed : nat -> bool) (lines : list (list pt)) : Prop :=
  forall i j k a b c li lj lk,
    lines !! i = Some li -> lines !! j = Some lj -> lines !! k = Some lk ->
    is_line (closed i) li -> is_line (closed j) lj -> is_line (closed k) lk ->
    (j, b) <> (i, a) -> (k, c) <> (i, a) ->
    coincide (end_point lj b) (end_point li a) -> coincide (end_point lk c) (end_point li a) -> (j, b) = (k, c).

(** All coordinates within a kilometre of the origin. *)
Definition near_origin (p : pt) : Prop := Z.abs p.1 <= 1000000000 /\ Z.abs p.2 <= 1000000000.

(** How far along a direction a line starts and ends, judged by its ends. *)
Definition along_dir (d : Q * Q) (p : pt) : Q := (inject_Z p.1 * d.1 + inject_Z p.2 * d.2)%Q.
Definition begins (d : Q * Q) (line : list pt) : Q :=
  Qmin (along_dir d (end_point line false)) (along_dir d (end_point line true)).
Definition ends (d : Q * Q) (line : list pt) : Q :=
  Qmax (along_dir d (end_point line false)) (along_dir d (end_point line true)).
Definition sideways (d : Q * Q) : Q * Q := (- d.2, d.1)%Q.

(** [q] is a neighbour of [p]: it begins at most [gap] after the end of [p], and sideways the two are
    at most [gap] apart. *)
Definition neighbour (d : Q * Q) (gap : Z) (p q : list pt) : Prop :=
  (begins d q <= ends d p + inject_Z gap /\
   begins (sideways d) q <= ends (sideways d) p + inject_Z gap /\
   begins (sideways d) p <= ends (sideways d) q + inject_Z gap)%Q.

(** [p] occurs before [q] in a sequence. *)
Definition before {A} (l : list A) (p q : A) : Prop := exists l1 l2 l3, l = l1 ++ p :: l2 ++ q :: l3.

(** Both ends of a line are equally far along the direction. *)
Definition level (d : Q * Q) (line : list pt) : Prop :=
  (along_dir d (end_point line false) == along_dir d (end_point line true))%Q.
(** Two lines begin equally far along the direction, or more than [gap] apart. *)
Definition same_row_or_apart (d : Q * Q) (gap : Z) (p q : list pt) : Prop :=
  (begins d p == begins d q \/ begins d p + inject_Z gap < begins d q \/ begins d q + inject_Z gap < begins d p)%Q.
