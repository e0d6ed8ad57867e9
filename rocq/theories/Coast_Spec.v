(** Vocabulary of the properties of coasting. *)
From Coq Require Import ZArith QArith.
From stdpp Require Import list.
From Verif Require Import Common GCode_Model Coast_Model.
Open Scope Q_scope.

(** One straight piece of a planned path. *)
Record seg := Seg { sfrom : pt3; sto : pt3; spath : cpath }.

(** The pieces of a path that is entered at [from]. *)
Fixpoint pieces (path : cpath) (from : pt3) (pts : list pt3) : list seg :=
  match pts with [] => [] | p :: pts' => Seg from p path :: pieces path p pts' end.

(** The pieces of consecutive paths. *)
Fixpoint run_pieces (from : pt3) (run : list cpath) : list seg :=
  match run with
  | [] => []
  | p :: run' => pieces p from (points p) ++ run_pieces (default from (last (points p))) run'
  end.

(** The volume of a piece for a line of the nominal width: length in millimetres times the volume per millimetre. *)
Definition nominal (s : seg) : Q := inject_Z (dist3 (sfrom s) (sto s)) / 1000 * (mm3 (spath s) * flow (spath s)).
(** The volume of a piece for a line of the width it is printed with. *)
Definition printed (s : seg) : Q := nominal s * width (spath s).
Definition total (v : seg -> Q) (l : list seg) : Q := foldr (fun s a => v s + a) 0 l.

Section moves.
  Context (z : Z) (coasting_speed : Q).
  (** Where a point of a path is in the print. *)
  Definition place (path : cpath) (p : pt3) : pt3 := P3 (x3 p) (y3 p) (z3 p + (z + zoff path))%Z.
  Definition extruding (path : cpath) (p : pt3) : move :=
    Extrude (place path p) (cspeed path * sfactor path * back path) (flow path * width path * mm3 path).
  Definition coasting_to (path : cpath) (p : pt3) : move := Travel (place path p) (coasting_speed * cspeed path).

  (** Every piece is extruded. *)
  Definition plain (l : list seg) : list move := (fun s => extruding (spath s) (sto s)) <$> l.
  Definition coast (l : list seg) : list move := (fun s => coasting_to (spath s) (sto s)) <$> l.
  (** Extrude the first [k] pieces and piece [s] until the part [t] of it, and travel from there. *)
  Definition split_at (l : list seg) (k : nat) (s : seg) (t : Q) : list move :=
    plain (take k l) ++ [extruding (spath s) (lerp3 (sfrom s) (sto s) t)] ++ coast (drop k l).
End moves.

(** The position from which the path after [pre] starts. *)
Definition start_after (pre : list cpath) (current_position : pt3) : pt3 :=
  match last pre with Some p => default current_position (last (points p)) | None => current_position end.

(** [run] is a maximal sequence of extruding paths between [pre] and [post]. *)
Definition is_run (pre run post : list cpath) : Prop :=
  run ≠ [] /\ Forall (fun p => travel p = false) run
  /\ (forall p, last pre = Some p -> travel p = true) /\ (forall p, head post = Some p -> travel p = true).

Definition sane (p : cpath) : Prop := points p ≠ [] /\ 0 <= mm3 p * flow p.
