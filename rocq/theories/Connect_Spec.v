(** Vocabulary of C69: polylines made of pieces, and lines that end on the edges of an outline. *)
From Coq Require Import ZArith.
From stdpp Require Import prelude list gmap.
From Verif Require Import Geo_Model Connect_Model.
Open Scope Z_scope.

(** A piece of a polyline: an infill line of some number, or a connection; where it goes, and what it passes. *)
Record piece := Piece { line : option nat; from : pt; via : list pt; to : pt }.
(** Each piece begins where the one before ends. *)
Definition contiguous (c : list piece) : Prop := forall i q q', c !! i = Some q -> c !! S i = Some q' -> to q = from q'.
Definition polyline (c : list piece) : list pt :=
  match c with [] => [] | q :: _ => from q :: concat (map (fun q => via q ++ [to q]) c) end.

Section input.
  Context (outline : list (list pt)) (lines : gmap nat seg) (crossings : list (list (list nat))).
  (** the lines that end on edge [v] of polygon [p], which leads to its corner number [v] *)
  Definition lines_on (p v : nat) : list nat := default [] (crossings !! p ≫= fun on_polygon => on_polygon !! v).
  (** Each line has different ends on two different edges, is listed with exactly these, once, and is not connected. *)
  Definition valid_lines (n : nat) : Prop :=
    (forall p polygon, outline !! p = Some polygon -> exists on_polygon, crossings !! p = Some on_polygon /\ length on_polygon = length polygon) /\
    (forall p v, is_Some (crossings !! p ≫= fun on_polygon => on_polygon !! v) -> exists polygon, outline !! p = Some polygon /\ (v < length polygon)%nat) /\
    (forall p v, NoDup (lines_on p v)) /\
    (forall p v i, i ∈ lines_on p v -> is_Some (lines !! i)) /\
    (forall i s, lines !! i = Some s ->
      (i < n)%nat /\ start s <> end_ s /\ s = new_seg (start s) (start_segment s) (start_polygon s) (end_ s) /\
      exists p v, (p, v) <> (start_polygon s, start_segment s) /\
        forall p' v', i ∈ lines_on p' v' <-> (p', v') = (start_polygon s, start_segment s) \/ (p', v') = (p, v)).
  (** A corner at one of the ends of the edge, or the end of a line on it. *)
  Definition place_on (p v : nat) (q : pt) : Prop :=
    exists polygon, outline !! p = Some polygon /\
      (polygon !! v = Some q \/ (if (v =? 0)%nat then last polygon else polygon !! (v - 1)%nat) = Some q \/
       exists i s, i ∈ lines_on p v /\ lines !! i = Some s /\
         q = if bool_decide ((p, v) = (start_polygon s, start_segment s)) then start s else end_ s).
  (** No line ends in the corner that its edge leads to, and successive corners differ. *)
  Definition corners_apart : Prop :=
    forall p polygon v corner, outline !! p = Some polygon -> polygon !! v = Some corner -> polygon !! S v <> Some corner /\
      forall i s, i ∈ lines_on p v -> lines !! i = Some s -> (if bool_decide ((p, v) = (start_polygon s, start_segment s)) then start s else end_ s) <> corner.
End input.

(** Where crossing lines are resolved, the new ends of the two lines differ from each other and from the other ends of their lines, and if
    it does not succeed nothing is changed. *)
Definition sane (resolve : seg -> seg -> bool -> bool -> resolution) : Prop :=
  forall a b f g, match resolve a b f g with
    | NotTried => True
    | Resolved _ _ end_a end_b => end_a <> end_b /\ end_a <> (if f then end_ a else start a) /\ end_b <> (if g then end_ b else start b)
    | Failed end_a end_b => end_a = (if f then altered_start a else altered_end a) /\ end_b = (if g then altered_start b else altered_end b)
    end.
(** No lines cross near the outline. *)
Definition quiet (resolve : seg -> seg -> bool -> bool -> resolution) : Prop := forall a b f g, resolve a b f g = NotTried.
(** A bend that was found together with the end of a line next to it. *)
Definition answer (resolve : seg -> seg -> bool -> bool -> resolution) (bend e : pt) : Prop :=
  exists a b f g bend_a bend_b end_a end_b, resolve a b f g = Resolved bend_a bend_b end_a end_b /\ ((bend, e) = (bend_a, end_a) \/ (bend, e) = (bend_b, end_b)).
