(** Vocabulary of C68: a walk around a polygon, the stretches of it between scanlines, and which of them are printed. *)
From Coq Require Import ZArith QArith Sorting.Sorted.
From stdpp Require Import prelude list.
From Verif Require Import Geo_Model LineInfill_Spec.
Open Scope Z_scope.

(** Places on the walk: a corner of the polygon, or a crossing with a scanline of some number. *)
Inductive stop := Corner (p : pt) | Cross (k : Z) (p : pt).

Section walk.
  Context (d shift : Z). (** scanline [k] is at [k * d + shift] *)

  (** The stops on an edge: its crossings with all the scanlines it cuts, in the order of the walk, each within a unit of the edge; then its end. *)
  Definition along (e : pt * pt) (stops : list stop) : Prop :=
    exists crossings : list (Z * pt),
      stops = map (fun c => Cross c.1 c.2) crossings ++ [Corner e.2] /\
      (forall k, k ∈ map fst crossings <-> cuts (k * d + shift) e = true) /\
      StronglySorted (fun k l => if e.1.1 <? e.2.1 then k < l else l < k) (map fst crossings) /\
      (forall k p, (k, p) ∈ crossings -> p.1 = k * d + shift /\ (inject_Z p.2 - 1 < height p.1 e)%Q /\ (height p.1 e < inject_Z p.2 + 1)%Q).

  (** A walk around the polygon, which begins and ends at its last corner. *)
  Definition tour (poly : list pt) (stops : list stop) : Prop :=
    exists p0 parts, last poly = Some p0 /\ Forall2 along (zip (p0 :: poly) poly) parts /\ stops = Corner p0 :: concat parts.
End walk.

(** The walk as some corners, and then crossings (the number of the scanline and the place) each with the corners that follow it. *)
Definition stops_of (corners : list pt) (crossings : list (Z * pt * list pt)) : list stop :=
  map Corner corners ++ concat (map (fun c => Cross c.1.1 c.1.2 :: map Corner c.2) crossings).

(** What is between one crossing and the next one; the last stretch leads on from the begin of the walk to the first crossing. *)
Record stretch := Stretch { from : Z; to : Z; course : list pt; around : bool }.
Fixpoint stretches_from (corners : list pt) (first : Z * pt) (crossings : list (Z * pt * list pt)) : list stretch :=
  match crossings with
  | [] => []
  | [(k, p, cs)] => [Stretch k first.1 (p :: cs ++ corners ++ [first.2]) true]
  | (k, p, cs) :: ((l, q, _) :: _) as rest => Stretch k l (p :: cs ++ [q]) false :: stretches_from corners first rest
  end.
Definition stretches (corners : list pt) (crossings : list (Z * pt * list pt)) : list stretch :=
  match crossings with [] => [] | c :: _ => stretches_from corners c.1 crossings end.

Section rule.
  Context (use_endpieces connected_endpieces skip_some_zags : bool) (zag_skip_count d shift : Z).

  (** A stretch back to its own scanline is an end piece; others are connections. *)
  Definition endpiece (st : stretch) : bool := from st =? to st.
  (** Every so many connections are skipped: the ones between scanline [k] and the next one where the count divides [k]. *)
  Definition skipped (st : stretch) : bool :=
    skip_some_zags && (0 <? zag_skip_count) && (Z.min (from st) (to st) mod zag_skip_count =? 0).
  (** Some place on the stretch is a quarter of the line distance away from its scanline. *)
  Definition far_enough (st : stretch) : bool :=
    existsb (fun p : pt => d ÷ 4 <=? Z.abs (p.1 - (to st * d + shift))) (course st).
  (** The polylines for a stretch. *)
  Definition printed (st : stretch) : list (list pt) :=
    if endpiece st then
      if use_endpieces && (around st || far_enough st) then [if connected_endpieces then course st else removelast (course st)] else []
    else if Z.even (from st) && negb (skipped st) then [course st] else [].
  (** And for all of the polygon. *)
  Definition connectors (corners : list pt) (crossings : list (Z * pt * list pt)) : list (list pt) :=
    match crossings with
    | [] => if use_endpieces then [if connected_endpieces then corners else removelast corners] else []
    | _ => concat (map printed (stretches corners crossings))
    end.
End rule.
