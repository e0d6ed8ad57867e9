(** * Simplification of polygons and lines

    Models [Simplify::simplify] with [detectSmall], [importance], [remove], [nextNotDeleted],
    [previousNotDeleted] (/repo/src/utils/Simplify.cpp:97-111, 218-419, include/utils/Simplify.h:163)
    and [LinearAlg2D::getDistFromLine], [getDist2FromLine] and [getDist2FromLineSegment]
    (/repo/src/utils/linearAlg2D.cpp:194-200, 242-259, include/utils/linearAlg2D.h:210-269).

    The function is a template over polygons (vertices are points) and extrusion lines (vertices
    are junctions): here over the vertex type, its position, the area deviation and the vertex that
    replaces one at an intersection.  The intersection of two lines, which is computed with floats,
    is an arbitrary partial function.  Coordinates do not overflow. *)
From Coq Require Import ZArith.
From stdpp Require Import list.
From Verif Require Import Common Geo_Model Order_Model LinearAlg_Model.
Open Scope Z_scope.

(** linearAlg2D.cpp:242-259; the quotient, computed with doubles, is truncated to an integer *)
Definition getDistFromLine (p a b : pt) : Z :=
  let ab_size := vSize (psub b a) in
  if ab_size =? 0 then vSize (psub p a)
  else Z.abs ((p.1 - b.1) * (p.2 - a.2) + (a.1 - p.1) * (p.2 - b.2)) ÷ ab_size.
(** linearAlg2D.cpp:194-200 *)
Definition getDist2FromLine (p a b : pt) : Z := getDistFromLine p a b * getDistFromLine p a b.

(** linearAlg2D.h:210-269 without the output parameter *)
Definition getDist2FromLineSegment (a b c : pt) : Z :=
  let ac := psub c a in
  let ac_size := vSize ac in
  let ab := psub b a in
  if ac_size =? 0 then vSize2 ab
  else
    let ax_size := dot ab ac ÷ ac_size in
    if ax_size <? 0 then vSize2 ab
    else if ac_size <? ax_size then vSize2 (psub b c)
    else vSize2 (psub ab (pdiv (pscale ac ax_size) ac_size)).

(** Simplify.h:163 *)
Definition min_resolution : Z := 5.

(** [to_delete[i]] *)
Definition flag (del : list bool) (i : nat) : res bool := of_opt (del !! i).

(** Simplify.cpp:97-103; [NoFuel] if every vertex is deleted *)
Fixpoint next_from (fuel : nat) (del : list bool) (i : nat) : res nat :=
  match fuel with
  | O => NoFuel
  | S fuel =>
      let i := ((i + 1) mod length del)%nat in
      let! d := flag del i in
      if d then next_from fuel del i else Ok i
  end.
Definition next_not_deleted (i : nat) (del : list bool) : res nat := next_from (length del) del i.

(** Simplify.cpp:105-111 *)
Fixpoint previous_from (fuel : nat) (del : list bool) (i : nat) : res nat :=
  match fuel with
  | O => NoFuel
  | S fuel =>
      let i := ((i + length del - 1) mod length del)%nat in
      let! d := flag del i in
      if d then previous_from fuel del i else Ok i
  end.
Definition previous_not_deleted (i : nat) (del : list bool) : res nat := previous_from (length del) del i.

(** The priority queue of Simplify.cpp:252-256: [(vertex, importance)], the least important first,
    of those the one with the lowest index. *)
Definition comes_first (a b : nat * Z) : bool := (a.2 <? b.2) || (a.2 =? b.2) && (a.1 <? b.1)%nat.
Fixpoint pop (q : list (nat * Z)) : option ((nat * Z) * list (nat * Z)) :=
  match q with
  | [] => None
  | x :: q =>
      match pop q with
      | None => Some (x, [])
      | Some (y, r) => if comes_first y x then Some (y, x :: r) else Some (x, q)
      end
  end.

Section simplify.
  Context {V : Type} (pos : V → pt) (area_deviation : V → V → V → Z) (merge : V → pt → V → V)
          (intersection : pt → pt → pt → pt → option pt)
          (max_resolution max_deviation max_area_deviation : Z).

  (** Simplify.cpp:218-237; it is only called with at least two vertices when it reads any *)
  Definition detect_small (poly : list V) (min_size : nat) : res bool :=
    if (length poly <? min_size)%nat then Ok true
    else if (length poly =? min_size)%nat then
      let! a := of_opt (poly !! 0%nat) in
      let! b := of_opt (poly !! 1%nat) in
      let! c := of_opt (poly !! (length poly - 1)%nat) in
      Ok (Z.max (Z.max (vSize2 (psub (pos b) (pos a))) (vSize2 (psub (pos c) (pos a)))) (vSize2 (psub (pos c) (pos b)))
          <? min_resolution * min_resolution)
    else Ok false.

  (** Simplify.cpp:318-347 *)
  Definition importance (poly : list V) (del : list bool) (i : nat) (closed : bool) : res Z :=
    if negb closed && ((i =? 0)%nat || (i =? length poly - 1)%nat) then Ok INT64_MAX
    else
      let! v := of_opt (poly !! i) in
      let! bi := previous_not_deleted i del in
      let! ai := next_not_deleted i del in
      let! b := of_opt (poly !! bi) in
      let! a := of_opt (poly !! ai) in
      if max_area_deviation <? area_deviation b v a then Ok INT64_MAX
      else
        let deviation2 := getDist2FromLine (pos v) (pos b) (pos a) in
        if deviation2 <=? min_resolution * min_resolution then Ok deviation2
        else if (max_resolution * max_resolution <? vSize2 (psub (pos b) (pos v)))
             && (max_resolution * max_resolution <? vSize2 (psub (pos a) (pos v))) then Ok INT64_MAX
        else Ok deviation2.

  (** Simplify.cpp:349-419: the vertices, which are deleted, and whether this one was *)
  Definition remove (poly : list V) (del : list bool) (i : nat) (deviation2 : Z) (closed : bool)
    : res (list V * list bool * bool) :=
    if deviation2 <=? min_resolution * min_resolution then Ok (poly, <[i := true]> del, true)
    else
      let! bi := previous_not_deleted i del in
      let! ai := next_not_deleted i del in
      let! v := of_opt (poly !! i) in
      let! b := of_opt (poly !! bi) in
      let! a := of_opt (poly !! ai) in
      let length2_before := vSize2 (psub (pos v) (pos b)) in
      let length2_after := vSize2 (psub (pos v) (pos a)) in
      if (length2_before <=? max_resolution * max_resolution) && (length2_after <=? max_resolution * max_resolution)
      then Ok (poly, <[i := true]> del, true)
      else
        let! edges :=
          if length2_before <=? length2_after then
            if negb closed && (bi =? 0)%nat then Ok None
            else
              let! bbi := previous_not_deleted bi del in
              let! bb := of_opt (poly !! bbi) in
              Ok (Some (pos bb, pos b, pos v, pos a))
          else
            if negb closed && (ai =? length poly - 1)%nat then Ok None
            else
              let! aai := next_not_deleted ai del in
              let! aa := of_opt (poly !! aai) in
              Ok (Some (pos b, pos v, pos a, pos aa)) in
        match edges with
        | None => Ok (poly, del, false)
        | Some (before_from, before_to, after_from, after_to) =>
            match intersection before_from before_to after_from after_to with
            | None => Ok (poly, del, false)
            | Some x =>
                if getDist2FromLineSegment before_to x after_from <=? max_deviation * max_deviation
                then Ok (<[if length2_before <=? length2_after then bi else ai := merge b x a]> poly,
                         <[i := true]> del, true)
                else Ok (poly, del, false)
            end
        end.

  (** Simplify.cpp:264-273: the vertices that are left, from [i] on *)
  Fixpoint initial (poly : list V) (del : list bool) (closed : bool) (i : nat) (rest : list bool)
    : res (list (nat * Z)) :=
    match rest with
    | [] => Ok []
    | d :: rest =>
        if d then initial poly del closed (S i) rest
        else
          let! w := importance poly del i closed in
          let! q := initial poly del closed (S i) rest in
          Ok ((i, w) :: q)
    end.

  (** Simplify.cpp:277-296 *)
  Fixpoint thin_out (fuel : nat) (closed : bool) (min_size : nat)
      (poly : list V) (del : list bool) (q : list (nat * Z)) (removed : nat)
    : res (list V * list bool * list (nat * Z) * nat) :=
    match fuel with
    | O => NoFuel
    | S fuel =>
        match pop q with
        | None => Ok (poly, del, q, removed)
        | Some ((i, w), q') =>
            if (min_size <? length poly - removed)%nat then
              let! w' := importance poly del i closed in
              if negb (w' =? w) then thin_out fuel closed min_size poly del ((i, w') :: q') removed
              else if w' <=? max_deviation * max_deviation then
                let! r := remove poly del i w' closed in
                thin_out fuel closed min_size r.1.1 r.1.2 q' (if r.2 then S removed else removed)
              else thin_out fuel closed min_size poly del q' removed
            else Ok (poly, del, q, removed)
        end
    end.

  (** Simplify.cpp:259-297; the condition of the loop holds the first time *)
  Fixpoint rounds (fuel : nat) (closed : bool) (min_size : nat) (poly : list V) (del : list bool) (q : list (nat * Z))
    : res (list V * list bool) :=
    match fuel with
    | O => NoFuel
    | S fuel =>
        let! new := initial poly del closed 0 del in
        let! r := thin_out (S (length poly) * S (length poly)) closed min_size poly del (q ++ new) 0 in
        let poly := r.1.1.1 in
        if (min_size <? length poly - r.2)%nat && negb (r.2 =? 0)%nat
        then rounds fuel closed min_size poly r.1.1.2 r.1.2
        else Ok (poly, r.1.1.2)
    end.

  (** Simplify.cpp:300-308 *)
  Fixpoint kept (poly : list V) (del : list bool) : list V :=
    match poly, del with
    | v :: poly, d :: del => if d then kept poly del else v :: kept poly del
    | _, _ => []
    end.

  (** Simplify.cpp:239-316 *)
  Definition simplify (poly : list V) (closed : bool) : res (list V) :=
    let min_size := if closed then 3%nat else 2%nat in
    let! small := detect_small poly min_size in
    if small then Ok []
    else if (length poly =? min_size)%nat then Ok poly
    else
      let! r := rounds (S (length poly)) closed min_size poly (replicate (length poly) false) [] in
      let filtered := kept r.1 r.2 in
      let! small := detect_small filtered min_size in
      Ok (if small then [] else filtered).
End simplify.

(** Points: Simplify.cpp:148-151, 161-164 *)
Definition simplify_points (intersection : pt → pt → pt → pt → option pt) (max_resolution max_deviation max_area_deviation : Z)
  : list pt → bool → res (list pt) :=
  simplify (λ p, p) (λ _ _ _, 0) (λ _ x _, x) intersection max_resolution max_deviation max_area_deviation.

(** Junctions (include/utils/ExtrusionJunction.h): Simplify.cpp:153-159, 166-216 *)
Record junction := Junction { j_pos : pt; j_width : Z; j_perimeter : nat }.
Definition junction_area_deviation (before vertex after : junction) : Z :=
  let ab_length := vSize (psub (j_pos vertex) (j_pos before)) in
  let bc_length := vSize (psub (j_pos after) (j_pos vertex)) in
  let ac_length := vSize (psub (j_pos after) (j_pos before)) in
  if (ab_length =? 0) || (ac_length =? 0) || (bc_length =? 0) then 0
  else
    let width_diff := Z.max (Z.abs (j_width vertex - j_width before)) (Z.abs (j_width after - j_width vertex)) in
    if 1 <? width_diff then
      let ab_weight := (j_width before + j_width vertex) ÷ 2 in
      let bc_weight := (j_width vertex + j_width after) ÷ 2 in
      let average := (ab_length * ab_weight + bc_length * bc_weight) ÷ ac_length in
      Z.abs (ab_weight - average) * ab_length + Z.abs (bc_weight - average) * bc_length
    else if bc_length <? ab_length then width_diff * bc_length else width_diff * ab_length.
Definition simplify_junctions (intersection : pt → pt → pt → pt → option pt) (max_resolution max_deviation max_area_deviation : Z)
  : list junction → bool → res (list junction) :=
  simplify j_pos junction_area_deviation
    (λ b x a, Junction x ((j_width b + j_width a) ÷ 2) (j_perimeter b))
    intersection max_resolution max_deviation max_area_deviation.
