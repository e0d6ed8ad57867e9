(** Model of coasting: LayerPlan::calculatePathsCoasting and LayerPlan::writePathWithCoasting (src/LayerPlan.cpp).
    Doubles are exact rationals, coord_t is Z. *)
From Coq Require Import ZArith QArith Qround.
From stdpp Require Import list.
From Verif Require Import Common GCode_Model.
Open Scope Q_scope.

(** include/pathPlanning/GCodePath.h and include/GCodePathConfig.h: the fields of a planned path used here.
    [travel] is config.isTravelPath() (line width zero), [wall] says that the type is OuterWall or InnerWall,
    [mm3] is config.extrusion_mm3_per_mm, [zoff] is z_offset, [cspeed] the speed of the config, [factor] is
    speed_factor and [back] is speed_back_pressure_factor. The points are relative to the layer in z. *)
Record cpath := CPath {
  points : list pt3; travel : bool; wall : bool; mm3 : Q; flow : Q; width : Q; zoff : Z;
  cspeed : Q; sfactor : Q; back : Q }.

(** include/LayerPlan.h:82-94 *)
Inductive coasting := NoCoasting | CoastEntirePath | PartialCoasting (start_index : nat) (start_pos : pt3).

(** std::llrint of an exact value: to the nearest integer, ties to even *)
Definition llrint (q : Q) : Z :=
  let f := Qfloor q in
  match Qcompare (q - inject_Z f) (1 # 2) with
  | Lt => f
  | Gt => (f + 1)%Z
  | Eq => if Z.even f then f else (f + 1)%Z
  end.

(** include/utils/Coord_t.h:37-41 and include/geometry/Point3LL.h:196-199 *)
Definition lerp (a b : Z) (t : Q) : Z := llrint (inject_Z a + t * (inject_Z b - inject_Z a)).
Definition lerp3 (a b : pt3) (t : Q) : pt3 := P3 (lerp (x3 a) (x3 b) t) (lerp (y3 a) (y3 b) t) (lerp (z3 a) (z3 b) t).

(** include/geometry/Point3LL.h:132-145: the length of the difference of two points, rounded to the nearest integer
    (the root of an integer is never a tie) *)
Definition dist3 (a b : pt3) : Z :=
  let n := ((x3 b - x3 a) * (x3 b - x3 a) + (y3 b - y3 a) * (y3 b - y3 a) + (z3 b - z3 a) * (z3 b - z3 a))%Z in
  let s := Z.sqrt n in if (n <=? s * s + s)%Z then s else (s + 1)%Z.

(** include/utils/Coord_t.h:28 *)
Definition INT2MM (n : Z) : Q := inject_Z n / 1000.

(** range-v3 views::chunk_by: a chunk ends between two neighbours for which the predicate is false *)
Fixpoint chunk_by {A} (pred : A -> A -> bool) (l : list A) : list (list A) :=
  match l with
  | [] => []
  | a :: l' =>
      match chunk_by pred l' with
      | (b :: c) :: cs => if pred a b then (a :: b :: c) :: cs else [a] :: (b :: c) :: cs
      | cs => [a] :: cs
      end
  end.

(** The local variables of the loop over one chunk: accumulated_volume, chunk_coasting_point_reached and
    chunk_min_volume_reached (LayerPlan.cpp:1616-1618) *)
Record cst := CSt { acc : Q; reached : bool; min_reached : bool }.

Section coast.
  Context (coasting_volume coasting_min_volume : Q).
  Context (paths : list cpath) (current_position : pt3).

  (** LayerPlan.cpp:1633-1645: paths[path_idx - 1].points.back() is undefined without points *)
  Definition previous_point (path_idx : nat) (path : cpath) (point_idx : nat) : res pt3 :=
    match point_idx with
    | S k => of_opt (points path !! k)
    | O =>
        match path_idx with
        | S k => let! before := of_opt (paths !! k) in of_opt (last (points before))
        | O => Ok current_position
        end
    end.

  (** LayerPlan.cpp:1627 *)
  Definition extrusion_per_length (path : cpath) : Q := mm3 path * flow path.

  (** LayerPlan.cpp:1629-1675: the loop over the points of a path, last point first, given as the indexed points in
      that order. A factor of 0 / 0 is not a number, of which llrint has no specified value. *)
  Fixpoint walk_points (path_idx : nat) (path : cpath) (l : list (nat * pt3)) (st : cst) (pc : coasting)
      : res (cst * coasting) :=
    match l with
    | [] => Ok (st, pc)
    | (point_idx, point) :: l' =>
        let! previous := previous_point path_idx path point_idx in
        let segment_volume := INT2MM (dist3 previous point) * extrusion_per_length path in
        let acc1 := acc st + segment_volume in
        let! r :=
          match reached st, pc with
          | false, NoCoasting =>
              if Qle_bool coasting_volume acc1 then
                if Qeq_bool segment_volume 0 then UB
                else Ok (true, PartialCoasting point_idx (lerp3 previous point ((acc1 - coasting_volume) / segment_volume)))
              else Ok (false, if Nat.eqb point_idx 0 then CoastEntirePath else NoCoasting)
          | b, c => Ok (b, c)
          end in
        let min1 := if Qle_bool coasting_min_volume acc1 then true else min_reached st in
        let st1 := CSt acc1 r.1 min1 in
        if min1 && r.1 then Ok (st1, r.2) else walk_points path_idx path l' st1 r.2
    end.

  (** LayerPlan.cpp:1620-1681: the loop over the paths of a reversed chunk; result: the last state and the coasting of
      each path of the chunk, in the order of the chunk. The code writes these to the slots of the paths in a vector
      that starts with NoCoasting everywhere. *)
  Fixpoint walk_paths (chunk : list (nat * cpath)) (st : cst) : res (cst * list coasting) :=
    match chunk with
    | [] => Ok (st, [])
    | (path_idx, path) :: rest =>
        if travel path then
          let! r := walk_paths rest st in Ok (r.1, NoCoasting :: r.2)
        else
          let! s := walk_points path_idx path (reverse (imap pair (points path))) st NoCoasting in
          if min_reached s.1 && reached s.1 then Ok (s.1, s.2 :: ((fun _ => NoCoasting) <$> rest))
          else let! r := walk_paths rest s.1 in Ok (r.1, s.2 :: r.2)
    end.

  (** LayerPlan.cpp:1604-1692: one reversed chunk *)
  Definition chunk_coasting (chunk : list (nat * cpath)) : res (list coasting) :=
    match chunk with
    | [] => Ok []
    | (_, front) :: _ =>
        if negb (wall front) then Ok ((fun _ => NoCoasting) <$> chunk)
        else
          let! r := walk_paths chunk (CSt 0 false false) in
          if negb (min_reached r.1) then Ok ((fun _ => NoCoasting) <$> chunk) else Ok r.2
    end.

  Fixpoint chunks_coasting (chunks : list (list (nat * cpath))) : res (list coasting) :=
    match chunks with
    | [] => Ok []
    | c :: cs => let! r := chunk_coasting c in let! rs := chunks_coasting cs in Ok (r ++ rs)
    end.

  (** LayerPlan.cpp:1598-1602 *)
  Definition same_chunk (path_a path_b : nat * cpath) : bool := negb (travel path_a.2) || travel path_b.2.

  (** LayerPlan.cpp:1583-1695 with coasting_enable *)
  Definition calculatePathsCoasting : res (list coasting) :=
    let! r := chunks_coasting (chunk_by same_chunk (reverse (imap pair paths))) in Ok (reverse r).
End coast.

(** What is written: an extrusion to a position at a speed with a volume per length, or a travel. The factor for the
    layer thickness of writeExtrusionRelativeZ (LayerPlan.cpp:2851-2862), which is 1 on a flat layer, is left out, and
    so are the temperature commands of insertTempOnTime and the calls for the layer view. *)
Inductive move := Extrude (p : pt3) (speed e : Q) | Travel (p : pt3) (speed : Q).

Definition raise (z : Z) (p : pt3) : pt3 := P3 (x3 p) (y3 p) (z3 p + z)%Z.

Section write.
  Context (z : Z) (coasting_speed : Q).

  (** src/pathPlanning/GCodePath.cpp:14-17 *)
  Definition getExtrusionMM3perMM (path : cpath) : Q := flow path * width path * mm3 path.

  (** LayerPlan.cpp:2842-2865 *)
  Definition writeExtrusion (path : cpath) (speed : Q) (p : pt3) : move :=
    Extrude (raise (z + zoff path)%Z p) speed (getExtrusionMM3perMM path).
  (** LayerPlan.cpp:2837-2840 *)
  Definition writeTravel (path : cpath) (speed : Q) (p : pt3) : move := Travel (raise (z + zoff path)%Z p) speed.

  (** LayerPlan.cpp:3916-3972 writePathWithCoasting, and 3682-3685, 3760-3781 for a path that does not coast (and is
      no travel and not spiralized) *)
  Definition write_path (path : cpath) (pc : coasting) : res (list move) :=
    let extrude_speed := cspeed path * sfactor path * back path in
    let coast_speed := coasting_speed * cspeed path in
    match pc with
    | NoCoasting => Ok (writeExtrusion path extrude_speed <$> points path)
    | CoastEntirePath => Ok (writeTravel path coast_speed <$> points path)
    | PartialCoasting start_index start_pos =>
        if (length (points path) <? start_index)%nat then UB
        else
          Ok ((writeExtrusion path extrude_speed <$> take start_index (points path))
                ++ [writeExtrusion path extrude_speed start_pos]
                ++ (writeTravel path coast_speed <$> drop start_index (points path)))
    end.

  (** LayerPlan.cpp:3520-3781: consecutive paths that extrude *)
  Fixpoint write_paths (l : list (cpath * coasting)) : res (list move) :=
    match l with
    | [] => Ok []
    | (path, pc) :: l' => let! a := write_path path pc in let! b := write_paths l' in Ok (a ++ b)
    end.
End write.
