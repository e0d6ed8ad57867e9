(** Model of src/utils/AABB.cpp and src/utils/AABB3D.cpp. *)
From Coq Require Import ZArith.
From stdpp Require Import list.
From Verif Require Import Common Geo_Model Slicer_Model.
Open Scope Z_scope.

(** Point2LL.h:40-41 (cInt is a signed 64-bit integer) *)
Definition POINT_MIN : Z := - 2 ^ 63.
Definition POINT_MAX : Z := 2 ^ 63 - 1.

Record AABB := Aabb { bmin : pt; bmax : pt }.

(** AABB.cpp:18-22 *)
Definition aabb_empty : AABB := Aabb (POINT_MAX, POINT_MAX) (POINT_MIN, POINT_MIN).

(** AABB.cpp:164-170 include(point) *)
Definition aabb_include (b : AABB) (p : pt) : AABB :=
  Aabb (Z.min (bmin b).1 p.1, Z.min (bmin b).2 p.2) (Z.max (bmax b).1 p.1, Z.max (bmax b).2 p.2).
(** AABB.cpp:172-178 include(PointsSet) *)
Definition aabb_include_points (b : AABB) (ps : list pt) : AABB := fold_left aabb_include ps b.
(** AABB.cpp:112-120 calculate(PointsSet); the constructor AABB(PointsSet), 52-57, calls it *)
Definition aabb_calculate (ps : list pt) : AABB := aabb_include_points aabb_empty ps.
(** AABB.cpp:86-97 calculate(Shape) and 99-110 calculate(OpenLinesSet): two nested loops *)
Definition aabb_calculate_shape (pss : list (list pt)) : AABB :=
  fold_left aabb_include_points pss aabb_empty.
(** AABB.cpp:180-187 include(AABB) *)
Definition aabb_include_box (b o : AABB) : AABB :=
  Aabb (Z.min (bmin b).1 (bmin o).1, Z.min (bmin b).2 (bmin o).2)
       (Z.max (bmax b).1 (bmax o).1, Z.max (bmax b).2 (bmax o).2).
(** AABB.cpp:122-125 *)
Definition aabb_contains (b : AABB) (p : pt) : bool :=
  ((bmin b).1 <=? p.1) && (p.1 <=? (bmax b).1) && ((bmin b).2 <=? p.2) && (p.2 <=? (bmax b).2).
(** AABB.cpp:141-148 *)
Definition aabb_area (b : AABB) : Z :=
  if ((bmax b).1 <? (bmin b).1) || ((bmax b).2 <? (bmin b).2) then -1
  else ((bmax b).1 - (bmin b).1) * ((bmax b).2 - (bmin b).2).
(** AABB.cpp:127-139 *)
Definition aabb_contains_box (b o : AABB) : bool :=
  if aabb_area b <? 0 then false
  else if aabb_area o <? 0 then true
  else ((bmin b).1 <=? (bmin o).1) && ((bmax o).1 <=? (bmax b).1)
       && ((bmin b).2 <=? (bmin o).2) && ((bmax o).2 <=? (bmax b).2).
(** AABB.cpp:150-162 *)
Definition aabb_hit (b o : AABB) : bool :=
  if (bmax b).1 <? (bmin o).1 then false
  else if (bmax o).1 <? (bmin b).1 then false
  else if (bmax b).2 <? (bmin o).2 then false
  else if (bmax o).2 <? (bmin b).2 then false
  else true.
(** AABB.cpp:189-199 *)
Definition aabb_expand (b : AABB) (dist : Z) : AABB :=
  if bool_decide (bmin b = (POINT_MAX, POINT_MAX)) || bool_decide (bmax b = (POINT_MIN, POINT_MIN)) then b
  else Aabb ((bmin b).1 - dist, (bmin b).2 - dist) ((bmax b).1 + dist, (bmax b).2 + dist).

(** ** AABB3D.  The empty box uses int32 limits. *)
Definition INT32_MIN : Z := - 2 ^ 31.
Definition INT32_MAX : Z := 2 ^ 31 - 1.
Record AABB3D := Aabb3 { b3min : pt3; b3max : pt3 }.
(** AABB3D.cpp:13-17 *)
Definition aabb3_empty : AABB3D :=
  Aabb3 (Pt3 INT32_MAX INT32_MAX INT32_MAX) (Pt3 INT32_MIN INT32_MIN INT32_MIN).
(** AABB3D.cpp:47-56 *)
Definition aabb3_include (b : AABB3D) (p : pt3) : AABB3D :=
  Aabb3 (Pt3 (Z.min (px (b3min b)) (px p)) (Z.min (py (b3min b)) (py p)) (Z.min (pz (b3min b)) (pz p)))
        (Pt3 (Z.max (px (b3max b)) (px p)) (Z.max (py (b3max b)) (py p)) (Z.max (pz (b3max b)) (pz p))).
(** AABB3D.cpp:58-68 *)
Definition aabb3_include_box (b o : AABB3D) : AABB3D :=
  Aabb3 (Pt3 (Z.min (px (b3min b)) (px (b3min o))) (Z.min (py (b3min b)) (py (b3min o))) (Z.min (pz (b3min b)) (pz (b3min o))))
        (Pt3 (Z.max (px (b3max b)) (px (b3max o))) (Z.max (py (b3max b)) (py (b3max o))) (Z.max (pz (b3max b)) (pz (b3max o)))).
(** AABB3D.cpp:38-45 *)
Definition aabb3_hit (b o : AABB3D) : bool :=
  negb ((px (b3max b) <? px (b3min o)) || (px (b3max o) <? px (b3min b))
     || (py (b3max b) <? py (b3min o)) || (py (b3max o) <? py (b3min b))
     || (pz (b3max b) <? pz (b3min o)) || (pz (b3max o) <? pz (b3min b))).
(** AABB3D.cpp:91-100 *)
Definition aabb3_expand (b : AABB3D) (outset : Z) : AABB3D :=
  let mn := Pt3 (px (b3min b) - outset) (py (b3min b) - outset) (pz (b3min b) - outset) in
  let mx := Pt3 (px (b3max b) + outset) (py (b3max b) + outset) (pz (b3max b) + outset) in
  if (px mx <? px mn) || (py mx <? py mn) || (pz mx <? pz mn) then aabb3_empty else Aabb3 mn mx.
(** AABB3D.cpp:33-36 *)
Definition aabb3_flatten (b : AABB3D) : AABB :=
  Aabb (px (b3min b), py (b3min b)) (px (b3max b), py (b3max b)).
