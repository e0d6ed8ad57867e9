(** Vocabulary for building a mesh from triangles (C50) and placing the meshes of a group (C60). *)
From Coq Require Import ZArith QArith.
From stdpp Require Import list.
From Verif Require Import Common Geo_Model Layers_Model Slicer_Model Slicer_Spec Box_Model Mesh_Model.
Open Scope Z_scope.

Notation triangle := (pt3 * pt3 * pt3)%type.

(** The square of the distance between two points. *)
Definition dist2 (p q : pt3) : Z :=
  (px p - px q) * (px p - px q) + (py p - py q) * (py p - py q) + (pz p - pz q) * (pz p - pz q).
Definition is_corner (p : pt3) (t : triangle) : Prop := p = t.1.1 \/ p = t.1.2 \/ p = t.2.
(** Given the vertex number every point became: the triangle in vertex numbers, and whether it is still a triangle. *)
Definition in_numbers (rep : pt3 -> nat) (t : triangle) : nat * nat * nat := (rep t.1.1, rep t.1.2, rep t.2).
Definition proper (t : nat * nat * nat) : Prop := t.1.1 <> t.1.2 /\ t.1.2 <> t.2 /\ t.1.1 <> t.2.
Global Instance proper_dec t : Decision (proper t).
Proof. unfold proper. apply _. Defined.
Definition face_numbers (f : mface) : nat * nat * nat := (vi0 f, vi1 f, vi2 f).
(** A face has vertex number [i] as a corner. *)
Definition touches (f : mface) (i : nat) : Prop := i = vi0 f \/ i = vi1 f \/ i = vi2 f.
Global Instance touches_dec f i : Decision (touches f i).
Proof. unfold touches. apply _. Defined.
(** Face number [fi] of the mesh has vertex number [i] as a corner. *)
Definition face_touches (m : mesh) (i fi : nat) : Prop :=
  match mfaces m !! fi with Some f => touches f i | None => False end.
Global Instance face_touches_dec m i fi : Decision (face_touches m i fi).
Proof. unfold face_touches. destruct (mfaces m !! fi); apply _. Defined.

(** Face number [gi] is another face with edge number [i] of face number [fi]. *)
Definition across (m : mesh) (fi i gi : nat) : Prop :=
  exists f g, mfaces m !! fi = Some f /\ mfaces m !! gi = Some g /\ gi <> fi /\
    touches g (directed_edge f i).1 /\ touches g (directed_edge f i).2.
(** The corner of a face that is not on its edge number [i]. *)
Definition apex (f : mface) (i : nat) : nat := match i with 0 => vi2 f | 1 => vi0 f | _ => vi1 f end%nat.

(** Looking along [e]: twice the signed area between the projections of two vectors, and (up to a positive factor) their
    inner product. *)
Definition area_along (e u v : pt3) : Z :=
  px e * (py u * pz v - pz u * py v) + py e * (pz u * px v - px u * pz v) + pz e * (px u * py v - py u * px v).
Definition inner_along (e u v : pt3) : Z :=
  let cr a b := Pt3 (py a * pz b - pz a * py b) (pz a * px b - px a * pz b) (px a * py b - py a * px b) in
  px (cr e u) * px (cr e v) + py (cr e u) * py (cr e v) + pz (cr e u) * pz (cr e v).
(** Turning around [e] from the direction [u] to the direction [v], one strictly passes the direction [w]. *)
Definition passes (e u v w : pt3) : Prop :=
  (0 < area_along e u v /\ 0 < area_along e u w /\ 0 < area_along e w v) \/
  (area_along e u v < 0 /\ (0 < area_along e u w \/ 0 < area_along e w v)) \/
  (area_along e u v = 0 /\ inner_along e u v < 0 /\ 0 < area_along e u w).
Definition from_to (p q : pt3) : pt3 := Pt3 (px q - px p) (py q - py p) (pz q - pz p).
(** Vertex number [i] is at position [p]. *)
Definition located (m : mesh) (i : nat) (p : pt3) : Prop := exists v, mvertices m !! i = Some v /\ mv_p v = p.
(** Seen from edge number [i] of face [f], one passes face [h] when turning from the continuation of [f] beyond the edge
    (the direction opposite to its apex) to face [g]. *)
Definition comes_before (m : mesh) (f : mface) (i : nat) (g h : mface) : Prop :=
  exists p q a b c kb kc,
    located m (directed_edge f i).1 p /\ located m (directed_edge f i).2 q /\ located m (apex f i) a /\
    touches g kb /\ kb <> (directed_edge f i).1 /\ kb <> (directed_edge f i).2 /\ located m kb b /\
    touches h kc /\ kc <> (directed_edge f i).1 /\ kc <> (directed_edge f i).2 /\ located m kc c /\
    passes (from_to p q) (from_to a p) (from_to p b) (from_to p c).

(** No directed edge is used by two faces (or twice by one), and each edge is also used in the other direction. *)
Definition watertight_numbers (fs : list mface) : Prop :=
  (forall fi f i gi g j, fs !! fi = Some f -> fs !! gi = Some g -> (i < 3)%nat -> (j < 3)%nat ->
     directed_edge f i = directed_edge g j -> fi = gi /\ i = j) /\
  (forall fi f i, fs !! fi = Some f -> (i < 3)%nat ->
     exists gi g j, fs !! gi = Some g /\ (j < 3)%nat /\ directed_edge g j = ((directed_edge f i).2, (directed_edge f i).1)).

(** The same for triangles given by their corners. *)
Definition triangle_edge (t : triangle) (i : nat) : pt3 * pt3 :=
  match i with 0 => (t.1.1, t.1.2) | 1 => (t.1.2, t.2) | _ => (t.2, t.1.1) end%nat.
Definition watertight (ts : list triangle) : Prop :=
  (forall a t i b u j, ts !! a = Some t -> ts !! b = Some u -> (i < 3)%nat -> (j < 3)%nat ->
     triangle_edge t i = triangle_edge u j -> a = b /\ i = j) /\
  (forall a t i, ts !! a = Some t -> (i < 3)%nat ->
     exists b u j, ts !! b = Some u /\ (j < 3)%nat /\ triangle_edge u j = ((triangle_edge t i).2, (triangle_edge t i).1)).
(** Any two corners are the same point or more than 30 micron apart; no triangle uses a point twice. *)
Definition separated (ts : list triangle) : Prop :=
  forall t u p q, t ∈ ts -> u ∈ ts -> is_corner p t -> is_corner q u -> p = q \/ 30 * 30 < dist2 p q.
Definition no_slivers (ts : list triangle) : Prop :=
  forall t, t ∈ ts -> t.1.1 <> t.1.2 /\ t.1.2 <> t.2 /\ t.1.1 <> t.2.

(** ** Placement *)
(** A box is the bounding box of a list of points: all lie in it and each of its six sides is reached. *)
Definition bounds (ps : list pt3) (b : AABB3D) : Prop :=
  (forall p, p ∈ ps -> px (b3min b) <= px p <= px (b3max b) /\ py (b3min b) <= py p <= py (b3max b) /\
     pz (b3min b) <= pz p <= pz (b3max b)) /\
  (exists p, p ∈ ps /\ px p = px (b3min b)) /\ (exists p, p ∈ ps /\ px p = px (b3max b)) /\
  (exists p, p ∈ ps /\ py p = py (b3min b)) /\ (exists p, p ∈ ps /\ py p = py (b3max b)) /\
  (exists p, p ∈ ps /\ pz p = pz (b3min b)) /\ (exists p, p ∈ ps /\ pz p = pz (b3max b)).
(** Half the size of the build plate, unless coordinates are relative to its centre already. *)
Definition bed_centre (s : group_settings) : Z * Z :=
  if center_is_zero s then (0, 0) else (machine_width s ÷ 2, machine_depth s ÷ 2).
Definition shifted (d : pt3) (p : pt3) : pt3 := Pt3 (px p + px d) (py p + py d) (pz p + pz d).
(** [c'] is [c] scaled by [f] away from [o], truncated to a whole number of micron. *)
Definition scaled (f : Q) (o c c' : Z) : Prop :=
  let exact := (inject_Z o + f * (inject_Z c - inject_Z o))%Q in
  (0 <= exact -> inject_Z c' <= exact < inject_Z c' + 1)%Q /\
  (exact <= 0 -> inject_Z c' - 1 < exact <= inject_Z c')%Q.

(** The displacement that puts a mesh in its place: its position relative to the centre of the build plate.  A mesh to be
    centred ends with the middle of its box there (to the rounding of half a micron) and its bottom at the height given. *)
Definition placement (s : group_settings) (m : placed) (d : pt3) : Prop :=
  let tx := px (position m) + (bed_centre s).1 in let ty := py (position m) + (bed_centre s).2 in
  if center_object m then
    2 * tx <= (px (b3min (pbox m)) + px d) + (px (b3max (pbox m)) + px d) <= 2 * tx + 1 /\
    2 * ty <= (py (b3min (pbox m)) + py d) + (py (b3max (pbox m)) + py d) <= 2 * ty + 1 /\
    pz (b3min (pbox m)) + pz d = pz (position m)
  else px d = tx /\ py d = ty /\ pz d = pz (position m).
(** [o] is the middle between the extreme values of [coord] over the vertices of the models among the meshes after
    displacing each. *)
Definition middle (coord : pt3 -> Z) (ms : list placed) (ds : list pt3) (o : Z) : Prop :=
  exists lo hi, o = (lo + hi) ÷ 2 /\
    (forall k m d p, ms !! k = Some m -> ds !! k = Some d -> is_model m = true -> p ∈ pverts m ->
       lo <= coord (shifted d p) <= hi) /\
    (exists k m d p, ms !! k = Some m /\ ds !! k = Some d /\ is_model m = true /\ p ∈ pverts m /\ coord (shifted d p) = lo) /\
    (exists k m d p, ms !! k = Some m /\ ds !! k = Some d /\ is_model m = true /\ p ∈ pverts m /\ coord (shifted d p) = hi).
