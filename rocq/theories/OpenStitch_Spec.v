(** Specification of C09: what stitching may make of open lines. *)
From Coq Require Import ZArith.
From stdpp Require Import list.
From Verif Require Import Geo_Model Geo_Spec Order_Model.
Open Scope Z_scope.

(** A piece of an outcome: an input line by its number, and whether it is traversed backwards *)
Notation piece := (nat * bool)%type.
Definition piece_points (L : list (list pt)) (x : piece) : list pt :=
  let l := default [] (L !! x.1) in if x.2 then reverse l else l.
(** Pieces one after the other *)
Definition assemble (L : list (list pt)) (pieces : list piece) : list pt := concat (map (piece_points L) pieces).
(** The gap from the end of one piece to the start of another is less than D *)
Definition gap_below (D : Z) (L : list (list pt)) (a b : piece) : Prop :=
  exists p q, last (piece_points L a) = Some p /\ head (piece_points L b) = Some q /\ dist2 p q < D * D.
(** every piece follows the one before over a gap of less than D *)
Definition linked (D : Z) (L : list (list pt)) (pieces : list piece) : Prop :=
  forall (i : nat) a b, pieces !! i = Some a -> pieces !! S i = Some b -> gap_below D L a b.

(** [lines] and the new [polys] are the input lines L put together: every input line is one piece of exactly one of them,
    pieces meet over gaps below D, so do the last and the first piece of a polygon, and no line is traversed backwards unless
    that is allowed. *)
Definition put_together (D : Z) (backwards : bool) (L lines polys : list (list pt)) : Prop :=
  exists plans poly_plans : list (list piece),
    lines = map (assemble L) plans /\ polys = map (assemble L) poly_plans /\
    map fst (concat plans ++ concat poly_plans) ≡ₚ seq 0 (length L) /\
    (forall pl, pl ∈ plans -> linked D L pl) /\
    (forall pl, pl ∈ poly_plans -> linked D L pl /\ exists a b, head pl = Some a /\ last pl = Some b /\ gap_below D L b a) /\
    (backwards = false -> forall a, a ∈ concat plans ++ concat poly_plans -> a.2 = false).

(** Two ends that may be stitched: the end of a line with the start of a line or, backwards, any two ends of different lines.
    [ends_apart D backwards lines]: all of these are at least D apart (the square of which is D2). *)
Definition ends_apart (D2 : Z) (backwards : bool) (lines : list (list pt)) : Prop :=
  forall (i j : nat) a b, lines !! i = Some a -> lines !! j = Some b ->
    (forall p q, last a = Some p -> head b = Some q -> D2 <= dist2 p q) /\
    (backwards = true -> i <> j ->
      (forall p q, last a = Some p -> last b = Some q -> D2 <= dist2 p q) /\
      (forall p q, head a = Some p -> head b = Some q -> D2 <= dist2 p q)).

(** Extensive stitching: pieces are also stretches of polygons that exist already *)
Inductive xpiece := Line (i : nat) (backwards : bool) | Detour (l : list pt).
Definition xpiece_points (L : list (list pt)) (x : xpiece) : list pt :=
  match x with Line i b => piece_points L (i, b) | Detour l => l end.
Definition xassemble (L : list (list pt)) (pieces : list xpiece) : list pt := concat (map (xpiece_points L) pieces).
Definition line_of (x : xpiece) : list nat := match x with Line i _ => [i] | Detour _ => [] end.
Definition put_together_with_detours (L P lines polys : list (list pt)) : Prop :=
  exists plans poly_plans : list (list xpiece),
    lines = map (xassemble L) plans /\ polys = map (xassemble L) poly_plans /\
    flat_map line_of (concat plans ++ concat poly_plans) ≡ₚ seq 0 (length L) /\
    (forall l, Detour l ∈ concat plans ++ concat poly_plans -> forall p, p ∈ l -> p ∈ concat P \/ p ∈ concat L).

(** Along polygons.  The edge from p0 to p1 passes p within 100 micron, at the (rounded) foot of p *)
Definition edge_near (p0 p1 p : pt) : Prop :=
  let len := vSize (psub p1 p0) in
  let t := dot (psub p1 p0) (psub p p0) ÷ len in
  1 < len /\ 0 <= t <= len /\ dist2 (padd p0 (pdiv (pscale (psub p1 p0) t) len)) p <= 100 * 100.
(** the edge that ends in vertex i *)
Definition passes (poly : list pt) (i : nat) (p : pt) : Prop :=
  exists pl p0 p1, last poly = Some pl /\ (pl :: poly) !! i = Some p0 /\ poly !! i = Some p1 /\ edge_near p0 p1 p.
(** the first edge of all polygons that passes p: that of polygon n that ends in its vertex i *)
Definition first_pass (polys : list (list pt)) (p : pt) (n i : nat) : Prop :=
  (exists poly, polys !! n = Some poly /\ passes poly i p /\ forall i', (i' < i)%nat -> ~ passes poly i' p) /\
  forall n' poly' i', (n' < n)%nat -> polys !! n' = Some poly' -> ~ passes poly' i' p.
(** the vertices from number [from] on, to before number [to] *)
Definition walk (poly : list pt) (from to : nat) (l : list pt) : Prop :=
  (length l < length poly)%nat /\ ((from + length l) mod length poly = to)%nat /\
  forall k, (k < length l)%nat -> l !! k = poly !! ((from + k) mod length poly)%nat.
(** the vertices on one of the two ways from vertex B to vertex A *)
Definition way (poly : list pt) (A B : nat) (w : list pt) : Prop := walk poly B A w \/ walk poly A B (reverse w).
(** the distance travelled from p along points *)
Fixpoint travelled (p : pt) (l : list pt) : Z :=
  match l with [] => 0 | q :: l' => vSize (psub p q) + travelled q l' end.
(** The first polygon that passes ip0 also is the first that passes ip1, and w is its shorter way from ip1 to ip0. *)
Definition gap_way (polys : list (list pt)) (ip0 ip1 : pt) (n A B : nat) (w : list pt) : Prop :=
  first_pass polys ip0 n A /\ first_pass polys ip1 n B /\
  exists poly, polys !! n = Some poly /\ way poly A B w /\ forall w', way poly A B w' -> travelled ip1 (w ++ [ip0]) <= travelled ip1 (w' ++ [ip0]).
(** The gap from the last point of line j to the first of line i (possibly the same line) can be closed over w, of length len. *)
Definition closable (polys lines : list (list pt)) (i j n A B : nat) (w : list pt) (len : Z) : Prop :=
  exists line_1 line_2 ip0 ip1, lines !! i = Some line_1 /\ lines !! j = Some line_2 /\ head line_1 = Some ip0 /\ last line_2 = Some ip1 /\
    gap_way polys ip0 ip1 n A B w /\ len = travelled ip1 (w ++ [ip0]).
(** What becomes of the lines and the polygons *)
Definition gap_closed (polys lines : list (list pt)) (i j n A B : nat) (w : list pt) (lines' polys' : list (list pt)) : Prop :=
  exists line_1 line_2 poly x, lines !! i = Some line_1 /\ lines !! j = Some line_2 /\ polys !! n = Some poly /\
    (i = j -> lines' = <[i := []]> lines /\ polys' = polys ++ [x] /\ (x = line_1 ++ w \/ reverse x = line_1 ++ w)) /\
    (i <> j -> lines' = <[i := []]> (<[j := line_2 ++ w ++ x]> lines) /\ polys' = polys /\
       ((walk poly A B (reverse w) /\ x = line_1) \/ (A <> B /\ walk poly B A w /\ x = reverse line_1))).
