(** C24: bounding boxes are exact. *)
From Coq Require Import ZArith Lia.
From stdpp Require Import list.
From Verif Require Import Common Geo_Model Slicer_Model Box_Model.
Open Scope Z_scope.

(** Specification: the set of points of a box, and the smallest box around a list of points. *)
Definition in_box (b : AABB) (p : pt) : Prop :=
  (bmin b).1 <= p.1 <= (bmax b).1 /\ (bmin b).2 <= p.2 <= (bmax b).2.
Definition coord64 (x : Z) : Prop := POINT_MIN <= x <= POINT_MAX.
Definition pt64 (p : pt) : Prop := coord64 p.1 /\ coord64 p.2.
Definition box64 (b : AABB) : Prop := pt64 (bmin b) /\ pt64 (bmax b).

Ltac ltb_lia := repeat match goal with |- context [?a <? ?b] => destruct (Z.ltb_spec a b); [lia|] end.

Lemma contains_in_box b p : aabb_contains b p = true <-> in_box b p.
Proof. unfold aabb_contains, in_box. rewrite !andb_true_iff, !Z.leb_le. tauto. Qed.

Lemma include_points_spec ps : forall b, let b' := aabb_include_points b ps in
  ((bmin b').1 <= (bmin b).1 /\ (bmin b').2 <= (bmin b).2 /\ (bmax b).1 <= (bmax b').1 /\ (bmax b).2 <= (bmax b').2) /\
  (forall p, p ∈ ps -> in_box b' p) /\
  ((bmin b').1 = (bmin b).1 \/ exists p, p ∈ ps /\ p.1 = (bmin b').1) /\
  ((bmin b').2 = (bmin b).2 \/ exists p, p ∈ ps /\ p.2 = (bmin b').2) /\
  ((bmax b').1 = (bmax b).1 \/ exists p, p ∈ ps /\ p.1 = (bmax b').1) /\
  ((bmax b').2 = (bmax b).2 \/ exists p, p ∈ ps /\ p.2 = (bmax b').2).
Proof.
  unfold aabb_include_points. induction ps as [|q ps IH]; intros b; simpl.
  - split; [lia|]. split; [intros p Hp; by apply elem_of_nil in Hp|]. auto.
  - specialize (IH (aabb_include b q)). simpl in IH. destruct IH as (A & B & C1 & C2 & C3 & C4).
    set (b' := fold_left _ _ _) in *. split; [lia|]. split.
    { intros p Hp. apply elem_of_cons in Hp as [-> |Hp]; [|by apply B]. unfold in_box. lia. }
    assert (Hex : forall f : pt -> Z, (exists p, p ∈ ps /\ f p = f p /\ True) -> True) by done.
    split; [|split; [|split]].
    + destruct C1 as [C1|(p & ? & ?)]; [|right; exists p; split; [by right|done]].
      destruct (Z.min_spec (bmin b).1 q.1) as [[? E]|[? E]]; rewrite E in C1; [by left|].
      right. exists q. split; [left|done].
    + destruct C2 as [C2|(p & ? & ?)]; [|right; exists p; split; [by right|done]].
      destruct (Z.min_spec (bmin b).2 q.2) as [[? E]|[? E]]; rewrite E in C2; [by left|].
      right. exists q. split; [left|done].
    + destruct C3 as [C3|(p & ? & ?)]; [|right; exists p; split; [by right|done]].
      destruct (Z.max_spec (bmax b).1 q.1) as [[? E]|[? E]]; rewrite E in C3; [|by left].
      right. exists q. split; [left|done].
    + destruct C4 as [C4|(p & ? & ?)]; [|right; exists p; split; [by right|done]].
      destruct (Z.max_spec (bmax b).2 q.2) as [[? E]|[? E]]; rewrite E in C4; [|by left].
      right. exists q. split; [left|done].
Qed.

(** The box of a set of points contains a point exactly if every box around the set contains it. *)
Theorem C24_box_is_smallest : forall ps, ps <> [] -> Forall pt64 ps ->
  forall p, aabb_contains (aabb_calculate ps) p = true <->
    forall b, (forall q, q ∈ ps -> in_box b q) -> in_box b p.
Proof.
  intros ps Hne Hr p. rewrite contains_in_box. unfold aabb_calculate.
  destruct (include_points_spec ps aabb_empty) as (A & B & C1 & C2 & C3 & C4).
  set (b' := aabb_include_points aabb_empty ps) in *.
  assert (Hq : exists q, q ∈ ps /\ pt64 q).
  { destruct ps as [|q ps]; [done|]. exists q. split; [left|by inversion Hr]. }
  destruct Hq as (q & Hq & Hq64). pose proof (B q Hq) as Bq. unfold pt64, coord64 in Hq64.
  rewrite Forall_forall in Hr. split.
  - intros Hp b Hb. unfold in_box in *. cbn [aabb_empty bmin bmax fst snd] in C1, C2, C3, C4.
    assert ((bmin b).1 <= (bmin b').1).
    { destruct C1 as [E|(r & Hr' & <-)]; [|by apply Hb]. pose proof (Hb q Hq). lia. }
    assert ((bmin b).2 <= (bmin b').2).
    { destruct C2 as [E|(r & Hr' & <-)]; [|by apply Hb]. pose proof (Hb q Hq). lia. }
    assert ((bmax b').1 <= (bmax b).1).
    { destruct C3 as [E|(r & Hr' & <-)]; [|by apply Hb]. pose proof (Hb q Hq). lia. }
    assert ((bmax b').2 <= (bmax b).2).
    { destruct C4 as [E|(r & Hr' & <-)]; [|by apply Hb]. pose proof (Hb q Hq). lia. }
    lia.
  - intros H. apply H. apply B.
Qed.

(** A shape's box is the box of all its points; an empty set has an empty box. *)
Theorem C24_shape_box : forall pss, aabb_calculate_shape pss = aabb_calculate (concat pss).
Proof.
  intros pss. unfold aabb_calculate_shape, aabb_calculate, aabb_include_points. generalize aabb_empty.
  induction pss as [|ps pss IH]; intros b; simpl; [done|]. by rewrite fold_left_app, IH.
Qed.
Theorem C24_empty_box : aabb_area (aabb_calculate []) = -1 /\ forall p, pt64 p -> aabb_contains (aabb_calculate []) p = false.
Proof.
  split; [done|]. intros p Hp. apply not_true_is_false. rewrite contains_in_box. unfold in_box. simpl.
  unfold POINT_MAX, POINT_MIN. lia.
Qed.

Lemma area_neg b : aabb_area b < 0 <-> forall p, ~ in_box b p.
Proof.
  unfold aabb_area, in_box. destruct (Z.ltb_spec (bmax b).1 (bmin b).1); simpl;
    [split; [intros _ p ?; lia|lia]|].
  destruct (Z.ltb_spec (bmax b).2 (bmin b).2); simpl; [split; [intros _ p ?; lia|lia]|].
  split; [intros; exfalso; nia|]. intros Hn. exfalso. apply (Hn (bmin b)). lia.
Qed.

(** hit: two non-empty boxes share a point.  Touching counts as overlapping. *)
Theorem C24_hit : forall a b, (exists p, in_box a p) -> (exists p, in_box b p) ->
  (aabb_hit a b = true <-> exists p, in_box a p /\ in_box b p).
Proof.
  intros a b [p Hp] [q Hq]. unfold in_box, aabb_hit in *. split.
  - destruct (Z.ltb_spec (bmax a).1 (bmin b).1); [done|]. destruct (Z.ltb_spec (bmax b).1 (bmin a).1); [done|].
    destruct (Z.ltb_spec (bmax a).2 (bmin b).2); [done|]. destruct (Z.ltb_spec (bmax b).2 (bmin a).2); [done|].
    intros _. exists (Z.max (bmin a).1 (bmin b).1, Z.max (bmin a).2 (bmin b).2). simpl. lia.
  - intros (r & Ha & Hb). ltb_lia. done.
Qed.
(** AABB.h documents hit() as "in the boundary case false is returned": it is not so. *)
Theorem C24_hit_touching_refuted : exists a b,
  aabb_hit a b = true /\ 0 < aabb_area a /\ 0 < aabb_area b /\
  (forall p, in_box a p -> in_box b p -> p.1 = (bmax a).1 /\ p.1 = (bmin b).1).
Proof.
  exists (Aabb (0, 0) (10, 10)), (Aabb (10, 0) (20, 10)). repeat split; try done; unfold in_box in *; simpl in *; lia.
Qed.
(** hit() on an empty box need not be false. *)
Theorem C24_hit_empty_refuted : exists a b, (forall p, ~ in_box a p) /\ aabb_hit a b = true.
Proof.
  exists (Aabb (5, 5) (3, 3)), (Aabb (0, 0) (10, 10)). split; [|done]. intros p. unfold in_box. simpl. lia.
Qed.

(** contains(box): every point of the other box is in this one; this one is not empty. *)
Theorem C24_contains_box : forall a b,
  aabb_contains_box a b = true <-> (exists p, in_box a p) /\ forall p, in_box b p -> in_box a p.
Proof.
  intros a b. unfold aabb_contains_box. destruct (Z.ltb_spec (aabb_area a) 0) as [Ha|Ha].
  - split; [done|]. intros [[p Hp] _]. exfalso. by apply (proj1 (area_neg a) Ha p).
  - assert (Hea : exists p, in_box a p).
    { exists (bmin a). unfold aabb_area, in_box in *. destruct (Z.ltb_spec (bmax a).1 (bmin a).1); simpl in *; [lia|].
      destruct (Z.ltb_spec (bmax a).2 (bmin a).2); lia. }
    destruct (Z.ltb_spec (aabb_area b) 0) as [Hb|Hb].
    + split; [|done]. intros _. split; [done|]. intros p Hp. exfalso. by apply (proj1 (area_neg b) Hb p).
    + rewrite !andb_true_iff, !Z.leb_le. split.
      * intros H. split; [done|]. intros p. unfold in_box. lia.
      * intros [_ H]. assert (Hb' : in_box b (bmin b) /\ in_box b (bmax b)).
        { unfold aabb_area, in_box in *. destruct (Z.ltb_spec (bmax b).1 (bmin b).1); simpl in *; [lia|].
          destruct (Z.ltb_spec (bmax b).2 (bmin b).2); lia. }
        destruct Hb' as [B1 B2]. apply H in B1, B2. unfold in_box in B1, B2. lia.
Qed.

(** Including a box is including all points it was made from. *)
Theorem C24_include_box : forall ps qs,
  aabb_include_box (aabb_calculate ps) (aabb_calculate qs) = aabb_calculate (ps ++ qs).
Proof.
  intros ps qs. unfold aabb_calculate, aabb_include_points. rewrite fold_left_app.
  set (b := fold_left aabb_include ps aabb_empty).
  assert (Hb : aabb_include_box b aabb_empty = b \/ True) by auto. clear Hb.
  assert (H : forall l c, (bmin b).1 <= POINT_MAX -> (bmin b).2 <= POINT_MAX -> POINT_MIN <= (bmax b).1 -> POINT_MIN <= (bmax b).2 ->
     aabb_include_box b (fold_left aabb_include l c) = fold_left aabb_include l (aabb_include_box b c)).
  { induction l as [|p l IH]; intros c ? ? ? ?; simpl; [done|]. rewrite IH by done. f_equal.
    unfold aabb_include_box, aabb_include; simpl. f_equal; f_equal; lia. }
  destruct (include_points_spec ps aabb_empty) as (A & _). unfold aabb_include_points in A. fold b in A. simpl in A.
  rewrite H by lia. f_equal. unfold aabb_include_box. destruct b as [[] []]; simpl in *. f_equal; f_equal; lia.
Qed.

(** expand by a non-negative distance: the points within that distance per axis. *)
Theorem C24_expand : forall b d, 0 <= d -> (exists p, in_box b p) ->
  bmin b <> (POINT_MAX, POINT_MAX) -> bmax b <> (POINT_MIN, POINT_MIN) ->
  forall p, aabb_contains (aabb_expand b d) p = true <->
    exists q, in_box b q /\ Z.abs (p.1 - q.1) <= d /\ Z.abs (p.2 - q.2) <= d.
Proof.
  intros b d Hd [r Hr] Hn1 Hn2 p. rewrite contains_in_box. unfold aabb_expand.
  rewrite !bool_decide_eq_false_2 by done. unfold in_box in *. cbn [orb bmin bmax fst snd]. split.
  - intros H. exists (Z.max (bmin b).1 (Z.min (bmax b).1 p.1), Z.max (bmin b).2 (Z.min (bmax b).2 p.2)). simpl. lia.
  - intros (q & ? & ? & ?). lia.
Qed.

(** ** Three dimensions *)
Definition in_box3 (b : AABB3D) (p : pt3) : Prop :=
  px (b3min b) <= px p <= px (b3max b) /\ py (b3min b) <= py p <= py (b3max b) /\ pz (b3min b) <= pz p <= pz (b3max b).
Definition c32 (x : Z) : Prop := INT32_MIN <= x <= INT32_MAX.
Definition pt3_32 (p : pt3) : Prop := c32 (px p) /\ c32 (py p) /\ c32 (pz p).

Definition lows (f : pt3 -> Z) (ps : list pt3) (z : Z) : Z := fold_left (fun m p => Z.min m (f p)) ps z.
Definition highs (f : pt3 -> Z) (ps : list pt3) (z : Z) : Z := fold_left (fun m p => Z.max m (f p)) ps z.
Lemma lows_spec f ps : forall z, lows f ps z <= z /\ (forall p, p ∈ ps -> lows f ps z <= f p) /\
   (lows f ps z = z \/ exists p, p ∈ ps /\ f p = lows f ps z).
Proof.
  unfold lows. induction ps as [|q ps IH]; intros z; simpl.
  - split; [lia|]. split; [intros p Hp; by apply elem_of_nil in Hp|by left].
  - destruct (IH (Z.min z (f q))) as (A & B & C). split; [lia|]. split.
    + intros p Hp. apply elem_of_cons in Hp as [-> |Hp]; [lia|by apply B].
    + destruct C as [C|(p & ? & ?)]; [|right; exists p; split; [by right|done]].
      destruct (Z.min_spec z (f q)) as [[? E]|[? E]]; rewrite E in *; [by left|right; exists q; split; [left|done]].
Qed.
Lemma highs_spec f ps : forall z, z <= highs f ps z /\ (forall p, p ∈ ps -> f p <= highs f ps z) /\
   (highs f ps z = z \/ exists p, p ∈ ps /\ f p = highs f ps z).
Proof.
  unfold highs. induction ps as [|q ps IH]; intros z; simpl.
  - split; [lia|]. split; [intros p Hp; by apply elem_of_nil in Hp|by left].
  - destruct (IH (Z.max z (f q))) as (A & B & C). split; [lia|]. split.
    + intros p Hp. apply elem_of_cons in Hp as [-> |Hp]; [lia|by apply B].
    + destruct C as [C|(p & ? & ?)]; [|right; exists p; split; [by right|done]].
      destruct (Z.max_spec z (f q)) as [[? E]|[? E]]; rewrite E in *; [right; exists q; split; [left|done]|by left].
Qed.
Lemma include3_fold ps : forall b, fold_left aabb3_include ps b =
  Aabb3 (Pt3 (lows px ps (px (b3min b))) (lows py ps (py (b3min b))) (lows pz ps (pz (b3min b))))
        (Pt3 (highs px ps (px (b3max b))) (highs py ps (py (b3max b))) (highs pz ps (pz (b3max b)))).
Proof.
  unfold lows, highs. induction ps as [|p ps IH]; intros [[] []]; simpl; [done|]. by rewrite IH.
Qed.

Theorem C24_box3_is_smallest : forall ps, ps <> [] -> Forall pt3_32 ps ->
  forall p, in_box3 (fold_left aabb3_include ps aabb3_empty) p <->
    forall b, (forall q, q ∈ ps -> in_box3 b q) -> in_box3 b p.
Proof.
  intros ps Hne Hr p. rewrite include3_fold.
  assert (Hq : exists q, q ∈ ps /\ pt3_32 q).
  { destruct ps as [|q ps]; [done|]. exists q. split; [left|by inversion Hr]. }
  destruct Hq as (q & Hq & Hq32). unfold pt3_32, c32 in Hq32. unfold in_box3. simpl.
  pose proof (lows_spec px ps INT32_MAX) as (A1 & B1 & C1). pose proof (lows_spec py ps INT32_MAX) as (A2 & B2 & C2).
  pose proof (lows_spec pz ps INT32_MAX) as (A3 & B3 & C3). pose proof (highs_spec px ps INT32_MIN) as (A4 & B4 & C4).
  pose proof (highs_spec py ps INT32_MIN) as (A5 & B5 & C5). pose proof (highs_spec pz ps INT32_MIN) as (A6 & B6 & C6).
  split.
  - intros Hp b Hb. pose proof (Hb q Hq) as Hbq.
    assert (px (b3min b) <= lows px ps INT32_MAX) by (destruct C1 as [E|(r & Hr' & <-)]; [lia|by apply Hb]).
    assert (py (b3min b) <= lows py ps INT32_MAX) by (destruct C2 as [E|(r & Hr' & <-)]; [lia|by apply Hb]).
    assert (pz (b3min b) <= lows pz ps INT32_MAX) by (destruct C3 as [E|(r & Hr' & <-)]; [lia|by apply Hb]).
    assert (highs px ps INT32_MIN <= px (b3max b)) by (destruct C4 as [E|(r & Hr' & <-)]; [lia|by apply Hb]).
    assert (highs py ps INT32_MIN <= py (b3max b)) by (destruct C5 as [E|(r & Hr' & <-)]; [lia|by apply Hb]).
    assert (highs pz ps INT32_MIN <= pz (b3max b)) by (destruct C6 as [E|(r & Hr' & <-)]; [lia|by apply Hb]).
    lia.
  - intros H. specialize (H (Aabb3 (Pt3 (lows px ps INT32_MAX) (lows py ps INT32_MAX) (lows pz ps INT32_MAX))
       (Pt3 (highs px ps INT32_MIN) (highs py ps INT32_MIN) (highs pz ps INT32_MIN)))). simpl in H. apply H.
    intros r Hr'. repeat split; auto.
Qed.

Theorem C24_hit3 : forall a b, (exists p, in_box3 a p) -> (exists p, in_box3 b p) ->
  (aabb3_hit a b = true <-> exists p, in_box3 a p /\ in_box3 b p).
Proof.
  intros a b [p Hp] [q Hq]. unfold in_box3, aabb3_hit in *. rewrite negb_true_iff, !orb_false_iff, !Z.ltb_ge. split.
  - intros H. exists (Pt3 (Z.max (px (b3min a)) (px (b3min b))) (Z.max (py (b3min a)) (py (b3min b))) (Z.max (pz (b3min a)) (pz (b3min b)))).
    simpl. lia.
  - intros (r & Ha & Hb). lia.
Qed.

(** expand in 3D, also inwards: exactly the points whose surrounding cube (outwards) touches the box,
    or (inwards) whose cube lies inside; nothing if the box gets too small. *)
Theorem C24_expand3 : forall b d p, pt3_32 p -> (exists q, in_box3 b q) ->
  (in_box3 (aabb3_expand b d) p <->
    if 0 <=? d then exists q, in_box3 b q /\ Z.abs (px p - px q) <= d /\ Z.abs (py p - py q) <= d /\ Z.abs (pz p - pz q) <= d
    else forall q, Z.abs (px p - px q) <= - d /\ Z.abs (py p - py q) <= - d /\ Z.abs (pz p - pz q) <= - d -> in_box3 b q).
Proof.
  intros b d p Hp [r Hr]. unfold pt3_32, c32 in Hp. unfold in_box3 in *. unfold aabb3_expand. simpl.
  destruct (Z.leb_spec 0 d) as [Hd|Hd].
  - ltb_lia. simpl. split.
    + intros H'. exists (Pt3 (Z.max (px (b3min b)) (Z.min (px (b3max b)) (px p))) (Z.max (py (b3min b)) (Z.min (py (b3max b)) (py p)))
         (Z.max (pz (b3min b)) (Z.min (pz (b3max b)) (pz p)))). simpl. lia.
    + intros (q & ? & ? & ? & ?). lia.
  - split.
    + destruct ((px (b3max b) + d <? px (b3min b) - d) || _ || _) eqn:E; simpl.
      * unfold INT32_MAX, INT32_MIN. lia.
      * intros H q Hq. lia.
    + intros H. pose proof (H (Pt3 (px p + d) (py p + d) (pz p + d))) as H1. pose proof (H (Pt3 (px p - d) (py p - d) (pz p - d))) as H2.
      simpl in H1, H2. specialize (H1 ltac:(lia)). specialize (H2 ltac:(lia)).
      ltb_lia. simpl. lia.
Qed.

Example C24_nonvacuous :
  aabb_calculate [(3, -5); (-7, 2); (4, 4)] = Aabb (-7, -5) (4, 4) /\
  aabb_hit (Aabb (-7, -5) (4, 4)) (Aabb (4, 4) (9, 9)) = true /\
  aabb_contains_box (Aabb (-7, -5) (4, 4)) (aabb_calculate []) = true /\
  aabb3_expand (fold_left aabb3_include [Pt3 0 0 0; Pt3 10 20 30] aabb3_empty) (-4) = Aabb3 (Pt3 4 4 4) (Pt3 6 16 26) /\
  aabb3_expand (fold_left aabb3_include [Pt3 0 0 0; Pt3 10 20 30] aabb3_empty) (-6) = aabb3_empty.
Proof. vm_compute. auto. Qed.

Print Assumptions C24_box_is_smallest.
Print Assumptions C24_shape_box.
Print Assumptions C24_empty_box.
Print Assumptions C24_hit.
Print Assumptions C24_contains_box.
Print Assumptions C24_include_box.
Print Assumptions C24_expand.
Print Assumptions C24_box3_is_smallest.
Print Assumptions C24_hit3.
Print Assumptions C24_expand3.
