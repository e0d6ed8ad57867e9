(** * C53: the integer computations of the geometric primitives do not overflow *)
From Coq Require Import ZArith Lia.
From stdpp Require Import list.
From Verif Require Import Common Geo_Model Order_Model LinearAlg_Model LinearAlg_Props Simplify_Model Math_Model
  Overflow_Model Overflow_Spec Overflow_Proofs.
Open Scope Z_scope.

Lemma size_vSize p : size p = vSize p. Proof. reflexivity. Qed.
Lemma km_pos : 2 * (kilometre * kilometre) < 2 ^ 63 /\ kilometre < 2 ^ 63 /\ 0 <= kilometre. Proof. done. Qed.

Local Ltac mem := rewrite ?elem_of_cons; tauto.
Local Ltac near := match goal with H : spread _ _ |- _ => apply H; mem end.
Local Ltac vecs := first [assumption | apply psub_vec; near | done].

(** ** Vectors *)

(** Squared sizes, sizes, dot and cross products of vectors with components below 2^31 (2.1 km). *)
Theorem C53_vectors (a b : pt) :
  vec (2 ^ 31 - 1) a -> vec (2 ^ 31 - 1) b ->
  vSize2_ i64 a = Ok (a.1 * a.1 + a.2 * a.2) /\
  dot_ i64 a b = Ok (a.1 * b.1 + a.2 * b.2) /\
  cross_ i64 a b = Ok (a.1 * b.2 - a.2 * b.1) /\
  vSize_ i64 a = Ok (vSize a) /\
  turn90CCW_ i64 a = Ok (- a.2, a.1).
Proof.
  intros Ha Hb. split; [by apply (vSize2_ok (2 ^ 31 - 1))|]. split; [by apply (dot_ok (2 ^ 31 - 1) (2 ^ 31 - 1))|].
  split; [by apply (cross_ok (2 ^ 31 - 1) (2 ^ 31 - 1))|]. split; [by apply (vSize_ok (2 ^ 31 - 1))|].
  unfold turn90CCW_, neg. destruct Ha. rewrite i64_abs by lia. reflexivity.
Qed.
Print Assumptions C53_vectors.
(** The bound is sharp. *)
Theorem C53_vectors_refuted : vSize2_ i64 (2 ^ 31, 2 ^ 31) = UB /\ dot_ i64 (2 ^ 31, 2 ^ 31) (2 ^ 31, 2 ^ 31) = UB.
Proof. vm_compute. done. Qed.
Print Assumptions C53_vectors_refuted.

(** Testing whether a vector is not longer than a length below 2^31 never overflows, whatever the
    vector: the box test comes first. *)
Theorem C53_shorter_than (p : pt) (len : Z) :
  Z.abs len < 2 ^ 31 ->
  shorterThen_ i64 p len = Ok (shorterThen p len) /\
  (shorterThen p len = true <-> 0 <= len /\ p.1 * p.1 + p.2 * p.2 <= len * len).
Proof.
  intros Hl. unfold shorterThen_, shorterThen, neg. split.
  - destruct (Z.ltb_spec len p.1); [done|]. rewrite (i64_abs (- len)) by lia. cbn [rbind orb].
    destruct (Z.ltb_spec p.1 (- len)); [done|]. destruct (Z.ltb_spec len p.2); [done|]. cbn [rbind orb].
    destruct (Z.ltb_spec p.2 (- len)); [done|].
    rewrite (vSize2_ok (2 ^ 31 - 1)) by (done || split; lia). cbn [rbind]. unfold mul.
    rewrite i64_abs by nia. reflexivity.
  - unfold vSize2. destruct (Z.ltb_spec len p.1); cbn [orb]; [split; [done|nia]|].
    destruct (Z.ltb_spec p.1 (- len)); [split; [done|nia]|]. destruct (Z.ltb_spec len p.2); cbn [orb]; [split; [done|nia]|].
    destruct (Z.ltb_spec p.2 (- len)); [split; [done|nia]|]. rewrite Z.leb_le. split; [intros; split; [lia|done]|tauto].
Qed.
Print Assumptions C53_shorter_than.

(** Scaling a vector to a length. *)
Theorem C53_normal (p : pt) (len : Z) :
  vec kilometre p -> Z.abs len <= 2 ^ 31 -> normal_ i64 p len = Ok (scaled p len).
Proof. intros Hp Hl. by apply (normal_ok kilometre (2 ^ 31)). Qed.
Print Assumptions C53_normal.

(** Three-dimensional vectors with components of up to 2^30 (1 km). *)
Theorem C53_vectors_3d (x y z x' y' z' : Z) :
  Forall (fun c => Z.abs c <= 2 ^ 30) [x; y; z; x'; y'; z'] ->
  vSize2_3_ i64 x y z = Ok (x * x + y * y + z * z) /\
  dot_3_ i64 x y z x' y' z' = Ok (x * x' + y * y' + z * z').
Proof.
  intros H. rewrite !Forall_cons in H. destruct H as (H1 & H2 & H3 & H4 & H5 & H6 & _).
  assert (K : forall a b, Z.abs a <= 2 ^ 30 -> Z.abs b <= 2 ^ 30 -> Z.abs (a * b) <= 2 ^ 60).
  { intros a b A B. exact (mul_bnd _ _ _ _ A B). }
  unfold vSize2_3_, dot_3_, mul, add.
  pose proof (K x x H1 H1). pose proof (K y y H2 H2). pose proof (K z z H3 H3).
  pose proof (K x x' H1 H4). pose proof (K y y' H2 H5). pose proof (K z z' H3 H6).
  split.
  - rewrite (i64_abs (x * x)) by lia. cbn [rbind]. rewrite (i64_abs (y * y)) by lia. cbn [rbind].
    rewrite (i64_abs (x * x + y * y)) by lia. cbn [rbind]. rewrite (i64_abs (z * z)) by lia. cbn [rbind].
    rewrite i64_abs by lia. done.
  - rewrite (i64_abs (x * x')) by lia. cbn [rbind]. rewrite (i64_abs (y * y')) by lia. cbn [rbind].
    rewrite (i64_abs (x * x' + y * y')) by lia. cbn [rbind]. rewrite (i64_abs (z * z')) by lia. cbn [rbind].
    rewrite i64_abs by lia. done.
Qed.
Print Assumptions C53_vectors_3d.

(** ** Predicates and distances of second degree, for points within a kilometre of each other *)

Local Ltac dprod D :=
  match goal with
  | |- context [i64 (?a * ?b)] =>
      let X := fresh in
      assert (X : Z.abs (a * b) <= D * D) by (apply mul_bnd; lia);
      rewrite (i64_abs (a * b)) by lia; cbn [rbind]
  end.
Local Ltac dif :=
  match goal with |- context [i64 (?a - ?b)] => rewrite (i64_abs (a - b)) by lia; cbn [rbind] end.

Theorem C53_right_of_line (p p0 p1 : pt) :
  spread kilometre [p; p0; p1] ->
  pointLiesOnTheRightOfLine_ i64 p p0 p1 = Ok (pointLiesOnTheRightOfLine p p0 p1).
Proof.
  intros H.
  assert (H0 : Z.abs (p1.1 - p0.1) <= 2 ^ 30 - 1 /\ Z.abs (p1.2 - p0.2) <= 2 ^ 30 - 1) by near.
  assert (H1 : Z.abs (p1.1 - p.1) <= 2 ^ 30 - 1 /\ Z.abs (p1.2 - p.2) <= 2 ^ 30 - 1) by near.
  assert (H2 : Z.abs (p.1 - p0.1) <= 2 ^ 30 - 1 /\ Z.abs (p.2 - p0.2) <= 2 ^ 30 - 1) by near.
  destruct H0, H1, H2. unfold pointLiesOnTheRightOfLine_, pointLiesOnTheRightOfLine, sub, mul.
  destruct (p.1 <=? Z.max p0.1 p1.1); [|done]. dif. destruct (p1.2 - p0.2 <? 0).
  - destruct ((p1.2 <=? p.2) && (p.2 <? p0.2)); [|done].
    dif. dif. dprod (2 ^ 30 - 1). dif. dprod (2 ^ 30 - 1).
    rewrite i64_abs by lia. done.
  - destruct (p0.2 <=? p.2); [|done]. destruct (p.2 <? p1.2).
    + dif. dif. dprod (2 ^ 30 - 1). dif. dprod (2 ^ 30 - 1). rewrite i64_abs by lia. done.
    + destruct (p.2 =? p1.2); done.
Qed.
Print Assumptions C53_right_of_line.

Theorem C53_projected_beyond (from a b : pt) :
  spread kilometre [from; a; b] ->
  pointIsProjectedBeyondLine_ i64 from a b = Ok (pointIsProjectedBeyondLine from a b).
Proof.
  intros H. unfold pointIsProjectedBeyondLine_, pointIsProjectedBeyondLine.
  rewrite (psub_ok kilometre b a) by (near || done). cbn [rbind].
  rewrite (psub_ok kilometre from a) by (near || done). cbn [rbind].
  rewrite (dot_ok kilometre kilometre) by vecs. cbn [rbind].
  destruct (_ <? 0); [done|]. rewrite (vSize2_ok kilometre) by vecs. cbn [rbind]. by destruct (_ <? _).
Qed.
Print Assumptions C53_projected_beyond.

Theorem C53_corners (a b c : pt) :
  spread kilometre [a; b; c] ->
  isAcuteCorner_ i64 a b c = Ok ((a.1 - b.1) * (c.1 - b.1) + (a.2 - b.2) * (c.2 - b.2)) /\
  pointIsLeftOfLine_ i64 a b c = Ok ((c.1 - b.1) * (a.2 - b.2) - (c.2 - b.2) * (a.1 - b.1)) /\
  angleLeft_products_ i64 a b c =
    Ok ((a.1 - b.1) * (c.1 - b.1) + (a.2 - b.2) * (c.2 - b.2), (a.1 - b.1) * (c.2 - b.2) - (a.2 - b.2) * (c.1 - b.1)).
Proof.
  intros H.
  assert (H0 : Z.abs (a.1 - b.1) <= 2 ^ 30 - 1 /\ Z.abs (a.2 - b.2) <= 2 ^ 30 - 1) by near.
  assert (H1 : Z.abs (c.1 - b.1) <= 2 ^ 30 - 1 /\ Z.abs (c.2 - b.2) <= 2 ^ 30 - 1) by near.
  assert (S1 : psub_ i64 a b = Ok (psub a b)) by (apply (psub_ok kilometre); [near|done]).
  assert (S2 : psub_ i64 c b = Ok (psub c b)) by (apply (psub_ok kilometre); [near|done]).
  split; [|split].
  - unfold isAcuteCorner_. rewrite S1, S2. cbn [rbind]. by rewrite (dot_ok kilometre kilometre) by vecs.
  - unfold pointIsLeftOfLine_, sub, mul. destruct H0, H1.
    dif. dif. dprod (2 ^ 30 - 1). dif. dif. dprod (2 ^ 30 - 1). rewrite i64_abs by lia. done.
  - unfold angleLeft_products_. rewrite S1, S2. cbn [rbind]. rewrite (dot_ok kilometre kilometre) by vecs. cbn [rbind].
    unfold mul, sub, psub. cbn [fst snd]. destruct H0, H1. dprod (2 ^ 30 - 1). dprod (2 ^ 30 - 1).
    rewrite i64_abs by lia. done.
Qed.
Print Assumptions C53_corners.

Theorem C53_inside_corner (a b c q : pt) :
  spread kilometre [a; b; c; q] ->
  let u := scaled (psub a b) 10000 in let v := scaled (psub c b) 10000 in let w := psub q b in
  isInsideCorner_ i64 a b c q =
    Ok (if decide (cross u w < 0 <-> cross v w < 0)
        then eqb (dot v w <? dot u w) (cross u w <? 0) else cross u w <? 0).
Proof.
  intros H u v w. unfold isInsideCorner_.
  rewrite !(psub_ok kilometre) by (near || done). cbn [rbind].
  rewrite !(normal_ok kilometre 10000) by vecs. cbn [rbind].
  assert (Vq : vec kilometre (psub q b)) by (apply psub_vec; near).
  assert (Vt : vec kilometre (turn90CCW (psub q b))) by (destruct Vq; split; cbn [turn90CCW fst snd] in *; lia).
  assert (T : turn90CCW_ i64 (psub q b) = Ok (turn90CCW (psub q b))).
  { unfold turn90CCW_, neg. destruct Vq. rewrite i64_abs; [done|unfold kilometre in *; lia]. }
  rewrite T. cbn [rbind].
  pose proof (normal_vec (psub a b) 10000 10000 ltac:(done)) as Na.
  pose proof (normal_vec (psub c b) 10000 10000 ltac:(done)) as Nc.
  rewrite !(dot_ok (2 * 10000) kilometre) by done. cbn [rbind].
  change (normal_z (psub a b) 10000) with u in *. change (normal_z (psub c b) 10000) with v in *. fold w.
  assert (X : forall x, (0 <? dot x (turn90CCW w)) = (cross x w <? 0)).
  { intros x. apply eq_true_iff_eq. rewrite !Z.ltb_lt. unfold dot, cross, turn90CCW. cbn [fst snd]. lia. }
  rewrite !X. destruct (Z.ltb_spec (cross u w) 0), (Z.ltb_spec (cross v w) 0), (decide (cross u w < 0 <-> cross v w < 0)); cbn [xorb]; (done || lia).
Qed.
Print Assumptions C53_inside_corner.

(** Distance of a point to a line, and its square. *)
Lemma getDistFromLine_exact (p a b : pt) :
  spread kilometre [p; a; b] -> getDistFromLine_ i64 p a b = Ok (getDistFromLine p a b).
Proof.
  intros H. unfold getDistFromLine_, getDistFromLine.
  rewrite (psub_ok kilometre b a) by (near || done). cbn [rbind].
  rewrite (psub_ok kilometre p a) by (near || done). cbn [rbind].
  rewrite (vSize_ok kilometre) by vecs. cbn [rbind]. rewrite size_vSize.
  destruct (vSize (psub b a) =? 0). { rewrite (vSize_ok kilometre) by vecs. done. }
  assert (H0 : Z.abs (p.1 - b.1) <= 2 ^ 30 - 1 /\ Z.abs (p.2 - b.2) <= 2 ^ 30 - 1) by near.
  assert (H1 : Z.abs (a.1 - p.1) <= 2 ^ 30 - 1 /\ Z.abs (a.2 - p.2) <= 2 ^ 30 - 1) by near.
  assert (H2 : Z.abs (p.1 - a.1) <= 2 ^ 30 - 1 /\ Z.abs (p.2 - a.2) <= 2 ^ 30 - 1) by near.
  destruct H0, H1, H2. unfold sub, mul, add. dif. dif. dprod (2 ^ 30 - 1). dif. dif. dprod (2 ^ 30 - 1).
  rewrite i64_abs by lia. cbn [rbind].
  rewrite (abs_ok _ (2 * ((2 ^ 30 - 1) * (2 ^ 30 - 1)))) by lia. done.
Qed.

Lemma area_cauchy (p a b : pt) :
  ((p.1 - b.1) * (p.2 - a.2) + (a.1 - p.1) * (p.2 - b.2)) * ((p.1 - b.1) * (p.2 - a.2) + (a.1 - p.1) * (p.2 - b.2))
  <= vSize2 (psub b a) * vSize2 (psub p a).
Proof.
  destruct p as [px py], a as [ax ay], b as [bx by_]. unfold vSize2, psub. cbn [fst snd].
  pose proof (Z.square_nonneg ((bx - ax) * (px - ax) + (by_ - ay) * (py - ay))). lia.
Qed.

Theorem C53_distance_from_line (p a b : pt) :
  spread kilometre [p; a; b] ->
  getDistFromLine_ i64 p a b = Ok (getDistFromLine p a b) /\
  getDist2FromLine_ i64 p a b = Ok (getDist2FromLine p a b).
Proof.
  intros H. split; [by apply getDistFromLine_exact|]. unfold getDist2FromLine_, getDist2FromLine.
  rewrite getDistFromLine_exact by done. cbn [rbind]. unfold mul. apply i64_abs.
  assert (V : vec kilometre (psub p a)) by (apply psub_vec; near).
  pose proof (vSize2_bnd _ _ V) as [_ B]. unfold kilometre in B.
  unfold getDistFromLine. rewrite <- !size_vSize. pose proof (size_nonneg (psub b a)).
  destruct (Z.eqb_spec (size (psub b a)) 0) as [E|E].
  { pose proof (size_bnd _ _ V) as X. pose proof (size_nonneg (psub p a)). unfold kilometre in X.
    assert (Y : Z.abs (size (psub p a)) <= 2 ^ 31 - 1) by lia.
    rewrite <- (size_vSize (psub p a)). pose proof (mul_bnd _ _ _ _ Y Y). lia. }
  pose proof (area_cauchy p a b) as C. pose proof (size_lower (psub b a) ltac:(lia)) as L.
  set (T := (p.1 - b.1) * (p.2 - a.2) + (a.1 - p.1) * (p.2 - b.2)) in *.
  set (s := size (psub b a)) in *. pose proof (vSize2_nonneg (psub b a)). pose proof (vSize2_nonneg (psub p a)).
  set (q := Z.abs T ÷ s).
  assert (Q0 : 0 <= q) by (apply Z.quot_pos; lia).
  assert (Hq : q * s <= Z.abs T).
  { unfold q. rewrite Z.quot_div_nonneg by lia. rewrite Z.mul_comm. apply Z.mul_div_le. lia. }
  assert (E1 : (q * q) * (s * s) <= T * T).
  { assert (N : 0 <= q * s) by nia. pose proof (Z.mul_le_mono_nonneg _ _ _ _ N Hq N Hq).
    rewrite <- (Z.abs_square T). lia. }
  set (A := vSize2 (psub b a)) in *. set (P := vSize2 (psub p a)) in *.
  assert (E2 : 4 * (A * P) <= 9 * (s * s) * P) by nia.
  assert (E3 : (4 * (q * q)) * (s * s) <= (9 * P) * (s * s)) by lia.
  apply Z.mul_le_mono_pos_r in E3; [|nia]. lia.
Qed.
Print Assumptions C53_distance_from_line.

Lemma getDist2FromLineSegment_exact (a b c : pt) :
  spread kilometre [a; b; c] -> getDist2FromLineSegment_ i64 a b c = Ok (getDist2FromLineSegment a b c).
Proof.
  intros H. unfold getDist2FromLineSegment_, getDist2FromLineSegment.
  assert (Vac : vec kilometre (psub c a)) by (apply psub_vec; near).
  assert (Vab : vec kilometre (psub b a)) by (apply psub_vec; near).
  rewrite (psub_ok kilometre c a) by (near || done). cbn [rbind].
  rewrite (vSize_ok kilometre) by vecs. cbn [rbind]. change (vSize (psub c a)) with (size (psub c a)).
  rewrite (psub_ok kilometre b a) by (near || done). cbn [rbind].
  pose proof (size_nonneg (psub c a)) as N. pose proof (size_bnd _ _ Vac) as SB.
  destruct (Z.eqb_spec (size (psub c a)) 0). { by rewrite (vSize2_ok kilometre) by vecs. }
  rewrite (dot_ok kilometre kilometre) by vecs. cbn [rbind].
  rewrite (quot_ok _ _ (2 * (kilometre * kilometre))); [|by apply dot_bnd|done|lia]. cbn [rbind].
  destruct (Z.ltb_spec (dot (psub b a) (psub c a) ÷ size (psub c a)) 0). { by rewrite (vSize2_ok kilometre) by vecs. }
  destruct (Z.ltb_spec (size (psub c a)) (dot (psub b a) (psub c a) ÷ size (psub c a))).
  { rewrite (psub_ok kilometre b c) by (near || done). cbn [rbind]. by rewrite (vSize2_ok kilometre) by vecs. }
  set (ax := dot (psub b a) (psub c a) ÷ size (psub c a)) in *.
  rewrite (pscale_ok kilometre ax _ (2 * kilometre)) by (done || lia). cbn [rbind].
  rewrite (pdiv_ok (kilometre * (2 * kilometre))); [|apply pscale_vec; [done|lia]|done|lia]. cbn [rbind].
  assert (Vd : vec kilometre (pdiv (pscale (psub c a) ax) (size (psub c a)))).
  { destruct Vac. split; unfold pdiv, pscale; cbn [fst snd]; (apply quot_bnd_mul; [lia|]);
      rewrite Z.abs_mul, (Z.abs_eq ax), (Z.abs_eq (size _)) by lia;
      apply Z.mul_le_mono_nonneg; lia. }
  pose proof (psub_vec2 _ _ _ _ Vab Vd) as Vx.
  rewrite (psub_ok (kilometre + kilometre)) by (exact Vx || done). cbn [rbind].
  by rewrite (vSize2_ok (kilometre + kilometre)) by done.
Qed.
Lemma getDist2FromLineSegment_un (a b c : pt) :
  getDist2FromLineSegment_ Ok a b c = Ok (getDist2FromLineSegment a b c).
Proof.
  unfold getDist2FromLineSegment_, getDist2FromLineSegment. rewrite !psub_un. cbn [rbind]. rewrite vSize_un. cbn [rbind].
  change (vSize (psub c a)) with (size (psub c a)). pose proof (size_nonneg (psub c a)) as N.
  destruct (Z.eqb_spec (size (psub c a)) 0); [done|]. rewrite dot_un. cbn [rbind]. rewrite quot_un by lia. cbn [rbind].
  destruct (_ <? 0); [done|]. destruct (_ <? _); [done|]. rewrite pscale_un. cbn [rbind]. rewrite pdiv_un by lia. done.
Qed.

Theorem C53_distance_from_segment (a b c : pt) :
  spread kilometre [a; b; c] ->
  getDist2FromLineSegment_ i64 a b c = Ok (getDist2FromLineSegment a b c).
Proof. apply getDist2FromLineSegment_exact. Qed.
Print Assumptions C53_distance_from_segment.

Lemma spread_incl D l l' : (forall x, x ∈ l' -> x ∈ l) -> spread D l -> spread D l'.
Proof. intros I H p q Hp Hq. apply H; by apply I. Qed.
Local Ltac incl := eapply spread_incl; [|eassumption]; intros ?; rewrite !elem_of_cons; tauto.

Theorem C53_segment_distances (a b c d : pt) (max_dist : Z) :
  spread kilometre [a; b; c; d] -> Z.abs max_dist < 2 ^ 31 ->
  exact_in_64_bits (fun ck => lineSegmentsAreCloserThan_ ck a b c d max_dist) /\
  exact_in_64_bits (fun ck => getDist2BetweenLineSegments_ ck a b c d).
Proof.
  intros H Hm. unfold exact_in_64_bits, lineSegmentsAreCloserThan_, getDist2BetweenLineSegments_.
  rewrite !getDist2FromLineSegment_un.
  rewrite (getDist2FromLineSegment_exact a c b) by incl. rewrite (getDist2FromLineSegment_exact a d b) by incl.
  rewrite (getDist2FromLineSegment_exact c a d) by incl. rewrite (getDist2FromLineSegment_exact c b d) by incl.
  unfold mul. rewrite (i64_abs (max_dist * max_dist)) by nia. cbn [rbind]. split; [|eexists; split; reflexivity].
  destruct (_ <=? _); [eexists; split; reflexivity|]. destruct (_ <=? _); [eexists; split; reflexivity|].
  destruct (_ <=? _); eexists; split; reflexivity.
Qed.
Print Assumptions C53_segment_distances.

Theorem C53_segments_collide (a_from a_to b_from b_to : pt) :
  spread kilometre [a_from; a_to; b_from; b_to] -> sane [b_from] ->
  lineSegmentsCollide_ i64 a_from a_to b_from b_to = Ok (lineSegmentsCollide a_from a_to b_from b_to).
Proof.
  intros H Hs. unfold lineSegmentsCollide_, lineSegmentsCollide. destruct (_ || _); [|done].
  destruct (Z.eqb_spec b_to.2 b_from.2); [by destruct (b_to.1 <? b_from.1)|].
  assert (H0 : Z.abs (b_to.1 - b_from.1) <= 2 ^ 30 - 1 /\ Z.abs (b_to.2 - b_from.2) <= 2 ^ 30 - 1) by near.
  assert (H1 : Z.abs (a_from.1 - b_from.1) <= 2 ^ 30 - 1 /\ Z.abs (a_from.2 - b_from.2) <= 2 ^ 30 - 1) by near.
  destruct H0, H1. destruct (Hs b_from) as [S1 _]; [mem|]. unfold sub, mul, add. dif. dif.
  assert (X : Z.abs ((b_to.1 - b_from.1) * (a_from.2 - b_from.2)) <= (2 ^ 30 - 1) * (2 ^ 30 - 1)) by (apply mul_bnd; lia).
  rewrite (i64_abs (_ * _)) by lia. cbn [rbind]. dif.
  rewrite (quot_ok _ _ _ X) by lia. cbn [rbind].
  pose proof (quot_bnd _ (b_to.2 - b_from.2) _ X ltac:(lia)). rewrite i64_abs by lia. done.
Qed.
Print Assumptions C53_segments_collide.

(** Slicing a triangle edge at a height (all heights and coordinates within a kilometre). *)
Theorem C53_interpolate (x x0 x1 y0 y1 : Z) :
  Z.abs (x1 - x0) <= kilometre -> Z.abs (x - x0) <= kilometre -> Z.abs (y1 - y0) <= kilometre -> Z.abs y0 <= 2 ^ 62 ->
  interpolate_ i64 x x0 x1 y0 y1 = interpolate x x0 x1 y0 y1 /\
  (x0 <> x1 -> exists r, interpolate x x0 x1 y0 y1 = Ok r).
Proof.
  unfold kilometre. intros H1 H2 H3 H4. unfold interpolate_, interpolate, sub, mul, add, neg.
  assert (X : Z.abs ((y1 - y0) * (x - x0)) <= (2 ^ 30 - 1) * (2 ^ 30 - 1)) by (apply mul_bnd; lia).
  split.
  - dif. dif. dif. rewrite (i64_abs (_ * _)) by lia. cbn [rbind]. set (num := (y1 - y0) * (x - x0)) in *.
    set (off := if 0 <? num then (x1 - x0) ÷ 4 else - (x1 - x0) ÷ 4).
    assert (O : (if 0 <? num then quot i64 (x1 - x0) 4 else let! m := i64 (- (x1 - x0)) in quot i64 m 4) = Ok off).
    { unfold off. destruct (0 <? num).
      - apply (quot_ok _ _ (2 ^ 30 - 1)); lia.
      - rewrite (i64_abs (- (x1 - x0))) by lia. cbn [rbind]. apply (quot_ok _ _ (2 ^ 30 - 1)); lia. }
    rewrite O. cbn [rbind].
    assert (Ob : Z.abs off <= 2 ^ 30 - 1) by (unfold off; destruct (0 <? num); apply quot_bnd; lia).
    rewrite (i64_abs (num + off)) by lia. cbn [rbind].
    destruct (Z.eqb_spec (x1 - x0) 0) as [E|E]. { rewrite E. done. }
    assert (Z.abs (num + off) <= 2 ^ 61) by lia.
    rewrite (quot_ok _ _ (2 ^ 61)) by lia. cbn [rbind].
    pose proof (quot_bnd (num + off) (x1 - x0) (2 ^ 61) ltac:(lia) ltac:(lia)). rewrite i64_abs by lia. done.
  - intros N. destruct (Z.eqb_spec (x1 - x0) 0); [lia|]. by eexists.
Qed.
Print Assumptions C53_interpolate.

(** Rounding division. *)
Theorem C53_round_divide (a b : Z) :
  Z.abs a <= 2 ^ 62 -> Z.abs b <= 2 ^ 62 ->
  round_divide_signed_ i64 a b = round_divide_signed a b.
Proof.
  intros Ha Hb. unfold round_divide_signed_, round_divide_signed, sub, add.
  rewrite (quot_ok b 2 (2 ^ 62)) by lia. cbn [rbind].
  assert (Z.abs (b ÷ 2) <= 2 ^ 61) by (apply quot_bnd_mul; lia).
  destruct (Z.eqb_spec b 0) as [->|E].
  - destruct (xorb _ _); (rewrite i64_abs by lia); done.
  - destruct (xorb _ _); (rewrite i64_abs by lia); cbn [rbind]; (rewrite (quot_ok _ _ (2 ^ 62 + 2 ^ 61)) by lia); done.
Qed.
Print Assumptions C53_round_divide.

(** Area of a bounding box. *)
Theorem C53_box_area (lo hi : pt) :
  spread (2 ^ 31) [lo; hi] ->
  area_ i64 lo hi = Ok (if (hi.1 <? lo.1) || (hi.2 <? lo.2) then -1 else (hi.1 - lo.1) * (hi.2 - lo.2)).
Proof.
  intros H. unfold area_, sub, mul. destruct (_ || _); [done|].
  assert (H0 : Z.abs (hi.1 - lo.1) <= 2 ^ 31 /\ Z.abs (hi.2 - lo.2) <= 2 ^ 31) by near.
  destruct H0. dif. dif. pose proof (mul_bnd (hi.1 - lo.1) (hi.2 - lo.2) (2 ^ 31) (2 ^ 31) ltac:(lia) ltac:(lia)).
  rewrite i64_abs by lia. done.
Qed.
Print Assumptions C53_box_area.

(** Foot point on a line, bisector of a corner, point at a distance on a segment. *)
Lemma sane_vec p ps : sane ps -> p ∈ ps -> vec (2 ^ 62) p.
Proof. intros H Hp. exact (H p Hp). Qed.

Lemma size_pos p1 p0 : p1 <> p0 -> 1 <= size (psub p1 p0).
Proof.
  intros E. pose proof (size_nonneg (psub p1 p0)). destruct (decide (size (psub p1 p0) = 0)) as [Z0|]; [|lia].
  exfalso. apply size_0 in Z0. apply E. unfold vSize2, psub in Z0. cbn [fst snd] in Z0.
  destruct p1 as [x1 y1], p0 as [x0 y0]; cbn [fst snd] in *.
  pose proof (Z.square_nonneg (x1 - x0)). pose proof (Z.square_nonneg (y1 - y0)).
  assert (X0 : (x1 - x0) * (x1 - x0) = 0) by lia. assert (Y0 : (y1 - y0) * (y1 - y0) = 0) by lia.
  apply Z.mul_eq_0 in X0, Y0. f_equal; lia.
Qed.

Theorem C53_closest_on_line (from p0 p1 : pt) :
  spread kilometre [from; p0; p1] -> sane [p0] ->
  let d := psub p1 p0 in
  let k := ((from.1 - p0.1) * d.1 + (from.2 - p0.2) * d.2) ÷ vSize d in
  getClosestOnLine_ i64 from p0 p1 =
    Ok (if decide (p1 = p0) then p0 else (p0.1 + (d.1 * k) ÷ vSize d, p0.2 + (d.2 * k) ÷ vSize d)).
Proof.
  intros H Hs d0 k0.
  assert (G : exists r, getClosestOnLine_ i64 from p0 p1 = Ok r /\ getClosestOnLine_ Ok from p0 p1 = Ok r).
  2: { destruct G as (r & G1 & G2). rewrite G1, <- G2. unfold getClosestOnLine_.
    destruct (decide (p1 = p0)) as [E|E]; [by rewrite bool_decide_eq_true_2|]. rewrite bool_decide_eq_false_2 by done.
    assert (Hsz : 1 <= size (psub p1 p0)) by (by apply size_pos).
    rewrite !psub_un. cbn [rbind]. rewrite dot_un. cbn [rbind]. rewrite vSize_un. cbn [rbind]. rewrite quot_un by lia. cbn [rbind].
    rewrite pscale_un. cbn [rbind]. rewrite pdiv_un by lia. reflexivity. }
  clear d0 k0. unfold getClosestOnLine_.
  case_bool_decide as E; [eexists; split; reflexivity|].
  assert (V1 : vec kilometre (psub p1 p0)) by (apply psub_vec; near).
  assert (V2 : vec kilometre (psub from p0)) by (apply psub_vec; near).
  rewrite (psub_ok kilometre p1 p0) by (near || done). rewrite (psub_ok kilometre from p0) by (near || done).
  rewrite !psub_un. cbn [rbind]. rewrite (dot_ok kilometre kilometre) by done. rewrite dot_un. cbn [rbind].
  rewrite (vSize_ok kilometre) by done. rewrite vSize_un. cbn [rbind].
  assert (Hsz : 1 <= size (psub p1 p0)) by (by apply size_pos).
  rewrite (quot_ok _ _ (2 * (kilometre * kilometre))); [|by apply dot_bnd|done|lia]. rewrite quot_un by lia. cbn [rbind].
  pose proof (dot_size_bnd _ (psub p1 p0) _ V2 Hsz) as Hk. set (k := dot (psub from p0) (psub p1 p0) ÷ size (psub p1 p0)) in *.
  rewrite (pscale_ok kilometre k _ (3 * kilometre)) by done. rewrite pscale_un. cbn [rbind].
  assert (V3 : vec (kilometre * (3 * kilometre)) (pscale (psub p1 p0) k)) by (by apply pscale_vec).
  rewrite (pdiv_ok (kilometre * (3 * kilometre))) by (done || lia). rewrite pdiv_un by lia. cbn [rbind].
  assert (V4 : vec (kilometre * (3 * kilometre)) (pdiv (pscale (psub p1 p0) k) (size (psub p1 p0)))) by (apply pdiv_vec; [done|lia]).
  assert (V0 : vec (2 ^ 62) p0) by (apply Hs; mem).
  rewrite (padd_ok (2 ^ 62) (kilometre * (3 * kilometre))) by done. rewrite padd_un. eexists; split; reflexivity.
Qed.
Print Assumptions C53_closest_on_line.

Theorem C53_bisector (i a b : pt) (len : Z) :
  spread kilometre [i; a; b] -> Z.abs len <= 2 ^ 31 ->
  let u := psub a i in let v := psub b i in
  getBisectorVector_ i64 i a b len =
    Ok (((u.1 * len) ÷ Z.max 1 (vSize u) + (v.1 * len) ÷ Z.max 1 (vSize v)) ÷ 2,
        ((u.2 * len) ÷ Z.max 1 (vSize u) + (v.2 * len) ÷ Z.max 1 (vSize v)) ÷ 2).
Proof.
  intros H Hl u v. subst u v. unfold getBisectorVector_.
  assert (V1 : vec kilometre (psub a i)) by (apply psub_vec; near).
  assert (V2 : vec kilometre (psub b i)) by (apply psub_vec; near).
  rewrite (psub_ok kilometre a i) by (near || done). rewrite (psub_ok kilometre b i) by (near || done).
  cbn [rbind].
  rewrite (pscale_ok kilometre len (psub a i) (2 ^ 31)) by done. rewrite (pscale_ok kilometre len (psub b i) (2 ^ 31)) by done.
  cbn [rbind].
  rewrite !(vSize_ok kilometre) by done. cbn [rbind].
  assert (V3 : vec (kilometre * 2 ^ 31) (pscale (psub a i) len)) by (by apply pscale_vec).
  assert (V4 : vec (kilometre * 2 ^ 31) (pscale (psub b i) len)) by (by apply pscale_vec).
  set (s1 := Z.max 1 (size (psub a i))). set (s2 := Z.max 1 (size (psub b i))).
  rewrite (pdiv_ok (kilometre * 2 ^ 31) _ s1) by (done || lia). cbn [rbind].
  rewrite (pdiv_ok (kilometre * 2 ^ 31) _ s2) by (done || lia). cbn [rbind].
  pose proof (pdiv_vec _ _ s1 V3 ltac:(lia)) as V5. pose proof (pdiv_vec _ _ s2 V4 ltac:(lia)) as V6.
  rewrite (padd_ok (kilometre * 2 ^ 31) (kilometre * 2 ^ 31)) by done. cbn [rbind].
  pose proof (padd_vec _ _ _ _ V5 V6) as V7.
  rewrite (pdiv_ok _ _ 2 V7) by done. reflexivity.
Qed.
Print Assumptions C53_bisector.

Theorem C53_point_at_distance (p a b : pt) (dist : Z) :
  spread kilometre [p; a; b] -> sane [a] -> Z.abs dist < 2 ^ 31 ->
  exact_in_64_bits (fun ck => getPointOnLineWithDist_ ck p a b dist).
Proof.
  intros H Hs Hd. unfold exact_in_64_bits, getPointOnLineWithDist_.
  assert (V1 : vec kilometre (psub b a)) by (apply psub_vec; near).
  assert (V2 : vec kilometre (psub p a)) by (apply psub_vec; near).
  assert (Va : vec (2 ^ 62) a) by (apply Hs; mem).
  rewrite (psub_ok kilometre b a) by (near || done). rewrite (psub_ok kilometre p a) by (near || done).
  rewrite !psub_un. cbn [rbind]. rewrite (vSize_ok kilometre) by done. rewrite vSize_un. cbn [rbind].
  set (ab := psub b a) in *. set (ap := psub p a) in *.
  pose proof (size_nonneg ab) as N. pose proof (size_bnd _ _ V1) as SB. unfold kilometre in SB.
  assert (Vn : forall k, vec (2 * Z.abs k) (normal_z ab k)) by (intros; by apply normal_vec).
  (* the position of the foot point *)
  assert (AX : exists ax,
    (if size ab <? 50 then let! n := normal_ i64 ab 1000 in let! d := dot_ i64 n ap in quot i64 d 1000
     else let! d := dot_ i64 ab ap in quot i64 d (size ab)) = Ok ax /\
    (if size ab <? 50 then let! n := normal_ Ok ab 1000 in let! d := dot_ Ok n ap in quot Ok d 1000
     else let! d := dot_ Ok ab ap in quot Ok d (size ab)) = Ok ax /\
    2 * (ax * ax) <= 10 * ((2 ^ 30 - 1) * (2 ^ 30 - 1))).
  { destruct (Z.ltb_spec (size ab) 50).
    - rewrite (normal_ok kilometre 1000) by done. rewrite normal_un. cbn [rbind].
      rewrite (dot_ok 2000 kilometre) by (done || exact (Vn 1000)). rewrite dot_un. cbn [rbind].
      pose proof (dot_bnd 2000 kilometre _ _ (Vn 1000) V2) as B.
      rewrite (quot_ok _ _ _ B) by done. rewrite quot_un by done. eexists. split; [done|]. split; [done|].
      pose proof (normal_size ab 1000) as NS. pose proof (cauchy (normal_z ab 1000) ap) as C.
      pose proof (vSize2_bnd _ _ V2) as [P0 PB]. unfold kilometre in PB. pose proof (vSize2_nonneg (normal_z ab 1000)) as N0.
      set (d := dot (normal_z ab 1000) ap) in *. set (A := vSize2 (normal_z ab 1000)) in *. set (P := vSize2 ap) in *.
      assert (D2 : d * d <= 4500000 * ((2 ^ 30 - 1) * (2 ^ 30 - 1))).
      { transitivity (2250000 * P); [|lia]. transitivity (A * P); [done|]. apply Z.mul_le_mono_nonneg_r; lia. }
      set (q := d ÷ 1000).
      assert (X : q * q <= 5 * ((2 ^ 30 - 1) * (2 ^ 30 - 1))) by (apply quot_sq; lia). lia.
    - assert (Hsz : 1 <= size ab) by lia. pose proof (dot_size_bnd_sq _ ab _ V2 Hsz) as Q.
      rewrite (dot_ok kilometre kilometre) by done. rewrite dot_un. cbn [rbind].
      rewrite (quot_ok _ _ (2 * (kilometre * kilometre))); [|by apply dot_bnd|done|lia]. rewrite quot_un by lia.
      eexists. split; [done|]. split; [done|]. unfold kilometre in Q.
      replace (dot ab ap) with (dot ap ab) by (unfold dot; ring). lia. }
  destruct AX as (ax & E1 & E2 & AX). rewrite E1, E2. cbn [rbind]. clear E1 E2.
  rewrite (vSize2_ok kilometre) by done. rewrite vSize2_un. cbn [rbind].
  pose proof (vSize2_bnd _ _ V2) as [P0 PB]. unfold kilometre in PB. set (P := vSize2 ap) in *.
  unfold mul, sub, add.
  assert (AX0 : 0 <= ax * ax) by apply Z.square_nonneg.
  rewrite (i64_abs (ax * ax)) by lia. cbn [rbind]. rewrite (i64_abs (P - ax * ax)) by lia. cbn [rbind].
  assert (PX0 : Z.max 0 (P - ax * ax) <= (2 ^ 31 - 1) * (2 ^ 31 - 1)) by lia.
  pose proof (sqrt_le _ (2 ^ 31 - 1) ltac:(done) PX0) as [PX1 PX2]. specialize (PX2 ltac:(lia)).
  set (px := Z.sqrt (Z.max 0 (P - ax * ax))) in *.
  assert (AXb : Z.abs ax <= 3 * 2 ^ 30) by (apply sq_abs_le; lia).
  destruct (Z.ltb_spec dist px) as [|HP]; [eexists; split; reflexivity|].
  assert (DD : 0 <= dist * dist <= (2 ^ 31 - 1) * (2 ^ 31 - 1)) by nia.
  assert (PP : 0 <= px * px <= dist * dist) by nia.
  rewrite (i64_abs (dist * dist)) by lia. cbn [rbind]. rewrite (i64_abs (px * px)) by lia. cbn [rbind].
  rewrite (i64_abs (dist * dist - px * px)) by lia. cbn [rbind].
  pose proof (sqrt_le (dist * dist - px * px) (2 ^ 31 - 1) ltac:(done) ltac:(lia)) as [XR _].
  set (xr := Z.sqrt (dist * dist - px * px)) in *.
  assert (FIN : forall k, Z.abs k <= size ab -> exists r,
     (let! n := normal_ i64 ab k in let! r := padd_ i64 a n in Ok (Some r)) = Ok r /\
     (let! n := normal_ Ok ab k in let! r := padd_ Ok a n in Ok (Some r)) = Ok r).
  { intros k Hk. rewrite (normal_ok kilometre (2 ^ 31)) by (done || lia). rewrite normal_un. cbn [rbind].
    rewrite (padd_ok (2 ^ 62) (2 * Z.abs k)) by (done || lia). rewrite padd_un. cbn [rbind]. eexists; split; reflexivity. }
  destruct (Z.leb_spec ax 0); [|destruct (Z.leb_spec (size ab) ax)].
  - rewrite (i64_abs (xr + ax)) by lia. cbn [rbind].
    destruct (Z.ltb_spec (xr + ax) 0); cbn [orb]; [eexists; split; reflexivity|].
    destruct (Z.ltb_spec (size ab) (xr + ax)); [eexists; split; reflexivity|]. apply FIN. lia.
  - rewrite (i64_abs (ax - xr)) by lia. cbn [rbind].
    destruct (Z.ltb_spec (ax - xr) 0); cbn [orb]; [eexists; split; reflexivity|].
    destruct (Z.ltb_spec (size ab) (ax - xr)); [eexists; split; reflexivity|]. apply FIN. lia.
  - rewrite (i64_abs (ax - xr)) by lia. cbn [rbind].
    destruct (Z.leb_spec 0 (ax - xr)); [apply FIN; lia|].
    rewrite (i64_abs (ax + xr)) by lia. cbn [rbind].
    destruct (Z.ltb_spec (ax + xr) (size ab)); [apply FIN; lia|]. eexists; split; reflexivity.
Qed.
Print Assumptions C53_point_at_distance.

(** The area deviation of a simplification step: junctions within ten metres, widths of up to a
    centimetre. *)
Theorem C53_area_deviation (a b c : pt) (wa wb wc : Z) :
  spread 10000000 [a; b; c] ->
  0 <= wa <= 10000 -> 0 <= wb <= 10000 -> 0 <= wc <= 10000 ->
  let ab := vSize (psub b a) in let bc := vSize (psub c b) in let ac := vSize (psub c a) in
  let w1 := (wa + wb) / 2 in let w2 := (wb + wc) / 2 in let w := (ab * w1 + bc * w2) / ac in
  getAreaDeviation_ i64 a b c wa wb wc =
    Ok (if decide (ab = 0 \/ bc = 0 \/ ac = 0) then 0
        else if decide (Z.abs (wb - wa) <= 1 /\ Z.abs (wc - wb) <= 1)
        then Z.max (Z.abs (wb - wa)) (Z.abs (wc - wb)) * Z.min ab bc
        else Z.abs (w1 - w) * ab + Z.abs (w2 - w) * bc).
Proof.
  intros H Ha Hb Hc ab0 bc0 ac0 w1' w2' wv'. subst ab0 bc0 ac0 w1' w2' wv'. unfold getAreaDeviation_.
  assert (V1 : vec 10000000 (psub b a)) by (apply psub_vec; near).
  assert (V2 : vec 10000000 (psub c b)) by (apply psub_vec; near).
  assert (V3 : vec 10000000 (psub c a)) by (apply psub_vec; near).
  rewrite (psub_ok 10000000 b a) by (near || done). rewrite (psub_ok 10000000 c b) by (near || done).
  rewrite (psub_ok 10000000 c a) by (near || done). cbn [rbind].
  rewrite !(vSize_ok 10000000) by done. cbn [rbind].
  pose proof (size_bnd _ _ V1) as B1. pose proof (size_bnd _ _ V2) as B2. pose proof (size_bnd _ _ V3) as B3.
  pose proof (size_nonneg (psub b a)). pose proof (size_nonneg (psub c b)). pose proof (size_nonneg (psub c a)).
  change (vSize (psub b a)) with (size (psub b a)). change (vSize (psub c b)) with (size (psub c b)).
  change (vSize (psub c a)) with (size (psub c a)). set (l1 := size (psub b a)) in *. set (l2 := size (psub c b)) in *. set (l3 := size (psub c a)) in *.
  destruct (Z.eqb_spec l1 0) as [L0|]; cbn [orb]; [rewrite decide_True by tauto; reflexivity|].
  destruct (Z.eqb_spec l3 0) as [L0|]; cbn [orb]; [rewrite decide_True by tauto; reflexivity|].
  destruct (Z.eqb_spec l2 0) as [L0|]; cbn [orb]; [rewrite decide_True by tauto; reflexivity|].
  rewrite decide_False by tauto. unfold sub, mul, add. rewrite (i64_abs (wb - wa)) by lia. rewrite (i64_abs (wc - wb)) by lia. cbn [rbind].
  rewrite !(abs_ok _ 10000) by lia. cbn [rbind].
  set (wd := Z.max (Z.abs (wb - wa)) (Z.abs (wc - wb))). assert (0 <= wd <= 10000) by lia.
  destruct (Z.ltb_spec 1 wd).
  - rewrite decide_False by lia. rewrite (i64_abs (wa + wb)) by lia. cbn [rbind]. rewrite (quot_ok _ _ 20000) by lia. cbn [rbind].
    rewrite ?(i64_abs (wb + wc)) by lia. cbn [rbind]. rewrite ?(quot_ok _ _ 20000) by lia. cbn [rbind].
    assert (W1 : 0 <= (wa + wb) ÷ 2 <= 10000) by (rewrite Z.quot_div_nonneg by lia; split; [apply Z.div_pos|apply Z.div_le_upper_bound]; lia).
    assert (W2 : 0 <= (wb + wc) ÷ 2 <= 10000) by (rewrite Z.quot_div_nonneg by lia; split; [apply Z.div_pos|apply Z.div_le_upper_bound]; lia).
    set (w1 := (wa + wb) ÷ 2) in *. set (w2 := (wb + wc) ÷ 2) in *.
    pose proof (mul_bnd l1 w1 15000000 10000 ltac:(lia) ltac:(lia)). pose proof (mul_bnd l2 w2 15000000 10000 ltac:(lia) ltac:(lia)).
    rewrite (i64_abs (l1 * w1)) by lia. cbn [rbind]. rewrite (i64_abs (l2 * w2)) by lia. cbn [rbind].
    rewrite (i64_abs (l1 * w1 + l2 * w2)) by lia. cbn [rbind].
    assert (S0 : Z.abs (l1 * w1 + l2 * w2) <= 300000000000) by lia.
    rewrite (quot_ok _ _ _ S0) by lia. cbn [rbind].
    pose proof (quot_bnd _ l3 _ S0 ltac:(lia)) as WB. set (wv := (l1 * w1 + l2 * w2) ÷ l3) in *.
    rewrite (i64_abs (w1 - wv)) by lia. cbn [rbind]. rewrite (abs_ok _ 300000010000) by lia. cbn [rbind].
    pose proof (mul_bnd (Z.abs (w1 - wv)) l1 300000010000 15000000 ltac:(lia) ltac:(lia)).
    rewrite (i64_abs (Z.abs (w1 - wv) * l1)) by lia. cbn [rbind].
    rewrite (i64_abs (w2 - wv)) by lia. cbn [rbind]. rewrite (abs_ok _ 300000010000) by lia. cbn [rbind].
    pose proof (mul_bnd (Z.abs (w2 - wv)) l2 300000010000 15000000 ltac:(lia) ltac:(lia)).
    rewrite (i64_abs (Z.abs (w2 - wv) * l2)) by lia. cbn [rbind].
    rewrite i64_abs by lia.
    assert (Q1 : w1 = (wa + wb) / 2) by (apply Z.quot_div_nonneg; [clear - Ha Hb; lia|done]).
    assert (Q2 : w2 = (wb + wc) / 2) by (apply Z.quot_div_nonneg; [clear - Hc Hb; lia|done]).
    assert (Q3 : wv = (l1 * w1 + l2 * w2) / l3).
    { apply Z.quot_div_nonneg; [|clear - n0 H2; lia].
      apply Z.add_nonneg_nonneg; apply Z.mul_nonneg_nonneg; (done || apply W1 || apply W2). }
    rewrite <- Q1, <- Q2, <- Q3. reflexivity.
  - pose proof (mul_bnd wd l1 10000 15000000 ltac:(lia) ltac:(lia)). pose proof (mul_bnd wd l2 10000 15000000 ltac:(lia) ltac:(lia)).
    rewrite decide_True by lia. fold wd.
    destruct (Z.ltb_spec l2 l1); (rewrite i64_abs by lia); do 2 f_equal; lia.
Qed.
Print Assumptions C53_area_deviation.

(** ** Projection on a segment: third degree, only for points within 1.66 metres of each other *)

Lemma closest_exact (from p0 p1 : pt) :
  spread plate [from; p0; p1] -> sane [p0] ->
  getClosestOnLineSegment_ i64 from p0 p1 = Ok (getClosestOnLineSegment from p0 p1).
Proof.
  intros H Hs. unfold getClosestOnLineSegment_, getClosestOnLineSegment.
  assert (V1 : vec plate (psub p1 p0)) by (apply psub_vec; near).
  assert (V2 : vec plate (psub from p0)) by (apply psub_vec; near).
  assert (V0 : vec (2 ^ 62) p0) by (apply Hs; mem).
  rewrite (psub_ok plate p1 p0) by (near || done). rewrite (psub_ok plate from p0) by (near || done). cbn [rbind].
  rewrite (dot_ok plate plate) by done. cbn [rbind]. rewrite (vSize2_ok plate) by done. cbn [rbind].
  pose proof (vSize2_bnd _ _ V1) as [X0 XB].
  set (dir := psub p1 p0) in *. set (x := vSize2 dir) in *. set (pr := dot (psub from p0) dir) in *.
  destruct (Z.eqb_spec x 0); [done|]. destruct (Z.leb_spec pr 0); [done|]. destruct (Z.leb_spec x pr); [done|].
  rewrite (pscale_ok plate pr dir (2 * (plate * plate))) by (done || lia). cbn [rbind].
  rewrite (pdiv_ok (plate * (2 * (plate * plate)))); [|apply pscale_vec; [done|lia]|done|lia]. cbn [rbind].
  assert (Vd : vec plate (pdiv (pscale dir pr) x)).
  { destruct V1. split; unfold pdiv, pscale; cbn [fst snd]; (apply quot_bnd_mul; [lia|]);
      rewrite Z.abs_mul, (Z.abs_eq pr), (Z.abs_eq x) by lia; apply Z.mul_le_mono_nonneg; lia. }
  by rewrite (padd_ok (2 ^ 62) plate) by done.
Qed.

Theorem C53_closest_on_segment (from p0 p1 : pt) :
  spread plate [from; p0; p1] -> sane [p0] ->
  getClosestOnLineSegment_ i64 from p0 p1 = Ok (getClosestOnLineSegment from p0 p1).
Proof. apply closest_exact. Qed.
Print Assumptions C53_closest_on_segment.

(** One micron more, and the projection can overflow. *)
Theorem C53_closest_on_segment_refuted :
  exists from p0 p1 : pt, spread (plate + 1) [from; p0; p1] /\ sane [p0] /\ getClosestOnLineSegment_ i64 from p0 p1 = UB.
Proof.
  exists (plate, plate + 1), (0, 0), (plate + 1, plate + 1). split; [|split].
  - intros p q Hp Hq. rewrite !elem_of_cons, elem_of_nil in Hp, Hq. unfold plate in *.
    destruct Hp as [-> |[-> |[-> |[]]]], Hq as [-> |[-> |[-> |[]]]]; cbn [fst snd]; lia.
  - intros p Hp. rewrite !elem_of_cons, elem_of_nil in Hp. destruct Hp as [-> |[]]. cbn [fst snd]. lia.
  - vm_compute. done.
Qed.
Print Assumptions C53_closest_on_segment_refuted.

Theorem C53_closest_connection (a1 a2 b1 b2 : pt) :
  spread plate [a1; a2; b1; b2] -> sane [a1; b1] ->
  getClosestConnection_ i64 a1 a2 b1 b2 = Ok (getClosestConnection a1 a2 b1 b2).
Proof.
  intros H Hs. unfold getClosestConnection_, getClosestConnection.
  rewrite (closest_exact b1 a1 a2); [|incl|intros p Hp; apply Hs; rewrite elem_of_cons, elem_of_nil in Hp; rewrite !elem_of_cons; tauto].
  rewrite (closest_exact b2 a1 a2); [|incl|intros p Hp; apply Hs; rewrite elem_of_cons, elem_of_nil in Hp; rewrite !elem_of_cons; tauto].
  rewrite (closest_exact a1 b1 b2); [|incl|intros p Hp; apply Hs; rewrite elem_of_cons, elem_of_nil in Hp; rewrite !elem_of_cons; tauto].
  pose proof (C16_closest_on_segment b1 a1 a2) as (_ & _ & _ & B1).
  pose proof (C16_closest_on_segment b2 a1 a2) as (_ & _ & _ & B2).
  pose proof (C16_closest_on_segment a1 b1 b2) as (_ & _ & _ & B3).
  set (r1 := getClosestOnLineSegment b1 a1 a2) in *. set (r2 := getClosestOnLineSegment b2 a1 a2) in *.
  set (r3 := getClosestOnLineSegment a1 b1 b2) in *. cbn [rbind].
  assert (N : forall p q r x, p ∈ [a1; a2; b1; b2] -> q ∈ [a1; a2; b1; b2] -> x ∈ [a1; a2; b1; b2] ->
     (Z.min p.1 q.1 <= r.1 <= Z.max p.1 q.1 /\ Z.min p.2 q.2 <= r.2 <= Z.max p.2 q.2) ->
     Z.abs (r.1 - x.1) <= plate /\ Z.abs (r.2 - x.2) <= plate).
  { intros p q r x Hp Hq Hx [R1 R2]. pose proof (H p x Hp Hx) as [P1 P2]. pose proof (H q x Hq Hx) as [Q1 Q2]. lia. }
  pose proof (N a1 a2 r1 b1 ltac:(mem) ltac:(mem) ltac:(mem) B1) as N1.
  pose proof (N a1 a2 r2 b2 ltac:(mem) ltac:(mem) ltac:(mem) B2) as N2.
  pose proof (N b1 b2 r3 a1 ltac:(mem) ltac:(mem) ltac:(mem) B3) as N3.
  pose proof (N b1 b2 r3 a2 ltac:(mem) ltac:(mem) ltac:(mem) B3) as N4.
  rewrite (psub_ok plate r1 b1) by done. rewrite (psub_ok plate r2 b2) by done.
  rewrite (psub_ok plate r3 a1) by done. rewrite (psub_ok plate r3 a2) by done. cbn [rbind].
  rewrite (vSize2_ok plate (psub r1 b1)) by done. rewrite (vSize2_ok plate (psub r2 b2)) by done.
  rewrite (vSize2_ok plate (psub r3 a1)) by done. rewrite (vSize2_ok plate (psub r3 a2)) by done. reflexivity.
Qed.
Print Assumptions C53_closest_connection.

(** ** Sums *)

(** The length of a polyline is the sum of the lengths of its segments modulo 2^32: the running total
    is a 32-bit int.  So it is right for polylines shorter than 2^31 micron (2147 m)... *)
Theorem C53_polyline_length (closed : bool) (l : list pt) :
  spread kilometre l ->
  let sum := foldr (fun s t => vSize (psub s.2 s.1) + t) 0 (segments closed l) in
  exists r, polyline_length_ i64 closed l = Ok r /\ - 2 ^ 31 <= r < 2 ^ 31 /\ (r - sum) mod 2 ^ 32 = 0 /\
    (sum < 2 ^ 31 -> r = sum).
Proof.
  intros H sum.
  assert (G : forall ss total, (forall s, s ∈ ss -> Z.abs (s.2.1 - s.1.1) <= kilometre /\ Z.abs (s.2.2 - s.1.2) <= kilometre) ->
     length_from i64 (to_int total) ss = Ok (to_int (total + foldr (fun s t => vSize (psub s.2 s.1) + t) 0 ss)) /\
     0 <= foldr (fun s t => vSize (psub s.2 s.1) + t) 0 ss).
  { induction ss as [|[s e] ss IH]; intros total Hss; cbn [length_from foldr fst snd].
    - split; [|lia]. by rewrite Z.add_0_r.
    - destruct (Hss (s, e)) as [X Y]; [apply elem_of_list_here|]. cbn [fst snd] in X, Y.
      rewrite (psub_ok kilometre e s) by done. cbn [rbind]. rewrite (vSize_ok kilometre) by done. cbn [rbind].
      pose proof (size_nonneg (psub e s)) as N. pose proof (size_bnd kilometre (psub e s) (conj X Y)) as B. unfold kilometre in B.
      pose proof (to_int_range total). unfold add. rewrite i64_abs by lia. cbn [rbind].
      rewrite (to_int_add total). destruct (IH (total + size (psub e s))) as [E1 E2].
      { intros s' Hs'. apply Hss. by apply elem_of_list_further. }
      rewrite E1. change (vSize (psub e s)) with (size (psub e s)). split; [do 2 f_equal; ring|lia]. }
  assert (M : forall s, s ∈ segments closed l -> Z.abs (s.2.1 - s.1.1) <= kilometre /\ Z.abs (s.2.2 - s.1.2) <= kilometre).
  { intros [p q] Hs. cbn [fst snd].
    assert (I : p ∈ l /\ q ∈ l).
    { destruct l as [|x [|y l]]; cbn [segments] in Hs; [by apply elem_of_nil in Hs| |].
      - apply elem_of_list_singleton in Hs. injection Hs as -> ->. split; apply elem_of_list_here.
      - destruct closed.
        + pose proof (elem_of_zip_l _ _ _ _ Hs) as I1. pose proof (elem_of_zip_r _ _ _ _ Hs) as I2. split; [done|].
          apply elem_of_app in I2 as [I2|I2]; [by apply elem_of_list_further|]. apply elem_of_list_singleton in I2 as ->. apply elem_of_list_here.
        + pose proof (elem_of_zip_l _ _ _ _ Hs) as I1. pose proof (elem_of_zip_r _ _ _ _ Hs) as I2. split; [done|]. by apply elem_of_list_further. }
    destruct I as [Ip Iq]. exact (H q p Iq Ip). }
  destruct (G (segments closed l) 0 M) as [E N]. fold sum in E, N.
  exists (to_int sum). unfold polyline_length_. change 0 with (to_int 0) at 1. rewrite E. split; [done|].
  split; [apply to_int_range|]. split.
  - unfold to_int. replace ((sum + 2 ^ 31) mod 2 ^ 32 - 2 ^ 31 - sum) with ((sum + 2 ^ 31) mod 2 ^ 32 - (sum + 2 ^ 31)) by ring.
    rewrite Zminus_mod, Zmod_mod, Z.sub_diag. done.
  - intros Hlt. apply to_int_id. lia.
Qed.
Print Assumptions C53_polyline_length.

(** ... and can be negative for longer ones: a zigzag with a metre wide strokes on a metre wide plate,
    0.4 mm apart. *)
Theorem C53_polyline_length_refuted :
  exists l : list pt, spread 1000000 l /\ exists r, polyline_length_ i64 false l = Ok r /\ r < 0.
Proof.
  set (l := flat_map (fun i => let y := 800 * Z.of_nat i in [(0, y); (1000000, y); (1000000, y + 400); (0, y + 400)]) (seq 0 1100)).
  exists l. split.
  - assert (F : forallb (fun p : pt => (0 <=? p.1) && (p.1 <=? 1000000) && (0 <=? p.2) && (p.2 <=? 1000000)) l = true) by (vm_compute; done).
    rewrite forallb_forall in F.
    intros p q Hp%elem_of_list_In Hq%elem_of_list_In. apply F in Hp, Hq. rewrite !andb_true_iff, !Z.leb_le in Hp, Hq. lia.
  - eexists. split; [vm_compute; reflexivity|]. done.
Qed.
Print Assumptions C53_polyline_length_refuted.

(** The hash of a point multiplies 32-bit ints; it is defined for x within 69 metres. *)
Theorem C53_hash (p : pt) :
  Z.abs p.1 <= 69000000 -> Z.abs p.2 <= 2 ^ 62 ->
  hash_ i64 p = Ok (to_int ((89 * 31 + p.1) * 31 + p.2)).
Proof.
  intros H1 H2. unfold hash_, i32, add. cbn [rbind Z.mul].
  replace ((- 2 ^ 31 <=? 89 * 31) && (89 * 31 <? 2 ^ 31)) with true by reflexivity. cbn [rbind].
  rewrite (i64_abs (89 * 31 + p.1)) by lia. cbn [rbind]. rewrite (to_int_id (89 * 31 + p.1)) by lia.
  destruct (Z.leb_spec (- 2 ^ 31) ((89 * 31 + p.1) * 31)); [|lia]. destruct (Z.ltb_spec ((89 * 31 + p.1) * 31) (2 ^ 31)); [|lia].
  cbn [andb rbind]. rewrite i64_abs by lia. done.
Qed.
Print Assumptions C53_hash.
Theorem C53_hash_refuted : hash_ i64 (70000000, 0) = UB.
Proof. vm_compute. done. Qed.
Print Assumptions C53_hash_refuted.

(** ** Examples *)
Example C53_nonvacuous :
  spread kilometre [(0, 0); (300000, 400000); (200000, -100000)] /\
  spread plate [(0, 0); (300000, 400000); (200000, -100000)] /\
  getClosestOnLineSegment_ i64 (200000, 100000) (0, 0) (300000, 400000) = Ok (120000, 160000) /\
  getDist2FromLineSegment_ i64 (0, 0) (200000, 100000) (300000, 400000) = Ok 10000000000 /\
  getDistFromLine_ i64 (200000, 100000) (0, 0) (300000, 400000) = Ok 100000 /\
  isInsideCorner_ i64 (0, 0) (300000, 400000) (200000, -100000) (100000, 0) = Ok false /\
  getPointOnLineWithDist_ i64 (200000, 100000) (0, 0) (300000, 400000) 150000 = Ok (Some (52918, 70557)) /\
  getBisectorVector_ i64 (0, 0) (300000, 400000) (200000, -100000) 1000 = Ok (747, 176) /\
  getAreaDeviation_ i64 (0, 0) (1000, 0) (3000, 10) 400 500 450 = Ok 34000 /\
  polyline_length_ i64 true [(0, 0); (300, 0); (300, 400)] = Ok 1200.
Proof.
  assert (S0 : forall D, 500000 <= D -> spread D [(0, 0); (300000, 400000); (200000, -100000)]).
  { intros D HD p q Hp Hq. rewrite !elem_of_cons, elem_of_nil in Hp, Hq.
    destruct Hp as [-> |[-> |[-> |[]]]], Hq as [-> |[-> |[-> |[]]]]; cbn [fst snd]; lia. }
  split; [apply S0; done|]. split; [apply S0; done|]. vm_compute. repeat split.
Qed.
