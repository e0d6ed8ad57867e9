(** C16: closest point on a segment.  C17: closest connection between two segments.
    C18: point in polygon. *)
From Coq Require Import ZArith QArith Lia Lqa.
From stdpp Require Import list.
From Verif Require Import Common Geo_Model Geo_Spec LinearAlg_Model.
Open Scope Z_scope.

(** ** C16 *)
(** Each coordinate of p is less than one unit away from u. *)
Definition within_one (p : pt) (u : Q * Q) : Prop :=
  (inject_Z p.1 - 1 < u.1 /\ u.1 < inject_Z p.1 + 1 /\ inject_Z p.2 - 1 < u.2 /\ u.2 < inject_Z p.2 + 1)%Q.
(** t is the parameter of a point of the segment that is closest to [from]. *)
Definition closest_parameter (from p0 p1 : pt) (t : Q) : Prop :=
  (0 <= t <= 1)%Q /\ forall s : Q, (0 <= s <= 1)%Q -> (qdist2 from (along p0 p1 t) <= qdist2 from (along p0 p1 s))%Q.

Lemma qdist_expand from p0 p1 s :
  let L := vSize2 (psub p1 p0) in let proj := dot (psub from p0) (psub p1 p0) in
  (qdist2 from (along p0 p1 s) == inject_Z (vSize2 (psub from p0)) - 2 * s * inject_Z proj + s * s * inject_Z L)%Q.
Proof.
  unfold qdist2, along, vSize2, dot, psub. simpl. unfold Zminus.
  repeat (rewrite inject_Z_plus || rewrite inject_Z_mult || rewrite inject_Z_opp). ring.
Qed.

Lemma trunc_within a b : 0 < b -> (inject_Z (a ÷ b) - 1 < inject_Z a / inject_Z b)%Q /\ (inject_Z a / inject_Z b < inject_Z (a ÷ b) + 1)%Q.
Proof.
  intros Hb. pose proof (Z.quot_rem' a b) as H. pose proof (Z.rem_bound_abs a b ltac:(lia)) as Hr.
  rewrite (Z.abs_eq b) in Hr by lia. set (q := a ÷ b) in *. set (r := Z.rem a b) in *.
  assert (Hb' : (0 < inject_Z b)%Q) by (unfold Qlt, inject_Z; simpl; lia).
  split.
  - apply Qlt_shift_div_l; [done|]. setoid_replace (inject_Z q - 1)%Q with (inject_Z (q - 1))%Q
      by (unfold Zminus; rewrite inject_Z_plus; reflexivity).
    rewrite <- inject_Z_mult, <- Zlt_Qlt. lia.
  - apply Qlt_shift_div_r; [done|]. setoid_replace (inject_Z q + 1)%Q with (inject_Z (q + 1))%Q
      by (rewrite inject_Z_plus; reflexivity).
    rewrite <- inject_Z_mult, <- Zlt_Qlt. lia.
Qed.

(** The result is less than one unit per coordinate away from an exact closest point of the segment,
    it equals an end point if that end point is a closest point, and it never leaves the segment's
    bounding box. *)
Theorem C16_closest_on_segment (from p0 p1 : pt) :
  let r := getClosestOnLineSegment from p0 p1 in
  (exists t, closest_parameter from p0 p1 t /\ within_one r (along p0 p1 t)) /\
  (closest_parameter from p0 p1 0 -> r = p0) /\
  (closest_parameter from p0 p1 1 -> r = p1) /\
  Z.min p0.1 p1.1 <= r.1 <= Z.max p0.1 p1.1 /\ Z.min p0.2 p1.2 <= r.2 <= Z.max p0.2 p1.2.
Proof.
  intros r.
  assert (Hexp : forall s, (qdist2 from (along p0 p1 s) == inject_Z (vSize2 (psub from p0)) -
     2 * s * inject_Z (dot (psub from p0) (psub p1 p0)) + s * s * inject_Z (vSize2 (psub p1 p0)))%Q) by (intros; apply qdist_expand).
  set (L := vSize2 (psub p1 p0)) in *. set (proj := dot (psub from p0) (psub p1 p0)) in *.
  assert (HL : 0 <= L). { unfold L, vSize2. pose proof (Z.square_nonneg (psub p1 p0).1). pose proof (Z.square_nonneg (psub p1 p0).2). lia. }
  assert (HLq : (0 <= inject_Z L)%Q) by (unfold Qle, inject_Z; simpl; lia).
  assert (Hz0 : L = 0 -> p1 = p0).
  { unfold L, vSize2, psub. simpl. intros E. destruct p0 as [x0 y0], p1 as [x1 y1]; simpl in *.
    pose proof (Z.square_nonneg (x1 - x0)). pose proof (Z.square_nonneg (y1 - y0)).
    assert ((x1 - x0) * (x1 - x0) = 0) as [?|?]%Z.mul_eq_0 by lia; assert ((y1 - y0) * (y1 - y0) = 0) as [?|?]%Z.mul_eq_0 by lia; f_equal; lia. }
  (* when the end points are closest *)
  assert (K0 : closest_parameter from p0 p1 0 -> proj <= 0 \/ L = 0).
  { intros [_ H]. destruct (Z.le_gt_cases proj 0) as [|Hp]; [by left|]. right. destruct (Z.eq_dec L 0) as [|HLn]; [done|]. exfalso.
    assert (HLp : (0 < inject_Z L)%Q) by (unfold Qlt, inject_Z; simpl; lia).
    assert (Hpp : (0 < inject_Z proj)%Q) by (unfold Qlt, inject_Z; simpl; lia).
    destruct (Z.le_gt_cases L proj) as [Hge|Hlt].
    - specialize (H 1%Q ltac:(lra)). rewrite !Hexp in H.
      assert ((inject_Z L <= inject_Z proj)%Q) by (rewrite <- Zle_Qle; done). lra.
    - set (t := (inject_Z proj / inject_Z L)%Q). assert (Et : (t * inject_Z L == inject_Z proj)%Q) by (unfold t; field; lra).
      assert ((inject_Z proj < inject_Z L)%Q) by (rewrite <- Zlt_Qlt; done).
      assert (0 < t)%Q by (unfold t; apply Qlt_shift_div_l; [done|lra]).
      assert (t <= 1)%Q by (unfold t; apply Qle_shift_div_r; [done|lra]).
      specialize (H t ltac:(lra)). rewrite !Hexp in H. 
      assert ((t * t * inject_Z L == t * inject_Z proj)%Q) by (rewrite <- Et; ring). 
      assert ((0 < t * inject_Z proj)%Q) by (apply Qmult_lt_0_compat; done). lra. }
  assert (K1 : closest_parameter from p0 p1 1 -> L <= proj \/ L = 0).
  { intros [_ H]. destruct (Z.le_gt_cases L proj) as [|Hp]; [by left|]. right. destruct (Z.eq_dec L 0) as [|HLn]; [done|]. exfalso.
    assert (HLp : (0 < inject_Z L)%Q) by (unfold Qlt, inject_Z; simpl; lia).
    assert (Hpp : (inject_Z proj < inject_Z L)%Q) by (rewrite <- Zlt_Qlt; done).
    destruct (Z.le_gt_cases proj 0) as [Hge|Hlt].
    - specialize (H 0%Q ltac:(lra)). rewrite !Hexp in H.
      assert ((inject_Z proj <= 0)%Q) by (change 0%Q with (inject_Z 0); rewrite <- Zle_Qle; done). lra.
    - set (t := (inject_Z proj / inject_Z L)%Q). assert (Et : (t * inject_Z L == inject_Z proj)%Q) by (unfold t; field; lra).
      assert ((0 < inject_Z proj)%Q) by (change 0%Q with (inject_Z 0); rewrite <- Zlt_Qlt; done).
      assert (0 < t)%Q by (unfold t; apply Qlt_shift_div_l; [done|lra]).
      assert (t < 1)%Q by (unfold t; apply Qlt_shift_div_r; [done|lra]).
      specialize (H t ltac:(lra)). rewrite !Hexp in H.
      assert ((t * t * inject_Z L == t * inject_Z proj)%Q) by (rewrite <- Et; ring).
      assert ((0 < (1 - t) * ((1 - t) * inject_Z L))%Q) by (repeat apply Qmult_lt_0_compat; lra).
      assert (((1 - t) * ((1 - t) * inject_Z L) == inject_Z L - 2 * (t * inject_Z L) + t * t * inject_Z L)%Q) by ring. lra. }
  assert (W : forall p (u : Q * Q), (u.1 == inject_Z p.1)%Q -> (u.2 == inject_Z p.2)%Q -> within_one p u).
  { intros p u E1 E2. unfold within_one. rewrite E1, E2. lra. }
  assert (A0 : ((along p0 p1 0).1 == inject_Z p0.1)%Q /\ ((along p0 p1 0).2 == inject_Z p0.2)%Q) by (unfold along; simpl; split; ring).
  assert (A1 : ((along p0 p1 1).1 == inject_Z p1.1)%Q /\ ((along p0 p1 1).2 == inject_Z p1.2)%Q).
  { unfold along; simpl. unfold Zminus. rewrite !inject_Z_plus, !inject_Z_opp. split; ring. }
  unfold r, getClosestOnLineSegment. fold L proj.
  destruct (Z.eqb_spec L 0) as [E0|N0].
  { pose proof (Hz0 E0) as Ep. split; [|split; [done|split; [done|subst p1; lia]]].
    exists 0%Q. split; [|apply W; apply A0]. split; [lra|]. intros s Hs. rewrite !Hexp.
    assert (proj = 0) as -> by (unfold proj, dot; subst p1; unfold psub; simpl; lia). rewrite E0. change (inject_Z 0) with 0%Q. lra. }
  assert (HLp : (0 < inject_Z L)%Q) by (unfold Qlt, inject_Z; simpl; lia).
  destruct (Z.leb_spec proj 0) as [Hle|Hgt].
  { assert (Hp : (inject_Z proj <= 0)%Q) by (change 0%Q with (inject_Z 0); rewrite <- Zle_Qle; done).
    split; [|split; [done|split; [intros H%K1; lia|lia]]].
    exists 0%Q. split; [|apply W; apply A0]. split; [lra|]. intros s [Hs _]. rewrite !Hexp.
    assert (0 <= s * - inject_Z proj)%Q by (apply Qmult_le_0_compat; lra).
    assert (0 <= s * s * inject_Z L)%Q by (apply Qmult_le_0_compat; [apply Qmult_le_0_compat; done|lra]). lra. }
  destruct (Z.leb_spec L proj) as [Hge|Hlt].
  { assert (Hp : (inject_Z L <= inject_Z proj)%Q) by (rewrite <- Zle_Qle; done).
    split; [|split; [intros H%K0; lia|split; [done|lia]]].
    exists 1%Q. split; [|apply W; apply A1]. split; [lra|]. intros s [Hs0 Hs1]. rewrite !Hexp.
    assert (0 <= (1 - s) * (inject_Z proj - inject_Z L))%Q by (apply Qmult_le_0_compat; lra).
    assert (0 <= (1 - s) * (1 - s) * inject_Z L)%Q by (apply Qmult_le_0_compat; [apply Qmult_le_0_compat; lra|lra]).
    assert (((1 - s) * (1 - s) * inject_Z L == inject_Z L - 2 * s * inject_Z L + s * s * inject_Z L)%Q) by ring.
    assert (((1 - s) * (inject_Z proj - inject_Z L) == inject_Z proj - inject_Z L - s * inject_Z proj + s * inject_Z L)%Q) by ring. lra. }
  assert (Hpp : (0 < inject_Z proj)%Q) by (change 0%Q with (inject_Z 0); rewrite <- Zlt_Qlt; done).
  assert (Hpl : (inject_Z proj < inject_Z L)%Q) by (rewrite <- Zlt_Qlt; done).
  split; [|split; [intros H%K0; lia|split; [intros H%K1; lia|]]].
  - set (t := (inject_Z proj / inject_Z L)%Q). assert (Et : (t * inject_Z L == inject_Z proj)%Q) by (unfold t; field; lra).
    exists t. split; [split|].
    + split; [unfold t; apply Qle_shift_div_l; [done|lra]|unfold t; apply Qle_shift_div_r; [done|lra]].
    + intros s Hs. rewrite !Hexp. assert (0 <= (s - t) * (s - t) * inject_Z L)%Q.
      { apply Qmult_le_0_compat; [|lra]. destruct (Qlt_le_dec (s - t) 0) as [Hn|Hn].
        - setoid_replace ((s - t) * (s - t))%Q with ((t - s) * (t - s))%Q by ring. apply Qmult_le_0_compat; lra.
        - apply Qmult_le_0_compat; lra. }
      assert (((s - t) * (s - t) * inject_Z L == s * s * inject_Z L - 2 * s * (t * inject_Z L) + t * t * inject_Z L)%Q) by ring.
      rewrite <- Et in *. lra.
    + unfold within_one, along, padd, pdiv, pscale. simpl.
      pose proof (trunc_within ((psub p1 p0).1 * proj) L ltac:(lia)) as [X1 X2].
      pose proof (trunc_within ((psub p1 p0).2 * proj) L ltac:(lia)) as [Y1 Y2].
      assert (EX : (inject_Z ((psub p1 p0).1 * proj) / inject_Z L == t * inject_Z (p1.1 - p0.1))%Q).
      { unfold t, psub; simpl. rewrite inject_Z_mult. field. lra. }
      assert (EY : (inject_Z ((psub p1 p0).2 * proj) / inject_Z L == t * inject_Z (p1.2 - p0.2))%Q).
      { unfold t, psub; simpl. rewrite inject_Z_mult. field. lra. }
      rewrite EX in X1, X2. rewrite EY in Y1, Y2. cbn [psub fst snd] in *.
      rewrite !inject_Z_plus. repeat split; lra.
  - unfold padd, pdiv, pscale, psub. simpl.
    assert (Hb : forall a b, Z.min a b <= a + (b - a) * proj ÷ L <= Z.max a b).
    { intros a b. set (d := b - a). assert (Hq : (0 <= d -> 0 <= d * proj ÷ L <= d) /\ (d <= 0 -> d <= d * proj ÷ L <= 0)).
      { split; intros Hd.
        - split; [apply Z.quot_pos; nia|]. apply Z.quot_le_upper_bound; nia.
        - assert (E : d * proj ÷ L = - ((- d) * proj ÷ L)).
          { replace (- d * proj) with (- (d * proj)) by ring. rewrite Z.quot_opp_l by lia. lia. }
          rewrite E. assert (0 <= - d * proj ÷ L) by (apply Z.quot_pos; nia).
          assert (- d * proj ÷ L <= - d) by (apply Z.quot_le_upper_bound; nia). lia. }
      destruct Hq as [Q1 Q2]. unfold d in *. destruct (Z.le_ge_cases a b); lia. }
    split; apply Hb.
Qed.
Print Assumptions C16_closest_on_segment.

(** Non-vacuity: a projection inside the segment with truncation towards zero. *)
Example C16_nonvacuous :
  getClosestOnLineSegment (5, 9) (0, 0) (-7, 10) = (-2, 3) /\ getClosestOnLineSegment (5, -9) (0, 0) (-7, 10) = (0, 0)
  /\ closest_parameter (5, -9) (0, 0) (-7, 10) 0.
Proof.
  split; [reflexivity|]. split; [reflexivity|]. split; [lra|]. intros s Hs. unfold qdist2, along. simpl.
  unfold inject_Z. 
  setoid_replace ((0 + 0 * (-7) - 5) * (0 + 0 * (-7) - 5) + (0 + 0 * 10 - -9) * (0 + 0 * 10 - -9))%Q with 106%Q by ring.
  setoid_replace ((0 + s * (-7) - 5) * (0 + s * (-7) - 5) + (0 + s * 10 - -9) * (0 + s * 10 - -9))%Q
    with (106 + 250 * s + 149 * (s * s))%Q by ring.
  assert (0 <= s * s)%Q by (apply Qmult_le_0_compat; lra). lra.
Qed.

(** pointIsProjectedBeyondLine tells on which side of the segment the exact projection falls. *)
Theorem C16_projected_beyond (from a b : pt) (t : Q) :
  a <> b ->
  (** t: the foot of the perpendicular *)
  ((inject_Z from.1 - (along a b t).1) * inject_Z (b.1 - a.1) + (inject_Z from.2 - (along a b t).2) * inject_Z (b.2 - a.2) == 0)%Q ->
  (pointIsProjectedBeyondLine from a b = -1 <-> (t < 0)%Q) /\
  (pointIsProjectedBeyondLine from a b = 1 <-> (1 < t)%Q) /\
  (pointIsProjectedBeyondLine from a b = 0 <-> (0 <= t <= 1)%Q).
Proof.
  intros Hne Ht. unfold pointIsProjectedBeyondLine.
  set (L := vSize2 (psub b a)). set (proj := dot (psub from a) (psub b a)).
  assert (HL : 0 < L).
  { unfold L, vSize2, psub. simpl. destruct a as [ax ay], b as [bx by_]; simpl.
    assert (bx - ax <> 0 \/ by_ - ay <> 0) as Hd by (destruct (Z.eq_dec bx ax); [right; intros ?; apply Hne; f_equal; lia|left; lia]).
    assert (Hsq : forall u : Z, u <> 0 -> 0 < u * u) by (intros; nia).
    pose proof (Z.square_nonneg (bx - ax)). pose proof (Z.square_nonneg (by_ - ay)).
    destruct Hd as [Hd%Hsq|Hd%Hsq]; lia. }
  assert (E : (t * inject_Z L == inject_Z proj)%Q).
  { unfold L, proj, vSize2, dot, psub, along in *. simpl in *. unfold Zminus in *.
    repeat (rewrite inject_Z_plus in * || rewrite inject_Z_mult in * || rewrite inject_Z_opp in * ). lra. }
  assert (HLq : (0 < inject_Z L)%Q) by (change 0%Q with (inject_Z 0); rewrite <- Zlt_Qlt; done).
  assert (P0 : proj < 0 <-> (t < 0)%Q).
  { rewrite Zlt_Qlt, <- E. change (inject_Z 0) with 0%Q. split; intros H.
    - apply (Qmult_lt_r _ _ (inject_Z L)); [done|lra].
    - setoid_replace 0%Q with (0 * inject_Z L)%Q by ring. apply Qmult_lt_r; done. }
  assert (P1 : L < proj <-> (1 < t)%Q).
  { rewrite Zlt_Qlt, <- E. split; intros H.
    - apply (Qmult_lt_r _ _ (inject_Z L)); [done|lra].
    - setoid_replace (inject_Z L) with (1 * inject_Z L)%Q at 1 by ring. apply Qmult_lt_r; done. }
  destruct (Z.ltb_spec proj 0) as [Hlt|Hge]; [|destruct (Z.ltb_spec L proj) as [Hlt|Hge']].
  - apply P0 in Hlt. split; [|split]; (split; [try done|]); intros; try done; lra.
  - apply P1 in Hlt. split; [|split]; (split; [try done|]); intros; try done; lra.
  - assert (~ (t < 0)%Q) by (rewrite <- P0; lia). assert (~ (1 < t)%Q) by (rewrite <- P1; lia).
    split; [|split]; (split; [try done|]); intros; try done; lra.
Qed.
Print Assumptions C16_projected_beyond.

(** ** C17 *)
(** [r] is within one unit per coordinate of an exact closest point to x of the segment from p to q. *)
Definition almost_closest (r x p q : pt) : Prop :=
  exists t, closest_parameter x p q t /\ within_one r (along p q t).
Definition in_segment_box (r p q : pt) : Prop :=
  Z.min p.1 q.1 <= r.1 <= Z.max p.1 q.1 /\ Z.min p.2 q.2 <= r.2 <= Z.max p.2 q.2.

(** C17: the result connects a point at segment a to a point at segment b, one of them an end point,
    and is not longer than the connections of b1, b2 and a1 to their (rounded) closest points.  The
    same for a2 is false, see below. *)
Theorem C17_closest_connection (a1 a2 b1 b2 : pt) :
  let '(p, q) := getClosestConnection a1 a2 b1 b2 in
  in_segment_box p a1 a2 /\ in_segment_box q b1 b2 /\
  (exists r, almost_closest r b1 a1 a2 /\ dist2 p q <= dist2 r b1) /\
  (exists r, almost_closest r b2 a1 a2 /\ dist2 p q <= dist2 r b2) /\
  (exists r, almost_closest r a1 b1 b2 /\ dist2 p q <= dist2 r a1) /\
  (p = a1 \/ p = a2 \/ q = b1 \/ q = b2).
Proof.
  unfold getClosestConnection.
  pose proof (C16_closest_on_segment b1 a1 a2) as (A1 & _ & _ & B1).
  pose proof (C16_closest_on_segment b2 a1 a2) as (A2 & _ & _ & B2).
  pose proof (C16_closest_on_segment a1 b1 b2) as (A3 & _ & _ & B3).
  set (r1 := getClosestOnLineSegment b1 a1 a2) in *. set (r2 := getClosestOnLineSegment b2 a1 a2) in *.
  set (r3 := getClosestOnLineSegment a1 b1 b2) in *.
  assert (E : forall x y, vSize2 (psub x y) = dist2 x y) by done. rewrite !E. clear E.
  assert (Sy : forall x y, dist2 x y = dist2 y x) by (intros; unfold dist2; ring).
  assert (Ba1 : in_segment_box a1 a1 a2) by (unfold in_segment_box; lia).
  assert (Ba2 : in_segment_box a2 a1 a2) by (unfold in_segment_box; lia).
  assert (Bb1 : in_segment_box b1 b1 b2) by (unfold in_segment_box; lia).
  assert (Bb2 : in_segment_box b2 b1 b2) by (unfold in_segment_box; lia).
  assert (X : forall p q, in_segment_box p a1 a2 -> in_segment_box q b1 b2 ->
     dist2 p q <= dist2 r1 b1 -> dist2 p q <= dist2 r2 b2 -> dist2 p q <= dist2 r3 a1 -> (p = a1 \/ p = a2 \/ q = b1 \/ q = b2) ->
     in_segment_box p a1 a2 /\ in_segment_box q b1 b2 /\
  (exists r, almost_closest r b1 a1 a2 /\ dist2 p q <= dist2 r b1) /\
  (exists r, almost_closest r b2 a1 a2 /\ dist2 p q <= dist2 r b2) /\
  (exists r, almost_closest r a1 b1 b2 /\ dist2 p q <= dist2 r a1) /\
  (p = a1 \/ p = a2 \/ q = b1 \/ q = b2)).
  { intros p q H1 H2 H3 H4 H5 H6. do 2 (split; [done|]). split; [by exists r1|]. split; [by exists r2|]. split; [by exists r3|done]. }
  destruct (Z.ltb_spec (dist2 r1 b1) (dist2 r2 b2)); simpl;
  [destruct (Z.ltb_spec (dist2 r1 b1) (dist2 r3 a1)); simpl;
   [destruct (Z.ltb_spec (dist2 r1 b1) (dist2 r3 a2)); simpl; [apply X; auto; lia|]|]|];
  (destruct (Z.ltb_spec (dist2 r2 b2) (dist2 r3 a1)); simpl;
   [destruct (Z.ltb_spec (dist2 r2 b2) (dist2 r3 a2)); simpl; [apply X; auto; lia|]|]);
  (destruct (Z.ltb_spec (dist2 r3 a1) (dist2 r3 a2)); [apply X; auto; rewrite ?(Sy a1 r3); lia
     |apply X; auto; rewrite ?(Sy a2 r3); lia]).
Qed.
Print Assumptions C17_closest_connection.

(** The closest point for a2 is computed from a1 (linearAlg2D.cpp:135), so a connection 11 times
    longer than that of a2 to the other segment can be returned for two segments that do not meet. *)
Theorem C17_far_end_ignored_refuted :
  exists a1 a2 b1 b2 : pt,
    (forall p, on_segment p a1 a2 -> ~ on_segment p b1 b2) /\
    exists r, on_segment r b1 b2 /\ dist2 a2 r = 1 /\
    let '(p, q) := getClosestConnection a1 a2 b1 b2 in 1 + 120 <= dist2 p q.
Proof.
  exists (-40, 100), (0, 1), (-50, 0), (50, 0). split.
  - intros p [_ Ha]%on_segment_iff [_ Hb]%on_segment_iff. simpl in *. lia.
  - exists (0, 0). split; [apply on_segment_iff; simpl; lia|]. split; [reflexivity|]. vm_compute. congruence.
Qed.
Print Assumptions C17_far_end_ignored_refuted.

Example C17_nonvacuous : getClosestConnection (0, 0) (10, 0) (12, 5) (20, 30) = ((10, 0), (12, 5)).
Proof. reflexivity. Qed.

(** ** C18 *)
(** The horizontal ray from p to the right crosses the edge: the edge, without its upper end, has a
    point at the height of p and strictly to the right of it. *)
Definition crosses_right (p : pt) (e : pt * pt) : Prop :=
  Z.min e.1.2 e.2.2 <= p.2 < Z.max e.1.2 e.2.2 /\
  exists t : Q, (0 <= t <= 1)%Q /\ ((along e.1 e.2 t).2 == inject_Z p.2)%Q /\ (inject_Z p.1 < (along e.1 e.2 t).1)%Q.

Definition side (p a b : pt) : Z := (b.1 - a.1) * (p.2 - a.2) - (p.1 - a.1) * (b.2 - a.2).

Lemma crosses_right_iff p a b : crosses_right p (a, b) <->
  (a.2 <= p.2 < b.2 /\ 0 < side p a b) \/ (b.2 <= p.2 < a.2 /\ side p a b < 0).
Proof.
  unfold crosses_right, along, side. destruct p as [px py], a as [ax ay], b as [bx by_]. simpl.
  assert (Ht : forall t : Q, by_ - ay <> 0 -> (inject_Z ay + t * inject_Z (by_ - ay) == inject_Z py)%Q ->
    ((inject_Z px < inject_Z ax + t * inject_Z (bx - ax))%Q <->
     0 < ((bx - ax) * (py - ay) - (px - ax) * (by_ - ay)) * Z.sgn (by_ - ay))).
  { intros [k n] Hd E. unfold Qeq, Qlt, Qmult, Qplus, inject_Z in *. simpl in *. rewrite ?Z.mul_1_r, ?Pos.mul_1_r, ?Pos.mul_1_l in *.
    set (N := Z.pos n) in *. assert (0 < N) by (unfold N; lia). clearbody N.
    assert (Y : N * (py - ay) = k * (by_ - ay)) by lia.
    assert (S : N * ((bx - ax) * (py - ay) - (px - ax) * (by_ - ay)) = (by_ - ay) * (k * (bx - ax) - N * (px - ax))).
    { transitivity ((bx - ax) * (N * (py - ay)) - N * (px - ax) * (by_ - ay)); [ring|]. rewrite Y. ring. }
    set (s := (bx - ax) * (py - ay) - (px - ax) * (by_ - ay)) in *. set (w := k * (bx - ax) - N * (px - ax)) in *.
    assert (Hw : px * N < ax * N + k * (bx - ax) <-> 0 < w) by (unfold w; lia). rewrite Hw. clearbody s w. clear - S Hd H.
    destruct (Z.lt_total (by_ - ay) 0) as [Hs|[Hs|Hs]]; [|done|].
    - rewrite Z.sgn_neg by done. split; nia.
    - rewrite Z.sgn_pos by done. split; nia. }
  split.
  - intros (Hy & t & Htr & E & Hx).
    destruct (Z.lt_total ay by_) as [Hs|[Hs|Hs]]; [left|lia|right].
    + rewrite Z.min_l, Z.max_r in Hy by lia. split; [lia|]. apply Ht in Hx; [|lia|done]. rewrite Z.sgn_pos in Hx by lia. lia.
    + rewrite Z.min_r, Z.max_l in Hy by lia. split; [lia|]. apply Ht in Hx; [|lia|done]. rewrite Z.sgn_neg in Hx by lia. lia.
  - intros Hor. assert (Hd : by_ - ay <> 0) by lia.
    assert (Hnz : ~ (inject_Z (by_ - ay) == 0)%Q) by (unfold Qeq, inject_Z; simpl; lia).
    split; [lia|]. exists (inject_Z (py - ay) / inject_Z (by_ - ay))%Q.
    set (t := (inject_Z (py - ay) / inject_Z (by_ - ay))%Q).
    assert (T : (t * inject_Z (by_ - ay) == inject_Z (py - ay))%Q) by (unfold t; field; done).
    assert (E : (inject_Z ay + t * inject_Z (by_ - ay) == inject_Z py)%Q).
    { rewrite T. unfold Zminus. rewrite inject_Z_plus, inject_Z_opp. ring. }
    split; [|split; [done|]].
    + clearbody t. destruct t as [k n]. unfold Qeq, Qle, Qmult, inject_Z in *. simpl in *. rewrite ?Z.mul_1_r, ?Pos.mul_1_r, ?Pos.mul_1_l in *.
      set (N := Z.pos n) in *. assert (0 < N) by (unfold N; lia). clearbody N. split; nia.
    + apply Ht; [done|done|]. destruct Hor as [[? ?]|[? ?]]; [rewrite Z.sgn_pos by lia|rewrite Z.sgn_neg by lia]; lia.
Qed.
#[global] Instance crosses_right_dec p e : Decision (crosses_right p e).
Proof.
  destruct e as [a b].
  destruct (decide ((a.2 <= p.2 < b.2 /\ 0 < side p a b) \/ (b.2 <= p.2 < a.2 /\ side p a b < 0))) as [H|H].
  - left. by apply crosses_right_iff.
  - right. by rewrite crosses_right_iff.
Defined.

(** Number of edges crossed; the even-odd rule; the border. *)
Definition crossing_number (p : pt) (poly : list pt) : nat := length (filter (crosses_right p) (edges poly)).
Definition on_border (p : pt) (poly : list pt) : Prop := exists e, e ∈ edges poly /\ on_segment p e.1 e.2.
Definition even_odd_inside (p : pt) (polys : list (list pt)) : Prop :=
  Nat.odd (sum_list (map (crossing_number p) polys)) = true.

(** The three-way test of one edge. *)
Theorem C18_edge_test (p a b : pt) :
  (pointLiesOnTheRightOfLine p a b = 1 <-> crosses_right p (a, b)) /\
  (pointLiesOnTheRightOfLine p a b = 0 -> on_segment p a b) /\
  (on_segment p a b -> p <> a -> pointLiesOnTheRightOfLine p a b = 0) /\
  (pointLiesOnTheRightOfLine p a b = 1 \/ pointLiesOnTheRightOfLine p a b = 0 \/ pointLiesOnTheRightOfLine p a b = -1).
Proof.
  rewrite crosses_right_iff, on_segment_iff. unfold pointLiesOnTheRightOfLine, side.
  destruct p as [px py], a as [ax ay], b as [bx by_]. simpl.
  assert (Hpne : (px, py) <> (ax, ay) <-> px <> ax \/ py <> ay).
  { split; [|intros [?|?] [= -> ->]; done]. intros H. destruct (Z.eq_dec px ax); [right; intros ->; subst; done|by left]. }
  rewrite Hpne. clear Hpne.
  assert (Ef : (bx - ax) * (by_ - py) - (bx - px) * (by_ - ay) = - ((bx - ax) * (py - ay) - (px - ax) * (by_ - ay))) by ring.
  rewrite Ef. set (s := (bx - ax) * (py - ay) - (px - ax) * (by_ - ay)).
  assert (Es : (bx - ax) * (py - ay) = (px - ax) * (by_ - ay) <-> s = 0) by (unfold s; lia). rewrite Es.
  (* left of the whole edge the sign is determined *)
  assert (Hleft : Z.max ax bx < px -> (by_ <= py < ay -> 0 < s) /\ (ay <= py < by_ -> s < 0)).
  { intros Hm. unfold s. split; intros Hy.
    - replace ((bx - ax) * (py - ay) - (px - ax) * (by_ - ay)) with ((px - bx) * (ay - py) + (px - ax) * (py - by_)) by ring. nia.
    - replace ((bx - ax) * (py - ay) - (px - ax) * (by_ - ay)) with (- ((px - bx) * (py - ay) + (px - ax) * (by_ - py))) by ring. nia. }
  (* on the line, inside the y range, the x range is met too *)
  assert (Hbox : s = 0 -> ay <> by_ -> Z.min ay by_ <= py <= Z.max ay by_ -> Z.min ax bx <= px <= Z.max ax bx).
  { intros H0 Hd Hy. unfold s in H0. clear - H0 Hd Hy.
    assert (Hg : forall ax bx px, (bx - ax) * (py - ay) = (px - ax) * (by_ - ay) -> px <= Z.max ax bx).
    { clear ax bx px H0. intros ax bx px H0. apply Z.nlt_ge. intros Hm.
      destruct (Z.lt_total ay by_) as [Hs|[Hs|Hs]]; [|done|].
      - assert (0 < (px - ax) * (by_ - py) + (px - bx) * (py - ay)); [|nia]. 
        rewrite Z.min_l, Z.max_r in Hy by lia. nia.
      - assert (0 < (px - ax) * (py - by_) + (px - bx) * (ay - py)); [|nia].
        rewrite Z.min_r, Z.max_l in Hy by lia. nia. }
    split; [|apply Hg; lia].
    assert (- px <= Z.max (- ax) (- bx)) by (apply Hg; lia). lia. }
  assert (Hpa : py = ay -> ay <> by_ -> s = 0 -> px = ax).
  { unfold s. intros -> Hd H0. assert (H1 : (px - ax) * (by_ - ay) = 0) by lia. apply Z.mul_eq_0 in H1. lia. }
  assert (Hpb : py = by_ -> ay <> by_ -> s = 0 -> px = bx).
  { unfold s. intros -> Hd H0. assert (H1 : (bx - px) * (by_ - ay) = 0) by lia. apply Z.mul_eq_0 in H1. lia. }
  assert (Hpe : px = bx -> py = by_ -> s = 0) by (unfold s; intros -> ->; lia).
  assert (Hph : ay = by_ -> py = by_ -> s = 0) by (unfold s; intros -> ->; lia).
  clearbody s. clear Ef Es.
  destruct (Z.leb_spec px (Z.max ax bx)) as [Hm|Hm].
  - destruct (Z.ltb_spec (by_ - ay) 0) as [Hf|Hr].
    + destruct (Z.leb_spec by_ py) as [H1|H1]; [destruct (Z.ltb_spec py ay) as [H2|H2]|]; simpl.
      * destruct (Z.eqb_spec (- s) 0) as [H0|H0]; [|destruct (Z.ltb_spec 0 (- s)) as [H3|H3]];
          (split; [split; lia|]); (split; [intros; (done || (split; [lia|]; split; [apply Hbox; lia|lia]))|]); (split; [intros; lia|lia]).
      * split; [split; lia|]. split; [done|]. split; [|lia]. intros (H0 & Hx & Hy) Hne. exfalso.
        assert (E1 : py = ay) by lia. pose proof (Hpa E1 ltac:(lia) H0). lia.
      * split; [split; lia|]. split; [done|]. split; [lia|lia].
    + destruct (Z.leb_spec ay py) as [H1|H1]; simpl.
      * destruct (Z.ltb_spec py by_) as [H2|H2].
        -- destruct (Z.eqb_spec s 0) as [H0|H0]; [|destruct (Z.ltb_spec 0 s) as [H3|H3]];
          (split; [split; lia|]); (split; [intros; (done || (split; [lia|]; split; [apply Hbox; lia|lia]))|]); (split; [intros; lia|lia]).
        -- destruct (Z.eqb_spec py by_) as [H3|H3]; simpl.
           ++ destruct (Z.eqb_spec px bx) as [H4|H4]; simpl.
              { split; [split; lia|]. split; [intros _; split; [by apply Hpe|lia]|]. split; [done|lia]. }
              destruct (Z.eqb_spec (by_ - ay) 0) as [H5|H5]; simpl.
              { destruct (Z.leb_spec (Z.min ax bx) px) as [H6|H6].
                - split; [split; lia|]. split; [intros _; split; [apply Hph; lia|lia]|]. split; [done|lia].
                - split; [split; lia|]. split; [done|]. split; [lia|lia]. }
              split; [split; lia|]. split; [done|]. split; [|lia]. intros (H0 & Hx & Hy) Hne.
              pose proof (Hpb H3 ltac:(lia) H0). lia.
           ++ split; [split; lia|]. split; [done|]. split; [lia|lia].
      * split; [split; lia|]. split; [done|]. split; [lia|lia].
  - specialize (Hleft Hm). split; [split; lia|]. split; [done|]. split; [lia|lia].
Qed.
Print Assumptions C18_edge_test.

(** *** Closed polygons *)
Lemma edges_from_snoc l : forall a x, edges_from a (l ++ [x]) = edges_from a l ++ [(default a (last l), x)].
Proof.
  induction l as [|b l IH]; intros a x; simpl; [done|]. rewrite IH. f_equal. f_equal. f_equal. f_equal.
  destruct l as [|c l]; [done|]. simpl. destruct (last (c :: l)) eqn:E; [done|]. by apply last_None in E.
Qed.
Lemma edges_code poly z : last poly = Some z -> edges_from z poly ≡ₚ edges poly.
Proof.
  destruct poly as [|p l]; [done|]. intros Hz. simpl. rewrite edges_from_snoc.
  assert (default p (last l) = z) as ->.
  { destruct l as [|c l]; simpl in *; [congruence|]. simpl in Hz. rewrite Hz. done. }
  rewrite Permutation_app_comm. done.
Qed.
Lemma edges_from_ends l : forall a e, e ∈ edges_from a l -> (e.1 = a \/ e.1 ∈ l) /\ e.2 ∈ l.
Proof.
  induction l as [|b l IH]; intros a e He; simpl in He; [by apply elem_of_nil in He|].
  apply elem_of_cons in He as [-> |He]; simpl; [split; [by left|left]|].
  apply IH in He as [[E|E] E2]; (split; [right|by right]); [rewrite E; left|by right].
Qed.
Lemma edges_from_into l : forall a v, v ∈ l -> exists u, (u, v) ∈ edges_from a l.
Proof.
  induction l as [|b l IH]; intros a v Hv; [by apply elem_of_nil in Hv|]. simpl.
  apply elem_of_cons in Hv as [-> |Hv]; [exists a; left|]. destruct (IH b v Hv) as [u Hu]. exists u. by right.
Qed.

Lemma plr_end p a : pointLiesOnTheRightOfLine p a p = 0.
Proof.
  destruct (decide (p = a)) as [-> |Hne].
  - unfold pointLiesOnTheRightOfLine. destruct (Z.leb_spec a.1 (Z.max a.1 a.1)); [|lia].
    destruct (Z.ltb_spec (a.2 - a.2) 0); [lia|]. rewrite Z.leb_refl. destruct (Z.ltb_spec a.2 a.2); [lia|].
    rewrite Z.eqb_refl, Z.eqb_refl. done.
  - apply C18_edge_test; [|done]. apply on_segment_iff. split; [ring|lia].
Qed.

Lemma border_edge p poly z : last poly = Some z ->
  (on_border p poly <-> exists e, e ∈ edges_from z poly /\ pointLiesOnTheRightOfLine p e.1 e.2 = 0).
Proof.
  intros Hz. unfold on_border. split.
  - intros (e & He & Hon). rewrite <- (edges_code poly z Hz) in He.
    destruct (decide (p = e.1)) as [-> |Hne].
    + apply edges_from_ends in He as [He _].
      assert (Hv : e.1 ∈ poly). { destruct He as [-> |]; [|done]. apply last_Some in Hz as (l' & ->). set_solver. }
      destruct (edges_from_into poly z e.1 Hv) as [u Hu]. exists (u, e.1). split; [done|]. apply plr_end.
    + exists e. split; [done|]. by apply C18_edge_test.
  - intros (e & He & H0). exists e. rewrite <- (edges_code poly z Hz). split; [done|]. by apply C18_edge_test.
Qed.

(** where the ray meets an edge, as computed *)
Definition hit_x (p : pt) (e : pt * pt) : Z :=
  if e.2.2 =? e.1.2 then e.1.1 else e.1.1 + ((e.2.1 - e.1.1) * (p.2 - e.1.2)) ÷ (e.2.2 - e.1.2).

Lemma findInside_poly_spec p border poly : forall p0 n m,
  match findInside_poly p border p0 poly n m with
  | None => border = true /\ exists e, e ∈ edges_from p0 poly /\ pointLiesOnTheRightOfLine p e.1 e.2 = 0
  | Some (n', m') =>
      (border = true -> forall e, e ∈ edges_from p0 poly -> pointLiesOnTheRightOfLine p e.1 e.2 <> 0) /\
      n' = n + Z.of_nat (length (filter (crosses_right p) (edges_from p0 poly))) /\
      m' <= m /\ (forall e, e ∈ edges_from p0 poly -> crosses_right p e -> m' <= hit_x p e) /\
      (m' = m \/ exists e, e ∈ edges_from p0 poly /\ crosses_right p e /\ m' = hit_x p e)
  end.
Proof.
  induction poly as [|p1 poly IH]; intros p0 n m; simpl.
  - split; [intros _ e He; by apply elem_of_nil in He|]. split; [lia|]. split; [lia|].
    split; [intros e He; by apply elem_of_nil in He|by left].
  - destruct (C18_edge_test p p0 p1) as (T1 & _ & _ & T3).
    destruct (Z.eqb_spec (pointLiesOnTheRightOfLine p p0 p1) 1) as [E1|N1].
    + change (if p1.2 =? p0.2 then p0.1 else p0.1 + (p1.1 - p0.1) * (p.2 - p0.2) ÷ (p1.2 - p0.2)) with (hit_x p (p0, p1)).
      specialize (IH p1 (n + 1) (Z.min (hit_x p (p0, p1)) m)).
      destruct (findInside_poly p border p1 poly (n + 1) (Z.min (hit_x p (p0, p1)) m)) as [[n' m']|].
      * destruct IH as (A & B & C & D & F). rewrite filter_cons, decide_True by (by apply T1).
        split; [|split; [|split; [|split]]].
        -- intros Hb e He. apply elem_of_cons in He as [-> |He]; [simpl; lia|by apply A].
        -- simpl. lia.
        -- lia.
        -- intros e He Hc. apply elem_of_cons in He as [-> |He]; [lia|by apply D].
        -- destruct F as [F|(e & He & Hc & F)].
           ++ destruct (Z.min_spec (hit_x p (p0, p1)) m) as [[? Em]|[? Em]]; rewrite Em in F; [right|by left].
              exists (p0, p1). split; [left|]. split; [by apply T1|done].
           ++ right. exists e. split; [by right|done].
      * destruct IH as (Hb & e & He & H0). split; [done|]. exists e. split; [by right|done].
    + assert (Hnc : ~ crosses_right p (p0, p1)) by (rewrite <- T1; done).
      destruct (border && (pointLiesOnTheRightOfLine p p0 p1 =? 0)) eqn:Eb.
      * apply andb_true_iff in Eb as [-> E0%Z.eqb_eq]. split; [done|]. exists (p0, p1). split; [left|done].
      * specialize (IH p1 n m). destruct (findInside_poly p border p1 poly n m) as [[n' m']|].
        -- destruct IH as (A & B & C & D & F). rewrite filter_cons, decide_False by done.
           split; [|split; [done|split; [done|split]]].
           ++ intros -> e He. apply elem_of_cons in He as [-> |He]; [|by apply A].
              simpl in *. by apply Z.eqb_neq in Eb.
           ++ intros e He Hc. apply elem_of_cons in He as [-> |He]; [done|by apply D].
           ++ destruct F as [F|(e & He & Hc & F)]; [by left|right]. exists e. split; [by right|done].
        -- destruct IH as (Hb & e & He & H0). split; [done|]. exists e. split; [by right|done].
Qed.

(** Leftmost crossing of a polygon: an edge crossed at x such that no edge is crossed further left. *)
Definition leftmost_hit (p : pt) (poly : list pt) (x : Z) : Prop :=
  (exists e, e ∈ edges poly /\ crosses_right p e /\ x = hit_x p e) /\
  forall e, e ∈ edges poly -> crosses_right p e -> x <= hit_x p e.

Lemma hit_x_exact p e : crosses_right p e ->
  exists t : Q, (0 <= t <= 1)%Q /\ ((along e.1 e.2 t).2 == inject_Z p.2)%Q /\
    (inject_Z (hit_x p e) - 1 < (along e.1 e.2 t).1)%Q /\ ((along e.1 e.2 t).1 < inject_Z (hit_x p e) + 1)%Q /\
    hit_x p e <= Z.max e.1.1 e.2.1.
Proof.
  intros (Hy & t & Ht & E & _). exists t. split; [done|]. split; [done|].
  destruct e as [[ax ay] [bx by_]], p as [px py]. unfold hit_x, along in *. simpl in *.
  assert (Hd : by_ - ay <> 0) by lia. destruct (Z.eqb_spec by_ ay) as [->|_]; [lia|].
  assert (Hnz : ~ (inject_Z (by_ - ay) == 0)%Q) by (unfold Qeq, inject_Z; simpl; lia).
  assert (Et : (t == inject_Z (py - ay) / inject_Z (by_ - ay))%Q).
  { unfold Zminus at 1. rewrite inject_Z_plus, inject_Z_opp, <- E. field. done. }
  (* make the divisor positive *)
  assert (Hs : exists k n, 0 < n /\ 0 <= k <= n /\ ((bx - ax) * (py - ay)) ÷ (by_ - ay) = ((bx - ax) * k) ÷ n /\
      (t == inject_Z k / inject_Z n)%Q).
  { destruct (Z.lt_total ay by_) as [Hl|[Hl|Hl]]; [|lia|].
    - exists (py - ay), (by_ - ay). split; [lia|]. split; [lia|]. split; [done|done].
    - exists (ay - py), (ay - by_). split; [lia|]. split; [lia|]. split.
      + replace ((bx - ax) * (ay - py)) with (- ((bx - ax) * (py - ay))) by ring.
        replace (ay - by_) with (- (by_ - ay)) by ring. rewrite Z.quot_opp_l, Z.quot_opp_r by lia. lia.
      + rewrite Et. replace (ay - py) with (- (py - ay)) by ring. replace (ay - by_) with (- (by_ - ay)) by ring.
        rewrite !inject_Z_opp. field. exact Hnz. }
  destruct Hs as (k & n & Hn & Hk & Eq & Et'). rewrite Eq.
  pose proof (trunc_within ((bx - ax) * k) n Hn) as [W1 W2].
  assert (Hn' : ~ (inject_Z n == 0)%Q) by (unfold Qeq, inject_Z; simpl; lia).
  assert (Ex : (inject_Z ((bx - ax) * k) / inject_Z n == t * inject_Z (bx - ax))%Q).
  { rewrite Et', inject_Z_mult. field. done. }
  rewrite Ex in W1, W2. rewrite inject_Z_plus. split; [lra|]. split; [lra|].
  destruct (Z.le_ge_cases ax bx).
  - assert ((bx - ax) * k ÷ n <= bx - ax) by (apply Z.quot_le_upper_bound; nia). lia.
  - assert ((bx - ax) * k ÷ n <= 0); [|lia]. replace ((bx - ax) * k) with (- ((ax - bx) * k)) by ring.
    rewrite Z.quot_opp_l by lia. assert (0 <= (ax - bx) * k ÷ n) by (apply Z.quot_pos; nia). lia.
Qed.

Definition small_coords (polys : list (list pt)) : Prop :=
  forall poly v, poly ∈ polys -> v ∈ poly -> v.1 < INT64_MAX.

Lemma last_elem {A} (l : list A) z : last l = Some z -> z ∈ l.
Proof. intros (l' & ->)%last_Some. set_solver. Qed.

Lemma hit_x_small p poly e : (forall v, v ∈ poly -> v.1 < INT64_MAX) -> e ∈ edges poly -> crosses_right p e -> hit_x p e < INT64_MAX.
Proof.
  intros Hs He Hc. destruct (hit_x_exact p e Hc) as (_ & _ & _ & _ & _ & Hm).
  destruct (last poly) as [z|] eqn:Hz; [|apply last_None in Hz; subst; by apply elem_of_nil in He].
  rewrite <- (edges_code poly z Hz) in He. apply edges_from_ends in He as [H1 H2].
  assert (e.1 ∈ poly) by (destruct H1 as [-> |]; [by apply last_elem|done]).
  pose proof (Hs e.1 ltac:(done)). pose proof (Hs e.2 H2). lia.
Qed.

Lemma findInside_polys_spec p border polys : forall idx,
  (forall poly, poly ∈ polys -> poly <> []) -> small_coords polys ->
  exists r, findInside_polys p border idx polys = Ok r /\
  match r with
  | inr i => border = true /\ exists poly, (idx <= i)%nat /\ polys !! (i - idx)%nat = Some poly /\ on_border p poly /\
      forall j poly', (j < i - idx)%nat -> polys !! j = Some poly' -> ~ on_border p poly'
  | inl l =>
      (border = true -> forall poly, poly ∈ polys -> ~ on_border p poly) /\
      Forall2 (fun poly cm => cm.1 = Z.of_nat (crossing_number p poly) /\
         (crossing_number p poly <> 0%nat -> leftmost_hit p poly cm.2 /\ cm.2 < INT64_MAX)) polys l
  end.
Proof.
  induction polys as [|poly polys IH]; intros idx Hne Hsm; simpl.
  - eexists. split; [done|]. split; [intros _ q Hq; by apply elem_of_nil in Hq|constructor].
  - destruct (last poly) as [z|] eqn:Hz; [|apply last_None in Hz; exfalso; by apply (Hne poly ltac:(left))].
    pose proof (findInside_poly_spec p border poly z 0 INT64_MAX) as Hp.
    destruct (findInside_poly p border z poly 0 INT64_MAX) as [[n m]|].
    + destruct Hp as (A & B & C & D & F).
      destruct (IH (S idx)) as (r & -> & Hr). { intros q Hq. apply Hne. by right. } { intros q v Hq. apply Hsm. by right. }
      cbn [rbind]. destruct r as [l|i].
      * destruct Hr as [R1 R2]. eexists. split; [done|]. split.
        -- intros Hb q Hq. apply elem_of_cons in Hq as [-> |Hq]; [|by apply R1].
           rewrite (border_edge p poly z Hz). intros (e & He & H0). by apply (A Hb e He).
        -- constructor; [|done]. simpl.
           assert (Hcn : crossing_number p poly = length (filter (crosses_right p) (edges_from z poly))).
           { unfold crossing_number. by rewrite (edges_code poly z Hz). }
           split; [rewrite Hcn; lia|]. intros Hnz.
           assert (Hex : exists e, e ∈ edges poly /\ crosses_right p e).
           { unfold crossing_number in Hnz. destruct (filter (crosses_right p) (edges poly)) as [|e l'] eqn:Ef; [done|].
             exists e. assert (He : e ∈ filter (crosses_right p) (edges poly)) by (rewrite Ef; left).
             apply elem_of_list_filter in He. tauto. }
           assert (Hsm' : forall v, v ∈ poly -> v.1 < INT64_MAX) by (intros v; apply Hsm; left).
           destruct Hex as (e0 & He0 & Hc0). pose proof (hit_x_small p poly e0 Hsm' He0 Hc0) as Hs0.
           assert (Hle : m <= hit_x p e0) by (apply D; [by rewrite (edges_code poly z Hz)|done]).
           split; [|lia]. split.
           ++ destruct F as [F|(e & He & Hc & F)]; [lia|]. exists e. rewrite <- (edges_code poly z Hz). done.
           ++ intros e He. apply D. by rewrite (edges_code poly z Hz).
      * destruct Hr as (Hb & poly' & Hi & Hl & Hon & Hfst). eexists. split; [done|]. split; [done|]. exists poly'.
        split; [lia|]. replace (i - idx)%nat with (S (i - S idx)) by lia. split; [done|]. split; [done|].
        intros [|j] q Hj Hq; simpl in Hq; [injection Hq as <-|apply (Hfst j q); [lia|done]].
        rewrite (border_edge p poly z Hz). intros (e & He & H0). by apply (A Hb e He).
    + destruct Hp as (Hb & He). eexists. split; [done|]. split; [done|]. exists poly.
      rewrite Nat.sub_diag. split; [done|]. split; [done|]. split; [by apply (border_edge p poly z Hz)|]. intros; lia.
Qed.

Lemma rem2_odd n : (Z.rem (Z.of_nat n) 2 =? 1) = Nat.odd n.
Proof.
  rewrite Z.rem_mod_nonneg by lia. destruct (Nat.Even_or_Odd n) as [[k E]|[k E]].
  - assert (Nat.odd n = false) as -> by (rewrite <- Nat.negb_even; apply negb_false_iff, Nat.even_spec; by exists k).
    apply Z.eqb_neq. rewrite E, Nat2Z.inj_mul, Z.mul_comm, Z.mod_mul by lia. lia.
  - assert (Nat.odd n = true) as -> by (apply Nat.odd_spec; by exists k).
    apply Z.eqb_eq. rewrite E, Nat2Z.inj_add, Nat2Z.inj_mul, Z.add_comm, Z.mul_comm, Z.mod_add by lia. done.
Qed.

Lemma odd_sum_count (ns : list nat) : Nat.odd (sum_list ns) = Nat.odd (length (filter (fun n => Nat.odd n = true) ns)).
Proof.
  induction ns as [|n ns IH]; simpl; [done|]. rewrite filter_cons, Nat.odd_add, IH.
  destruct (decide (Nat.odd n = true)) as [E|E].
  - rewrite E. cbn [length]. rewrite Nat.odd_succ, <- Nat.negb_odd. by destruct (Nat.odd (length _)).
  - apply not_true_is_false in E. rewrite E. by destruct (Nat.odd (length _)).
Qed.

Lemma unevens_spec p polys l : Forall2 (fun poly cm => cm.1 = Z.of_nat (crossing_number p poly) /\
         (crossing_number p poly <> 0%nat -> leftmost_hit p poly cm.2 /\ cm.2 < INT64_MAX)) polys l ->
  forall idx n mx ret,
  let '(n', ret') := findInside_unevens idx l n mx ret in
  n' = n + Z.of_nat (length (filter (fun c => Nat.odd c = true) (map (crossing_number p) polys))) /\
  (ret' = ret /\ (forall j poly, polys !! j = Some poly -> Nat.odd (crossing_number p poly) = true ->
                     forall x, leftmost_hit p poly x -> mx <= x) \/
   exists i poly x, ret' = Some (idx + i)%nat /\ polys !! i = Some poly /\ Nat.odd (crossing_number p poly) = true /\
     leftmost_hit p poly x /\ x < mx /\
     forall j poly' x', polys !! j = Some poly' -> Nat.odd (crossing_number p poly') = true -> leftmost_hit p poly' x' -> x <= x').
Proof.
  induction 1 as [|poly [c m] polys l [Hc Hm] HF IH]; intros idx n mx ret; simpl.
  - split; [lia|]. left. split; [done|]. intros j q Hq. done.
  - simpl in Hc, Hm. rewrite Hc, rem2_odd.
    assert (Huniq : forall x y, leftmost_hit p poly x -> leftmost_hit p poly y -> x = y).
    { intros x y [(e & He & Hce & ->) Hx] [(e' & He' & Hce' & ->) Hy]. pose proof (Hx e' He' Hce'). pose proof (Hy e He Hce). lia. }
    destruct (Nat.odd (crossing_number p poly)) eqn:Eo.
    + assert (Hnz : crossing_number p poly <> 0%nat) by (intros E; by rewrite E in Eo). destruct (Hm Hnz) as [HL Hlt].
      destruct (Z.ltb_spec m mx) as [Hmx|Hmx].
      * specialize (IH (S idx) (n + 1) m (Some idx)).
        destruct (findInside_unevens (S idx) l (n + 1) m (Some idx)) as [n' ret']. destruct IH as [IH1 IH2].
        rewrite filter_cons, decide_True by done. split; [simpl; lia|]. right.
        destruct IH2 as [[-> Hall]|(i & q & x & -> & Hq & Hodd & Hx & Hxm & Hall)].
        -- exists 0%nat, poly, m. split; [f_equal; lia|]. do 4 (split; [done|]).
           intros [|j] q x' Hq Ho Hx'; simpl in Hq; [injection Hq as <-; rewrite (Huniq _ _ Hx' HL); lia|by eapply Hall].
        -- exists (S i), q, x. split; [f_equal; lia|]. split; [done|]. do 2 (split; [done|]). split; [lia|].
           intros [|j] q' x' Hq' Ho Hx'; simpl in Hq'; [injection Hq' as <-; rewrite (Huniq _ _ Hx' HL); lia|by eapply Hall].
      * specialize (IH (S idx) (n + 1) mx ret).
        destruct (findInside_unevens (S idx) l (n + 1) mx ret) as [n' ret']. destruct IH as [IH1 IH2].
        rewrite filter_cons, decide_True by done. split; [simpl; lia|].
        destruct IH2 as [[-> Hall]|(i & q & x & -> & Hq & Hodd & Hx & Hxm & Hall)]; [left|right].
        -- split; [done|]. intros [|j] q Hq Ho x' Hx'; simpl in Hq; [injection Hq as <-; rewrite (Huniq _ _ Hx' HL); lia|by eapply Hall].
        -- exists (S i), q, x. split; [f_equal; lia|]. split; [done|]. do 2 (split; [done|]). split; [done|].
           intros [|j] q' x' Hq' Ho Hx'; simpl in Hq'; [injection Hq' as <-; rewrite (Huniq _ _ Hx' HL); lia|by eapply Hall].
    + specialize (IH (S idx) n mx ret).
      destruct (findInside_unevens (S idx) l n mx ret) as [n' ret']. destruct IH as [IH1 IH2].
      rewrite filter_cons, decide_False by congruence. split; [done|].
      destruct IH2 as [[-> Hall]|(i & q & x & -> & Hq & Hodd & Hx & Hxm & Hall)]; [left|right].
      * split; [done|]. intros [|j] q Hq Ho x' Hx'; simpl in Hq; [injection Hq as <-; congruence|by eapply Hall].
      * exists (S i), q, x. split; [f_equal; lia|]. split; [done|]. do 2 (split; [done|]). split; [done|].
        intros [|j] q' x' Hq' Ho Hx'; simpl in Hq'; [injection Hq' as <-; congruence|by eapply Hall].
Qed.

Lemma odd_leftmost p poly : crossing_number p poly <> 0%nat -> exists x, leftmost_hit p poly x.
Proof.
  unfold crossing_number, leftmost_hit. intros H.
  assert (Hg : forall es, filter (crosses_right p) es <> [] ->
    exists x, (exists e, e ∈ es /\ crosses_right p e /\ x = hit_x p e) /\ forall e, e ∈ es -> crosses_right p e -> x <= hit_x p e).
  { induction es as [|e es IH]; [done|]. rewrite filter_cons. destruct (decide (crosses_right p e)) as [Hc|Hc].
    - intros _. destruct (decide (filter (crosses_right p) es = [])) as [E|E].
      + exists (hit_x p e). split; [exists e; split; [left|done]|]. intros e' He' Hc'. apply elem_of_cons in He' as [-> |He']; [lia|].
        assert (Hin : e' ∈ filter (crosses_right p) es) by (by apply elem_of_list_filter). rewrite E in Hin. by apply elem_of_nil in Hin.
      + destruct (IH E) as (x & (e1 & He1 & Hc1 & ->) & Hall). exists (Z.min (hit_x p e) (hit_x p e1)). split.
        * destruct (Z.min_spec (hit_x p e) (hit_x p e1)) as [[_ ->]|[_ ->]]; [exists e; split; [left|done]|exists e1; split; [by right|done]].
        * intros e' He' Hc'. apply elem_of_cons in He' as [-> |He']; [lia|]. pose proof (Hall e' He' Hc'). lia.
    - intros E. destruct (IH E) as (x & (e1 & He1 & Hc1 & ->) & Hall). exists (hit_x p e1). split; [exists e1; split; [by right|done]|].
      intros e' He' Hc'. apply elem_of_cons in He' as [-> |He']; [done|by apply Hall]. }
  apply Hg. intros E. by rewrite E in H.
Qed.

(** findInside on polygons without empty ones: with border_result, a point on a border gives (the
    first) such polygon; otherwise a polygon is found exactly if the even-odd rule over all polygons
    says inside, and then one with an odd crossing number whose leftmost crossing is (within two
    units) not to the right of that of any other such polygon. *)
Theorem C18_find_inside (polys : list (list pt)) (p : pt) (border_result : bool) :
  (forall poly, poly ∈ polys -> poly <> []) -> small_coords polys ->
  exists r, findInside polys p border_result = Ok r /\
  (border_result = true -> (exists poly, poly ∈ polys /\ on_border p poly) ->
     exists i poly, r = Some i /\ polys !! i = Some poly /\ on_border p poly /\
       forall j poly', (j < i)%nat -> polys !! j = Some poly' -> ~ on_border p poly') /\
  (border_result = false \/ (forall poly, poly ∈ polys -> ~ on_border p poly) ->
     (r <> None <-> even_odd_inside p polys) /\
     forall i, r = Some i -> exists poly, polys !! i = Some poly /\ Nat.odd (crossing_number p poly) = true /\
       forall j poly' e', polys !! j = Some poly' -> Nat.odd (crossing_number p poly') = true ->
         e' ∈ edges poly' -> forall t' : Q, crosses_right p e' -> ((along e'.1 e'.2 t').2 == inject_Z p.2)%Q ->
         exists e t, e ∈ edges poly /\ crosses_right p e /\ (0 <= t <= 1)%Q /\ ((along e.1 e.2 t).2 == inject_Z p.2)%Q /\
           ((along e.1 e.2 t).1 < (along e'.1 e'.2 t').1 + 2)%Q).
Proof.
  intros Hne Hsm. destruct (decide (polys = [])) as [-> |Hp].
  { exists None. split; [done|]. split; [intros _ (q & Hq & _); by apply elem_of_nil in Hq|].
    intros _. split; [|done]. split; [done|]. intros H. discriminate H. }
  assert (Ef : findInside polys p border_result = rbind (findInside_polys p border_result 0 polys) (fun r =>
      match r with
      | inr i => Ok (Some i)
      | inl l => let '(n_unevens, ret) := findInside_unevens 0 l 0 INT64_MAX None in
          if Z.rem n_unevens 2 =? 0 then Ok None else Ok ret
      end)) by (by destruct polys). rewrite Ef.
  destruct (findInside_polys_spec p border_result polys 0 Hne Hsm) as (r & -> & Hr). cbn [rbind].
  destruct r as [l|i].
  - destruct Hr as [Hb HF]. pose proof (unevens_spec p polys l HF 0 0 INT64_MAX None) as Hu.
    destruct (findInside_unevens 0 l 0 INT64_MAX None) as [n ret]. destruct Hu as [Hn Hret].
    assert (Eodd : Nat.odd (Z.to_nat n) = Nat.odd (sum_list (map (crossing_number p) polys))).
    { rewrite Hn, Z.add_0_l, Nat2Z.id. symmetry. apply odd_sum_count. }
    assert (Erem : (Z.rem n 2 =? 0) = negb (Nat.odd (sum_list (map (crossing_number p) polys)))).
    { rewrite <- Eodd. replace n with (Z.of_nat (Z.to_nat n)) at 1 by lia. rewrite <- rem2_odd.
      rewrite Hn, Z.add_0_l, Nat2Z.id. rewrite !Z.rem_mod_nonneg by lia.
      match goal with |- (?a =? 0) = negb (?b =? 1) => pose proof (Z.mod_pos_bound (Z.of_nat (length (filter (fun c => Nat.odd c = true) (map (crossing_number p) polys)))) 2 ltac:(lia)); destruct (Z.eqb_spec a 0); destruct (Z.eqb_spec b 1); try done; lia end. }
    exists (if Z.rem n 2 =? 0 then None else ret). split; [by destruct (Z.rem n 2 =? 0)|]. split.
    { intros Hbt (q & Hq & Hon). exfalso. by apply (Hb Hbt q Hq). }
    intros _. rewrite Erem. unfold even_odd_inside.
    destruct (Nat.odd (sum_list (map (crossing_number p) polys))) eqn:Es; cbn [negb].
    + destruct Hret as [[-> Hall]|(i & q & x & -> & Hq & Hodd & Hx & Hxm & Hall)].
      * exfalso. assert (Hpos : n <> 0). { intros E0. rewrite E0 in Eodd. discriminate. }
        destruct (filter (fun c => Nat.odd c = true) (map (crossing_number p) polys)) as [|c cs] eqn:Efl; [simpl in Hn; lia|].
        assert (Hin : c ∈ filter (fun c => Nat.odd c = true) (map (crossing_number p) polys)) by (rewrite Efl; left).
        apply elem_of_list_filter in Hin as [Hco Hin]. apply elem_of_list_In, in_map_iff in Hin as (q & <- & Hq).
        apply elem_of_list_In in Hq.
        assert (Hnz : crossing_number p q <> 0%nat) by (intros E; by rewrite E in Hco).
        destruct (odd_leftmost p q Hnz) as [x Hx]. pose proof Hx as [(e & He & Hce & ->) _].
        apply elem_of_list_lookup in Hq as [j Hj]. pose proof (Hall j q Hj Hco _ Hx).
        pose proof (hit_x_small p q e ltac:(intros v; apply Hsm; by eapply elem_of_list_lookup_2) He Hce). lia.
      * split; [done|]. intros i' [= <-]. exists q. split; [done|]. split; [done|].
        intros j q' e' Hj Ho' He' t' Hce' Ht'.
        assert (Hnz : crossing_number p q' <> 0%nat) by (intros E; by rewrite E in Ho').
        destruct (odd_leftmost p q' Hnz) as [x' Hx']. pose proof (Hall j q' x' Hj Ho' Hx') as Hle.
        destruct Hx as [(e & He & Hce & ->) _]. destruct Hx' as [_ Hx']. specialize (Hx' e' He' Hce').
        destruct (hit_x_exact p e Hce) as (t & Ht & Ety & B1 & B2 & _).
        destruct (hit_x_exact p e' Hce') as (t2 & Ht2 & Ety2 & B1' & B2' & _).
        exists e, t. do 4 (split; [done|]).
        assert (Et : ((along e'.1 e'.2 t2).1 == (along e'.1 e'.2 t').1)%Q).
        { destruct Hce' as [Hy' _]. unfold along in *. simpl in *.
          assert (Hnz' : ~ (inject_Z (e'.2.2 - e'.1.2) == 0)%Q) by (unfold Qeq, inject_Z; simpl; lia).
          assert (t2 == t')%Q as ->; [|done].
          assert (Hm : (t2 * inject_Z (e'.2.2 - e'.1.2) == t' * inject_Z (e'.2.2 - e'.1.2))%Q) by lra.
          by apply Qmult_inj_r in Hm. }
        rewrite <- Et. assert ((inject_Z (hit_x p e) <= inject_Z (hit_x p e'))%Q) by (rewrite <- Zle_Qle; lia). lra.
    + split; [|done]. split; [done|]. intros; done.
  - destruct Hr as (Hb & poly & _ & Hl & Hon & Hfst). rewrite Nat.sub_0_r in *. exists (Some i). split; [done|]. split.
    + intros _ _. exists i, poly. done.
    + intros [?|Hno]; [congruence|]. exfalso. eapply Hno; [|done]. by eapply elem_of_list_lookup_2.
Qed.
Print Assumptions C18_find_inside.

(** With border_result = false, findInside still reports points on a left border as inside. *)
Theorem C18_border_false_refuted :
  exists (poly : list pt) (p : pt), on_border p poly /\ findInside [poly] p false = Ok (Some 0%nat).
Proof.
  exists [(0, 0); (10, 0); (10, 10); (0, 10)], (0, 5). split; [|reflexivity].
  exists ((0, 10), (0, 0)). split; [|apply on_segment_iff; simpl; lia]. vm_compute. do 3 right. left.
Qed.
Print Assumptions C18_border_false_refuted.

Lemma edges_rotate p l : edges (l ++ [p]) ≡ₚ edges (p :: l).
Proof.
  destruct l as [|q l]; [done|]. cbn [app edges]. rewrite (edges_from_snoc (l ++ [p])).
  rewrite last_snoc. simpl. rewrite Permutation_app_comm. done.
Qed.
Lemma edges_from_reverse l : forall a z, edges_from z (reverse (a :: l)) ≡ₚ
  (z, default a (last l)) :: map (fun e => (e.2, e.1)) (edges_from a l).
Proof.
  induction l as [|b l IH]; intros a z; [done|].
  rewrite reverse_cons, edges_from_snoc. rewrite IH. simpl.
  assert (E : default z (last (reverse (b :: l))) = b) by (rewrite reverse_cons, last_snoc; done). rewrite E.
  assert (E2 : default a (last (b :: l)) = default b (last l)).
  { destruct l; [done|]. simpl. destruct (last (p :: l)) eqn:El; [done|]. by apply last_None in El. }
  simpl in E2. rewrite <- E2. rewrite Permutation_app_comm. simpl. constructor. done. 
Qed.

Lemma side_swap p a b : side p b a = - side p a b.
Proof. unfold side. ring. Qed.
Lemma crosses_swap p a b : crosses_right p (b, a) <-> crosses_right p (a, b).
Proof. rewrite !crosses_right_iff, side_swap. lia. Qed.
Lemma on_segment_swap p a b : on_segment p b a <-> on_segment p a b.
Proof. rewrite !on_segment_iff. lia. Qed.

Lemma edges_reverse poly : edges (reverse poly) ≡ₚ map (fun e => (e.2, e.1)) (edges poly).
Proof.
  destruct poly as [|p l]; [done|].
  assert (Hl : last (reverse (p :: l)) = Some p) by (by rewrite reverse_cons, last_snoc).
  rewrite <- (edges_code _ _ Hl), edges_from_reverse. simpl. rewrite edges_from_snoc, map_app. simpl.
  rewrite Permutation_app_comm. done.
Qed.
Lemma filter_map_swap p es : length (filter (crosses_right p) (map (fun e => (e.2, e.1)) es)) = length (filter (crosses_right p) es).
Proof.
  induction es as [|[a b] es IH]; [done|]. cbn [map]. rewrite !filter_cons. cbn [fst snd].
  destruct (decide (crosses_right p (b, a))) as [H|H]; rewrite crosses_swap in H;
    [rewrite decide_True by done|rewrite decide_False by done]; simpl; lia.
Qed.

(** The answer depends only on the closed curve: not on the starting vertex or the direction. *)
Theorem C18_start_and_direction (q p : pt) (l : list pt) :
  crossing_number q (l ++ [p]) = crossing_number q (p :: l) /\
  crossing_number q (reverse (p :: l)) = crossing_number q (p :: l) /\
  (on_border q (l ++ [p]) <-> on_border q (p :: l)) /\
  (on_border q (reverse (p :: l)) <-> on_border q (p :: l)).
Proof.
  unfold crossing_number, on_border. split; [by rewrite edges_rotate|]. split; [by rewrite edges_reverse, filter_map_swap|].
  split; [by setoid_rewrite edges_rotate|]. setoid_rewrite edges_reverse. split.
  - intros (e & He & H). apply elem_of_list_In, in_map_iff in He as ([a b] & <- & He). apply elem_of_list_In in He.
    exists (a, b). split; [done|]. by apply on_segment_swap.
  - intros ([a b] & He & H). exists (b, a). split; [|by apply on_segment_swap].
    apply elem_of_list_In, in_map_iff. exists (a, b). split; [done|]. by apply elem_of_list_In.
Qed.
Print Assumptions C18_start_and_direction.

(** A closed curve passes the height of p an even number of times. *)
Definition passes (y : Z) (e : pt * pt) : Prop := Z.min e.1.2 e.2.2 <= y < Z.max e.1.2 e.2.2.
#[local] Instance passes_dec y e : Decision (passes y e). Proof. unfold passes. apply _. Defined.
Lemma passes_parity y l : forall a, Nat.odd (length (filter (passes y) (edges_from a l))) =
  xorb (y <? a.2) (y <? (default a (last l)).2).
Proof.
  induction l as [|b l IH]; intros a; simpl; [by rewrite xorb_nilpotent|].
  assert (E : default a (last (b :: l)) = default b (last l)).
  { destruct l; [done|]. simpl. destruct (last (p :: l)) eqn:El; [done|]. by apply last_None in El. }
  simpl in E. rewrite E. specialize (IH b). rewrite filter_cons.
  destruct (decide (passes y (a, b))) as [H|H]; unfold passes in H; simpl in H.
  - cbn [length]. rewrite Nat.odd_succ, <- Nat.negb_odd, IH.
    destruct (Z.ltb_spec y a.2), (Z.ltb_spec y b.2); try lia; by destruct (y <? _).
  - rewrite IH. f_equal. destruct (Z.ltb_spec y a.2), (Z.ltb_spec y b.2); try lia; done.
Qed.
Lemma passes_even y poly : Nat.odd (length (filter (passes y) (edges poly))) = false.
Proof.
  destruct (last poly) as [z|] eqn:Hz; [|by apply last_None in Hz; subst].
  rewrite <- (edges_code poly z Hz), passes_parity, Hz. simpl. by rewrite xorb_nilpotent.
Qed.
Lemma filter_length_ext (P Q : pt * pt -> Prop) `{!forall e, Decision (P e), !forall e, Decision (Q e)} es :
  (forall e, e ∈ es -> (P e <-> Q e)) -> length (filter P es) = length (filter Q es).
Proof.
  induction es as [|e es IH]; intros Hex; [done|]. rewrite !filter_cons. assert (He : P e <-> Q e) by (apply Hex; left).
  assert (IH' : length (filter P es) = length (filter Q es)) by (apply IH; intros; apply Hex; by right).
  destruct (decide (P e)), (decide (Q e)); simpl; try tauto; lia.
Qed.
Lemma edges_verts poly e : e ∈ edges poly -> e.1 ∈ poly /\ e.2 ∈ poly.
Proof.
  destruct (last poly) as [z|] eqn:Hz; [|apply last_None in Hz; subst; by intros ?%elem_of_nil].
  rewrite <- (edges_code poly z Hz). intros [[-> |H1] H2]%edges_from_ends; [|done]. split; [by apply last_elem|done].
Qed.

Lemma side_alt p a b : side p a b = (b.1 - p.1) * (p.2 - a.2) + (a.1 - p.1) * (b.2 - p.2).
Proof. unfold side. ring. Qed.

(** No point outside the bounding box of a set of polygons is inside it. *)
Theorem C18_outside_box (p : pt) (polys : list (list pt)) (xmin xmax ymin ymax : Z) :
  (forall poly v, poly ∈ polys -> v ∈ poly -> xmin <= v.1 <= xmax /\ ymin <= v.2 <= ymax) ->
  p.1 < xmin \/ xmax < p.1 \/ p.2 < ymin \/ ymax < p.2 -> ~ even_odd_inside p polys.
Proof.
  intros Hbox Hout. unfold even_odd_inside.
  assert (Hp : forall poly, poly ∈ polys -> Nat.odd (crossing_number p poly) = false).
  { intros poly Hpoly. unfold crossing_number.
    assert (Hv : forall e, e ∈ edges poly -> xmin <= e.1.1 <= xmax /\ ymin <= e.1.2 <= ymax /\ xmin <= e.2.1 <= xmax /\ ymin <= e.2.2 <= ymax).
    { intros e [H1 H2]%edges_verts. pose proof (Hbox _ _ Hpoly H1). pose proof (Hbox _ _ Hpoly H2). tauto. }
    destruct (decide (p.1 < xmin)) as [Hl|Hl].
    - rewrite (filter_length_ext _ (passes p.2)); [apply passes_even|]. intros [a b] He. rewrite crosses_right_iff.
      specialize (Hv _ He). rewrite side_alt. unfold passes. simpl in *.
      split; [lia|]. intros H. destruct (Z.lt_total a.2 b.2) as [?|[?|?]]; [left|lia|right]; (split; [lia|]).
      + pose proof (Z.mul_nonneg_nonneg (b.1 - p.1) (p.2 - a.2) ltac:(lia) ltac:(lia)).
        pose proof (Z.mul_pos_pos (a.1 - p.1) (b.2 - p.2) ltac:(lia) ltac:(lia)). lia.
      + pose proof (Z.mul_pos_neg (b.1 - p.1) (p.2 - a.2) ltac:(lia) ltac:(lia)).
        pose proof (Z.mul_nonneg_nonpos (a.1 - p.1) (b.2 - p.2) ltac:(lia) ltac:(lia)). lia.
    - destruct (filter (crosses_right p) (edges poly)) as [|[a b] es] eqn:Ef; [done|]. exfalso.
      assert (He : (a, b) ∈ filter (crosses_right p) (edges poly)) by (rewrite Ef; left).
      apply elem_of_list_filter in He as [Hc He]. revert Hc. rewrite crosses_right_iff, side_alt.
      specialize (Hv _ He). simpl in *.
      intros [[? ?]|[? ?]]; destruct Hout as [?|[?|[?|?]]]; try lia.
      + pose proof (Z.mul_nonpos_nonneg (b.1 - p.1) (p.2 - a.2) ltac:(lia) ltac:(lia)).
           pose proof (Z.mul_neg_pos (a.1 - p.1) (b.2 - p.2) ltac:(lia) ltac:(lia)). lia.
      + pose proof (Z.mul_neg_neg (b.1 - p.1) (p.2 - a.2) ltac:(lia) ltac:(lia)).
           pose proof (Z.mul_nonpos_nonpos (a.1 - p.1) (b.2 - p.2) ltac:(lia) ltac:(lia)). lia. }
  clear Hbox. induction polys as [|poly polys IH]; simpl; [done|]. rewrite Nat.odd_add, (Hp poly) by left.
  rewrite xorb_false_l. apply IH. intros q Hq. apply Hp. by right.
Qed.
Print Assumptions C18_outside_box.

(** ** Clipper's point test *)
(** What Clipper documents about PointInPolygon, for polygons of at least three vertices: -1 on the
    border, otherwise 1 or 0 by the even-odd rule. *)
Definition clipper_contract (pip : pt -> list pt -> Z) : Prop :=
  forall p poly, (on_border p poly -> pip p poly = -1) /\
    (~ on_border p poly -> pip p poly = if Nat.odd (crossing_number p poly) then 1 else 0).

#[local] Instance on_segment_dec p a b : Decision (on_segment p a b).
Proof.
  destruct (decide ((b.1 - a.1) * (p.2 - a.2) = (p.1 - a.1) * (b.2 - a.2) /\
    Z.min a.1 b.1 <= p.1 <= Z.max a.1 b.1 /\ Z.min a.2 b.2 <= p.2 <= Z.max a.2 b.2)) as [H|H].
  - left. by apply on_segment_iff.
  - right. by rewrite on_segment_iff.
Defined.
#[local] Instance on_border_dec p poly : Decision (on_border p poly).
Proof.
  destruct (decide (Exists (fun e => on_segment p e.1 e.2) (edges poly))) as [H|H].
  - left. apply Exists_exists in H as (e & He & Hon). by exists e.
  - right. intros (e & He & Hon). apply H, Exists_exists. by exists e.
Defined.

(** The contract can be met. *)
Definition exact_pip (p : pt) (poly : list pt) : Z :=
  if decide (on_border p poly) then -1 else if Nat.odd (crossing_number p poly) then 1 else 0.
Lemma exact_pip_contract : clipper_contract exact_pip.
Proof. intros p poly. unfold exact_pip. split; intros H; [by rewrite decide_True|by rewrite decide_False]. Qed.

Lemma shape_inside_loop_spec pip p border polys : clipper_contract pip -> forall n, 0 <= n ->
  ((exists poly, poly ∈ polys /\ on_border p poly) -> shape_inside_loop pip polys p border n = border) /\
  ((forall poly, poly ∈ polys -> ~ on_border p poly) ->
     shape_inside_loop pip polys p border n = xorb (Z.odd n) (Nat.odd (sum_list (map (crossing_number p) polys)))).
Proof.
  intros Hc. induction polys as [|poly polys IH]; intros n Hn; simpl.
  - split; [intros (q & Hq & _); by apply elem_of_nil in Hq|]. intros _. rewrite xorb_false_r.
    rewrite Z.rem_mod_nonneg, Zmod_odd by lia. by destruct (Z.odd n).
  - destruct (Hc p poly) as [Hb Hnb]. destruct (decide (on_border p poly)) as [Hon|Hon].
    + rewrite (Hb Hon). simpl. split; [done|]. intros Hno. exfalso. by apply (Hno poly ltac:(left)).
    + rewrite (Hnb Hon). assert (Hz : ((if Nat.odd (crossing_number p poly) then 1 else 0) =? -1) = false) by (by destruct (Nat.odd (crossing_number p poly))).
      rewrite Hz. destruct (IH (n + (if Nat.odd (crossing_number p poly) then 1 else 0))) as [I1 I2];
        [destruct (Nat.odd (crossing_number p poly)); lia|]. split.
      * intros (q & Hq & Hqb). apply I1. apply elem_of_cons in Hq as [-> |Hq]; [done|]. by exists q.
      * intros Hno. rewrite I2 by (intros; apply Hno; by right). rewrite Nat.odd_add, Z.odd_add.
        destruct (Nat.odd (crossing_number p poly)); simpl; by destruct (Z.odd n), (Nat.odd (sum_list _)).
Qed.

(** Shape::inside: border_result on any border, and otherwise the even-odd rule. *)
Theorem C18_shape_inside (pip : pt -> list pt -> Z) (polys : list (list pt)) (p : pt) (border_result : bool) :
  clipper_contract pip ->
  ((exists poly, poly ∈ polys /\ on_border p poly) -> shape_inside pip polys p border_result = border_result) /\
  ((forall poly, poly ∈ polys -> ~ on_border p poly) ->
     (shape_inside pip polys p border_result = true <-> even_odd_inside p polys)).
Proof.
  intros Hc. destruct (shape_inside_loop_spec pip p border_result polys Hc 0 ltac:(lia)) as [H1 H2].
  split; [done|]. intros Hno. unfold shape_inside. rewrite (H2 Hno). change (Z.odd 0) with false. by rewrite xorb_false_l.
Qed.
Print Assumptions C18_shape_inside.

(** Off all borders, findInside finds a polygon exactly if Shape::inside says inside. *)
Theorem C18_inside_agree (pip : pt -> list pt -> Z) (polys : list (list pt)) (p : pt) (b1 b2 : bool) :
  clipper_contract pip -> (forall poly, poly ∈ polys -> poly <> []) -> small_coords polys ->
  (forall poly, poly ∈ polys -> ~ on_border p poly) ->
  exists r, findInside polys p b1 = Ok r /\ (r <> None <-> shape_inside pip polys p b2 = true).
Proof.
  intros Hc Hne Hsm Hno. destruct (C18_find_inside polys p b1 Hne Hsm) as (r & Hr & _ & H2).
  exists r. split; [done|]. destruct (H2 (or_intror Hno)) as [H3 _]. rewrite H3. symmetry.
  by apply (C18_shape_inside pip polys p b2 Hc).
Qed.
Print Assumptions C18_inside_agree.

(** SingleShape::inside, off all borders: inside the outline and in none of the holes. *)
Theorem C18_single_shape (pip : pt -> list pt -> Z) (outer : list pt) (holes : list (list pt)) (p : pt) (border_result : bool) :
  clipper_contract pip -> (forall poly, poly ∈ outer :: holes -> ~ on_border p poly) ->
  (single_shape_inside pip (outer :: holes) p border_result = true <->
   Nat.odd (crossing_number p outer) = true /\ forall hole, hole ∈ holes -> Nat.odd (crossing_number p hole) = false).
Proof.
  intros Hc Hno.
  assert (Hi : forall poly, poly ∈ outer :: holes -> poly_inside pip poly p border_result = Nat.odd (crossing_number p poly)).
  { intros poly Hp. unfold poly_inside. rewrite (proj2 (Hc p poly) (Hno poly Hp)). by destruct (Nat.odd (crossing_number p poly)). }
  unfold single_shape_inside. rewrite (Hi outer) by left. destruct (Nat.odd (crossing_number p outer)); simpl; [|naive_solver].
  rewrite negb_true_iff. split.
  - intros He. split; [done|]. intros hole Hh. rewrite <- (Hi hole) by (by right).
    destruct (poly_inside pip hole p border_result) eqn:E; [|done]. exfalso.
    assert (Ht : existsb (fun hole => poly_inside pip hole p border_result) holes = true); [|congruence].
    apply existsb_exists. exists hole. split; [by apply elem_of_list_In|done].
  - intros [_ Hh]. apply not_true_iff_false. intros (hole & Hin & E)%existsb_exists. apply elem_of_list_In in Hin.
    rewrite (Hi hole) in E by (by right). rewrite (Hh hole Hin) in E. done.
Qed.
Print Assumptions C18_single_shape.

(** On the border of a hole, SingleShape::inside answers the opposite of border_result. *)
Theorem C18_hole_border_refuted (pip : pt -> list pt -> Z) : clipper_contract pip ->
  exists outer hole p, on_border p hole /\ ~ on_border p outer /\
    single_shape_inside pip [outer; hole] p true = false /\ single_shape_inside pip [outer; hole] p false = true /\
    shape_inside pip [outer; hole] p true = true.
Proof.
  intros Hc. exists [(0, 0); (30, 0); (30, 30); (0, 30)], [(10, 10); (20, 10); (20, 20); (10, 20)], (10, 15).
  set (outer := [(0, 0); (30, 0); (30, 30); (0, 30)]). set (hole := [(10, 10); (20, 10); (20, 20); (10, 20)]).
  assert (H1 : on_border (10, 15) hole).
  { exists ((10, 20), (10, 10)). split; [vm_compute; do 3 right; left|]. apply on_segment_iff. simpl. lia. }
  assert (H2 : ~ on_border (10, 15) outer).
  { intros (e & He & Hon). apply on_segment_iff in Hon. vm_compute in He.
    repeat (apply elem_of_cons in He as [-> |He]; [simpl in Hon; lia|]). by apply elem_of_nil in He. }
  assert (E1 : pip (10, 15) hole = -1) by (by apply Hc).
  assert (E2 : pip (10, 15) outer = 1) by (rewrite (proj2 (Hc _ _) H2); vm_compute; done).
  split; [done|]. split; [done|]. unfold single_shape_inside, shape_inside, poly_inside. simpl. rewrite E1, E2. done.
Qed.
Print Assumptions C18_hole_border_refuted.

Example C18_nonvacuous : findInside [[(0, 0); (30, 0); (30, 30); (0, 30)]; [(10, 10); (10, 20); (20, 20); (20, 10)]] (5, 15) false = Ok (Some 0%nat) /\
  findInside [[(0, 0); (30, 0); (30, 30); (0, 30)]; [(10, 10); (10, 20); (20, 20); (20, 10)]] (15, 15) false = Ok None /\
  findInside [[(0, 0); (30, 0); (30, 30); (0, 30)]; [(10, 10); (10, 20); (20, 20); (20, 10)]] (25, 15) true = Ok (Some 0%nat).
Proof. done. Qed.
