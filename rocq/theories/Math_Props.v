(** C02 (integer division helpers) and C06 (interpolation along an edge). *)
From Coq Require Import ZArith Lia.
From Verif Require Import Common Math_Model Math_Spec Math_Proofs.
Open Scope Z_scope.

Theorem C02_floor_divide : forall n d, d <> 0 ->
  exists q, floor_divide_signed n d = Ok q /\ is_floor n d q.
Proof.
  intros n d Hd. destruct (floor_divide_signed n d) as [q| |] eqn:E.
  - exists q. split; [done|]. by apply floor_ok.
  - unfold floor_divide_signed in E. destruct (Z.eqb_spec d 0); [done|]. by case_match.
  - unfold floor_divide_signed in E. destruct (Z.eqb_spec d 0); [done|]. by case_match.
Qed.

Theorem C02_ceil_divide : forall n d, d <> 0 ->
  exists q, ceil_divide_signed n d = Ok q /\ is_ceil n d q.
Proof.
  intros n d Hd. destruct (ceil_divide_signed n d) as [q| |] eqn:E.
  - exists q. split; [done|]. by apply ceil_ok.
  - unfold ceil_divide_signed in E. destruct (Z.eqb_spec d 0); [done|]. by case_match.
  - unfold ceil_divide_signed in E. destruct (Z.eqb_spec d 0); [done|]. by case_match.
Qed.

Theorem C02_round_divide_signed : forall n d, d <> 0 ->
  exists q, round_divide_signed n d = Ok q /\ is_round_half_away n d q.
Proof.
  intros n d Hd. destruct (round_divide_signed n d) as [q| |] eqn:E.
  - exists q. split; [done|]. by apply round_signed_ok.
  - unfold round_divide_signed in E. destruct (Z.eqb_spec d 0); [done|]. by case_match.
  - unfold round_divide_signed in E. destruct (Z.eqb_spec d 0); [done|]. by case_match.
Qed.

Theorem C02_round_divide : forall n d, 0 <= n -> 0 < d ->
  exists q, round_divide n d = Ok q /\ is_round_half_away n d q.
Proof.
  intros n d Hn Hd. exists ((n + d ÷ 2) ÷ d). split; [|by apply round_pos].
  unfold round_divide. destruct (Z.eqb_spec d 0); [lia|done].
Qed.

Theorem C02_round_up_divide : forall n d, 0 <= n -> 0 < d ->
  exists q, round_up_divide n d = Ok q /\ is_ceil n d q.
Proof.
  intros n d Hn Hd. eexists. split; [|apply round_up_ok; [exact Hn| |]].
  - unfold round_up_divide. destruct (Z.eqb_spec d 0); [lia|]. reflexivity.
  - lia.
  - unfold round_up_divide. destruct (Z.eqb_spec d 0); [lia|]. reflexivity.
Qed.

(** The specifications determine the answers uniquely, so the theorems above pin the functions down. *)
Theorem C02_spec_unique : forall n d q q', d <> 0 ->
  (is_floor n d q -> is_floor n d q' -> q = q') /\
  (is_ceil n d q -> is_ceil n d q' -> q = q') /\
  (is_round_half_away n d q -> is_round_half_away n d q' -> q = q').
Proof.
  intros n d q q' Hd. unfold is_floor, is_ceil, is_round_half_away.
  split; [|split].
  - intros [H1 H2] [H3 H4]. destruct (Z.lt_ge_cases d 0) as [Hn|Hp].
    + specialize (H2 Hn). specialize (H4 Hn).
      assert (q < q' + 1) by (apply (Z.mul_lt_mono_neg_r d); lia).
      assert (q' < q + 1) by (apply (Z.mul_lt_mono_neg_r d); lia). lia.
    + specialize (H1 ltac:(lia)). specialize (H3 ltac:(lia)).
      assert (q < q' + 1) by (apply (Z.mul_lt_mono_pos_r d); lia).
      assert (q' < q + 1) by (apply (Z.mul_lt_mono_pos_r d); lia). lia.
  - intros [H1 H2] [H3 H4]. destruct (Z.lt_ge_cases d 0) as [Hn|Hp].
    + specialize (H2 Hn). specialize (H4 Hn).
      assert (q - 1 < q') by (apply (Z.mul_lt_mono_neg_r d); lia).
      assert (q' - 1 < q) by (apply (Z.mul_lt_mono_neg_r d); lia). lia.
    + specialize (H1 ltac:(lia)). specialize (H3 ltac:(lia)).
      assert (q - 1 < q') by (apply (Z.mul_lt_mono_pos_r d); lia).
      assert (q' - 1 < q) by (apply (Z.mul_lt_mono_pos_r d); lia). lia.
  - intros [H1 H2] [H3 H4].
    assert (Z.abs ((q - q') * d) <= Z.abs d).
    { replace ((q - q') * d) with ((n - q' * d) - (n - q * d)) by ring. lia. }
    assert (Hcase : q = q' \/ Z.abs ((q - q') * d) = Z.abs d).
    { destruct (Z.eq_dec q q'); [by left|right].
      rewrite Z.abs_mul in *. assert (1 <= Z.abs (q - q')) by lia. nia. }
    destruct Hcase as [|Hc]; [done|].
    assert (E1 : 2 * Z.abs (n - q * d) = Z.abs d).
    { replace ((q - q') * d) with ((n - q' * d) - (n - q * d)) in Hc by ring. lia. }
    assert (E2 : 2 * Z.abs (n - q' * d) = Z.abs d).
    { replace ((q - q') * d) with ((n - q' * d) - (n - q * d)) in Hc by ring. lia. }
    specialize (H2 E1). specialize (H4 E2).
    replace ((q - q') * d) with (q * d - q' * d) in Hc by ring.
    assert (Ha : q <> 0) by (intros ->; lia). assert (Hb : q' <> 0) by (intros ->; lia).
    assert (Z.abs d <= Z.abs (q * d)) by (rewrite Z.abs_mul; nia).
    assert (Z.abs d <= Z.abs (q' * d)) by (rewrite Z.abs_mul; nia).
    set (a := q * d) in *. set (b := q' * d) in *. lia.
Qed.

Example C02_nonvacuous :
  floor_divide_signed (-7) 2 = Ok (-4) /\ ceil_divide_signed (-7) (-2) = Ok 4 /\
  round_divide_signed (-7) 2 = Ok (-4) /\ round_divide_signed 5 (-10) = Ok (-1).
Proof. repeat split; vm_compute; reflexivity. Qed.

(** C06: for every edge from (x0,y0) to (x1,y1) in (height, coordinate) and every height x
    between: the result is defined, lies between y0 and y1, equals y0 at x0, equals y1 at x1 when
    the edge is traversed upwards, and its distance to the exact value is below 5/4. *)
Theorem C06_interpolate_on_edge : forall x x0 x1 y0 y1,
  x0 <> x1 -> Z.min x0 x1 <= x <= Z.max x0 x1 ->
  exists r, interpolate x x0 x1 y0 y1 = Ok r /\
    Z.min y0 y1 <= r <= Z.max y0 y1 /\
    (x = x0 -> r = y0) /\
    (x = x1 -> x0 < x1 -> r = y1) /\
    (x = x1 -> Z.abs (r - y1) <= 1) /\
    4 * Z.abs ((r - y0) * (x1 - x0) - (y1 - y0) * (x - x0)) < 5 * Z.abs (x1 - x0).
Proof.
  intros x x0 x1 y0 y1 Hne Hx. eexists. split; [|apply interpolate_spec; [exact Hne|exact Hx|]].
  - unfold interpolate. destruct (Z.eqb_spec (x1 - x0) 0); [lia|]. reflexivity.
  - unfold interpolate. destruct (Z.eqb_spec (x1 - x0) 0); [lia|]. reflexivity.
Qed.

(** C06: the two triangles sharing an edge may slice it in opposite directions; the results agree
    up to one unit (one micron). *)
Theorem C06_interpolate_direction : forall x a b ya yb r r',
  a <> b -> Z.min a b <= x <= Z.max a b ->
  interpolate x a b ya yb = Ok r -> interpolate x b a yb ya = Ok r' -> Z.abs (r - r') <= 1.
Proof.
  intros x a b ya yb r r' Hne Hx H1 H2. destruct (Z.lt_ge_cases a b).
  - eapply interpolate_opposite; [| |exact H1|exact H2]; lia.
  - rewrite <- Z.abs_opp. replace (- (r - r')) with (r' - r) by ring.
    eapply interpolate_opposite; [| |exact H2|exact H1]; lia.
Qed.

(** The full claim "exact at both ends" and "direction independent" is false: going downwards the
    result at the far end misses it by one. *)
Theorem C06_exact_at_far_end_refuted :
  exists x x0 x1 y0 y1 r, x = x1 /\ x1 < x0 /\ interpolate x x0 x1 y0 y1 = Ok r /\ r <> y1.
Proof. exists 0, 4, 0, 0, 5, 4. vm_compute. intuition congruence. Qed.

Theorem C06_direction_independent_refuted :
  exists x a b ya yb r r', a <= x <= b /\ interpolate x a b ya yb = Ok r /\
    interpolate x b a yb ya = Ok r' /\ r <> r'.
Proof. exists 3, 0, 4, 0, 4, 3, 4. vm_compute. intuition congruence. Qed.

(** The bound 5/4 cannot be replaced by 1: the result can be more than one micron off. *)
Theorem C06_within_one_unit_refuted :
  exists x x0 x1 y0 y1 r, Z.min x0 x1 <= x <= Z.max x0 x1 /\ interpolate x x0 x1 y0 y1 = Ok r /\
    Z.abs (x1 - x0) < Z.abs ((r - y0) * (x1 - x0) - (y1 - y0) * (x - x0)).
Proof. exists (-1), 0, (-10), 0, 11, 0. vm_compute. intuition congruence. Qed.

Example C06_nonvacuous : interpolate 700 200 1200 (-5000) 5005 = Ok 2 /\ interpolate 700 1200 200 5005 (-5000) = Ok 3.
Proof. vm_compute. done. Qed.
Print Assumptions C02_floor_divide.
Print Assumptions C02_ceil_divide.
Print Assumptions C02_round_divide_signed.
Print Assumptions C02_round_divide.
Print Assumptions C02_round_up_divide.
Print Assumptions C02_spec_unique.
Print Assumptions C06_interpolate_on_edge.
Print Assumptions C06_interpolate_direction.
Print Assumptions C06_exact_at_far_end_refuted.
Print Assumptions C06_direction_independent_refuted.
Print Assumptions C06_within_one_unit_refuted.
