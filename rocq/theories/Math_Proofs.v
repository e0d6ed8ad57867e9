From Coq Require Import ZArith Lia.
From Verif Require Import Common Math_Model Math_Spec.
Open Scope Z_scope.

Lemma quot_facts a b : b <> 0 ->
  a = (a ÷ b) * b + Z.rem a b /\ Z.abs (Z.rem a b) < Z.abs b /\
  (0 <= a -> 0 <= Z.rem a b) /\ (a <= 0 -> Z.rem a b <= 0).
Proof.
  intros Hb. split; [rewrite Z.mul_comm; by apply Z.quot_rem|]. split; [by apply Z.rem_bound_abs|].
  split; [by apply Z.rem_nonneg|by apply Z.rem_nonpos].
Qed.

(** quotient of magnitude *)
Lemma quot_pos a b : 0 <= a -> 0 < b -> b * (a ÷ b) <= a < b * (a ÷ b) + b /\ 0 <= a ÷ b.
Proof.
  intros Ha Hb. pose proof (Z.quot_rem a b ltac:(lia)). pose proof (Z.rem_bound_pos a b Ha Hb).
  pose proof (Z.quot_pos a b Ha Hb). lia.
Qed.

Lemma floor_ok n d q : floor_divide_signed n d = Ok q -> is_floor n d q.
Proof.
  unfold floor_divide_signed, is_floor. destruct (Z.eqb_spec d 0) as [|Hd]; [done|].
  destruct (quot_facts n d Hd) as (Hq & Hr & Hs & Hs').
  set (k := n ÷ d) in *. set (r := Z.rem n d) in *.
  destruct (Z.eqb_spec r 0) as [Hr0|Hr0]; simpl.
  - intros [= <-]. rewrite ?Z.mul_add_distr_r, ?Z.mul_sub_distr_r, ?Z.mul_1_l. lia.
  - destruct (Z.ltb_spec 0 n), (Z.ltb_spec n 0), (Z.ltb_spec d 0), (Z.ltb_spec 0 d); simpl; intros [= <-]; rewrite ?Z.mul_add_distr_r, ?Z.mul_sub_distr_r, ?Z.mul_1_l; lia.
Qed.

Lemma ceil_ok n d q : ceil_divide_signed n d = Ok q -> is_ceil n d q.
Proof.
  unfold ceil_divide_signed, is_ceil. destruct (Z.eqb_spec d 0) as [|Hd]; [done|].
  destruct (quot_facts n d Hd) as (Hq & Hr & Hs & Hs').
  set (k := n ÷ d) in *. set (r := Z.rem n d) in *.
  destruct (Z.eqb_spec r 0) as [Hr0|Hr0]; simpl.
  - intros [= <-]. rewrite ?Z.mul_add_distr_r, ?Z.mul_sub_distr_r, ?Z.mul_1_l. lia.
  - destruct (Z.ltb_spec 0 n), (Z.ltb_spec n 0), (Z.ltb_spec d 0), (Z.ltb_spec 0 d); simpl; intros [= <-]; rewrite ?Z.mul_add_distr_r, ?Z.mul_sub_distr_r, ?Z.mul_1_l; lia.
Qed.

Lemma round_pos n d : 0 <= n -> 0 < d -> is_round_half_away n d ((n + d ÷ 2) ÷ d).
Proof.
  intros Hn Hd. destruct (quot_pos d 2) as [Hh Hh0]; [lia|lia|].
  destruct (quot_pos (n + d ÷ 2) d) as [Hq Hq0]; [lia|lia|].
  set (q := (n + d ÷ 2) ÷ d) in *. set (h := d ÷ 2) in *.
  unfold is_round_half_away. assert (0 <= q * d) by nia.
  rewrite (Z.abs_eq d), (Z.abs_eq n), (Z.abs_eq (q*d)) by lia.
  replace (d * q) with (q * d) in * by ring.
  set (e := q * d) in *. lia.
Qed.

Lemma round_signed_ok n d q : round_divide_signed n d = Ok q -> is_round_half_away n d q.
Proof.
  unfold round_divide_signed. destruct (Z.eqb_spec d 0) as [|Hd]; [done|].
  destruct (Z.ltb_spec n 0) as [Hn|Hn], (Z.ltb_spec d 0) as [Hd'|Hd']; simpl; intros [= <-].
  - pose proof (round_pos (-n) (-d)) as H. specialize (H ltac:(lia) ltac:(lia)).
    rewrite Z.quot_opp_l in H by lia. replace (- n + - (d ÷ 2)) with (- (n + d ÷ 2)) in H by ring.
    rewrite Z.quot_opp_opp in H by lia. set (q := (n + d ÷ 2) ÷ d) in *.
    unfold is_round_half_away in *. replace (- n - q * - d) with (- (n - q * d)) in H by ring.
    rewrite !Z.abs_opp, Z.mul_opp_r, Z.abs_opp in H. exact H.
  - pose proof (round_pos (-n) d) as H. specialize (H ltac:(lia) ltac:(lia)).
    replace (- n + d ÷ 2) with (- (n - d ÷ 2)) in H by ring.
    rewrite Z.quot_opp_l in H by lia. set (q := (n - d ÷ 2) ÷ d) in *.
    unfold is_round_half_away in *. replace (- n - - q * d) with (- (n - q * d)) in H by ring.
    rewrite !Z.abs_opp, Z.mul_opp_l, Z.abs_opp in H. exact H.
  - pose proof (round_pos n (-d)) as H. specialize (H ltac:(lia) ltac:(lia)).
    rewrite Z.quot_opp_l in H by lia. replace (n + - (d ÷ 2)) with (n - d ÷ 2) in H by ring.
    rewrite Z.quot_opp_r in H by lia. set (q := (n - d ÷ 2) ÷ d) in *.
    unfold is_round_half_away in *. replace (n - - q * - d) with (n - q * d) in H by ring.
    rewrite Z.abs_opp in H. replace (- q * - d) with (q * d) in H by ring. exact H.
  - apply round_pos; lia.
Qed.

Lemma round_ok n d q : 0 <= n -> 0 <= d -> round_divide n d = Ok q -> is_round_half_away n d q.
Proof.
  intros Hn Hd. unfold round_divide. destruct (Z.eqb_spec d 0) as [|Hd']; [done|].
  intros [= <-]. apply round_pos; lia.
Qed.

Lemma round_up_ok n d q : 0 <= n -> 0 <= d -> round_up_divide n d = Ok q -> is_ceil n d q.
Proof.
  intros Hn Hd. unfold round_up_divide. destruct (Z.eqb_spec d 0) as [|Hd']; [done|].
  intros [= <-]. destruct (quot_pos (n + d - 1) d) as [Hq Hq0]; [lia|lia|].
  unfold is_ceil. split; [nia|lia].
Qed.

(** ** Slicer::interpolate *)

Definition sgn_up (y0 y1 : Z) := y0 <= y1.

(** dx > 0, y1 >= y0 *)
Lemma interp_pp dx k D : 0 < dx -> 0 <= k <= dx -> 0 <= D ->
  let num := D * k in
  let num' := num + (if 0 <? num then dx ÷ 4 else (-dx) ÷ 4) in
  let q := num' ÷ dx in
  0 <= q <= D /\ (k = dx -> q = D) /\ (k = 0 -> q = 0) /\
  -3 * dx <= 4 * (q * dx - num) <= dx.
Proof.
  intros Hdx Hk HD num num' q.
  destruct (quot_pos dx 4) as [H4 H40]; [lia|lia|].
  assert (Hnum : 0 <= num <= D * dx) by (unfold num; nia).
  unfold num' in q. clear num'.
  destruct (Z.ltb_spec 0 num) as [Hn|Hn].
  - destruct (quot_pos (num + dx ÷ 4) dx) as [Hq Hq0]; [lia|lia|].
    fold q in Hq, Hq0. replace (dx * q) with (q * dx) in Hq by ring.
    split; [nia|]. split.
    + intros ->. assert (num = D * dx) by (unfold num; ring). nia.
    + split; [intros ->; assert (num = 0) by (unfold num; ring); lia|]. lia.
  - assert (num = 0) as Hz by lia.
    assert (q = 0) as ->.
    { subst q. rewrite Hz. rewrite Z.quot_opp_l by lia.
      replace (0 + - (dx ÷ 4)) with (- (dx ÷ 4)) by ring. rewrite Z.quot_opp_l by lia.
      rewrite Z.quot_small; lia. }
    rewrite Hz. split; [lia|]. split; [|split; [done|lia]].
    intros ->. unfold num in Hz. nia.
Qed.

(** dx < 0 written with [w = -dx > 0]; here the code's bias shortens the result *)
Lemma interp_np w k D : 0 < w -> 0 <= k <= w -> 0 <= D ->
  let num := D * k in
  (* num_real = D * (-k) <= 0, dx = -w *)
  let num' := - num + (if 0 <? - num then (-w) ÷ 4 else (- - w) ÷ 4) in
  let q := num' ÷ (- w) in
  0 <= q <= D /\ (k = 0 -> q = 0) /\ (num < w ÷ 4 -> q = 0) /\
  (w ÷ 4 <= num -> -5 * w < 4 * (q * w - num) /\ q * w <= num - w ÷ 4) /\
  -5 * w < 4 * (q * w - num) <= 0 /\ (k = w -> D - 1 <= q).
Proof.
  intros Hw Hk HD num num' q.
  destruct (quot_pos w 4) as [H4 H40]; [lia|lia|].
  assert (Hnum : 0 <= num <= D * w) by (unfold num; nia).
  unfold num' in q. clear num'.
  assert (Hqe : q = (num - w ÷ 4) ÷ w).
  { unfold q. destruct (Z.ltb_spec 0 (- num)) as [Hn|Hn]; [lia|].
    rewrite Z.opp_involutive. replace (- num + w ÷ 4) with (- (num - w ÷ 4)) by ring.
    by rewrite Z.quot_opp_opp by lia. }
  clearbody q.
  destruct (Z.le_gt_cases (w ÷ 4) num) as [Hge|Hlt].
  - destruct (quot_pos (num - w ÷ 4) w) as [Hq Hq0]; [lia|lia|].
    rewrite <- Hqe in Hq, Hq0. replace (w * q) with (q * w) in Hq by ring.
    split; [nia|]. split; [intros ->; assert (num = 0) by (unfold num; ring); nia|].
    split; [lia|]. split; [lia|]. split; [lia|].
    intros ->. assert (num = D * w) by (unfold num; ring). nia.
  - assert (q = 0) as ->.
    { rewrite Hqe. replace (num - w ÷ 4) with (- (w ÷ 4 - num)) by ring.
      rewrite Z.quot_opp_l by lia. rewrite Z.quot_small; lia. }
    split; [lia|]. split; [done|]. split; [done|]. split; [lia|]. split; [lia|].
    intros ->. unfold num in Hlt. nia.
Qed.

(** the magnitude-only form used for all sign cases: [mag neg k w D] *)
Definition bias_pos (num dx : Z) := num + (if 0 <? num then dx ÷ 4 else (- dx) ÷ 4).

Lemma interp_pn dx k D : 0 < dx -> 0 <= k <= dx -> 0 <= D ->
  (bias_pos (- (D * k)) dx) ÷ dx = - ((bias_pos (D * k) dx) ÷ dx) \/ D * k = 0.
Proof.
  intros Hdx Hk HD. unfold bias_pos. destruct (Z.eq_dec (D * k) 0) as [->|Hne]; [by right|left].
  assert (0 < D * k) by nia.
  destruct (Z.ltb_spec 0 (- (D * k))); [lia|]. destruct (Z.ltb_spec 0 (D * k)); [|lia].
  rewrite <- Z.quot_opp_l by lia. f_equal. rewrite Z.quot_opp_l by lia. ring.
Qed.

(** General statement, for every sign combination. *)
Lemma interpolate_spec x x0 x1 y0 y1 r :
  x0 <> x1 -> Z.min x0 x1 <= x <= Z.max x0 x1 ->
  interpolate x x0 x1 y0 y1 = Ok r ->
  Z.min y0 y1 <= r <= Z.max y0 y1 /\
  (x = x0 -> r = y0) /\
  (x = x1 -> x0 < x1 -> r = y1) /\
  (x = x1 -> Z.abs (r - y1) <= 1) /\
  4 * Z.abs ((r - y0) * (x1 - x0) - (y1 - y0) * (x - x0)) < 5 * Z.abs (x1 - x0).
Proof.
  intros Hne Hx. unfold interpolate. destruct (Z.eqb_spec (x1 - x0) 0) as [|Hdx]; [lia|].
  intros [= <-].
  set (q := _ ÷ _).
  destruct (Z.lt_ge_cases x0 x1) as [Hlt|Hge].
  - (* dx > 0 *)
    destruct (Z.le_gt_cases y0 y1) as [Hy|Hy].
    + pose proof (interp_pp (x1 - x0) (x - x0) (y1 - y0) ltac:(lia) ltac:(lia) ltac:(lia)) as H.
      cbv zeta in H. fold q in H. destruct H as (H1 & H2 & H3 & H4).
      split; [lia|]. split; [lia|]. split; [lia|]. split; [lia|].
      replace (y0 + q - y0) with q by ring.
      lia.
    + (* decreasing y *)
      pose proof (interp_pp (x1 - x0) (x - x0) (y0 - y1) ltac:(lia) ltac:(lia) ltac:(lia)) as H.
      cbv zeta in H.
      destruct (interp_pn (x1 - x0) (x - x0) (y0 - y1) ltac:(lia) ltac:(lia) ltac:(lia)) as [Hq|Hz].
      * unfold bias_pos in Hq. replace (- ((y0 - y1) * (x - x0))) with ((y1 - y0) * (x - x0)) in Hq by ring.
        fold q in Hq. set (q' := (_ + _) ÷ _) in H, Hq. clearbody q q'. subst q.
        destruct H as (H1 & H2 & H3 & H4).
        split; [lia|]. split; [lia|]. split; [lia|]. split; [lia|].
        replace (y0 + - q' - y0) with (- q') by ring.
        replace (- q' * (x1 - x0) - (y1 - y0) * (x - x0)) with (- (q' * (x1 - x0) - (y0 - y1) * (x - x0))) by ring.
        rewrite Z.abs_opp. lia.
      * assert (Hxx : x = x0) by nia.
        assert (q = 0) as ->.
        { unfold q. replace ((y1 - y0) * (x - x0)) with 0 by (subst; ring). simpl.
          rewrite Z.quot_opp_l by lia. replace (0 + - ((x1 - x0) ÷ 4)) with (- ((x1 - x0) ÷ 4)) by ring.
          rewrite Z.quot_opp_l by lia. rewrite Z.quot_small; [lia|].
          destruct (quot_pos (x1 - x0) 4); lia. }
        subst x. split; [lia|]. split; [lia|]. split; [lia|]. split; [lia|].
        replace ((y0 + 0 - y0) * (x1 - x0) - (y1 - y0) * (x0 - x0)) with 0 by ring. lia.
  - (* dx < 0 *)
    destruct (Z.le_gt_cases y0 y1) as [Hy|Hy].
    + pose proof (interp_np (x0 - x1) (x0 - x) (y1 - y0) ltac:(lia) ltac:(lia) ltac:(lia)) as H.
      cbv zeta in H.
      replace (- ((y1 - y0) * (x0 - x))) with ((y1 - y0) * (x - x0)) in H by ring.
      replace (- (x0 - x1)) with (x1 - x0) in H by ring.
      fold q in H. destruct H as (H1 & H2 & H3 & H4 & H5 & H6).
      split; [lia|]. split; [lia|]. split; [lia|]. split; [lia|].
      replace (y0 + q - y0) with q by ring.
      replace (q * (x1 - x0) - (y1 - y0) * (x - x0)) with (- (q * (x0 - x1) - (y1 - y0) * (x0 - x))) by ring.
      rewrite Z.abs_opp. lia.
    + pose proof (interp_np (x0 - x1) (x0 - x) (y0 - y1) ltac:(lia) ltac:(lia) ltac:(lia)) as H.
      cbv zeta in H. set (q' := (_ + _) ÷ _) in H.
      assert (Hq : q = - q' \/ (y0 - y1) * (x0 - x) = 0).
      { destruct (Z.eq_dec ((y0 - y1) * (x0 - x)) 0); [by right|left].
        assert (0 < (y0 - y1) * (x0 - x)) by nia.
        unfold q, q'. replace ((y1 - y0) * (x - x0)) with ((y0 - y1) * (x0 - x)) by ring.
        destruct (Z.ltb_spec 0 ((y0 - y1) * (x0 - x))); [|lia].
        destruct (Z.ltb_spec 0 (- ((y0 - y1) * (x0 - x)))); [lia|].
        replace (- (x0 - x1)) with (x1 - x0) by ring.
        rewrite <- Z.quot_opp_l by lia. f_equal.
        rewrite Z.quot_opp_l by lia. ring. }
      destruct Hq as [->|Hz].
      * clearbody q'. destruct H as (H1 & H2 & H3 & H4 & H5 & H6).
        split; [lia|]. split; [lia|]. split; [lia|]. split; [lia|].
        replace (y0 + - q' - y0) with (- q') by ring.
        replace (- q' * (x1 - x0) - (y1 - y0) * (x - x0)) with (q' * (x0 - x1) - (y0 - y1) * (x0 - x)) by ring.
        lia.
      * assert (Hxx : x = x0) by nia. subst x.
        assert (q = 0) as ->.
        { unfold q. replace ((y1 - y0) * (x0 - x0)) with 0 by ring. simpl.
          replace (- (x1 - x0)) with (x0 - x1) by ring.
          destruct (quot_pos (x0 - x1) 4); [lia|lia|].
          replace (x1 - x0) with (- (x0 - x1)) by ring. rewrite Z.quot_opp_r by lia.
          rewrite Z.quot_small; lia. }
        split; [lia|]. split; [lia|]. split; [lia|]. split; [lia|].
        replace ((y0 + 0 - y0) * (x1 - x0) - (y1 - y0) * (x0 - x0)) with 0 by ring. lia.
Qed.

(** error is one-sided in terms of the direction y0 -> y1, so both slicing
    directions of one edge differ by at most one. *)
Lemma interpolate_opposite x a b ya yb r r' :
  a < b -> a <= x <= b ->
  interpolate x a b ya yb = Ok r -> interpolate x b a yb ya = Ok r' -> Z.abs (r - r') <= 1.
Proof.
  intros Hab Hx. unfold interpolate.
  destruct (Z.eqb_spec (b - a) 0); [lia|]. destruct (Z.eqb_spec (a - b) 0); [lia|].
  intros [= <-] [= <-].
  set (q := _ ÷ (b - a)). set (q2 := _ ÷ (a - b)).
  destruct (Z.le_gt_cases ya yb) as [Hy|Hy].
  - pose proof (interp_pp (b - a) (x - a) (yb - ya) ltac:(lia) ltac:(lia) ltac:(lia)) as H.
    cbv zeta in H. fold q in H. destruct H as (H1 & H2 & H3 & H4).
    pose proof (interp_np (b - a) (b - x) (yb - ya) ltac:(lia) ltac:(lia) ltac:(lia)) as H.
    cbv zeta in H. set (q' := (_ + _) ÷ _) in H.
    assert (Hq : q2 = - q' \/ (yb - ya) * (b - x) = 0).
    { destruct (Z.eq_dec ((yb - ya) * (b - x)) 0); [by right|left].
      assert (0 < (yb - ya) * (b - x)) by nia.
      unfold q2, q'. replace ((ya - yb) * (x - b)) with ((yb - ya) * (b - x)) by ring.
      destruct (Z.ltb_spec 0 ((yb - ya) * (b - x))); [|lia].
      destruct (Z.ltb_spec 0 (- ((yb - ya) * (b - x)))); [lia|].
      replace (- (b - a)) with (a - b) by ring.
      rewrite <- Z.quot_opp_l by lia. f_equal.
      rewrite Z.quot_opp_l by lia. ring. }
    destruct (quot_pos (b - a) 4) as [Hb4 Hb40]; [lia|lia|].
    destruct Hq as [->|Hz].
    + clearbody q q'. destruct H as (G1 & G2 & G3 & G4 & G5 & G6).
      (* r = ya + q, r' = yb - q' *)
      assert (E : (yb - ya) * (b - x) = (yb - ya) * (b - a) - (yb - ya) * (x - a)) by ring.
      set (D := yb - ya) in *. set (N := D * (x - a)) in *. set (w := b - a) in *.
      assert (Hdiff : - (2 * w) < (q + q' - D) * w <= 0 \/ True) by (right; done). clear Hdiff.
      rewrite E in *.
      assert (Hup : 4 * ((q + q' - D) * w) <= w).
      { replace ((q + q' - D) * w) with ((q * w - N) + (q' * w - (D * w - N))) by ring. lia. }
      assert (Hlo : - 8 * w < 4 * ((q + q' - D) * w)).
      { replace ((q + q' - D) * w) with ((q * w - N) + (q' * w - (D * w - N))) by ring. lia. }
      assert (0 < w) by lia.
      assert (q + q' - D <= 0) by nia.
      assert (-2 < q + q' - D) by nia. lia.
    + assert (x = b \/ yb = ya) as [->| ->] by nia.
      * rewrite (H2 eq_refl).
        assert (q2 = 0) as ->.
        { unfold q2. replace ((ya - yb) * (b - b)) with 0 by ring. simpl.
          replace (- (a - b)) with (b - a) by ring. replace (a - b) with (- (b - a)) by ring.
          rewrite Z.quot_opp_r by lia. rewrite Z.quot_small; lia. }
        lia.
      * assert (q = 0) by lia.
        assert (q2 = 0) as ->.
        { unfold q2. replace ((ya - ya) * (x - b)) with 0 by ring. simpl.
          replace (- (a - b)) with (b - a) by ring. replace (a - b) with (- (b - a)) by ring.
          rewrite Z.quot_opp_r by lia. rewrite Z.quot_small; lia. }
        lia.
  - (* ya > yb *)
    pose proof (interp_pp (b - a) (x - a) (ya - yb) ltac:(lia) ltac:(lia) ltac:(lia)) as H.
    cbv zeta in H.
    assert (Hqa : q = - ((bias_pos ((ya - yb) * (x - a)) (b - a)) ÷ (b - a)) \/ (ya - yb) * (x - a) = 0).
    { destruct (interp_pn (b - a) (x - a) (ya - yb) ltac:(lia) ltac:(lia) ltac:(lia)) as [Hq|Hz]; [left|by right].
      rewrite <- Hq. unfold q, bias_pos. do 2 f_equal; [ring|]. replace ((yb - ya) * (x - a)) with (- ((ya - yb) * (x - a))) by ring. done. }
    fold (bias_pos ((ya - yb) * (x - a)) (b - a)) in H. set (p := bias_pos _ _ ÷ _) in *.
    destruct H as (H1 & H2 & H3 & H4).
    assert (q = - p) as ->.
    { destruct Hqa as [->|Hz]; [done|].
      assert (Hxa : x = a) by nia. rewrite (H3 ltac:(lia)).
      unfold q. subst x. replace ((yb - ya) * (a - a)) with 0 by ring. simpl.
      rewrite Z.quot_opp_l by lia. replace (0 + - ((b - a) ÷ 4)) with (- ((b - a) ÷ 4)) by ring.
      rewrite Z.quot_opp_l by lia. destruct (quot_pos (b - a) 4) as [Hb4 Hb40]; [lia|lia|].
      rewrite Z.quot_small; lia. }
    clear Hqa.
    pose proof (interp_np (b - a) (b - x) (ya - yb) ltac:(lia) ltac:(lia) ltac:(lia)) as H.
    cbv zeta in H.
    replace (- ((ya - yb) * (b - x))) with ((ya - yb) * (x - b)) in H by ring.
    replace (- (b - a)) with (a - b) in H by ring.
    fold q2 in H. destruct H as (G1 & G2 & G3 & G4 & G5 & G6). clearbody p q2.
    destruct (quot_pos (b - a) 4) as [Hb4 Hb40]; [lia|lia|].
    assert (E : (ya - yb) * (b - x) = (ya - yb) * (b - a) - (ya - yb) * (x - a)) by ring.
    set (D := ya - yb) in *. set (N := D * (x - a)) in *. set (w := b - a) in *.
    rewrite E in *.
    assert (Hup : 4 * ((p + q2 - D) * w) <= w).
    { replace ((p + q2 - D) * w) with ((p * w - N) + (q2 * w - (D * w - N))) by ring. lia. }
    assert (Hlo : - 8 * w < 4 * ((p + q2 - D) * w)).
    { replace ((p + q2 - D) * w) with ((p * w - N) + (q2 * w - (D * w - N))) by ring. lia. }
    assert (0 < w) by lia.
    assert (p + q2 - D <= 0) by nia.
    assert (-2 < p + q2 - D) by nia. lia.
Qed.
