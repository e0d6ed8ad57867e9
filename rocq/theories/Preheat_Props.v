(** C34, C35. *)
From Coq Require Import QArith Qminmax Lqa Qfield.
From stdpp Require Import list.
From Verif Require Import Preheat_Model Preheat_Spec.
Local Open Scope Q_scope.

Lemma qlt_spec a b : reflect (a < b) (qlt a b).
Proof.
  unfold qlt. destruct (Qle_bool b a) eqn:E; cbn; constructor.
  - apply Qle_bool_iff in E. lra.
  - apply Qnot_le_lt. intros H. apply Qle_bool_iff in H. congruence.
Qed.
Lemma qle_spec a b : reflect (a <= b) (Qle_bool a b).
Proof.
  destruct (Qle_bool a b) eqn:E; constructor; [by apply Qle_bool_iff|]. intros H. apply Qle_bool_iff in H. congruence.
Qed.
Lemma qdiv_some a b : ~ b == 0 -> qdiv a b = Some (a / b).
Proof. intros H. unfold qdiv. destruct (Qeq_bool b 0) eqn:E; [|done]. by apply Qeq_bool_iff in E. Qed.

(** ** C35 *)

Lemma head_min l : forall d0 e0, increasing (d0 :: l) -> e0 ∈ d0 :: l -> flow d0 <= flow e0.
Proof.
  induction l as [|a l IH]; intros d0 e0 H Hin; [apply elem_of_list_singleton in Hin as ->; lra|].
  destruct H as [H1 H2]. apply elem_of_cons in Hin as [->|Hin]; [lra|]. specialize (IH a e0 H2 Hin). lra.
Qed.

Lemma find_between ds : forall d x pre e f post, increasing (d :: ds) -> d :: ds = pre ++ e :: f :: post ->
  flow e < x <= flow f -> exists q, find_temp d ds x = Some q /\ on_line e f x q.
Proof.
  induction ds as [|d2 ds IH]; intros d x pre e f post Hi E Hx; [by destruct pre as [|? []]|].
  cbn [find_temp]. destruct Hi as [Hd Hi]. destruct pre as [|p pre].
  - injection E as -> -> ->. destruct (qle_spec x (flow f)); [|lra]. rewrite qdiv_some by lra.
    eexists. split; [done|]. unfold on_line. field. lra.
  - injection E as <- E. destruct (qle_spec x (flow d2)) as [Hle|Hgt].
    + exfalso. assert (Hin : e ∈ d2 :: ds) by (rewrite E; apply elem_of_app; right; by left).
      pose proof (head_min ds d2 e Hi Hin). lra.
    + by apply (IH d2 x pre e f post).
Qed.

(** Between two neighbouring data the temperature is on the straight line through them; in particular it is that of the
    data at the data. *)
Theorem C35_between data pre d e post x default : increasing data -> data = pre ++ d :: e :: post ->
  flow d <= x <= flow e -> exists q, get_temp data x default true = Some q /\ on_line d e x q.
Proof.
  intros Hi E Hx. unfold get_temp. cbn [negb].
  destruct (Qlt_le_dec (flow d) x) as [Hlt|Hge].
  - destruct data as [|d0 [|d1 ds]]; [by destruct pre|by destruct pre as [|? [|? ?]]|].
    assert (Hd0 : flow d0 <= flow d).
    { assert (Hin : d ∈ d0 :: d1 :: ds) by (rewrite E; apply elem_of_app; right; by left). by apply (head_min (d1 :: ds)). }
    destruct (qlt_spec x (flow d0)); [lra|]. apply (find_between _ _ _ pre d e post); [done|done|lra].
  - assert (Hxd : x == flow d) by lra.
    destruct pre as [|p pre].
    + subst data. cbn [app]. destruct (qlt_spec x (flow d)); [lra|]. cbn [find_temp]. destruct Hi as [Hde _].
      destruct (qle_spec x (flow e)); [|lra]. rewrite qdiv_some by lra. eexists. split; [done|]. unfold on_line. field. lra.
    + (* the end of the line before *)
      assert (exists pre' b, p :: pre = pre' ++ [b]) as (pre' & b & Ep).
      { clear. revert p. induction pre as [|a l IH]; intros p; [by exists [], p|]. destruct (IH a) as (pre' & b & ->). by exists (p :: pre'), b. }
      rewrite Ep in E. rewrite <- app_assoc in E. cbn in E.
      assert (Hbd : flow b < flow d /\ flow d < flow e).
      { clear -Hi E. subst data. induction pre' as [|a l IH]; [by destruct Hi as [H1 [H2 _]]|]. apply IH. destruct l; destruct Hi as [_ Hi]; exact Hi. }
      destruct data as [|d0 [|d1 ds]]; [by destruct pre'|by destruct pre' as [|? []]|].
      assert (Hd0 : flow d0 <= flow b).
      { assert (Hin : b ∈ d0 :: d1 :: ds) by (rewrite E; apply elem_of_app; right; by left). by apply (head_min (d1 :: ds)). }
      destruct (qlt_spec x (flow d0)); [lra|].
      destruct (find_between (d1 :: ds) d0 x pre' b d (e :: post) Hi E) as (q & Hq & Hl); [lra|].
      exists q. split; [done|]. unfold on_line in *.
      assert (Hqd : (q - temp d) * (flow d - flow b) == 0).
      { transitivity ((q - temp b) * (flow d - flow b) - (temp d - temp b) * (flow d - flow b)); [ring|]. rewrite Hl, Hxd. ring. }
      assert (q == temp d).
      { apply Qmult_integral in Hqd as [H|H]; lra. }
      rewrite H, Hxd. ring.
Qed.

(** Outside the range of the data it is that of the first or last datum. *)
Theorem C35_outside data d0 x default : increasing data ->
  (head data = Some d0 -> x <= flow d0 -> exists q, get_temp data x default true = Some q /\ q == temp d0) /\
  (last data = Some d0 -> flow d0 <= x -> exists q, get_temp data x default true = Some q /\ q == temp d0).
Proof.
  intros Hi. split.
  - intros Hh Hx. destruct data as [|d [|e ds]]; [done|..]; injection Hh as ->; cbn; [eexists; split; [done|lra]|].
    destruct (qlt_spec x (flow d0)); [eexists; split; [done|lra]|].
    destruct (C35_between (d0 :: e :: ds) [] d0 e ds x default Hi eq_refl) as (q & Hq & Hl).
    { destruct Hi as [H _]. lra. }
    unfold get_temp in Hq. cbn [negb] in Hq. destruct (qlt_spec x (flow d0)); [lra|]. exists q. split; [done|].
    unfold on_line in Hl. destruct Hi as [Hi _]. assert (Hz : (q - temp d0) * (flow e - flow d0) == 0).
    { rewrite Hl. setoid_replace x with (flow d0) by lra. ring. }
    apply Qmult_integral in Hz as [H|H]; lra.
  - intros Hl Hx.
    assert (G : forall ds d, increasing (d :: ds) -> last (d :: ds) = Some d0 -> flow d <= flow d0 /\
      (flow d < x \/ ds = [] -> exists q, find_temp d ds x = Some q /\ q == temp d0)).
    { clear Hi Hl. induction ds as [|e ds IH]; intros d Hi Hlast.
      - injection Hlast as ->. split; [lra|]. intros _. cbn. eexists. split; [done|lra].
      - destruct Hi as [H1 H2]. change (last (d :: e :: ds)) with (last (e :: ds)) in Hlast.
        destruct (IH e H2 Hlast) as [F1 F2]. split; [lra|]. intros Hd. cbn [find_temp].
        destruct (qle_spec x (flow e)) as [Hle|Hgt]; [|apply F2; left; lra].
        assert (flow e == x /\ x == flow d0) as [E1 E2] by lra.
        assert (ds = [] /\ e = d0) as [-> ->].
        { destruct ds as [|f ds]; [split; [done|by injection Hlast]|]. exfalso. destruct H2 as [H2 H3].
          destruct (IH e (conj H2 H3) Hlast) as [_ _].
          assert (flow f <= flow d0).
          { clear -H3 Hlast. change (last (e :: f :: ds)) with (last (f :: ds)) in Hlast. revert f H3 Hlast.
            induction ds as [|g ds IH]; intros f H Hl; [injection Hl as ->; lra|]. destruct H as [H1 H2].
            specialize (IH g H2 Hl). lra. }
          lra. }
        rewrite qdiv_some by lra. eexists. split; [done|]. rewrite E2. field. lra. }
    destruct data as [|d [|e ds]]; [done|injection Hl as ->; cbn; eexists; split; [done|lra]|].
    destruct (G (e :: ds) d Hi Hl) as [G1 G2]. unfold get_temp. cbn [negb].
    destruct (qlt_spec x (flow d)); [lra|]. apply G2. left.
    destruct Hi as [H1 H2]. change (last (d :: e :: ds)) with (last (e :: ds)) in Hl. destruct (G ds e H2 Hl) as [F _]. lra.
Qed.

(** Where a flow is: before, between or after the data. *)
Lemma locate data x : data <> [] ->
  (exists d, head data = Some d /\ x <= flow d) \/ (exists d, last data = Some d /\ flow d <= x) \/
  (exists pre d e post, data = pre ++ d :: e :: post /\ flow d <= x <= flow e).
Proof.
  destruct data as [|d ds]; [done|]. intros _. revert d. induction ds as [|e ds IH]; intros d.
  - destruct (Qlt_le_dec x (flow d)); [left|right; left]; exists d; (split; [done|lra]).
  - destruct (IH e) as [(e' & He & Hx)|[(e' & He & Hx)|(pre & a & b & post & -> & Hx)]].
    + injection He as <-. destruct (Qlt_le_dec x (flow d)); [left; exists d; split; [done|lra]|].
      right; right. exists [], d, e, ds. split; [done|lra].
    + right; left. exists e'. split; [exact He|done].
    + right; right. exists (d :: pre), a, b, post. split; [done|done].
Qed.

(** It never leaves the range of the data's temperatures, and is always defined. *)
Theorem C35_range data x default : increasing data -> data <> [] ->
  exists q d e, get_temp data x default true = Some q /\ d ∈ data /\ e ∈ data /\ temp d <= q <= temp e.
Proof.
  intros Hi Hne. destruct (locate data x Hne) as [(d & Hd & Hx)|[(d & Hd & Hx)|(pre & d & e & post & E & Hx)]].
  - destruct (C35_outside data d x default Hi) as [H _]. destruct (H Hd Hx) as (q & Hq & Eq). exists q, d, d.
    assert (d ∈ data) by (destruct data; [done|injection Hd as ->; by left]). split_and!; [done..|lra|lra].
  - destruct (C35_outside data d x default Hi) as [_ H]. destruct (H Hd Hx) as (q & Hq & Eq). exists q, d, d.
    apply last_Some_elem_of in Hd. split_and!; [done..|lra|lra].
  - destruct (C35_between data pre d e post x default Hi E Hx) as (q & Hq & Hl).
    assert (Hin : d ∈ data /\ e ∈ data).
    { rewrite E. split; apply elem_of_app; right; [by left|right; by left]. }
    assert (Hde : flow d < flow e).
    { clear -Hi E. subst data. induction pre as [|a l IH]; [by destruct Hi|]. apply IH. destruct l; destruct Hi as [_ Hi]; exact Hi. }
    unfold on_line in Hl. destruct (Qlt_le_dec (temp d) (temp e)).
    + exists q, d, e. split_and!; [done|by apply Hin..| |]; nra.
    + exists q, e, d. split_and!; [done|by apply Hin..| |]; nra.
Qed.

(** When it is not to be used, or has no data, the printing temperature is used. *)
Theorem C35_default data x default : get_temp data x default false = Some default /\ get_temp [] x default true = Some default.
Proof. done. Qed.

(** With a flow repeated at the beginning of the data the temperature is not a number. *)
Theorem C35_repeated_refuted : exists data x default d e, data = [d; e] /\ flow d <= flow e /\ get_temp data x default true = None.
Proof. by exists [Datum 1 200; Datum 1 210], 1, 205, (Datum 1 200), (Datum 1 210). Qed.

Example C35_example : increasing [Datum 1 180; Datum 2 200; Datum 4 230] /\
  (exists q, get_temp [Datum 1 180; Datum 2 200; Datum 4 230] 3 0 true = Some q /\ q == 215) /\
  (exists q, get_temp [Datum 1 180; Datum 2 200; Datum 4 230] 2 0 true = Some q /\ q == 200).
Proof. split; [cbn; lra|]. split; eexists; (split; [vm_compute; reflexivity|]); lra. Qed.

(** ** C34 *)

Definition sane (r : rates) (p : bool) : Prop := 0 < heat_speed r p /\ 0 < cool_speed r p.

(** The time between two temperatures is that of the rate, and never negative. *)
Theorem C34_time r a b p : sane r p -> exists t, time_to_go r a b p = Some t /\ 0 <= t /\
  (a <= b -> heated (heat_speed r p) a t == b) /\ (b <= a -> a - cool_speed r p * t == b).
Proof.
  intros [Hh Hc]. unfold time_to_go, heated. destruct (qlt_spec a b) as [H|H].
  - rewrite qdiv_some by lra. eexists. split; [done|].
    assert (E : 0 <= (b - a) / heat_speed r p) by (apply Qle_shift_div_l; lra).
    rewrite (Q.max_r 0 _) by done. split_and!; [done| |intros; lra]. intros _. field. lra.
  - rewrite qdiv_some by lra. eexists. split; [done|].
    assert (E : 0 <= (a - b) / cool_speed r p) by (apply Qle_shift_div_l; lra).
    rewrite (Q.max_r 0 _) by done. split_and!; [done| |intros; field; lra]. intros Hab.
    setoid_replace (a - b) with 0 by lra. setoid_replace (0 / cool_speed r p) with 0 by (field; lra). lra.
Qed.

(** Times add up over temperatures in between. *)
Theorem C34_additive r a b c p : sane r p -> (a <= b <= c \/ c <= b <= a) ->
  exists t1 t2 t, time_to_go r a b p = Some t1 /\ time_to_go r b c p = Some t2 /\ time_to_go r a c p = Some t /\ t == t1 + t2.
Proof.
  intros Hs Hab. destruct (C34_time r a b p Hs) as (t1 & E1 & P1 & U1 & D1). destruct (C34_time r b c p Hs) as (t2 & E2 & P2 & U2 & D2).
  destruct (C34_time r a c p Hs) as (t & E & P & U & D). exists t1, t2, t. split_and!; [done..|]. destruct Hs as [Hh Hc].
  unfold heated in *. destruct Hab as [Hab|Hab].
  - specialize (U1 (proj1 Hab)). specialize (U2 (proj2 Hab)). specialize (U ltac:(lra)).
    assert (Z : heat_speed r p * (t - (t1 + t2)) == 0) by lra. apply Qmult_integral in Z as [Z|Z]; lra.
  - specialize (D1 (proj2 Hab)). specialize (D2 (proj1 Hab)). specialize (D ltac:(lra)).
    assert (Z : cool_speed r p * (t - (t1 + t2)) == 0) by lra. apply Qmult_integral in Z as [Z|Z]; lra.
Qed.

Lemma limited_fraction l c h : 0 < c -> 0 < h -> l * (1 / h) / (1 / c + 1 / h) == l * c / (c + h).
Proof. intros Hc Hh. field. split_and!; lra. Qed.

(** Cooling down and warming up again: the heating time fits the time window.  If there is enough time to get from one
    temperature to the other at all, then a nozzle that cools towards the middle temperature until that much time is left
    and heats from then on has exactly the wanted temperature at the end, and was no colder than the lowest temperature
    given. *)
Theorem C34_warm_up r window start mid end_ p : sane r p -> mid <= start -> mid <= end_ -> 0 <= window ->
  exists res, warm_up_point r window start mid end_ p = Some res /\ 0 <= time res <= window /\
    ((end_ - start <= heat_speed r p * window) -> (start - end_ <= cool_speed r p * window) ->
     cooled (cool_speed r p) mid start (window - time res) == extreme res /\
     heated (heat_speed r p) (extreme res) (time res) == end_).
Proof.
  intros Hs Hms Hme Hw. unfold warm_up_point. set (c := cool_speed r p) in *. set (h := heat_speed r p) in *.
  assert (Hc : 0 < c) by apply Hs. assert (Hh : 0 < h) by apply Hs.
  rewrite !qdiv_some by lra.
  assert (I1 : 0 < 1 / c) by (apply Qlt_shift_div_l; lra). assert (I2 : 0 < 1 / h) by (apply Qlt_shift_div_l; lra).
  assert (Ec : c * (1 / c) == 1) by (field; lra). assert (Eh : h * (1 / h) == 1) by (field; lra).
  set (outer := if qlt start end_ then start else end_).
  assert (Ho : mid <= outer) by (unfold outer; by destruct (qlt start end_)).
  destruct (C34_time r mid outer p Hs) as (tm & E1 & P1 & U1 & D1). specialize (U1 Ho). unfold heated in U1. fold h in U1.
  rewrite E1.
  assert (Er : (1 / c) / (1 / h) == h / c) by (field; split; lra).
  rewrite (qdiv_some (1 / c) (1 / h)) by lra.
  set (limited := if qlt start end_ then window - (end_ - start) * (1 / h) else window - (start - end_) * (1 / c)).
  set (heating := if qlt start end_ then (end_ - start) * (1 / h) else 0).
  assert (Hheat : 0 <= heating). { unfold heating. destruct (qlt_spec start end_); [nra|lra]. }
  destruct (qlt_spec limited 0) as [Hneg|Hpos].
  { eexists. split; [done|]. cbn [time extreme]. split; [lra|]. intros H1 H2. exfalso. unfold limited in Hneg.
    destruct (qlt_spec start end_).
    - assert ((end_ - start) * (1 / h) <= window) by (setoid_replace window with ((h * window) * (1 / h)) by (field; lra); nra). lra.
    - assert ((start - end_) * (1 / c) <= window) by (setoid_replace window with ((c * window) * (1 / c)) by (field; lra); nra). lra. }
  assert (Hlw : heating + limited <= window).
  { unfold heating, limited. destruct (qlt_spec start end_); [lra|]. assert (0 <= (start - end_) * (1 / c)) by nra. lra. }
  destruct (qlt_spec (tm * (1 + (1 / c) / (1 / h))) limited) as [Hlt|Hge].
  - eexists. split; [done|]. cbn [time extreme]. rewrite Er in Hlt.
    assert (Hhc : 0 < h / c) by (apply Qlt_shift_div_l; lra).
    assert (Htm : tm <= limited) by nra. split; [lra|]. intros _ _. unfold cooled, heated.
    assert (Hcool : tm * (h / c) * c == tm * h) by (field; lra).
    split.
    + rewrite (Q.min_l mid start) by done. apply Q.max_l.
      (* enough time to cool down to the middle temperature *)
      unfold limited, heating, outer in *. destruct (qlt_spec start end_).
      * assert (start - mid <= c * (window - ((end_ - start) * (1 / h) + tm))); [|lra].
        assert (tm * (h / c) <= window - ((end_ - start) * (1 / h) + tm)) by lra.
        assert (tm * (h / c) * c <= c * (window - ((end_ - start) * (1 / h) + tm))) by nra. lra.
      * assert (start - mid <= c * (window - (0 + tm))); [|lra].
        assert (tm * (h / c) + (start - end_) * (1 / c) <= window - (0 + tm)) by lra.
        assert (c * (tm * (h / c) + (start - end_) * (1 / c)) <= c * (window - (0 + tm))) by nra.
        assert (c * (tm * (h / c) + (start - end_) * (1 / c)) == tm * h + (start - end_)) by (field; lra). lra.
    + unfold heating, outer in *. destruct (qlt_spec start end_).
      * assert (h * ((end_ - start) * (1 / h)) == end_ - start) by (field; lra). lra.
      * lra.
  - rewrite qdiv_some by lra. set (q := limited * (1 / h) / (1 / c + 1 / h)).
    assert (Eq : q == limited * c / (c + h)) by (by apply limited_fraction).
    assert (Hq : 0 <= q <= limited).
    { rewrite Eq. split; [apply Qle_shift_div_l; [lra|nra]|apply Qle_shift_div_r; [lra|nra]]. }
    assert (Hq2 : q * h == (limited - q) * c) by (rewrite Eq; field; lra).
    rewrite qdiv_some by lra. eexists. split; [done|]. cbn [time extreme]. split; [lra|]. intros _ _.
    assert (Hrise : (heating + q) / (1 / h) == (heating + q) * h) by (field; lra).
    unfold cooled, heated. rewrite Er in Hge.
    assert (Hhc : 0 < h / c) by (apply Qlt_shift_div_l; lra).
    assert (Hcool : tm * (h / c) * c == tm * h) by (field; lra).
    (* the standby temperature is not passed *)
    assert (Hmid : mid <= outer - q * h).
    { assert (limited <= tm + tm * (h / c)) by lra.
      assert (limited * c <= tm * c + tm * h) by nra.
      assert (q * (h + c) == limited * c) by lra.
      assert (q <= tm) by nra. nra. }
    assert (Elow : end_ - (heating + q) / (1 / h) == outer - q * h).
    { rewrite Hrise. unfold heating, outer. destruct (qlt_spec start end_).
      - assert (h * ((end_ - start) * (1 / h)) == end_ - start) by (field; lra). lra.
      - lra. }
    rewrite (Q.max_r mid) by (rewrite Elow; lra). split.
    + rewrite (Q.min_l mid start) by done. rewrite Elow.
      assert (Ecool : start - c * (window - (heating + q)) == outer - q * h).
      { unfold limited, heating, outer in *. destruct (qlt_spec start end_).
        - lra.
        - assert (c * ((start - end_) * (1 / c)) == start - end_) by (field; lra). lra. }
      rewrite Ecool. apply Q.max_r. lra.
    + rewrite Hrise. lra.
Qed.

(** Warming up and cooling down again: the cooling time fits the time window. *)
Theorem C34_cool_down_window r window start mid end_ p : sane r p -> start <= mid -> end_ <= mid -> 0 <= window ->
  exists res, cool_down_point r window start mid end_ p = Some res /\ 0 <= time res <= window /\
    Qmin start end_ <= extreme res <= mid.
Proof.
  intros Hs Hms Hme Hw. unfold cool_down_point. set (c := cool_speed r p) in *. set (h := heat_speed r p) in *.
  assert (Hc : 0 < c) by apply Hs. assert (Hh : 0 < h) by apply Hs.
  rewrite !qdiv_some by lra.
  assert (I1 : 0 < 1 / c) by (apply Qlt_shift_div_l; lra). assert (I2 : 0 < 1 / h) by (apply Qlt_shift_div_l; lra).
  set (outer := if qlt start end_ then end_ else start).
  assert (Ho : outer <= mid) by (unfold outer; by destruct (qlt start end_)).
  destruct (C34_time r mid outer p Hs) as (tm & E1 & P1 & U1 & D1). rewrite E1.
  assert (Er : (1 / c) / (1 / h) == h / c) by (field; split; lra).
  rewrite (qdiv_some (1 / c) (1 / h)) by lra.
  set (limited := if qlt start end_ then window - (end_ - start) * (1 / h) else window - (start - end_) * (1 / c)).
  set (cooling := if qlt start end_ then 0 else (start - end_) * (1 / c)).
  assert (Hcl : 0 <= cooling). { unfold cooling. destruct (qlt_spec start end_); [lra|nra]. }
  destruct (qlt_spec limited 0) as [Hneg|Hpos].
  { eexists. split; [done|]. cbn [time extreme]. split; [lra|]. split.
    - eapply Qle_trans; [apply Q.le_min_l|apply Q.le_max_l].
    - by apply Q.max_lub. }
  assert (Hlw : cooling + limited <= window).
  { unfold cooling, limited. destruct (qlt_spec start end_); [|lra]. assert (0 <= (end_ - start) * (1 / h)) by nra. lra. }
  assert (Hmin : Qmin start end_ <= mid) by (eapply Qle_trans; [apply Q.le_min_l|done]).
  destruct (qlt_spec (tm * (1 + (1 / c) / (1 / h))) limited) as [Hlt|Hge].
  - eexists. split; [done|]. cbn [time extreme]. rewrite Er in Hlt.
    assert (Hhc : 0 < h / c) by (apply Qlt_shift_div_l; lra).
    assert (Htm : tm <= limited) by nra. split; [lra|]. split; [done|lra].
  - rewrite qdiv_some by lra. set (q := limited * (1 / h) / (1 / c + 1 / h)).
    assert (Eq : q == limited * c / (c + h)) by (by apply limited_fraction).
    assert (Hq : 0 <= q <= limited).
    { rewrite Eq. split; [apply Qle_shift_div_l; [lra|nra]|apply Qle_shift_div_r; [lra|nra]]. }
    rewrite qdiv_some by lra. eexists. split; [done|]. cbn [time extreme]. split; [lra|]. split; [|apply Q.le_min_l].
    apply Q.min_glb; [done|].
    assert (0 <= (cooling + q) / (1 / c)) by (apply Qle_shift_div_l; [done|lra]).
    pose proof (Q.le_min_r start end_). lra.
Qed.

(** But when the middle temperature is not reached the window is split the wrong way round (the heating rate where the
    cooling rate is meant): a nozzle that heats at 2 degrees per second and cools at 1 over 30 seconds, from 200 degrees and
    back, is told to start cooling 10 seconds before the end, at 210 degrees; it has 240 degrees then, and 230 at the end. *)
Theorem C34_cool_down_refuted : exists r window start mid end_ p res, sane r p /\ start <= mid /\ end_ <= mid /\ 0 <= window /\
  (end_ - start <= heat_speed r p * window) /\ (start - end_ <= cool_speed r p * window) /\
  cool_down_point r window start mid end_ p = Some res /\
  let top := heated_to (heat_speed r p) mid start (window - time res) in
  ~ top == extreme res /\ ~ top - cool_speed r p * time res == end_.
Proof.
  exists (Rates 2 1 0), 30, 200, 300, 200, false. eexists.
  split; [split; reflexivity|]. do 5 (split; [vm_compute; discriminate|]). split; [vm_compute; reflexivity|]. split; vm_compute; discriminate.
Qed.

(** When there is not even time to heat from one temperature to the other, no time at all is set aside for heating. *)
Theorem C34_no_time_refuted : exists r window start mid end_ p res, sane r p /\ mid <= start /\ mid <= end_ /\ 0 < window /\
  warm_up_point r window start mid end_ p = Some res /\ start < end_ /\ time res == 0.
Proof.
  exists (Rates 2 1 0), 10, 180, 150, 210, false. eexists.
  split; [split; reflexivity|]. do 2 (split; [vm_compute; discriminate|]). split; [reflexivity|]. split; [vm_compute; reflexivity|]. split; vm_compute; reflexivity.
Qed.

(** A nozzle that loses more heat by extruding than the heater gives is predicted to heat up in no time. *)
Theorem C34_overpowered_refuted : exists r a b t, a < b /\ 0 < heat_up r /\ 0 < cool_down r /\ 0 < extrusion_cool_down r /\
  time_to_go r a b true = Some t /\ t == 0.
Proof. exists (Rates 1 1 2), 180, 200. eexists. split_and!; [vm_compute; reflexivity..|]. reflexivity. Qed.

Example C34_example : exists res, sane (Rates 2 1 (1#2)) true /\
  warm_up_point (Rates 2 1 (1#2)) 60 200 150 210 true = Some res /\ time res > 0 /\ extreme res < 200.
Proof. eexists. split; [split; reflexivity|]. split; [vm_compute; reflexivity|]. split; vm_compute; reflexivity. Qed.

Print Assumptions C35_between.
Print Assumptions C35_outside.
Print Assumptions C35_range.
Print Assumptions C34_time.
Print Assumptions C34_additive.
Print Assumptions C34_warm_up.
Print Assumptions C34_cool_down_window.
Print Assumptions C34_cool_down_refuted.
