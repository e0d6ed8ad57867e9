(** C48: the time estimator plans motions that a machine can make, and never estimates less than the time at the requested speed. *)
From Coq Require Import Reals Lra Psatz.
From stdpp Require Import list.
From Verif Require Import Common Estimate_Model Estimate_Spec Estimate_Proofs.
Open Scope R_scope.

Record settings_ok (S : settings) : Prop := {
  feedrate_pos : forall n, 0 < max_feedrate S n;
  acceleration_pos : forall n, 0 < max_acceleration S n;
  z_jerk_ok : 0 <= max_z_jerk S;
  e_jerk_ok : 0 <= max_e_jerk S }.
(** Calls with positive accelerations and speeds and jerks that are not negative *)
Definition call_ok (S : settings) (c : call) : Prop :=
  match c with
  | Plan _ v _ => 0 < Rmax v (minimumfeedrate S)
  | SetAcceleration a => 0 < a
  | SetMaxXyJerk j => 0 <= j
  | _ => True
  end.

(** *** the length of the way *)
Lemma sq_abs x : Rabs x * Rabs x = x * x.
Proof. by rewrite <- Rabs_mult, Rabs_right by nra. Qed.
Lemma max_travel_le f : foldl (fun m n => Rmax m (Rabs (f n))) 0 axes <= 0 <-> forall n, (n < 4)%nat -> f n = 0.
Proof.
  simpl. split.
  - intros H n Hn. assert (Rabs (f n) <= 0). 
    { eapply Rle_trans; [|exact H]. destruct n as [|[|[|[|n]]]]; [| | | |lia];
      repeat (apply Rmax_r || (eapply Rle_trans; [|apply Rmax_l])). }
    pose proof (Rabs_pos (f n)). destruct (Req_dec (f n) 0) as [|Hne]; [done|]. apply Rabs_pos_lt in Hne. lra.
  - intros H. rewrite !H by lia. rewrite Rabs_R0. assert (E : Rmax 0 0 = 0) by (apply Rmax_left; lra). rewrite !E. lra.
Qed.
Lemma squares3 a b c : 0 <= a * a + b * b + c * c.
Proof. nra. Qed.
Lemma square_in a b c : a * a <= a * a + b * b + c * c /\ b * b <= a * a + b * b + c * c /\ c * c <= a * a + b * b + c * c.
Proof. split; [|split]; nra. Qed.
Lemma squares_zero a b c : a * a + b * b + c * c = 0 -> a = 0 /\ b = 0 /\ c = 0.
Proof. intros H. split; [|split]; nra. Qed.
Lemma way_zero p q : way p q = 0 <-> forall n, (n < 4)%nat -> q n - p n = 0.
Proof.
  unfold way, Rsqr. set (x := _ + _ + _). assert (Hx : 0 <= x) by (apply squares3). split.
  - intros H. destruct (Req_EM_T (R_sqrt.sqrt x) 0) as [E|E]; [|done]. apply sqrt_eq_0 in E; [|done].
    assert (H3 : q 3%nat - p 3%nat = 0). { destruct (Req_dec (q 3%nat - p 3%nat) 0) as [|Hne]; [done|]. apply Rabs_pos_lt in Hne. lra. }
    intros n Hn. apply squares_zero in E as (E1 & E2 & E3). destruct n as [|[|[|[|n]]]]; [done|done|done|done|lia].
  - intros H. assert (Ex : x = 0). { unfold x. rewrite !H by lia. ring. } rewrite Ex, sqrt_0. destruct (Req_EM_T 0 0); [|done].
    rewrite H by lia. apply Rabs_R0.
Qed.
Lemma way_nonneg p q : 0 <= way p q.
Proof. unfold way. destruct (Req_EM_T _ _); [apply Rabs_pos|apply sqrt_pos]. Qed.
Lemma way_axis p q n : (n < 3)%nat -> Rabs (q n - p n) <= way p q.
Proof.
  intros Hn. unfold way, Rsqr. set (x := _ + _ + _). assert (Hx : 0 <= x) by (apply squares3).
  assert (H : Rabs (q n - p n) <= R_sqrt.sqrt x).
  { apply le_sqrt_of; [done|]. rewrite sq_abs. unfold x. destruct (square_in (q 0%nat - p 0%nat) (q 1%nat - p 1%nat) (q 2%nat - p 2%nat)) as (S1 & S2 & S3). destruct n as [|[|[|n]]]; [done|done|done|lia]. }
  destruct (Req_EM_T _ _) as [E|E]; [|done]. rewrite E in H. pose proof (Rabs_pos (q 3%nat - p 3%nat)). lra.
Qed.

Lemma factor_spec S c (HS : settings_ok S) : let f := feedrate_factor S c in
  0 < f <= 1 /\ forall n, (n < 4)%nat -> f * Rabs (c n) <= max_feedrate S n.
Proof.
  unfold feedrate_factor. 
  assert (G : forall l f0, 0 < f0 <= 1 -> let f := foldl (fun f n => if Rltb (max_feedrate S n) (Rabs (c n)) then Rmin f (max_feedrate S n / Rabs (c n)) else f) f0 l in
    0 < f <= f0 /\ forall n, n ∈ l -> f * Rabs (c n) <= max_feedrate S n).
  { induction l as [|k l IH]; intros f0 Hf0; simpl; [split; [lra|by intros n Hn; apply elem_of_nil in Hn]|].
    pose proof (feedrate_pos S HS k) as Hk.
    set (f1 := if Rltb _ _ then _ else _). 
    assert (H1 : 0 < f1 <= f0 /\ f1 * Rabs (c k) <= max_feedrate S k).
    { unfold f1. destruct (Rltb _ _) eqn:E.
      - apply Rltb_true in E. assert (Hq : 0 < max_feedrate S k / Rabs (c k)) by (apply Rdiv_lt_0_compat; lra).
        pose proof (Rmin_l f0 (max_feedrate S k / Rabs (c k))). pose proof (Rmin_r f0 (max_feedrate S k / Rabs (c k))) as Hr.
        split; [split; [apply Rmin_glb_lt; lra|done]|]. apply (Rmult_le_compat_r (Rabs (c k))) in Hr; [|lra].
        replace (max_feedrate S k / Rabs (c k) * Rabs (c k)) with (max_feedrate S k) in Hr by (field; lra). done.
      - apply Rltb_false in E. split; [lra|]. pose proof (Rabs_pos (c k)). eapply Rle_trans; [|exact E]. rewrite <- (Rmult_1_l (Rabs (c k))) at 2. apply Rmult_le_compat_r; lra. }
    clearbody f1. destruct H1 as [H1 H2]. destruct (IH f1) as [I1 I2]; [lra|]. split; [lra|].
    intros n Hn. apply elem_of_cons in Hn as [->|Hn]; [|by apply I2]. pose proof (Rabs_pos (c k)). nra. }
  destruct (G axes 1) as [G1 G2]; [lra|]. split; [done|]. intros n Hn. apply G2. unfold axes. destruct n as [|[|[|[|n]]]]; [set_solver|set_solver|set_solver|set_solver|lia].
Qed.

Lemma limit_spec S acc dist ad (HS : settings_ok S) : 0 < acc -> 0 < limit_acceleration S acc dist ad.
Proof.
  unfold limit_acceleration. generalize axes as l. intros l. revert acc. induction l as [|k l IH]; intros acc Ha; simpl; [done|].
  apply IH. destruct (Rltb _ _); [apply (acceleration_pos S HS)|done].
Qed.

(** what a move plans *)
Record planned_block (S : settings) (st : state) (p : position) (v : R) (f : nat) (b : block) : Prop := {
  pb_feature : feature b = f;
  pb_distance : distance b = way (currentPosition st) p;
  pb_nominal : 0 < nominal_feedrate b <= Rmax v (minimumfeedrate S);
  pb_acceleration : b_acceleration b = limit_acceleration S (acceleration st) (way (currentPosition st) p) (fun n => Rabs (p n - currentPosition st n));
  pb_max : 0 <= max_entry_speed b <= nominal_feedrate b;
  pb_entry : entry_speed b = Rmin (max_entry_speed b) (maxAllowableSpeed (- b_acceleration b) MINIMUM_PLANNER_SPEED (distance b));
  pb_flag : nominal_length_flag b = Rleb (nominal_feedrate b) (maxAllowableSpeed (- b_acceleration b) MINIMUM_PLANNER_SPEED (distance b));
  pb_recalculate : recalculate_flag b = true;
  pb_axis : forall n, (n < 4)%nat -> nominal_feedrate b * (Rabs (p n - currentPosition st n) / distance b) <= max_feedrate S n;
  pb_junction : blocks st <> [] -> 1 / 10000 < previous_nominal_feedrate st -> max_entry_speed b <= previous_nominal_feedrate st }.

Lemma Rmin_nonneg a b : 0 <= a -> 0 <= b -> 0 <= Rmin a b.
Proof. intros. by apply Rmin_glb. Qed.
Lemma div_01 a b : 0 <= a -> a < b -> 0 <= a / b <= 1.
Proof.
  intros Ha Hb. assert (Hi : 0 < / b) by (apply Rinv_0_lt_compat; lra). assert (b * / b = 1) by (field; lra). unfold Rdiv. split; nra.
Qed.

Lemma if_nonneg (c : bool) a b : 0 <= a -> 0 <= b -> 0 <= (if c then a else b).
Proof. by destruct c. Qed.
Lemma jerk_factor j x f : 0 <= j -> 0 <= f <= 1 -> 0 <= (if Rltb j x then Rmin f (j / x) else f) <= 1.
Proof.
  intros Hj Hf. destruct (Rltb j x) eqn:E1; [|done]. apply Rltb_true in E1. apply div_01 in E1; [|done]. unfold Rmin. destruct (Rle_dec _ _); lra.
Qed.
Lemma jerk_factor1 j x : 0 <= j -> 0 <= (if Rltb j x then j / x else 1) <= 1.
Proof. intros Hj. destruct (Rltb j x) eqn:E1; [|lra]. apply Rltb_true in E1. by apply div_01. Qed.
Lemma plan_spec S p v f st : settings_ok S -> 0 < Rmax v (minimumfeedrate S) -> 0 < acceleration st -> 0 <= max_xy_jerk st ->
  if Req_EM_T (way (currentPosition st) p) 0 then plan S p v f st = st
  else exists b cur, planned_block S st p v f b /\
    plan S p v f st = State (acceleration st) (max_xy_jerk st) (extra_time st) cur (nominal_feedrate b) p (blocks st ++ [b]).
Proof.
  intros HS Hv Hacc Hj. unfold plan. cbv zeta.
  set (delta := fun n => p n - currentPosition st n).
  destruct (Req_EM_T (way (currentPosition st) p) 0) as [E|E].
  { rewrite (proj2 (Rleb_true _ _)); [done|]. apply (proj2 (max_travel_le delta)). by apply way_zero. }
  rewrite (proj2 (Rleb_false _ _)).
  2:{ apply Rnot_le_lt. intros H. apply E. apply way_zero. by apply (proj1 (max_travel_le delta)). }
  set (v' := if Rltb v (minimumfeedrate S) then minimumfeedrate S else v).
  assert (Ev : v' = Rmax v (minimumfeedrate S)).
  { unfold v'. destruct (Rltb _ _) eqn:Ev. - apply Rltb_true in Ev. rewrite Rmax_right; lra. - apply Rltb_false in Ev. rewrite Rmax_left; lra. }
  set (dist := if Reqb _ 0 then _ else _).
  assert (Ed : dist = way (currentPosition st) p).
  { unfold dist, way, Reqb. fold (delta 0%nat) (delta 1%nat) (delta 2%nat) (delta 3%nat).
    change (p 0%nat - currentPosition st 0%nat) with (delta 0%nat). change (p 1%nat - currentPosition st 1%nat) with (delta 1%nat).
    change (p 2%nat - currentPosition st 2%nat) with (delta 2%nat). rewrite !sq_abs. unfold Rsqr. by destruct (Req_EM_T _ _). }
  assert (Hd : 0 < dist). { rewrite Ed. pose proof (way_nonneg (currentPosition st) p). lra. }
  clearbody dist v'.
  set (c0 := fun n => delta n * v' / dist). destruct (factor_spec S c0 HS) as [Hf Hax].
  change (feedrate_factor S (λ n : nat, (p n - currentPosition st n) * v' / dist)) with (feedrate_factor S c0).
  set (ff := feedrate_factor S c0) in *. clearbody ff.
  set (cur := fun n : nat => if Rltb ff 1 then c0 n * ff else c0 n).
  change (fun n : nat => if Rltb ff 1 then (p n - currentPosition st n) * v' / dist * ff else (p n - currentPosition st n) * v' / dist) with cur.
  set (nom := if Rltb ff 1 then v' * ff else v').
  assert (En : nom = v' * ff). { unfold nom. destruct (Rltb ff 1) eqn:E1; [done|]. apply Rltb_false in E1. assert (ff = 1) as -> by lra. ring. }
  assert (Hnom : 0 < nom <= v') by (rewrite En; nra). 
  set (acc := limit_acceleration _ _ _ _). 
  set (j1 := if Rltb (max_z_jerk S / 2) _ then _ else _).
  assert (Hj1 : 0 <= j1). { unfold j1. pose proof (z_jerk_ok S HS). apply if_nonneg; [apply Rmin_nonneg; lra|lra]. }
  set (j2 := if Rltb (max_e_jerk S / 2) _ then _ else _).
  assert (Hj2 : 0 <= j2). { unfold j2. pose proof (e_jerk_ok S HS). apply if_nonneg; [apply Rmin_nonneg; lra|lra]. }
  clearbody j2.
  set (vj := if (match blocks st with [] => false | _ => true end) && _ then _ else _).
  assert (Hvj : 0 <= vj <= nom /\ (blocks st <> [] -> 1 / 10000 < previous_nominal_feedrate st -> vj <= previous_nominal_feedrate st)).
  { unfold vj. destruct ((match blocks st with [] => false | _ => true end) && Rltb (1 / 10000) (previous_nominal_feedrate st)) eqn:Ej.
    - apply andb_true_iff in Ej as [_ Ej]. apply Rltb_true in Ej.
      set (f1 := if Rltb (max_xy_jerk st) _ then _ else 1). 
      assert (Hf1 : 0 <= f1 <= 1) by (by apply jerk_factor1).
      clearbody f1. set (f2 := if Rltb (max_z_jerk S) _ then _ else f1).
      assert (Hf2 : 0 <= f2 <= 1) by (apply jerk_factor; [apply (z_jerk_ok S HS)|done]).
      clearbody f2. set (f3 := if Rltb (max_e_jerk S) _ then _ else f2).
      assert (Hf3 : 0 <= f3 <= 1) by (apply jerk_factor; [apply (e_jerk_ok S HS)|done]).
      clearbody f3. split; [|intros _ _; apply Rmin_l]. split; [apply Rmin_nonneg; [lra|nra]|]. 
      eapply Rle_trans; [apply Rmin_r|]. nra.
    - split; [split; [apply Rmin_nonneg; lra|apply Rmin_r]|]. intros Hb Hp. apply Rltb_true in Hp. rewrite Hp, andb_true_r in Ej. by destruct (blocks st). }
  clearbody vj. destruct Hvj as [Hvj1 Hvj2].
  set (b0 := Block true 0 0 0 0 _ vj _ nom dist acc f).
  set (b := calculateTrapezoidForBlock b0 _ _). exists b, cur.
  destruct (trapezoid_fields b0 (entry_speed b0 / nom) (Rmin j2 nom / nom)) as ((E1 & E2 & E3 & E4 & E5 & E6) & E7 & _). fold b in E1, E2, E3, E4, E5, E6, E7.
  split; [|by rewrite E3].
  assert (Erec : recalculate_flag b = true). { unfold b, calculateTrapezoidForBlock. cbv zeta. by destruct (if Rltb _ _ then _ else _). }
  constructor; rewrite ?E1, ?E2, ?E3, ?E4, ?E5, ?E6, ?E7; unfold b0; cbn [max_entry_speed nominal_length_flag nominal_feedrate distance b_acceleration feature entry_speed]; try done.
  - rewrite <- Ev. lra.
  - unfold acc. by rewrite Ed.
  - intros n Hn. specialize (Hax n Hn). unfold c0 in Hax. fold (delta n).
    replace (Rabs (delta n * v' / dist)) with (v' * (Rabs (delta n) / dist)) in Hax; [rewrite En; lra|].
    unfold Rdiv. rewrite !Rabs_mult, (Rabs_right v'), (Rabs_right (/ dist)); [ring| |]; [|lra]. apply Rle_ge, Rlt_le. by apply Rinv_0_lt_compat.
Qed.

(** *** every history *)
Record inv (st : state) : Prop := {
  inv_acc : 0 < acceleration st;
  inv_jerk : 0 <= max_xy_jerk st;
  inv_blocks : Forall (fun b => sane_entry b /\ nominal_flag_ok b /\ can_stop b) (blocks st);
  inv_chain : Forall (fun b => 1 / 10000 < nominal_feedrate b) (blocks st) -> adjacent slower_next (blocks st);
  inv_last : forall b, last (blocks st) = Some b -> previous_nominal_feedrate st = nominal_feedrate b;
  inv_entry : Forall (fun b => MINIMUM_PLANNER_SPEED <= max_entry_speed b -> quick b) (blocks st) }.
Definition fresh (st : state) : Prop := 0 < acceleration st /\ 0 <= max_xy_jerk st /\ extra_time st = 0 /\ blocks st = [].

Lemma adjacent_snoc (Q : block -> block -> Prop) l b : adjacent Q l -> (forall a, last l = Some a -> Q a b) -> adjacent Q (l ++ [b]).
Proof.
  induction l as [|x l IH]; intros H1 H2; [done|]. destruct H1 as [H1 H3]. simpl. split.
  - destruct l as [|y l]; [by apply H2|done].
  - apply IH; [done|]. intros a Ha. apply H2. destruct l; done.
Qed.
Lemma planned_block_ok S st p v f b : settings_ok S -> 0 < acceleration st -> way (currentPosition st) p <> 0 -> planned_block S st p v f b ->
  sane_entry b /\ nominal_flag_ok b /\ can_stop b /\ (MINIMUM_PLANNER_SPEED <= max_entry_speed b -> quick b).
Proof.
  intros HS Ha Hw []. 
  assert (Hs : sane b). { split; [rewrite pb_distance0; pose proof (way_nonneg (currentPosition st) p); lra|]. split; [rewrite pb_acceleration0; by apply limit_spec|]. split; lra. }
  destruct (allowable b MINIMUM_PLANNER_SPEED Hs) as [Ha1 Ha2]. pose proof MIN_pos as HM. pose proof Hs as (Hd & Hacc & _).
  set (w := maxAllowableSpeed _ _ _) in *. assert (Hw1 : MINIMUM_PLANNER_SPEED <= w) by nra.
  assert (He : 0 <= entry_speed b <= max_entry_speed b /\ entry_speed b <= w). 
  { rewrite pb_entry0. split; [split; [apply Rmin_nonneg; lra|apply Rmin_l]|apply Rmin_r]. }
  split; [split; [done|]; split; [apply He|done]|]. split. { unfold nominal_flag_ok. rewrite pb_flag0. intros H. apply Rleb_true in H. nra. }
  split. { unfold can_stop. nra. }
  intros Hm. split; [|done]. rewrite pb_entry0. by apply Rmin_glb.
Qed.
Lemma step_inv S st c : settings_ok S -> call_ok S c -> inv st -> inv (step S st c).
Proof.
  intros HS Hc Hi. destruct c as [p v f|p|t|a|j| |]; cbn [step]; try (destruct Hi; by constructor).
  - destruct Hi as [I1 I2 I3 I4 I5 I6]. pose proof (plan_spec S p v f st HS Hc I1 I2) as Hp. destruct (Req_EM_T _ _) as [E|E]; [rewrite Hp; by constructor|].
    destruct Hp as (b & cur & Hb & ->). destruct (planned_block_ok _ _ _ _ _ _ HS I1 E Hb) as (B1 & B2 & B3 & B4). 
    constructor; cbn [acceleration max_xy_jerk blocks previous_nominal_feedrate]; try done.
    + apply Forall_app_2; [done|]. by constructor.
    + intros Hn. apply Forall_app in Hn as [Hn Hn2]. apply adjacent_snoc; [by apply I4|]. intros x Hx. unfold slower_next.
      rewrite <- (I5 x Hx). apply (pb_junction _ _ _ _ _ _ Hb); [by intros E0; rewrite E0 in Hx|]. rewrite (I5 x Hx).
      rewrite Forall_forall in Hn. apply Hn. by apply last_Some_elem_of.
    + intros x. rewrite last_snoc. by intros [= <-].
    + apply Forall_app_2; [done|]. by constructor.
  - destruct Hi as [I1 I2 I3 I4 I5 I6]. constructor; cbn; try done; by apply Forall_nil_2.
  - destruct Hi as [I1 I2 I3 I4 I5 I6]. constructor; cbn; try done; by apply Forall_nil_2.
Qed.
Lemma fresh_inv st : fresh st -> inv st.
Proof. intros (H1 & H2 & _ & H3). constructor; try rewrite H3; try done. Qed.
Lemma run_inv S cs : forall st, settings_ok S -> Forall (call_ok S) cs -> inv st -> inv (run S st cs).
Proof.
  induction cs as [|c cs IH]; intros st HS Hc Hi; [done|]. apply Forall_cons in Hc as [Hc Hcs]. simpl. apply IH; try done. by apply step_inv.
Qed.

(** The state and the history since the last reset *)
Definition tells (S : settings) (h : history) (st : state) : Prop :=
  h_pos h = currentPosition st /\ extra_time st = sum (map (Rmax 0) (h_extra h)) /\
  Forall2 (fun m b => m.2 = feature b /\ m.1.1 = distance b /\ 0 < nominal_feedrate b <= Rmax m.1.2 (minimumfeedrate S)) (h_moves h) (blocks st).
Lemma sum_app a b : sum (a ++ b) = sum a + sum b.
Proof. induction a as [|x a IH]; simpl; [ring|]. rewrite IH. ring. Qed.
Lemma tells_step S h st c : settings_ok S -> call_ok S c -> inv st -> tells S h st -> tells S (record h c) (step S st c).
Proof.
  intros HS Hc Hi (T1 & T2 & T3). destruct c as [p v f|p|t|a|j| |]; cbn [step record]; try done.
  - pose proof (plan_spec S p v f st HS Hc (inv_acc _ Hi) (inv_jerk _ Hi)) as Hp. rewrite T1. destruct (Req_EM_T _ _) as [E|E]; [by rewrite Hp|].
    destruct Hp as (b & cur & [] & ->). split; [done|]. split; [done|]. cbn [h_moves blocks]. apply Forall2_app; [done|]. constructor; [|constructor].
    cbn. split; [done|]. split; [done|]. lra.
  - split; [done|]. split; [|done]. cbn [addTime extra_time h_extra]. rewrite map_app, sum_app, <- T2. simpl. rewrite duration_max. lra.
  - split; [done|]. split; [done|]. constructor.
  - split; [done|]. split; [done|]. constructor.
Qed.
Lemma tells_run S cs : forall h st, settings_ok S -> Forall (call_ok S) cs -> inv st -> tells S h st -> tells S (foldl record h cs) (run S st cs).
Proof.
  induction cs as [|c cs IH]; intros h st HS Hc Hi Ht; [done|]. apply Forall_cons in Hc as [Hc Hcs]. simpl. apply IH; try done; [by apply step_inv|by apply tells_step].
Qed.

Lemma totals_sum e l f : totals e l f = (if decide (f = NoneType) then e else 0) + sum (map (fun b => if decide (feature b = f) then block_time b else 0) l).
Proof.
  unfold totals. generalize (if decide (f = NoneType) then e else 0) as t. induction l as [|b l IH]; intros t; simpl; [ring|].
  rewrite IH. destruct (decide _); ring.
Qed.

(** After every history of calls the estimate for each feature is at least the time its moves take at the requested speed, with the
    waiting times counted for no feature. *)
Theorem C48_time S st0 cs f : settings_ok S -> Forall (call_ok S) cs -> fresh st0 ->
  least_time (minimumfeedrate S) f (recorded (currentPosition st0) cs) <= (calculate (run S st0 cs)).1 f.
Proof.
  intros HS Hc Hf. pose proof (fresh_inv _ Hf) as Hi0. pose proof (run_inv S cs st0 HS Hc Hi0) as Hi.
  assert (Ht : tells S (recorded (currentPosition st0) cs) (run S st0 cs)).
  { apply tells_run; try done. destruct Hf as (_ & _ & H1 & H2). split; [done|]. split; [by rewrite H1|]. rewrite H2. constructor. }
  destruct Ht as (_ & T2 & T3). cbn [calculate fst]. rewrite totals_sum, T2. unfold least_time.
  assert (Hp : Forall2 (fun b t => feature t = feature b /\ distance b / nominal_feedrate b <= block_time t) (blocks (run S st0 cs)) (planned (blocks (run S st0 cs)))).
  { apply planned_time. eapply Forall_impl; [apply (inv_blocks _ Hi)|]. by intros x []. }
  assert (Hb : Forall (fun b => 0 < distance b) (blocks (run S st0 cs))).
  { eapply Forall_impl; [apply (inv_blocks _ Hi)|]. intros x (((H & _) & _) & _). done. }
  revert Hp T3 Hb. generalize (planned (blocks (run S st0 cs))) as r. generalize (blocks (run S st0 cs)) as l. 
  generalize (h_moves (recorded (currentPosition st0) cs)) as ms. clear. intros ms l r Hp T3 Hb.
  cut (sum (map (fun m : R * R * nat => if decide (m.2 = f) then m.1.1 / Rmax m.1.2 (minimumfeedrate S) else 0) ms) <= sum (map (fun b => if decide (feature b = f) then block_time b else 0) r)); [lra|].
  revert l r Hp T3 Hb. induction ms as [|m ms IH]; intros l r Hp T3 Hb.
  - apply Forall2_nil_inv_l in T3 as ->. apply Forall2_nil_inv_l in Hp as ->. simpl. lra.
  - apply Forall2_cons_inv_l in T3 as (b & l' & (M1 & M2 & M3) & T3 & ->). apply Forall2_cons_inv_l in Hp as (t & r' & (P1 & P2) & Hp & ->).
    apply Forall_cons in Hb as [Hb1 Hb]. specialize (IH _ _ Hp T3 Hb). simpl. rewrite P1, <- M1. destruct (decide (m.2 = f)); [|lra].
    assert (m.1.1 / Rmax m.1.2 (minimumfeedrate S) <= distance b / nominal_feedrate b); [|lra].
    rewrite M2. unfold Rdiv. apply Rmult_le_compat_l; [lra|]. apply Rinv_le_contravar; lra.
Qed.

(** After every history of calls in which no junction is slower than the minimum speed of the planner, the planned motion can be made:
    each block runs with its acceleration, starts with the speed with which the one before ends, the last one ends with the minimum
    speed, and its time is the time this motion takes. *)
Theorem C48_feasible S st0 cs : settings_ok S -> Forall (call_ok S) cs -> fresh st0 ->
  let st := run S st0 cs in
  Forall (fun b => MINIMUM_PLANNER_SPEED <= max_entry_speed b) (blocks st) ->
  let l := blocks (calculate st).2 in
  Forall (fun b => exists peak, runs b peak /\ block_time b = running_time b peak) l /\ joined l /\
  (forall b, last l = Some b -> final_feedrate b = MINIMUM_PLANNER_SPEED).
Proof.
  intros HS Hc Hf st Hm l. pose proof (run_inv S cs st0 HS Hc (fresh_inv _ Hf)) as [I1 I2 I3 I4 I5 I6]. fold st in I1, I2, I3, I4, I5, I6.
  destruct (passes_good (blocks st)) as (P1 & P2 & P3 & P4).
  - apply Forall_forall. intros x Hx. rewrite Forall_forall in I3, I6, Hm. destruct (I3 x Hx) as (A & B & C). split; [done|]. split; [|done]. apply I6; [done|]. by apply Hm.
  - eapply Forall_impl; [exact I3|]. by intros x (_ & _ & ?).
  - apply I4. apply Forall_forall. intros x Hx. rewrite Forall_forall in I3, Hm. destruct (I3 x Hx) as (((_ & _ & _ & A) & _) & _). specialize (Hm x Hx). cbv beta in Hm. unfold MINIMUM_PLANNER_SPEED in Hm. lra.
  - destruct (recalculate_runs _ P1 P2 P3 P4) as (R1 & R2 & _ & R4). done.
Qed.

(** The speed of a move is at most the requested one and what each axis allows; the acceleration is at most the set one and what
    each axis allows, as long as no more filament is moved than the head moves. *)
Theorem C48_axes S p v f st : settings_ok S -> 0 < Rmax v (minimumfeedrate S) -> 0 < acceleration st -> 0 <= max_xy_jerk st ->
  let moved n := Rabs (p n - currentPosition st n) in
  if Req_EM_T (way (currentPosition st) p) 0 then plan S p v f st = st
  else exists b, blocks (plan S p v f st) = blocks st ++ [b] /\ currentPosition (plan S p v f st) = p /\
    feature b = f /\ distance b = way (currentPosition st) p /\ 0 < nominal_feedrate b <= Rmax v (minimumfeedrate S) /\
    (forall n, (n < 4)%nat -> nominal_feedrate b * (moved n / distance b) <= max_feedrate S n) /\
    (moved 3%nat <= distance b -> 0 < b_acceleration b <= acceleration st /\
       forall n, (n < 4)%nat -> b_acceleration b * (moved n / distance b) <= max_acceleration S n).
Proof.
  intros HS Hv Ha Hj moved. pose proof (plan_spec S p v f st HS Hv Ha Hj) as Hp. destruct (Req_EM_T _ _) as [E|E]; [done|].
  destruct Hp as (b & cur & [] & ->). exists b. split; [done|]. split; [done|]. split; [done|]. split; [done|]. split; [done|]. split; [done|].
  intros Hm. rewrite pb_acceleration0, <- pb_distance0. fold moved.
  assert (Hd : 0 < distance b). { rewrite pb_distance0. pose proof (way_nonneg (currentPosition st) p). lra. }
  assert (Hr : forall n, (n < 4)%nat -> 0 <= moved n / distance b <= 1).
  { intros n Hn. assert (Hmn : moved n <= distance b). { destruct (decide (n = 3%nat)) as [->|]; [done|]. rewrite pb_distance0. apply way_axis. lia. }
    pose proof (Rabs_pos (p n - currentPosition st n)) as Hp. fold (moved n) in Hp. destruct Hmn as [Hmn|Hmn]; [by apply div_01|].
    rewrite Hmn. replace (distance b / distance b) with 1 by (field; lra). lra. }
  assert (G : forall l a0, 0 < a0 -> Forall (fun n => (n < 4)%nat) l -> let a := foldl (fun a n => if Rltb (max_acceleration S n) (a * (moved n / distance b)) then max_acceleration S n else a) a0 l in
    0 < a <= a0 /\ forall n, n ∈ l -> a * (moved n / distance b) <= max_acceleration S n).
  { induction l as [|k l IH]; intros a0 Ha0 Hl; simpl; [split; [lra|by intros n Hn; apply elem_of_nil in Hn]|].
    apply Forall_cons in Hl as [Hk Hl]. specialize (Hr k Hk). pose proof (acceleration_pos S HS k) as Hmk.
    set (a1 := if Rltb _ _ then _ else _). 
    assert (H1 : 0 < a1 <= a0 /\ a1 * (moved k / distance b) <= max_acceleration S k).
    { unfold a1. destruct (Rltb _ _) eqn:E1; [apply Rltb_true in E1; split; nra|apply Rltb_false in E1; split; [lra|done]]. }
    clearbody a1. destruct H1 as [H1 H2]. destruct (IH a1) as [J1 J2]; [lra|done|]. split; [lra|].
    intros n Hn. apply elem_of_cons in Hn as [->|Hn]; [|by apply J2]. nra. }
  destruct (G axes (acceleration st) Ha) as [G1 G2]; [by repeat constructor; lia|]. split; [done|]. intros n Hn. apply G2.
  unfold axes. destruct n as [|[|[|[|n]]]]; [set_solver|set_solver|set_solver|set_solver|lia].
Qed.

(** *** the default machine *)
(** include/timeEstimate.h:84-90 *)
Definition default_settings : settings :=
  Settings (fun n => match n with 0%nat => 600 | 1%nat => 600 | 2%nat => 40 | _ => 25 end)
    (fun n => match n with 0%nat => 9000 | 1%nat => 9000 | 2%nat => 100 | _ => 10000 end) (4 / 10) 5 (1 / 100).
Definition at_xe (x e : R) : position := fun n => match n with 0%nat => x | 3%nat => e | _ => 0 end.
(** include/timeEstimate.h:86-95 *)
Definition default_state : state := State 3000 20 0 (at_xe 0 0) 0 (at_xe 0 0) [].
Lemma default_ok : settings_ok default_settings.
Proof. constructor; cbn; try lra; intros n; repeat (destruct n as [|n]; try lra). Qed.
Lemma default_fresh : fresh default_state.
Proof. repeat split; cbn; lra. Qed.

(** A move along X without filament *)
Lemma way_x x0 x : x0 < x -> way (at_xe x0 0) (at_xe x 0) = x - x0.
Proof.
  intros H. unfold way, at_xe. replace ((x - x0)² + (0 - 0)² + (0 - 0)²) with ((x - x0)²) by (unfold Rsqr; ring). rewrite sqrt_Rsqr by lra.
  destruct (Req_EM_T _ _); [lra|done].
Qed.
Lemma factor_x c : 0 <= c <= 600 -> feedrate_factor default_settings (fun n => match n with 0%nat => c | _ => 0 end) = 1.
Proof.
  intros Hc. unfold feedrate_factor. cbn. rewrite Rabs_R0, (Rabs_right c) by lra. unfold Rltb.
  destruct (Rlt_dec 600 c), (Rlt_dec 600 0), (Rlt_dec 40 0), (Rlt_dec 25 0); lra.
Qed.

(** With the default machine, a move that extrudes more filament than the head moves is planned with a higher acceleration than the set one. *)
Theorem C48_acceleration_refuted :
  exists b, blocks (plan default_settings (at_xe 1 20) 10 1%nat default_state) = [b] /\ b_acceleration b > acceleration default_state.
Proof.
  assert (Ew : way (at_xe 0 0) (at_xe 1 20) = 1).
  { unfold way, at_xe. replace ((1 - 0)² + (0 - 0)² + (0 - 0)²) with (1²) by (unfold Rsqr; ring). rewrite sqrt_Rsqr by lra. destruct (Req_EM_T _ _); [lra|done]. }
  pose proof (plan_spec default_settings (at_xe 1 20) 10 1%nat default_state default_ok) as H. cbn [currentPosition default_state acceleration max_xy_jerk blocks app] in H.
  rewrite Ew in H. destruct (Req_EM_T 1 0) as [|_]; [lra|]. destruct H as (b & cur & [] & E).
  { cbn. unfold Rmax. destruct (Rle_dec _ _); lra. } { lra. } { lra. }
  exists b. fold default_state in E. rewrite E. split; [done|]. rewrite pb_acceleration0. cbn [acceleration default_state currentPosition]. rewrite Ew.
  unfold limit_acceleration, at_xe. cbn. replace (1 - 0) with 1 by ring. replace (0 - 0) with 0 by ring. replace (20 - 0) with 20 by ring.
  rewrite Rabs_R0, (Rabs_right 1), (Rabs_right 20) by lra. replace (1 / 1) with 1 by field. replace (0 / 1) with 0 by field. replace (20 / 1) with 20 by field.
  unfold Rltb. destruct (Rlt_dec 9000 (3000 * 1)); [lra|]. destruct (Rlt_dec 9000 (3000 * 0)); [lra|]. destruct (Rlt_dec 100 (3000 * 0)); [lra|].
  destruct (Rlt_dec 10000 (3000 * 20)); lra.
Qed.

(** With the default machine, a move slower than the minimum speed of the planner is planned to slow down only after its end. *)
Theorem C48_slow_refuted :
  exists b, blocks (calculate (plan default_settings (at_xe 100 0) (2 / 100) 1%nat default_state)).2 = [b] /\ decelerate_after b > distance b.
Proof.
  pose proof (plan_spec default_settings (at_xe 100 0) (2 / 100) 1%nat default_state default_ok) as H. cbn [currentPosition default_state acceleration max_xy_jerk blocks app] in H.
  rewrite way_x in H by lra. destruct (Req_EM_T (100 - 0) 0) as [|_]; [lra|]. destruct H as (b & cur & Hb & E).
  { cbn. unfold Rmax. destruct (Rle_dec _ _); lra. } { lra. } { lra. }
  fold default_state in E. rewrite E. eexists. split; [done|].
  assert (Ha0 : 0 < acceleration default_state) by (cbn; lra).
  assert (Hw0 : way (currentPosition default_state) (at_xe 100 0) <> 0) by (cbn [currentPosition default_state]; rewrite way_x; lra).
  destruct (planned_block_ok _ _ _ _ _ _ default_ok Ha0 Hw0 Hb) as ((_ & He & _) & _).
  destruct Hb. cbn [currentPosition default_state] in *. rewrite way_x in pb_distance0, pb_acceleration0 by lra.
  assert (Ea : b_acceleration b = 3000).
  { rewrite pb_acceleration0. unfold limit_acceleration, at_xe. cbn. replace (0 - 0) with 0 by ring. replace (100 - 0) with 100 by ring. rewrite Rabs_R0, (Rabs_right 100) by lra.
    replace (100 / 100) with 1 by field. replace (0 / 100) with 0 by field. unfold Rltb.
    destruct (Rlt_dec 9000 (3000 * 1)); [lra|]. destruct (Rlt_dec 9000 (3000 * 0)); [lra|]. destruct (Rlt_dec 100 (3000 * 0)); [lra|]. destruct (Rlt_dec 10000 (3000 * 0)); lra. }
  assert (EN : Rmax (2 / 100) (minimumfeedrate default_settings) = 2 / 100) by (apply Rmax_left; cbn; lra). rewrite EN in pb_nominal0.
  set (N := nominal_feedrate b) in *. set (e := entry_speed b) in *. cbn [planned reversePass reverse_from forwardPass forward_from recalculateTrapezoids].
  unfold calculateTrapezoidForBlock, estimateAccelerationDistance, unflag. fold N e. rewrite Ea, pb_distance0. cbv zeta.
  replace (N * (e / N)) with e by (field; lra). replace (N * (MINIMUM_PLANNER_SPEED / N)) with MINIMUM_PLANNER_SPEED by (field; lra). unfold MINIMUM_PLANNER_SPEED.
  unfold Reqb. destruct (Req_EM_T 3000 0); [lra|]. destruct (Req_EM_T (- (3000)) 0); [lra|]. 
  set (x := (N * N - e * e) / (2 * 3000)). set (y := (5 / 100 * (5 / 100) - N * N) / (2 * - (3000))).
  assert (0 <= x < 1) by (unfold x; split; [apply Rmult_le_pos; [nra|lra]|nra]). assert (Ey : y = - (5 / 100 * (5 / 100) - N * N) / 6000) by (unfold y; field). assert (y < 0) by (rewrite Ey; nra).
  unfold Rltb. destruct (Rlt_dec _ 0); [lra|]. cbn. lra.
Qed.

(** The default machine moves along X, twice in a row with the same speed, and waits. *)
Definition two_moves : list call := [Plan (at_xe 10 0) 50 1%nat; AddTime 2; Plan (at_xe 30 0) 50 2%nat].
Lemma plan_x x0 x v f st : x0 < x -> 1 / 100 <= v <= 600 -> 0 <= max_xy_jerk st -> currentPosition st = at_xe x0 0 ->
  exists b cur, plan default_settings (at_xe x 0) v f st = State (acceleration st) (max_xy_jerk st) (extra_time st) cur v (at_xe x 0) (blocks st ++ [b]) /\
    cur 0%nat = v /\ cur 1%nat = 0 /\ cur 2%nat = 0 /\ cur 3%nat = 0 /\
    (blocks st = [] -> max_entry_speed b = Rmin (max_xy_jerk st / 2) v) /\
    (blocks st <> [] -> previous_feedrate st 0%nat = v -> previous_feedrate st 1%nat = 0 -> previous_feedrate st 2%nat = 0 -> previous_feedrate st 3%nat = 0 ->
       previous_nominal_feedrate st = v -> max_entry_speed b = v).
Proof.
  intros Hx Hv Hj Ep. unfold plan. cbv zeta. rewrite Ep.
  set (d := fun n => at_xe x 0 n - at_xe x0 0 n). 
  assert (D1 : d 1%nat = 0) by (unfold d; cbn; ring). assert (D2 : d 2%nat = 0) by (unfold d; cbn; ring). assert (D3 : d 3%nat = 0) by (unfold d; cbn; ring).
  assert (D0 : d 0%nat = x - x0) by done.
  change (at_xe x 0 0%nat - at_xe x0 0 0%nat) with (d 0%nat). change (at_xe x 0 1%nat - at_xe x0 0 1%nat) with (d 1%nat).
  change (at_xe x 0 2%nat - at_xe x0 0 2%nat) with (d 2%nat). change (at_xe x 0 3%nat - at_xe x0 0 3%nat) with (d 3%nat).
  rewrite D1, D2, D3, D0.
  rewrite (proj2 (Rleb_false _ _)). 2:{ apply Rnot_le_lt. intros H. specialize (proj1 (max_travel_le d) H 0%nat ltac:(lia)). rewrite D0. lra. }
  rewrite (proj2 (Rltb_false v _)) by (cbn; lra). rewrite sq_abs, Rabs_R0. 
  replace ((x - x0) * (x - x0) + 0 * 0 + 0 * 0) with ((x - x0)²) by (unfold Rsqr; ring). rewrite sqrt_Rsqr by lra.
  rewrite (proj2 (Reqb_false (x - x0) 0)) by lra. replace ((x - x0) * v / (x - x0)) with v by (field; lra).
  replace (0 * v / (x - x0)) with 0 by (field; lra).
  assert (Ef : feedrate_factor default_settings (fun n => (at_xe x 0 n - at_xe x0 0 n) * v / (x - x0)) = 1).
  { rewrite <- (factor_x v) by lra. unfold feedrate_factor. cbn [foldl axes]. change (at_xe x 0 0%nat - at_xe x0 0 0%nat) with (d 0%nat). change (at_xe x 0 1%nat - at_xe x0 0 1%nat) with (d 1%nat).
    change (at_xe x 0 2%nat - at_xe x0 0 2%nat) with (d 2%nat). change (at_xe x 0 3%nat - at_xe x0 0 3%nat) with (d 3%nat).
    rewrite D1, D2, D3, D0. replace ((x - x0) * v / (x - x0)) with v by (field; lra). by replace (0 * v / (x - x0)) with 0 by (field; lra). }
  rewrite Ef. rewrite (proj2 (Rltb_false 1 1)) by lra. rewrite Rabs_R0. 
  rewrite (proj2 (Rltb_false (max_z_jerk default_settings / 2) 0)) by (cbn; lra). rewrite (proj2 (Rltb_false (max_e_jerk default_settings / 2) 0)) by (cbn; lra).
  eexists _, _. split; [reflexivity|]. cbv beta.
  change (at_xe x 0 0%nat - at_xe x0 0 0%nat) with (d 0%nat). change (at_xe x 0 1%nat - at_xe x0 0 1%nat) with (d 1%nat).
  change (at_xe x 0 2%nat - at_xe x0 0 2%nat) with (d 2%nat). change (at_xe x 0 3%nat - at_xe x0 0 3%nat) with (d 3%nat).
  rewrite D1, D2, D3, D0. replace ((x - x0) * v / (x - x0)) with v by (field; lra). replace (0 * v / (x - x0)) with 0 by (field; lra).
  split; [done|]. split; [done|]. split; [done|]. split; [done|].
  assert (Em : forall b0 a c, max_entry_speed (calculateTrapezoidForBlock b0 a c) = max_entry_speed b0) by (intros b0 a c; apply (trapezoid_fields b0 a c)).
  rewrite Em. cbn [max_entry_speed]. split; [by intros ->|]. intros Hb P0 P1 P2 P3 P4. rewrite P0, P1, P2, P3, P4.
  rewrite (proj2 (Rltb_true (1 / 10000) v)) by lra. rewrite andb_true_r. destruct (blocks st) as [|b0 l]; [done|].
  replace ((v - v) * (v - v) + (0 - 0) * (0 - 0)) with 0 by ring. replace (0 - 0) with 0 by ring. rewrite sqrt_0, Rabs_R0.
  rewrite (proj2 (Rltb_false (max_xy_jerk st) 0)) by done. rewrite (proj2 (Rltb_false (max_z_jerk default_settings) 0)) by (cbn; lra).
  rewrite (proj2 (Rltb_false (max_e_jerk default_settings) 0)) by (cbn; lra). rewrite Rmult_1_r. apply Rmin_left. lra.
Qed.
Example C48_example :
  settings_ok default_settings /\ Forall (call_ok default_settings) two_moves /\ fresh default_state /\
  length (blocks (run default_settings default_state two_moves)) = 2%nat /\
  Forall (fun b => MINIMUM_PLANNER_SPEED <= max_entry_speed b) (blocks (run default_settings default_state two_moves)) /\
  least_time (minimumfeedrate default_settings) 2%nat (recorded (at_xe 0 0) two_moves) = 20 / 50 /\
  least_time (minimumfeedrate default_settings) NoneType (recorded (at_xe 0 0) two_moves) = 2.
Proof.
  assert (Hm : Rmax 50 (minimumfeedrate default_settings) = 50) by (apply Rmax_left; cbn; lra).
  split; [apply default_ok|]. split. { repeat constructor; cbn [call_ok]; rewrite Hm; lra. } split; [apply default_fresh|].
  unfold run, two_moves. cbn [foldl step].
  destruct (plan_x 0 10 50 1%nat default_state) as (b & cur & -> & C0 & C1 & C2 & C3 & M1 & _); [lra|lra|cbn; lra|done|].
  change (addTime 2 _) with (State 3000 20 (0 + duration 2) cur 50 (at_xe 10 0) [b]).
  destruct (plan_x 10 30 50 2%nat (State 3000 20 (0 + duration 2) cur 50 (at_xe 10 0) [b])) as (b' & cur' & -> & _ & _ & _ & _ & _ & M2); [lra|lra|cbn; lra|done|].
  cbn [blocks app] in M1, M2 |- *. split; [done|]. cbn [previous_feedrate previous_nominal_feedrate] in M2. specialize (M1 eq_refl). specialize (M2 ltac:(done) C0 C1 C2 C3 eq_refl).
  cbn [max_xy_jerk default_state] in M1. split.
  { unfold MINIMUM_PLANNER_SPEED. constructor; [rewrite M1; apply Rmin_glb; lra|]. constructor; [rewrite M2; lra|constructor]. }
  unfold recorded, least_time. cbn [foldl record h_pos h_moves h_extra]. rewrite way_x by lra. destruct (Req_EM_T (10 - 0) 0); [lra|].
  cbn [h_pos h_moves h_extra]. rewrite way_x by lra. destruct (Req_EM_T (30 - 10) 0); [lra|]. cbn [h_pos h_moves h_extra app map sum foldr fst snd]. rewrite Hm.
  assert (H2 : Rmax 0 2 = 2) by (apply Rmax_right; lra). rewrite H2. unfold NoneType. split; repeat (match goal with |- context [decide ?P] => destruct (decide P) as [?|?]; try (exfalso; lia) end); field.
Qed.
Print Assumptions C48_time.
Print Assumptions C48_feasible.
Print Assumptions C48_axes.
