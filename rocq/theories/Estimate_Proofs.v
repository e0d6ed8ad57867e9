(** Lemmas for C48. *)
From Coq Require Import Reals Lra Psatz.
From stdpp Require Import list.
From Verif Require Import Common Estimate_Model Estimate_Spec.
Open Scope R_scope.

Lemma Rltb_true a b : Rltb a b = true <-> a < b.
Proof. unfold Rltb. destruct (Rlt_dec a b); split; try done. Qed.
Lemma Rltb_false a b : Rltb a b = false <-> b <= a.
Proof. unfold Rltb. destruct (Rlt_dec a b); split; try done; lra. Qed.
Lemma Rleb_true a b : Rleb a b = true <-> a <= b.
Proof. unfold Rleb. destruct (Rle_dec a b); split; try done. Qed.
Lemma Rleb_false a b : Rleb a b = false <-> b < a.
Proof. unfold Rleb. destruct (Rle_dec a b); split; try done; lra. Qed.
Lemma Reqb_true a b : Reqb a b = true <-> a = b.
Proof. unfold Reqb. destruct (Req_EM_T a b); split; try done. Qed.
Lemma Reqb_false a b : Reqb a b = false <-> a <> b.
Proof. unfold Reqb. destruct (Req_EM_T a b); split; try done. Qed.
Lemma duration_nonneg t : 0 <= duration t.
Proof. unfold duration. destruct (Rltb 0 t) eqn:E; [apply Rltb_true in E; lra|lra]. Qed.
Lemma duration_ge t : t <= duration t.
Proof. unfold duration. destruct (Rltb 0 t) eqn:E; [lra|apply Rltb_false in E; lra]. Qed.
Lemma duration_eq t : 0 <= t -> duration t = t.
Proof. intros H. unfold duration. destruct (Rltb 0 t) eqn:E; [done|apply Rltb_false in E; lra]. Qed.
Lemma duration_max t : duration t = Rmax 0 t.
Proof.
  unfold duration. destruct (Rltb 0 t) eqn:E.
  - apply Rltb_true in E. rewrite Rmax_right; lra.
  - apply Rltb_false in E. rewrite Rmax_left; lra.
Qed.

Lemma sqrt_sq x : 0 <= x -> R_sqrt.sqrt x * R_sqrt.sqrt x = x.
Proof. apply sqrt_sqrt. Qed.
Lemma sqrt_le_of x y : 0 <= y -> x <= y * y -> R_sqrt.sqrt x <= y.
Proof.
  intros Hy Hx. destruct (Rle_dec 0 x) as [H0|H0].
  - pose proof (sqrt_sq x H0). pose proof (sqrt_pos x). nra.
  - rewrite sqrt_neg_0 by lra. done.
Qed.
Lemma le_sqrt_of x y : 0 <= x -> y * y <= x -> y <= R_sqrt.sqrt x.
Proof. intros H0 Hx. pose proof (sqrt_sq x H0). pose proof (sqrt_pos x). nra. Qed.

(** the time for a part of the way *)
Lemma accel_time v s a N : 0 <= v -> 0 < a -> 0 < N -> (0 < s -> v * v + 2 * a * s <= N * N) ->
  s / N <= duration (accelerationTimeFromDistance v s a).
Proof.
  intros Hv Ha HN Hs. destruct (Rle_dec s 0) as [Hs0|Hs0].
  { pose proof (duration_nonneg (accelerationTimeFromDistance v s a)). assert (s / N <= 0); [|lra].
    unfold Rdiv. assert (0 < / N) by (by apply Rinv_0_lt_compat). nra. }
  assert (Hs1 : 0 < s) by lra. specialize (Hs Hs1). eapply Rle_trans; [|apply duration_ge]. unfold accelerationTimeFromDistance.
  set (x := v * v - 2 * a * - s). assert (Hx : 0 < x) by (unfold x; nra). rewrite Rmax_right by lra.
  pose proof (sqrt_sq x ltac:(lra)) as Hr. pose proof (sqrt_pos x) as Hr0. set (r := R_sqrt.sqrt x) in *.
  assert (HrN : r <= N). { apply sqrt_le_of; [lra|]. unfold x. lra. }
  assert (Hrv : v <= r). { apply le_sqrt_of; [lra|]. unfold x. nra. }
  apply (Rmult_le_reg_r (N * a)); [nra|]. replace (s / N * (N * a)) with (s * a) by (field; lra).
  replace ((- v + r) / a * (N * a)) with ((r - v) * N) by (field; lra).
  unfold x in Hr. nra.
Qed.

Section trapezoid.
  Variables (b : block) (vi vf : R).
  Hypothesis HN : 0 < nominal_feedrate b.
  Hypothesis Ha : 0 < b_acceleration b.
  Hypothesis HD : 0 < distance b.
  Hypothesis Hvi : 0 <= vi <= nominal_feedrate b.
  Hypothesis Hvf : 0 <= vf.
  Let t := calculateTrapezoidForBlock b (vi / nominal_feedrate b) (vf / nominal_feedrate b).

  Lemma trapezoid_time : distance b / nominal_feedrate b <= block_time t.
  Proof.
    unfold t, block_time, calculateTrapezoidForBlock. set (N := nominal_feedrate b) in *. set (a := b_acceleration b) in *. set (D := distance b) in *.
    replace (N * (vi / N)) with vi by (field; lra). replace (N * (vf / N)) with vf by (field; lra).
    unfold estimateAccelerationDistance. rewrite (proj2 (Reqb_false a 0)), (proj2 (Reqb_false (- a) 0)) by lra. cbv zeta.
    set (acc := (N * N - vi * vi) / (2 * a)). set (dec := (vf * vf - N * N) / (2 * - a)).
    assert (Eacc : 2 * a * acc = N * N - vi * vi) by (unfold acc; field; lra).
    assert (Edec : 2 * a * dec = N * N - vf * vf) by (unfold dec; field; lra). clearbody acc dec.
    destruct (Rltb (D - acc - dec) 0) eqn:E.
    - apply Rltb_true in E. unfold intersectionDistance. rewrite (proj2 (Reqb_false a 0)) by lra.
      set (i := (2 * a * D - vi * vi + vf * vf) / (4 * a)). assert (Ei : 4 * a * i = 2 * a * D - vi * vi + vf * vf) by (unfold i; field; lra). clearbody i.
      cbn [initial_feedrate accelerate_until decelerate_after b_acceleration nominal_feedrate distance final_feedrate]. fold N a D.
      set (s := Rmin (Rmax i 0) D).
      assert (Hs : (s = i /\ 0 <= i <= D) \/ (s = 0 /\ i < 0) \/ (s = D /\ D < i)).
      { unfold s, Rmin, Rmax. destruct (Rle_dec i 0), (Rle_dec _ D); lra. }
      clearbody s.
      assert (H1 : s / N <= duration (accelerationTimeFromDistance vi s a)).
      { apply accel_time; try lra. intros Hs0. destruct Hs as [[-> Hi]|[[-> Hi]|[-> Hi]]]; nra. }
      assert (H2 : (D - (s + 0)) / N <= duration (accelerationTimeFromDistance vf (D - (s + 0)) a)).
      { apply accel_time; try lra. intros Hs0. destruct Hs as [[-> Hi]|[[-> Hi]|[-> Hi]]]; nra. }
      pose proof (duration_nonneg ((s + 0 - s) / N)). replace (D / N) with (s / N + (D - (s + 0)) / N) by (field; lra). lra.
    - apply Rltb_false in E.
      cbn [initial_feedrate accelerate_until decelerate_after b_acceleration nominal_feedrate distance final_feedrate]. fold N a D.
      assert (H1 : acc / N <= duration (accelerationTimeFromDistance vi acc a)) by (apply accel_time; nra).
      assert (H2 : (D - (acc + (D - acc - dec))) / N <= duration (accelerationTimeFromDistance vf (D - (acc + (D - acc - dec))) a)).
      { replace (D - (acc + (D - acc - dec))) with dec by ring. apply accel_time; nra. }
      pose proof (duration_ge ((acc + (D - acc - dec) - acc) / N)).
      replace (D / N) with (acc / N + (acc + (D - acc - dec) - acc) / N + (D - (acc + (D - acc - dec))) / N) by (field; lra). lra.
  Qed.

  Hypothesis Hvf2 : vf <= nominal_feedrate b.
  Hypothesis Hbrake : vi * vi <= vf * vf + 2 * b_acceleration b * distance b.
  Hypothesis Haccel : vf * vf <= vi * vi + 2 * b_acceleration b * distance b.
  Lemma trapezoid_runs : exists peak, runs t peak /\ block_time t = running_time t peak.
  Proof.
    unfold t, block_time, running_time, runs, calculateTrapezoidForBlock, Rsqr. set (N := nominal_feedrate b) in *. set (a := b_acceleration b) in *. set (D := distance b) in *.
    replace (N * (vi / N)) with vi by (field; lra). replace (N * (vf / N)) with vf by (field; lra).
    unfold estimateAccelerationDistance. rewrite (proj2 (Reqb_false a 0)), (proj2 (Reqb_false (- a) 0)) by lra. cbv zeta.
    set (acc := (N * N - vi * vi) / (2 * a)). set (dec := (vf * vf - N * N) / (2 * - a)).
    assert (Eacc : 2 * a * acc = N * N - vi * vi) by (unfold acc; field; lra).
    assert (Edec : 2 * a * dec = N * N - vf * vf) by (unfold dec; field; lra). clearbody acc dec.
    assert (Htime : forall v s peak, 0 <= v <= peak -> peak * peak = v * v + 2 * a * s -> 
      duration (accelerationTimeFromDistance v s a) = (peak - v) / a).
    { intros v s peak Hv Hp. unfold accelerationTimeFromDistance. replace (v * v - 2 * a * - s) with (peak * peak) by lra.
      rewrite Rmax_right by nra. rewrite sqrt_square by lra. replace ((- v + peak) / a) with ((peak - v) / a) by (field; lra).
      apply duration_eq. unfold Rdiv. assert (0 < / a) by (by apply Rinv_0_lt_compat). nra. }
    assert (Hplat : forall x, 0 <= x -> duration (x / N) = x / N).
    { intros x Hx. apply duration_eq. unfold Rdiv. assert (0 < / N) by (by apply Rinv_0_lt_compat). nra. }
    destruct (Rltb (D - acc - dec) 0) eqn:E.
    - apply Rltb_true in E. unfold intersectionDistance. rewrite (proj2 (Reqb_false a 0)) by lra.
      set (i := (2 * a * D - vi * vi + vf * vf) / (4 * a)). assert (Ei : 4 * a * i = 2 * a * D - vi * vi + vf * vf) by (unfold i; field; lra). clearbody i.
      cbn [initial_feedrate accelerate_until decelerate_after b_acceleration nominal_feedrate distance final_feedrate]. fold N a D.
      assert (Hi : 0 <= i <= D) by nra. rewrite Rmax_left, Rmin_left by lra.
      exists (R_sqrt.sqrt (vi * vi + 2 * a * i)). set (x := vi * vi + 2 * a * i). assert (Hx : 0 <= x) by (unfold x; nra).
      pose proof (sqrt_sq x Hx) as Hp. set (p := R_sqrt.sqrt x) in *. assert (Hp1 : vi <= p) by (apply le_sqrt_of; [done|unfold x; nra]).
      assert (Hp2 : vf <= p) by (apply le_sqrt_of; [done|unfold x; nra]). assert (Hp3 : p <= N) by (apply sqrt_le_of; [lra|unfold x; nra]).
      split; [|f_equal; [f_equal|]].
      + split_and!; try lra; unfold x in Hp; lra.
      + apply Htime; [lra|]. unfold x in Hp. lra.
      + apply Hplat. lra.
      + apply Htime; [lra|]. unfold x in Hp. lra.
    - apply Rltb_false in E.
      cbn [initial_feedrate accelerate_until decelerate_after b_acceleration nominal_feedrate distance final_feedrate]. fold N a D.
      assert (Hacc : 0 <= acc) by nra. assert (Hdec : 0 <= dec) by nra.
      exists N. split; [|f_equal; [f_equal|]].
      + split_and!; try lra.
      + apply Htime; lra.
      + apply Hplat. lra.
      + apply Htime; [lra|]. lra.
  Qed.
End trapezoid.

(** *** the passes *)
(** the fields that the passes do not change *)
Definition same (b b' : block) : Prop :=
  max_entry_speed b' = max_entry_speed b /\ nominal_length_flag b' = nominal_length_flag b /\ nominal_feedrate b' = nominal_feedrate b /\
  distance b' = distance b /\ b_acceleration b' = b_acceleration b /\ feature b' = feature b.
Lemma same_refl b : same b b. Proof. done. Qed.
Definition sane (b : block) : Prop :=
  0 < distance b /\ 0 < b_acceleration b /\ 0 < nominal_feedrate b /\ 0 <= max_entry_speed b <= nominal_feedrate b.
Definition sane_entry (b : block) : Prop := sane b /\ 0 <= entry_speed b <= max_entry_speed b /\ recalculate_flag b = true.
Lemma allowable b v : sane b -> maxAllowableSpeed (- b_acceleration b) v (distance b) * maxAllowableSpeed (- b_acceleration b) v (distance b) =
  v * v + 2 * b_acceleration b * distance b /\ 0 <= maxAllowableSpeed (- b_acceleration b) v (distance b).
Proof.
  intros (H1 & H2 & _). unfold maxAllowableSpeed. split; [|apply sqrt_pos]. rewrite sqrt_sq; [ring|nra].
Qed.

Lemma reverse_kernel_sane b n : sane_entry b -> sane_entry n -> sane_entry (plannerReversePassKernel b n) /\ same b (plannerReversePassKernel b n).
Proof.
  intros (Hs & He & Hf) (Hs' & He' & Hf'). unfold plannerReversePassKernel.
  pose proof (allowable b (entry_speed n) Hs) as [_ Ha]. set (v := maxAllowableSpeed _ _ _) in *.
  destruct (Reqb _ _); [done|]. destruct (negb _ && _); (split; [|done]); (split; [done|]; split; [|done]); cbn [entry_speed max_entry_speed set_entry]; [|lra].
  unfold Rmin. destruct (Rle_dec _ _); lra.
Qed.
Lemma forward_kernel_sane b n : sane_entry b -> sane_entry n -> sane_entry (plannerForwardPassKernel b n) /\ same n (plannerForwardPassKernel b n).
Proof.
  intros (Hs & He & Hf) (Hs' & He' & Hf'). unfold plannerForwardPassKernel.
  pose proof (allowable b (entry_speed b) Hs) as [_ Ha]. set (v := maxAllowableSpeed _ _ _) in *. cbv zeta.
  destruct (nominal_length_flag b); [done|]. destruct (Rltb _ _); [|done]. destruct (Reqb _ _); [done|].
  split; [|done]. split; [done|]. split; [|done]. cbn [entry_speed max_entry_speed set_entry]. unfold Rmin. destruct (Rle_dec _ _); lra.
Qed.
Lemma reverse_from_sane l : Forall sane_entry l -> Forall sane_entry (reverse_from l) /\ Forall2 same l (reverse_from l).
Proof.
  induction l as [|b l IH]; intros H; [by split; constructor|]. apply Forall_cons in H as [Hb H]. destruct (IH H) as [I1 I2]. simpl.
  destruct (reverse_from l) as [|n r].
  - apply Forall2_nil_inv_r in I2 as ->. split; constructor; try done.
  - apply Forall_cons in I1 as [In I1]. destruct (reverse_kernel_sane b n Hb In). split; constructor; try done. by constructor.
Qed.
Lemma forward_from_sane l : forall b, sane_entry b -> Forall sane_entry l -> Forall sane_entry (forward_from b l) /\ Forall2 same l (forward_from b l).
Proof.
  induction l as [|c l IH]; intros b Hb H; [by split; constructor|]. apply Forall_cons in H as [Hc H]. simpl.
  destruct (forward_kernel_sane b c Hb Hc) as [H1 H2]. destruct (IH _ H1 H) as [I1 I2]. split; constructor; done.
Qed.
Lemma same_trans a b c : same a b -> same b c -> same a c.
Proof. unfold same. intros (?&?&?&?&?&?) (?&?&?&?&?&?). split_and!; congruence. Qed.
Lemma passes_sane l : Forall sane_entry l -> Forall sane_entry (forwardPass (reversePass l)) /\ Forall2 same l (forwardPass (reversePass l)).
Proof.
  destruct l as [|b l]; intros H; [by split; constructor|]. apply Forall_cons in H as [Hb H]. simpl.
  destruct (reverse_from_sane l H) as [R1 R2]. destruct (forward_from_sane _ b Hb R1) as [F1 F2].
  split; constructor; try done. clear -R2 F2. revert F2. generalize (forward_from b (reverse_from l)) as r. revert R2. generalize (reverse_from l) as m.
  induction l as [|x l IH]; intros m R2 r F2.
  - apply Forall2_nil_inv_l in R2 as ->. apply Forall2_nil_inv_l in F2 as ->. constructor.
  - apply Forall2_cons_inv_l in R2 as (y & m' & Hxy & R2 & ->). apply Forall2_cons_inv_l in F2 as (z & r' & Hyz & F2 & ->).
    constructor; [by eapply same_trans|]. by eapply IH.
Qed.

(** the block with its final trapezoid *)
Definition exit_of (l : list block) : R := match l with [] => MINIMUM_PLANNER_SPEED | n :: _ => entry_speed n end.
Definition final_block (b : block) (rest : list block) : block :=
  unflag (calculateTrapezoidForBlock b (entry_speed b / nominal_feedrate b) (exit_of rest / nominal_feedrate b)).
Lemma recalculate_cons b l : recalculate_flag b = true -> recalculateTrapezoids (b :: l) = final_block b l :: recalculateTrapezoids l.
Proof. intros H. destruct l as [|n l]; [done|]. cbn [recalculateTrapezoids]. by rewrite H. Qed.
Lemma MIN_pos : 0 < MINIMUM_PLANNER_SPEED.
Proof. unfold MINIMUM_PLANNER_SPEED. lra. Qed.
Lemma exit_nonneg l : Forall sane_entry l -> 0 <= exit_of l.
Proof. destruct l as [|n l]; intros H; simpl; [pose proof MIN_pos; lra|]. apply Forall_cons in H as [(_ & H & _) _]. lra. Qed.
Lemma unflag_time b : block_time (unflag b) = block_time b. Proof. done. Qed.
Lemma trapezoid_fields b x y : let t := calculateTrapezoidForBlock b x y in same b t /\ entry_speed t = entry_speed b /\
  initial_feedrate t = nominal_feedrate b * x /\ final_feedrate t = nominal_feedrate b * y.
Proof. unfold calculateTrapezoidForBlock. cbv zeta. by destruct (if Rltb _ _ then _ else _). Qed.
Lemma final_same b l : same b (final_block b l).
Proof. apply (trapezoid_fields b). Qed.

Lemma recalculate_time l : Forall sane_entry l -> Forall2 (fun b t => feature t = feature b /\ distance b / nominal_feedrate b <= block_time t) l (recalculateTrapezoids l).
Proof.
  induction l as [|b l IH]; intros H; [constructor|]. apply Forall_cons in H as [Hb H]. rewrite recalculate_cons by apply Hb.
  constructor; [|by apply IH]. split; [by apply final_same|]. unfold final_block. rewrite unflag_time.
  destruct Hb as ((H1 & H2 & H3 & H4) & He & _). apply trapezoid_time; try done; [lra|]. by apply exit_nonneg.
Qed.
Lemma planned_time l : Forall sane_entry l -> Forall2 (fun b t => feature t = feature b /\ distance b / nominal_feedrate b <= block_time t) l (planned l).
Proof.
  intros H. destruct (passes_sane l H) as [H1 H2]. unfold planned. pose proof (recalculate_time _ H1) as H3.
  revert H2 H3. generalize (forwardPass (reversePass l)) as m. intros m. generalize (recalculateTrapezoids m) as r. clear H H1. 
  revert l. induction m as [|y m IH]; intros l r H2 H3.
  - apply Forall2_nil_inv_r in H2 as ->. apply Forall2_nil_inv_l in H3 as ->. constructor.
  - apply Forall2_cons_inv_r in H2 as (x & l' & Hx & H2 & ->). apply Forall2_cons_inv_l in H3 as (z & r' & [Hz1 Hz2] & H3 & ->).
    constructor; [|by apply IH]. destruct Hx as (_ & _ & E1 & E2 & _ & E3). rewrite <- E1, <- E2. split; [congruence|done].
Qed.

(** *** feasible speeds *)
Definition can_stop (b : block) : Prop :=
  entry_speed b * entry_speed b <= MINIMUM_PLANNER_SPEED * MINIMUM_PLANNER_SPEED + 2 * b_acceleration b * distance b.
Definition nominal_flag_ok (b : block) : Prop := nominal_length_flag b = true ->
  nominal_feedrate b * nominal_feedrate b <= MINIMUM_PLANNER_SPEED * MINIMUM_PLANNER_SPEED + 2 * b_acceleration b * distance b.
Definition quick (b : block) : Prop := MINIMUM_PLANNER_SPEED <= entry_speed b /\ MINIMUM_PLANNER_SPEED <= max_entry_speed b.
Definition can_brake (b n : block) : Prop :=
  entry_speed b * entry_speed b <= entry_speed n * entry_speed n + 2 * b_acceleration b * distance b.
Definition can_speed_up (b n : block) : Prop :=
  entry_speed n * entry_speed n <= entry_speed b * entry_speed b + 2 * b_acceleration b * distance b.
Fixpoint adjacent (Q : block -> block -> Prop) (l : list block) : Prop :=
  match l with
  | [] => True
  | b :: l' => (match l' with [] => True | n :: _ => Q b n end) /\ adjacent Q l'
  end.
Definition good (b : block) : Prop := sane_entry b /\ quick b /\ nominal_flag_ok b.
Definition slower_next (b n : block) : Prop := max_entry_speed n <= nominal_feedrate b.

Lemma good_same b b' : good b -> same b b' -> sane_entry b' -> quick b' -> good b'.
Proof. 
  intros (_ & _ & H) (E1 & E2 & E3 & E4 & E5 & _) Hs Hq. split; [done|]. split; [done|]. unfold nominal_flag_ok in *. by rewrite E2, E3, E4, E5. 
Qed.
Lemma reverse_kernel_good b n : good b -> can_stop b -> good n -> 
  let b' := plannerReversePassKernel b n in good b' /\ can_brake b' n.
Proof.
  intros Hgb Hcs (Hn & Hqn & _) b'. pose proof Hgb as (Hb & (Hq1 & Hq2) & Hfl). destruct (reverse_kernel_sane b n Hb Hn) as [H1 H2]. fold b' in H1, H2.
  pose proof Hb as (Hs & He & _). destruct (allowable b (entry_speed n) Hs) as [Ha1 Ha2]. destruct Hqn as [Hqn _]. pose proof MIN_pos as HM.
  assert (H : MINIMUM_PLANNER_SPEED <= entry_speed b' /\ can_brake b' n).
  { unfold b', can_brake, plannerReversePassKernel, can_stop, nominal_flag_ok in *. destruct Hs as (Hd & Hacc & Hnom & Hmax).
    destruct (Reqb _ _) eqn:E; [split; [done|]; nra|].
    destruct (negb (nominal_length_flag b) && _) eqn:E2; cbn [entry_speed set_entry b_acceleration distance].
    - set (v := maxAllowableSpeed _ _ _) in *. unfold Rmin. destruct (Rle_dec _ _); split; nra.
    - split; [done|]. apply andb_false_iff in E2 as [E2|E2].
      + apply negb_false_iff in E2. specialize (Hfl E2). nra.
      + apply Rltb_false in E2. nra. }
  split; [|apply H]. eapply good_same; [exact Hgb|done|done|]. split; [apply H|]. destruct H2 as (-> & _). done.
Qed.
Lemma forward_kernel_good b n : good b -> good n -> slower_next b n -> can_brake b n ->
  let n' := plannerForwardPassKernel b n in good n' /\ can_brake b n' /\ can_speed_up b n' /\ entry_speed n' <= entry_speed n.
Proof.
  intros (Hb & Hqb & Hfl) Hgn Hsl Hbr n'. pose proof Hgn as (Hn & (Hq1 & Hq2) & Hfn). destruct (forward_kernel_sane b n Hb Hn) as [H1 H2]. fold n' in H1, H2.
  pose proof Hb as (Hs & He & _). destruct (allowable b (entry_speed b) Hs) as [Ha1 Ha2]. destruct Hqb as [Hqb _]. pose proof MIN_pos as HM.
  destruct Hn as (Hsn & Hen & _).
  assert (H : MINIMUM_PLANNER_SPEED <= entry_speed n' /\ can_brake b n' /\ can_speed_up b n' /\ entry_speed n' <= entry_speed n).
  { unfold n', can_brake, can_speed_up, slower_next, plannerForwardPassKernel, nominal_flag_ok in *. destruct Hs as (Hd & Hacc & Hnom & Hmax). cbv zeta.
    destruct (nominal_length_flag b).
    - specialize (Hfl eq_refl). split; [done|]. split; [done|]. split; [|lra]. nra.
    - destruct (Rltb _ _) eqn:E.
      + apply Rltb_true in E. set (v := maxAllowableSpeed _ _ _) in *.
        assert (Hv : entry_speed b <= v) by nra.
        destruct (Reqb _ _) eqn:E2.
        * apply Reqb_true in E2. split; [done|]. split; [done|]. split; [|lra]. 
          assert (entry_speed n <= v) by (rewrite E2; apply Rmin_r). nra.
        * cbn [entry_speed set_entry]. unfold Rmin. destruct (Rle_dec _ _); split_and!; nra.
      + apply Rltb_false in E. split; [done|]. split; [done|]. split; [|lra]. nra. }
  split; [|apply H]. eapply good_same; [exact Hgn|done|done|]. split; [apply H|]. destruct H2 as (-> & _). done.
Qed.

Lemma reverse_from_good l : Forall good l -> Forall can_stop l -> 
  Forall good (reverse_from l) /\ adjacent can_brake (reverse_from l) /\ Forall2 same l (reverse_from l) /\
  (forall b, last (reverse_from l) = Some b -> can_stop b).
Proof.
  induction l as [|b l IH]; intros Hg Hc; [by split_and!; try constructor|]. apply Forall_cons in Hg as [Hb Hg]. apply Forall_cons in Hc as [Hcb Hc].
  destruct (IH Hg Hc) as (I1 & I2 & I3 & I4). simpl. destruct (reverse_from l) as [|n r] eqn:Er.
  - apply Forall2_nil_inv_r in I3 as ->. split; [by constructor|]. split; [done|]. split; [by repeat constructor|]. intros x [= <-]. done.
  - pose proof I1 as I1'. apply Forall_cons in I1' as [In _]. destruct (reverse_kernel_good b n Hb Hcb In) as [G1 G2].
    split; [by constructor|]. split; [done|]. split; [|by intros x Hx; apply I4].
    constructor; [|done]. apply reverse_kernel_sane; [apply Hb|apply In].
Qed.
Definition brake_all (l : list block) : Prop := adjacent can_brake l /\ forall b, last l = Some b -> can_stop b.
Lemma brake_all_lower l n n' : brake_all (n :: l) -> same n n' -> 0 <= entry_speed n' <= entry_speed n -> brake_all (n' :: l).
Proof.
  intros [H1 H2] (_ & _ & _ & E1 & E2 & _) Hle. split.
  - destruct l as [|m l]; [done|]. destruct H1 as [H1 H3]. split; [|done]. unfold can_brake in *. rewrite E1, E2. nra.
  - intros b. destruct l as [|m l]; simpl; [|by apply (H2 b)]. intros [= <-]. specialize (H2 n eq_refl). unfold can_stop in *. rewrite E1, E2. nra.
Qed.
Lemma forward_from_good l : forall b, good b -> Forall good l -> adjacent slower_next (b :: l) -> brake_all (b :: l) ->
  let r := b :: forward_from b l in Forall good r /\ brake_all r /\ adjacent can_speed_up r /\ adjacent slower_next r.
Proof.
  induction l as [|n l IH]; intros b Hb Hl Hsl Hbr.
  - simpl. split; [by constructor|]. done.
  - apply Forall_cons in Hl as [Hn Hl]. destruct Hsl as [Hsl1 Hsl]. destruct Hbr as [[Hbr1 Hbr] Hst].
    destruct (forward_kernel_good b n Hb Hn Hsl1 Hbr1) as (G1 & G2 & G3 & G4). 
    destruct (forward_kernel_sane b n) as [_ Hsame]; [apply Hb|apply Hn|].
    cbn [forward_from]. set (n' := plannerForwardPassKernel b n) in *.
    assert (Hbr' : brake_all (n' :: l)). { eapply brake_all_lower; [|exact Hsame|]. - split; [done|]. intros x. by apply (Hst x). - split; [|done]. apply G1. }
    assert (Hsl' : adjacent slower_next (n' :: l)).
    { destruct Hsl as [Hs1 Hs2]. split; [|done]. destruct l as [|m l]; [done|]. unfold slower_next in *. by destruct Hsame as (_ & _ & -> & _). }
    destruct (IH n' G1 Hl Hsl' Hbr') as (I1 & I2 & I3 & I4). cbv zeta in *.
    split; [by constructor|]. split. { split; [split; [done|apply I2]|]. intros x. by apply I2. }
    split; [done|]. split; [|done]. unfold slower_next in *. destruct Hsame as (-> & _). done.
Qed.

Lemma adjacent_same (Q : block -> block -> Prop) l l' : (forall a b a' b', same a a' -> same b b' -> Q a b -> Q a' b') -> Forall2 same l l' -> adjacent Q l -> adjacent Q l'.
Proof.
  intros HQ H. induction H as [|a a' l l' Ha H IH]; [done|]. intros [H1 H2]. split; [|by apply IH]. destruct H as [|b b' l l' Hb H]; [done|]. by eapply HQ.
Qed.
Lemma passes_good l : Forall good l -> Forall can_stop l -> adjacent slower_next l ->
  let r := forwardPass (reversePass l) in Forall good r /\ brake_all r /\ adjacent can_speed_up r /\ adjacent slower_next r.
Proof.
  destruct l as [|b l]; intros Hg Hc Hsl; [by split_and!; try constructor|].
  apply Forall_cons in Hg as [Hb Hg]. apply Forall_cons in Hc as [Hcb Hc]. simpl.
  destruct (reverse_from_good l Hg Hc) as (I1 & I2 & I3 & I4). apply forward_from_good; try done.
  - eapply adjacent_same; [|constructor; [apply same_refl|exact I3]|exact Hsl]. 
    intros a0 b0 a1 b1 (_ & _ & E1 & _) (E2 & _) H. unfold slower_next in *. by rewrite E1, E2.
  - split.
    + split; [|done]. destruct (reverse_from l) as [|n r]; [done|]. apply Forall_cons in I1 as [(_ & [In _] & _) _].
      unfold can_stop, can_brake in *. pose proof MIN_pos. nra.
    + intros x. destruct (reverse_from l) as [|n r]; simpl; [by intros [= <-]|]. by apply I4.
Qed.

Lemma recalculate_runs l : Forall good l -> brake_all l -> adjacent can_speed_up l -> adjacent slower_next l ->
  Forall (fun t => exists peak, runs t peak /\ block_time t = running_time t peak) (recalculateTrapezoids l) /\ joined (recalculateTrapezoids l) /\
  (forall t, head (recalculateTrapezoids l) = Some t -> exists b, head l = Some b /\ initial_feedrate t = entry_speed b) /\
  (forall t, last (recalculateTrapezoids l) = Some t -> final_feedrate t = MINIMUM_PLANNER_SPEED).
Proof.
  induction l as [|b l IH]; intros Hg Hbr Hsp Hsl; [by split_and!; try constructor|].
  apply Forall_cons in Hg as [Hb Hg]. pose proof Hb as ((Hs & He & Hf) & Hq & Hfl). rewrite recalculate_cons by done.
  assert (Hbr' : brake_all l). { destruct Hbr as [[_ H1] H2]. split; [done|]. intros x Hx. apply H2. destruct l as [|n l]; [done|]. done. }
  destruct Hsp as [Hsp1 Hsp]. destruct Hsl as [Hsl1 Hsl]. destruct (IH Hg Hbr' Hsp Hsl) as (I1 & I2 & I3 & I4).
  pose proof Hs as (Hd & Hacc & Hnom & Hmax). pose proof MIN_pos as HM.
  assert (Hex : 0 <= exit_of l). { apply exit_nonneg. eapply Forall_impl; [exact Hg|]. by intros x []. }
  destruct (trapezoid_fields b (entry_speed b / nominal_feedrate b) (exit_of l / nominal_feedrate b)) as (_ & _ & Ei & Ef).
  assert (Ei' : initial_feedrate (final_block b l) = entry_speed b).
  { unfold final_block, unflag. cbn [initial_feedrate]. rewrite Ei. field. lra. }
  assert (Ef' : final_feedrate (final_block b l) = exit_of l).
  { unfold final_block, unflag. cbn [final_feedrate]. rewrite Ef. field. lra. }
  split.
  { constructor; [|done]. unfold final_block.
    assert (Hle : exit_of l <= nominal_feedrate b).
    { destruct l as [|n l]; simpl; [destruct Hq; lra|]. unfold slower_next in Hsl1. apply Forall_cons in Hg as [((_ & Hn & _) & _) _]. lra. }
    destruct (trapezoid_runs b (entry_speed b) (exit_of l)) as (peak & Hr & Ht); try done; try lra.
    - destruct l as [|n l]; simpl; [apply Hbr; done|]. by destruct Hbr as [[Hbr _] _].
    - destruct l as [|n l]; simpl; [|done]. destruct Hq as [Hq _]. nra.
    - exists peak. done. }
  split.
  { intros i x y. destruct i as [|i].
    - simpl. intros [= <-] Hy. rewrite Ef'. destruct l as [|n l]; [done|]. destruct (I3 y) as (b' & [= <-] & ->); [|done]. by rewrite head_lookup.
    - simpl. apply I2. }
  split. { intros t [= <-]. exists b. done. }
  intros t Ht. destruct l as [|n l]; [injection Ht as <-; by rewrite Ef'|]. apply I4. 
  apply Forall_cons in Hg as [((_ & _ & Hn) & _) _]. rewrite recalculate_cons in Ht |- * by done. done.
Qed.
