(** C46. *)
From Coq Require Import ZArith QArith Qround Qminmax Lqa String.
From stdpp Require Import list list_numbers.
From Verif Require Import Progress_Model Progress_Spec.
Local Open Scope Q_scope.

Lemma qle_spec a b : reflect (a <= b) (Qle_bool a b).
Proof.
  destruct (Qle_bool a b) eqn:E; constructor; [by apply Qle_bool_iff|]. intros H. apply Qle_bool_iff in H. congruence.
Qed.

(** The part of its stage that a report is at. *)
Definition part (q : Q) : Q := if Qle_bool 0 q then if Qle_bool q 1 then q else 1 else 0.
Definition whole (s : nat) (q : Q) : Q := (accumulated_time s + q * stage_time s) / total_timing.

Lemma part_bound q : 0 <= part q <= 1.
Proof. unfold part. destruct (qle_spec 0 q), (qle_spec q 1); lra. Qed.
Lemma part_id q : 0 <= q <= 1 -> part q = q.
Proof. intros H. unfold part. destruct (qle_spec 0 q), (qle_spec q 1); try done; lra. Qed.
Lemma part_mono a b : a <= b -> part a <= part b.
Proof. intros H. unfold part. destruct (qle_spec 0 a), (qle_spec a 1), (qle_spec 0 b), (qle_spec b 1); lra. Qed.

Lemma total_pos : 0 < total_timing.
Proof. reflexivity. Qed.
Lemma whole_mono s a b : a <= b -> whole s a <= whole s b.
Proof.
  intros H. unfold whole. apply Qmult_le_compat_r; [|apply Qlt_le_weak, Qinv_lt_0_compat, total_pos].
  assert (0 <= stage_time s). { unfold stage_time. do 8 (destruct s as [|s]; [vm_compute; discriminate|]). cbn. destruct s; lra. }
  nra.
Qed.
Lemma whole_next s s' a b : (s < s' < 8)%nat -> a <= 1 -> 0 <= b -> whole s a <= whole s' b.
Proof.
  intros Hs Ha Hb. eapply Qle_trans; [apply (whole_mono s a 1 Ha)|]. eapply Qle_trans; [|apply (whole_mono s' 0 b Hb)].
  assert (Hall : forallb (fun s' => forallb (fun s => Qle_bool (whole s 1) (whole s' 0)) (seq 0 s')) (seq 0 8) = true) by (vm_compute; reflexivity).
  rewrite forallb_forall in Hall. specialize (Hall s' ltac:(apply in_seq; lia)). rewrite forallb_forall in Hall.
  apply Qle_bool_iff, Hall, in_seq. lia.
Qed.

(** The value that a report sends. *)
Lemma sent_ok r : (max r <> 0)%Z -> sent r = Some (whole (stage r) (part (inject_Z (progress r) / inject_Z (max r)))).
Proof. intros H. unfold sent, overall, divide. destruct (Z.eqb_spec (max r) 0); [done|]. done. Qed.

(** Whatever is reported, as long as it is not zero out of zero, the progress sent is between 0 and 1. *)
Theorem C46_bounded r : (stage r < 8)%nat -> (progress r <> 0 \/ max r <> 0)%Z -> exists q, sent r = Some q /\ 0 <= q <= 1.
Proof.
  intros Hs Hz. assert (exists p, 0 <= p <= 1 /\ sent r = Some (whole (stage r) p)) as (p & Hp & E).
  { destruct (decide (max r = 0)%Z) as [E|E].
    - unfold sent, overall, divide. rewrite E. cbn. destruct (Z.ltb_spec 0 (progress r)); [by exists 1|].
      destruct (Z.ltb_spec (progress r) 0); [by exists 0|lia].
    - rewrite sent_ok by done. eexists. split; [apply part_bound|done]. }
  rewrite E. eexists. split; [done|]. split.
  - apply (Qle_trans _ (whole 0 0)); [vm_compute; discriminate|]. destruct (decide (stage r = 0)%nat) as [-> |]; [apply whole_mono; lra|].
    apply whole_next; [lia|lra|lra].
  - apply (Qle_trans _ (whole 7 1)); [|vm_compute; discriminate]. destruct (decide (stage r = 7)%nat) as [-> |]; [apply whole_mono; lra|].
    apply whole_next; [lia|lra|lra].
Qed.

(** ** Estimators *)

Lemma fold_plus ts a : fold_left Qplus ts a == a + fold_left Qplus ts 0.
Proof.
  revert a. induction ts as [|t ts IH]; intros a; cbn; [lra|]. rewrite (IH (a + t)), (IH (0 + t)). ring.
Qed.

(** The estimator of [n] meshes in its [k]th stage. *)
Definition at_mesh (n k : nat) (e : estimator) : Prop :=
  stages e = replicate n 1 /\ total_estimated e == inject_Z (Z.of_nat n) /\
  current e = (Z.of_nat k - 1)%Z /\ accumulated e == inject_Z (Z.max 0 (Z.of_nat k - 1)).

Lemma at_start n : at_mesh n 0 (new_estimator (replicate n 1)).
Proof.
  split_and!; [done| |done|done]. cbn. induction n as [|n IH]; [done|]. cbn [replicate fold_left]. rewrite fold_plus, IH.
  rewrite Nat2Z.inj_succ. unfold Z.succ. rewrite inject_Z_plus. change (inject_Z 1) with 1. ring.
Qed.
Lemma at_next n k e : (k < n)%nat -> at_mesh n k e -> at_mesh n (S k) (next_stage e).
Proof.
  intros Hk (H1 & H2 & H3 & H4). unfold next_stage. rewrite H1, H3, replicate_length.
  destruct (Z.leb_spec (Z.of_nat n - 1) (Z.of_nat k - 1)) as [|_]; [lia|].
  split_and!; [done|done|cbn; lia|]. cbn [accumulated]. destruct (Z.leb_spec 0 (Z.of_nat k - 1)).
  - rewrite H4. assert (E : nth (Z.to_nat (Z.of_nat k - 1)) (replicate n 1) 0 = 1).
    { assert (G : forall m j, (j < m)%nat -> nth j (replicate m 1) 0 = 1).
      { induction m as [|m IH]; intros [|j] Hj; try lia; [done|]. cbn. apply IH. lia. }
      apply G. lia. }
    rewrite E. rewrite !Z.max_r by lia. replace (Z.of_nat (S k) - 1)%Z with (Z.of_nat k - 1 + 1)%Z by lia.
    rewrite inject_Z_plus. change (inject_Z 1) with 1. ring.
  - rewrite H4. by rewrite !Z.max_l by lia.
Qed.
Lemma at_estimate n k e p : (k < n)%nat -> at_mesh n (S k) e -> estimate e p == (inject_Z (Z.of_nat k) + p) / inject_Z (Z.of_nat n).
Proof.
  intros Hk (H1 & H2 & H3 & H4). unfold estimate. rewrite H1, H2, H3, H4.
  assert (E : nth (Z.to_nat (Z.of_nat (S k) - 1)) (replicate n 1) 0 = 1).
  { assert (G : forall m j, (j < m)%nat -> nth j (replicate m 1) 0 = 1).
    { induction m as [|m IH]; intros [|j] Hj; try lia; [done|]. cbn. apply IH. lia. }
    apply G. lia. }
  rewrite E. rewrite Z.max_r by lia. replace (Z.of_nat (S k) - 1)%Z with (Z.of_nat k) by lia. by rewrite Qmult_1_r.
Qed.

(** The two stages of a mesh. *)
Definition est_walls : estimator := next_stage (new_estimator walls_vs_skin).
Definition est_skins : estimator := next_stage est_walls.
Lemma walls_estimate p : estimate est_walls p == p * (22953 # 71811).
Proof.
  unfold estimate. assert (E1 : accumulated est_walls == 0) by (vm_compute; reflexivity).
  assert (E2 : nth (Z.to_nat (current est_walls)) (stages est_walls) 0 == 22953 # 1000) by (vm_compute; reflexivity).
  assert (E3 : total_estimated est_walls == 71811 # 1000) by (vm_compute; reflexivity). rewrite E1, E2, E3. field.
Qed.
Lemma skins_estimate p : estimate est_skins p == (22953 # 71811) + p * (48858 # 71811).
Proof.
  unfold estimate. assert (E1 : accumulated est_skins == 22953 # 1000) by (vm_compute; reflexivity).
  assert (E2 : nth (Z.to_nat (current est_skins)) (stages est_skins) 0 == 48858 # 1000) by (vm_compute; reflexivity).
  assert (E3 : total_estimated est_skins == 71811 # 1000) by (vm_compute; reflexivity). rewrite E1, E2, E3. field.
Qed.

(** ** Order *)

(** Values that do not fall, except within what is allowed. *)
Fixpoint nondecreasing (tol : Q) (l : list Q) : Prop :=
  match l with [] => True | a :: r => Forall (fun b => a <= b + tol) r /\ nondecreasing tol r end.

Lemma nondec_app tol l1 l2 : nondecreasing tol l1 -> nondecreasing tol l2 -> (forall a b, a ∈ l1 -> b ∈ l2 -> a <= b + tol) ->
  nondecreasing tol (l1 ++ l2).
Proof.
  induction l1 as [|a l1 IH]; [done|]. intros [H1 H2] H3 H4. cbn. split.
  - apply Forall_app. split; [done|]. apply Forall_forall. intros b Hb. apply H4; [by left|done].
  - apply IH; [done..|]. intros x y Hx Hy. apply H4; [by right|done].
Qed.

Lemma rising_all {A} (lt : A -> A -> Prop) (Htr : forall a b c, lt a b -> lt b c -> lt a c) a r :
  rising lt (a :: r) -> Forall (lt a) r /\ rising lt r.
Proof.
  revert a. induction r as [|b r IH]; intros a H; [split; [constructor|done]|]. destruct H as [H1 H2].
  split; [|done]. destruct (IH b H2) as [H3 _]. apply Forall_cons_2; [done|]. eapply Forall_impl; [exact H3|]. intros x Hx. by eapply Htr.
Qed.

Lemma nondec_map {A} (lt : A -> A -> Prop) (f : A -> Q) l : (forall a b c, lt a b -> lt b c -> lt a c) -> rising lt l ->
  (forall a b, a ∈ l -> b ∈ l -> lt a b -> f a <= f b) -> nondecreasing 0 (map f l).
Proof.
  intros Htr. induction l as [|a l IH]; [done|]. intros Hr Hf. destruct (rising_all lt Htr a l Hr) as [H1 H2]. cbn. split.
  - apply Forall_map. rewrite Forall_forall in H1 |- *. intros b Hb. cbn. pose proof (Hf a b ltac:(by left) ltac:(by right) (H1 b Hb)). lra.
  - apply IH; [done|]. intros x y Hx Hy. apply Hf; by right.
Qed.

Lemma nondec_weaken t1 t2 l : t1 <= t2 -> nondecreasing t1 l -> nondecreasing t2 l.
Proof.
  intros Ht. induction l as [|a l IH]; [done|]. intros [H1 H2]. split; [|by apply IH]. eapply Forall_impl; [exact H1|].
  cbn. intros b Hb. lra.
Qed.

(** The part of the stage that each report is at. *)
Definition at_part (r : report) : Q := part (inject_Z (progress r) / inject_Z (max r)).

Lemma hundredth q : 0 <= q -> q - (1 # 100) <= inject_Z (Qfloor (q * 100)) / inject_Z 100 <= q.
Proof.
  intros Hq. pose proof (Qfloor_le (q * 100)). pose proof (Qlt_floor (q * 100)) as H2. rewrite inject_Z_plus in H2.
  change (inject_Z 100) with 100. change (inject_Z 1) with 1 in H2. split.
  - apply Qle_shift_div_l; [done|]. lra.
  - apply Qle_shift_div_r; [done|]. lra.
Qed.

Lemma zq_le a b : (a <= b)%Z -> inject_Z a <= inject_Z b.
Proof. by rewrite <- Zle_Qle. Qed.
Lemma zq_lt a b : (a < b)%Z -> inject_Z a < inject_Z b.
Proof. by rewrite <- Zlt_Qlt. Qed.

Lemma frac_bound i n : (i < n)%nat -> 0 <= inject_Z (Z.of_nat i) / inject_Z (Z.of_nat n) <= 1.
Proof.
  intros H. assert (0 < inject_Z (Z.of_nat n)) by (apply (zq_lt 0); lia). split.
  - apply Qle_shift_div_l; [done|]. rewrite Qmult_0_l. apply (zq_le 0). lia.
  - apply Qle_shift_div_r; [done|]. rewrite Qmult_1_l. apply zq_le. lia.
Qed.

(** A layer's report: the part is within a hundredth below the exact one, which rises. *)
Definition exact (k n : nat) (p : Q) : Q := (inject_Z (Z.of_nat k) + p) / inject_Z (Z.of_nat n).
Lemma exact_mono k n p q : (0 < n)%nat -> p <= q -> exact k n p <= exact k n q.
Proof.
  intros Hn H. unfold exact. assert (0 < inject_Z (Z.of_nat n)) by (apply (zq_lt 0); lia).
  apply Qmult_le_compat_r; [lra|]. by apply Qlt_le_weak, Qinv_lt_0_compat.
Qed.
Lemma exact_step k n : (0 < n)%nat -> exact k n 1 == exact (S k) n 0.
Proof.
  intros Hn. unfold exact. rewrite Nat2Z.inj_succ. unfold Z.succ. rewrite inject_Z_plus. change (inject_Z 1) with 1.
  by rewrite Qplus_0_r.
Qed.
Lemma exact_mono2 k k' n : (0 < n)%nat -> (k <= k')%nat -> exact k n 0 <= exact k' n 0.
Proof.
  intros Hn H. unfold exact. assert (0 < inject_Z (Z.of_nat n)) by (apply (zq_lt 0); lia).
  apply Qmult_le_compat_r; [|by apply Qlt_le_weak, Qinv_lt_0_compat]. pose proof (zq_le (Z.of_nat k) (Z.of_nat k') ltac:(lia)). lra.
Qed.
Lemma exact_bound k n p : (k < n)%nat -> 0 <= p <= 1 -> 0 <= exact k n p <= 1.
Proof.
  intros H Hp. split.
  - eapply Qle_trans; [|apply (exact_mono k n 0); [lia|lra]]. eapply Qle_trans; [|apply (exact_mono2 0); lia]. unfold exact. change (inject_Z (Z.of_nat 0)) with 0. rewrite Qplus_0_r. unfold Qdiv. rewrite Qmult_0_l. lra.
  - eapply Qle_trans; [apply (exact_mono k n p 1); [lia|lra]|]. rewrite exact_step by lia.
    eapply Qle_trans; [apply (exact_mono2 (S k) n n); lia|]. unfold exact. rewrite Qplus_0_r.
    assert (0 < inject_Z (Z.of_nat n)) by (apply (zq_lt 0); lia). apply Qle_shift_div_r; [done|lra].
Qed.

Lemma layer_part n k e inner m i p : (k < n)%nat -> at_mesh n (S k) e ->
  estimate inner (inject_Z (Z.of_nat i) / inject_Z (Z.of_nat (layers m))) == p -> 0 <= p <= 1 ->
  exact k n p - (1 # 100) <= at_part (layer_report e inner m i) <= exact k n p.
Proof.
  intros Hk He Ep Hp. unfold at_part, layer_report. cbn [progress max].
  set (x := estimate e _). assert (Ex : x == exact k n p) by (unfold x; rewrite (at_estimate n k) by done; by rewrite Ep).
  pose proof (exact_bound k n p Hk Hp) as Hb. pose proof (hundredth x ltac:(lra)) as [H1 H2].
  assert (H0 : 0 <= inject_Z (Qfloor (x * 100)) / inject_Z 100).
  { apply Qle_shift_div_l; [done|]. rewrite Qmult_0_l. apply (zq_le 0). change 0%Z with (Qfloor 0). apply Qfloor_resp_le. lra. }
  rewrite part_id by lra. lra.
Qed.

Lemma layer_mono n k e inner m i j p q : (k < n)%nat -> at_mesh n (S k) e ->
  estimate inner (inject_Z (Z.of_nat i) / inject_Z (Z.of_nat (layers m))) == p ->
  estimate inner (inject_Z (Z.of_nat j) / inject_Z (Z.of_nat (layers m))) == q -> 0 <= p -> p <= q ->
  at_part (layer_report e inner m i) <= at_part (layer_report e inner m j).
Proof.
  intros Hk He Ep Eq Hp Hpq. unfold at_part, layer_report. cbn [progress max]. apply part_mono.
  apply Qmult_le_compat_r; [|vm_compute; discriminate]. apply zq_le, Qfloor_resp_le.
  set (x := estimate e _). assert (Ex : x == exact k n p) by (unfold x; rewrite (at_estimate n k) by done; by rewrite Ep).
  set (y := estimate e _). assert (Ey : y == exact k n q) by (unfold y; rewrite (at_estimate n k) by done; by rewrite Eq).
  rewrite Ex, Ey. pose proof (exact_mono k n p q ltac:(lia) Hpq). lra.
Qed.

Local Notation f_of m i := (inject_Z (Z.of_nat i) / inject_Z (Z.of_nat (layers m))).

Lemma frac_mono m i j : (i < j < layers m)%nat -> f_of m i <= f_of m j.
Proof.
  intros H. assert (0 < inject_Z (Z.of_nat (layers m))) by (apply (zq_lt 0); lia).
  apply Qmult_le_compat_r; [apply zq_le; lia|]. by apply Qlt_le_weak, Qinv_lt_0_compat.
Qed.

Lemma walls_p m i : (i < layers m)%nat -> 0 <= estimate est_walls (f_of m i) <= 22953 # 71811.
Proof. intros H. rewrite walls_estimate. pose proof (frac_bound i (layers m) H). lra. Qed.
Lemma skins_p m i : (i < layers m)%nat -> 22953 # 71811 <= estimate est_skins (f_of m i) <= 1.
Proof. intros H. rewrite skins_estimate. pose proof (frac_bound i (layers m) H). lra. Qed.

(** The reports of one mesh do not fall. *)
Lemma mesh_nondec n k e m : (k < n)%nat -> at_mesh n (S k) e -> mesh_ok m ->
  nondecreasing 0 (map at_part (mesh_reports e m)) /\
  Forall (fun r => exact k n 0 - (1 # 100) <= at_part r <= exact k n 1) (mesh_reports e m).
Proof.
  intros Hk He (Rw & Rs & Bw & Bs). unfold mesh_reports. fold est_walls est_skins. change (next_stage est_walls) with est_skins.
  rewrite Forall_forall in Bw, Bs. split.
  - rewrite map_app, !map_map. apply nondec_app.
    + apply (nondec_map Nat.lt); [intros; unfold Nat.lt in *; lia|done|]. intros a b Ha Hb Hab.
      pose proof (walls_p m a (Bw _ Ha)). eapply (layer_mono n k); [done|done|reflexivity|reflexivity|lra|].
      rewrite !walls_estimate. pose proof (frac_mono m a b (conj Hab (Bw _ Hb))). lra.
    + apply (nondec_map Nat.lt); [intros; unfold Nat.lt in *; lia|done|]. intros a b Ha Hb Hab.
      pose proof (skins_p m a (Bs _ Ha)). eapply (layer_mono n k); [done|done|reflexivity|reflexivity|lra|].
      rewrite !skins_estimate. pose proof (frac_mono m a b (conj Hab (Bs _ Hb))). lra.
    + intros a b Ha Hb. apply elem_of_list_fmap in Ha as (i & -> & Hi). apply elem_of_list_fmap in Hb as (j & -> & Hj).
      pose proof (walls_p m i (Bw _ Hi)) as H1. pose proof (skins_p m j (Bs _ Hj)) as H2.
      unfold at_part, layer_report. cbn [progress max]. rewrite Qplus_0_r. apply part_mono.
      apply Qmult_le_compat_r; [|vm_compute; discriminate]. apply zq_le, Qfloor_resp_le.
      rewrite (at_estimate n k _ (estimate est_walls _)) by done. rewrite (at_estimate n k _ (estimate est_skins _)) by done.
      pose proof (exact_mono k n (estimate est_walls (f_of m i)) (estimate est_skins (f_of m j)) ltac:(lia) ltac:(lra)) as H3.
      unfold exact in H3. lra.
  - apply Forall_app. split; apply Forall_map, Forall_forall; intros i Hi; cbn.
    + pose proof (walls_p m i (Bw _ Hi)) as H1.
      pose proof (layer_part n k e est_walls m i _ Hk He ltac:(reflexivity) ltac:(lra)) as H2.
      pose proof (exact_mono k n 0 (estimate est_walls (f_of m i)) ltac:(lia) ltac:(lra)).
      pose proof (exact_mono k n (estimate est_walls (f_of m i)) 1 ltac:(lia) ltac:(lra)). lra.
    + pose proof (skins_p m i (Bs _ Hi)) as H1.
      pose proof (layer_part n k e est_skins m i _ Hk He ltac:(reflexivity) ltac:(lra)) as H2.
      pose proof (exact_mono k n 0 (estimate est_skins (f_of m i)) ltac:(lia) ltac:(lra)).
      pose proof (exact_mono k n (estimate est_skins (f_of m i)) 1 ltac:(lia) ltac:(lra)). lra.
Qed.

(** Those of all meshes fall by a hundredth at most. *)
Lemma inset_nondec n ms : forall k e, (k + length ms = n)%nat -> at_mesh n k e -> Forall mesh_ok ms ->
  nondecreasing (1 # 100) (map at_part (inset_reports e n k ms)) /\
  Forall (fun r => exact k n 0 - (1 # 100) <= at_part r) (inset_reports e n k ms).
Proof.
  induction ms as [|m ms IH]; intros k e Hn He Hok; [split; [done|constructor]|].
  apply Forall_cons_1 in Hok as [Hm Hok]. cbn [length] in Hn. cbn [inset_reports].
  pose proof (at_next n k e ltac:(lia) He) as He'. destruct (mesh_nondec n k _ m ltac:(lia) He' Hm) as [M1 M2].
  destruct (IH (S k) (next_stage e) ltac:(lia) He' Hok) as [I1 I2].
  assert (Elast : at_part (Report INSET_SKIN (Z.of_nat k + 1) (Z.of_nat n)) == exact k n 1).
  { unfold at_part. cbn [progress max]. rewrite part_id; rewrite inject_Z_plus; change (inject_Z 1) with 1; [done|].
    apply (exact_bound k n 1); [lia|lra]. }
  pose proof (exact_step k n ltac:(lia)) as Es. pose proof (exact_mono2 k (S k) n ltac:(lia) ltac:(lia)) as Em.
  split.
  - rewrite map_app. cbn [map]. apply nondec_app; [by eapply nondec_weaken; [|exact M1]|..].
    + cbn. split; [|done]. apply Forall_map. eapply Forall_impl; [exact I2|]. cbn. intros r Hr. rewrite Elast, Es. lra.
    + intros a b Ha Hb. apply elem_of_list_fmap in Ha as (r & -> & Hr). rewrite Forall_forall in M2. specialize (M2 r Hr).
      apply elem_of_cons in Hb as [->|Hb]; [rewrite Elast; lra|].
      apply elem_of_list_fmap in Hb as (r' & -> & Hr'). rewrite Forall_forall in I2. specialize (I2 r' Hr'). rewrite Es in M2. lra.
  - apply Forall_app. split; [eapply Forall_impl; [exact M2|]; cbn; intros; lra|]. apply Forall_cons_2; [rewrite Elast, Es; lra|].
    eapply Forall_impl; [exact I2|]. cbn. intros; lra.
Qed.

(** ** A slice *)

(** Pairs of reports of a slice, the first before the second. *)
Definition before (l : list report) (a b : report) : Prop := exists l1 l2 l3, l = l1 ++ a :: l2 ++ b :: l3.

Lemma before_app l1 l2 a b : before (l1 ++ l2) a b -> before l1 a b \/ before l2 a b \/ (a ∈ l1 /\ b ∈ l2).
Proof.
  intros (x & y & z & E). apply app_eq_inv in E as [(k & -> & E)|(k & -> & E)].
  - destruct k as [|c k]; [right; left; exists [], y, z; symmetry; exact E|]. injection E as <- E.
    apply app_eq_inv in E as [(k' & -> & ->)|(k' & -> & E)].
    + right; right. split; [apply elem_of_app; right; by left|apply elem_of_app; right; by left].
    + destruct k' as [|c k'].
      * right; right. cbn in E. subst l2. split; [apply elem_of_app; right; by left|by left].
      * injection E as <- ->. left. by exists x, y, k'.
  - right; left. by exists k, y, z.
Qed.

Lemma before_sub l a b : before l a b -> a ∈ l /\ b ∈ l.
Proof.
  intros (x & y & z & ->). split; [apply elem_of_app; right; by left|]. apply elem_of_app; right. right. apply elem_of_app; right. by left.
Qed.

Lemma before_nondec tol l a b : nondecreasing tol (map at_part l) -> before l a b -> at_part a <= at_part b + tol.
Proof.
  intros H (x & y & z & ->). rewrite map_app in H. cbn [map] in H. induction x as [|c x IH].
  - destruct H as [H _]. rewrite Forall_forall in H. apply H. rewrite map_app. apply elem_of_app. right. by left.
  - apply IH. by destruct H.
Qed.

Local Notation each n st := (map (fun i => Report st (Z.of_nat i + 1) (Z.of_nat n)) (seq 0 n)).

Lemma each_nondec n st : nondecreasing 0 (map at_part (each n st)).
Proof.
  rewrite map_map. apply (nondec_map Nat.lt); [intros; unfold Nat.lt in *; lia| |].
  - generalize 0%nat. induction n as [|n IH]; intros i; [done|]. cbn [seq]. specialize (IH (S i)). destruct n; [done|]. split; [cbn; unfold Nat.lt; lia|exact IH].
  - intros a b Ha Hb Hab. unfold at_part. cbn [progress max]. apply part_mono. apply Qmult_le_compat_r.
    + apply zq_le. unfold Nat.lt in *. lia.
    + destruct n; [by apply elem_of_nil in Ha|]. apply Qlt_le_weak, Qinv_lt_0_compat. apply (zq_lt 0). lia.
Qed.

Lemma export_nondec t l : (0 < t)%Z -> rising Z.lt l -> nondecreasing 0 (map at_part (map (fun l => Report EXPORT (Z.max l 0 + 1) t) l)).
Proof.
  intros Ht Hr. rewrite map_map. apply (nondec_map Z.lt); [intros; lia|done|]. intros a b _ _ Hab. unfold at_part. cbn [progress max].
  apply part_mono, Qmult_le_compat_r; [apply zq_le; lia|]. apply Qlt_le_weak, Qinv_lt_0_compat. by apply (zq_lt 0).
Qed.

Lemma inset_ok n ms : forall k e, (0 < n)%nat -> Forall (fun r => stage r = INSET_SKIN /\ max r <> 0%Z) (inset_reports e n k ms).
Proof.
  induction ms as [|m ms IH]; intros k e Hn; [constructor|]. cbn [inset_reports]. unfold mesh_reports.
  rewrite !Forall_app. split; [split; apply Forall_map, Forall_forall; done|]. apply Forall_cons_2; [split; [done|cbn; lia]|by apply IH].
Qed.

(** The reports of a slice, each with what is sent. *)
Lemma slice_sent s r : slice_ok s -> r ∈ slice_reports s -> (stage r < 8)%nat /\ sent r = Some (whole (stage r) (at_part r)).
Proof.
  intros (H1 & H2 & _ & _ & Ht) Hr. cut ((stage r < 8)%nat /\ max r <> 0%Z); [intros [? ?]; split; [done|by apply sent_ok]|].
  unfold slice_reports in Hr. rewrite !elem_of_app in Hr. rewrite Forall_forall in H1, H2.
  destruct Hr as [Hr|[Hr|[Hr|[Hr|[Hr|[Hr|Hr]]]]]].
  - apply elem_of_list_fmap in Hr as (p & -> & Hp). split; [cbn; unfold SPLIT; lia|by apply H1].
  - apply elem_of_list_fmap in Hr as (p & -> & Hp). apply elem_of_seq in Hp. split; cbn; [unfold SLICING|]; lia.
  - apply elem_of_list_fmap in Hr as (p & -> & Hp). apply elem_of_seq in Hp. split; cbn; [unfold PARTS|]; lia.
  - destruct (meshes s) as [|m ms]; [by apply elem_of_nil in Hr|].
    pose proof (inset_ok (length (m :: ms)) (m :: ms) 0 (new_estimator (replicate (length (m :: ms)) 1)) ltac:(cbn; lia)) as G.
    rewrite Forall_forall in G. destruct (G r Hr) as [-> ?]. split; [unfold INSET_SKIN; lia|done].
  - apply elem_of_list_fmap in Hr as (p & -> & Hp). split; [cbn; unfold SUPPORT; lia|by apply H2].
  - apply elem_of_list_fmap in Hr as (p & -> & Hp). split; cbn; [unfold EXPORT|]; lia.
  - apply elem_of_list_singleton in Hr as ->. split; cbn; [unfold FINISH|]; lia.
Qed.

Lemma split_stage (l : list (Z * Z)) st r : r ∈ map (fun p => Report st p.1 p.2) l -> stage r = st.
Proof. intros H. by apply elem_of_list_fmap in H as (p & -> & _). Qed.

(** In the course of a slice the progress sent never falls, except that within the painting and support stages whatever
    is reported is sent, and that within the inset and skin stage it may fall by a hundredth of that stage. *)
Theorem C46_monotone s a b : slice_ok s -> before (slice_reports s) a b ->
  exists p q, sent a = Some p /\ sent b = Some q /\ (stage a <= stage b)%nat /\
    (stage a <> stage b \/ (stage a <> SPLIT /\ stage a <> SUPPORT /\ stage a <> INSET_SKIN) -> p <= q) /\
    (stage a = INSET_SKIN -> stage b = INSET_SKIN -> p <= q + (1 # 100) * stage_time INSET_SKIN / total_timing).
Proof.
  intros Hok Hb. destruct (before_sub _ _ _ Hb) as [Ha' Hb'].
  destruct (slice_sent s a Hok Ha') as [Sa Ea]. destruct (slice_sent s b Hok Hb') as [Sb Eb].
  rewrite Ea, Eb. eexists _, _. split; [done|]. split; [done|]. clear Ea Eb Ha' Hb'.
  (* stages rise, and within a stage the reports do *)
  assert (K : (stage a < stage b)%nat \/ (stage a = stage b /\
     (stage a <> SPLIT -> stage a <> SUPPORT -> stage a <> INSET_SKIN -> at_part a <= at_part b) /\
     (stage a = INSET_SKIN -> at_part a <= at_part b + (1 # 100)))).
  { destruct Hok as (_ & _ & Hm & Hx & Ht). unfold slice_reports in Hb. set (n := length (meshes s)) in *.
    assert (St4 : forall r, r ∈ inset_reports (new_estimator (replicate n 1)) n 0 (meshes s) -> stage r = INSET_SKIN).
    { intros r Hr. destruct (meshes s) as [|m ms] eqn:Em; [by apply elem_of_nil in Hr|].
      pose proof (inset_ok n (m :: ms) 0 (new_estimator (replicate n 1)) ltac:(unfold n; cbn; lia)) as G.
      rewrite Forall_forall in G. by destruct (G r Hr). }
    assert (StM : forall (f : nat -> report) st l r, (forall i, stage (f i) = st) -> r ∈ map f l -> stage r = st).
    { intros f st l r Hf Hr. apply elem_of_list_fmap in Hr as (i & -> & _). apply Hf. }
    assert (St6 : forall r, r ∈ map (fun l => Report EXPORT (Z.max l 0 + 1) (total s)) (exported s) -> stage r = EXPORT).
    { intros r Hr. by apply elem_of_list_fmap in Hr as (i & -> & _). }
    assert (St7 : forall r, r ∈ [Report FINISH 1 1] -> stage r = FINISH).
    { intros r Hr. by apply elem_of_list_singleton in Hr as ->. }
    assert (St1 := split_stage (splitting s) SPLIT). assert (St5 := split_stage (supporting s) SUPPORT).
    assert (St2 : forall r, r ∈ each n SLICING -> stage r = SLICING) by (intros r Hr; by eapply (StM _ SLICING _ r); [|exact Hr]).
    assert (St3 : forall r, r ∈ each n PARTS -> stage r = PARTS) by (intros r Hr; by eapply (StM _ PARTS _ r); [|exact Hr]).
    unfold SPLIT, SLICING, PARTS, INSET_SKIN, SUPPORT, EXPORT, FINISH in *.
    apply before_app in Hb as [Hb|[Hb|[HA HB]]].
    { destruct (before_sub _ _ _ Hb) as [H1 H2]. apply St1 in H1, H2. right. split; [lia|]. split; intros; lia. }
    2:{ left. rewrite (St1 _ HA). rewrite !elem_of_app in HB. destruct HB as [H|[H|[H|[H|[H|H]]]]];
        [apply St2 in H|apply St3 in H|apply St4 in H|apply St5 in H|apply St6 in H|apply St7 in H]; lia. }
    apply before_app in Hb as [Hb|[Hb|[HA HB]]].
    { destruct (before_sub _ _ _ Hb) as [H1 H2]. apply St2 in H1, H2. right. split; [lia|]. split; [intros _ _ _|intros; lia].
      pose proof (before_nondec 0 _ _ _ (each_nondec n 2) Hb). lra. }
    2:{ left. rewrite (St2 _ HA). rewrite !elem_of_app in HB. destruct HB as [H|[H|[H|[H|H]]]];
        [apply St3 in H|apply St4 in H|apply St5 in H|apply St6 in H|apply St7 in H]; lia. }
    apply before_app in Hb as [Hb|[Hb|[HA HB]]].
    { destruct (before_sub _ _ _ Hb) as [H1 H2]. apply St3 in H1, H2. right. split; [lia|]. split; [intros _ _ _|intros; lia].
      pose proof (before_nondec 0 _ _ _ (each_nondec n 3) Hb). lra. }
    2:{ left. rewrite (St3 _ HA). rewrite !elem_of_app in HB. destruct HB as [H|[H|[H|H]]];
        [apply St4 in H|apply St5 in H|apply St6 in H|apply St7 in H]; lia. }
    apply before_app in Hb as [Hb|[Hb|[HA HB]]].
    { destruct (before_sub _ _ _ Hb) as [H1 H2]. apply St4 in H1, H2. right. split; [lia|]. split; [intros; lia|intros _].
      destruct (inset_nondec n (meshes s) 0 (new_estimator (replicate n 1)) ltac:(unfold n; lia) (at_start n) Hm) as [G _].
      by apply (before_nondec _ _ _ _ G). }
    2:{ left. rewrite (St4 _ HA). rewrite !elem_of_app in HB. destruct HB as [H|[H|H]];
        [apply St5 in H|apply St6 in H|apply St7 in H]; lia. }
    apply before_app in Hb as [Hb|[Hb|[HA HB]]].
    { destruct (before_sub _ _ _ Hb) as [H1 H2]. apply St5 in H1, H2. right. split; [lia|]. split; intros; lia. }
    2:{ left. rewrite (St5 _ HA). rewrite !elem_of_app in HB. destruct HB as [H|H]; [apply St6 in H|apply St7 in H]; lia. }
    apply before_app in Hb as [Hb|[Hb|[HA HB]]].
    { destruct (before_sub _ _ _ Hb) as [H1 H2]. apply St6 in H1, H2. right. split; [lia|]. split; [intros _ _ _|intros; lia].
      pose proof (before_nondec 0 _ _ _ (export_nondec (total s) _ Ht Hx) Hb). lra. }
    { exfalso. destruct Hb as ([|? [|? ?]] & [|? ?] & ? & E); done. }
    { left. rewrite (St6 _ HA), (St7 _ HB). lia. } }
  destruct K as [K|(Es & K1 & K2)].
  - split_and!; [lia| |intros; lia]. intros _. apply whole_next; [lia| |]; apply part_bound.
  - split_and!; [lia| |].
    + rewrite <- Es. intros [?|(N1 & N2 & N3)]; [done|]. apply whole_mono. by apply K1.
    + intros E4 _. rewrite <- Es, E4. specialize (K2 E4). unfold whole.
      assert (Hst : 0 < stage_time INSET_SKIN) by reflexivity. pose proof (Qinv_lt_0_compat _ total_pos) as Hi.
      assert ((accumulated_time INSET_SKIN + at_part a * stage_time INSET_SKIN) * / total_timing <=
              (accumulated_time INSET_SKIN + at_part b * stage_time INSET_SKIN + (1 # 100) * stage_time INSET_SKIN) * / total_timing) as H.
      { apply Qmult_le_compat_r; [|by apply Qlt_le_weak]. nra. }
      unfold Qdiv. lra.
Qed.

(** A slice ends with 100%. *)
Theorem C46_ends s : exists l r q, slice_reports s = l ++ [r] /\ sent r = Some q /\ q == 1.
Proof.
  unfold slice_reports. rewrite !app_assoc. eexists _, _, _. split; [reflexivity|]. split; [vm_compute; reflexivity|]. vm_compute. reflexivity.
Qed.

(** Every report of a slice sends a number between 0 and 1. *)
Theorem C46_slice_bounded s r : slice_ok s -> r ∈ slice_reports s -> exists q, sent r = Some q /\ 0 <= q <= 1.
Proof.
  intros Hok Hr. destruct (slice_sent s r Hok Hr) as [H1 H2]. rewrite H2. eexists. split; [done|]. pose proof (part_bound (inject_Z (progress r) / inject_Z (max r))) as Hp.
  fold (at_part r) in Hp. split.
  - apply (Qle_trans _ (whole 0 0)); [vm_compute; discriminate|]. destruct (decide (stage r = 0)%nat) as [-> |]; [apply whole_mono; lra|].
    apply whole_next; [lia|lra|lra].
  - apply (Qle_trans _ (whole 7 1)); [|vm_compute; discriminate]. destruct (decide (stage r = 7)%nat) as [-> |]; [apply whole_mono; lra|].
    apply whole_next; [lia|lra|lra].
Qed.

(** With three meshes the progress does fall: after the first mesh a third is reported, and 33 hundredths after the first
    layer of the second. *)
Definition three : slice := Slice [] [Mesh 10 [0%nat] []; Mesh 10 [0%nat] []; Mesh 10 [0%nat] []] [] [0%Z] 1.
Theorem C46_falls_refuted : exists s a b p q, slice_ok s /\ before (slice_reports s) a b /\ sent a = Some p /\ sent b = Some q /\ q < p.
Proof.
  exists three, (Report INSET_SKIN 1 3), (Report INSET_SKIN 33 100). eexists _, _. split; [|split].
  - split; [constructor|]. split; [constructor|]. split; [|split; [exact I|cbn; lia]].
    assert (Hm : mesh_ok (Mesh 10 [0%nat] [])).
    { split; [exact I|]. split; [exact I|]. split; [apply Forall_cons_2; [cbn; lia|constructor]|constructor]. }
    repeat (apply Forall_cons_2; [exact Hm|]). constructor.
  - exists (take 7 (slice_reports three)), [], (drop 9 (slice_reports three)). vm_compute. reflexivity.
  - split; [vm_compute; reflexivity|]. split; [vm_compute; reflexivity|]. vm_compute. reflexivity.
Qed.

(** No layers: zero out of zero is not a number. *)
Theorem C46_zero_refuted : sent (Report SLICING 0 0) = None.
Proof. reflexivity. Qed.

(** The log calls the stages by the name of the stage after them: when slicing starts it says "layerparts". *)
Theorem C46_names_refuted : exists stage name, (stage < FINISH)%nat /\ (announce stage).2 = Some name /\ stage_name stage <> Some name /\
  stage_name (S stage) = Some name.
Proof. exists SLICING, "layerparts"%string. split; [unfold SLICING, FINISH; lia|]. split_and!; [done|done|done]. Qed.

Example C46_example : exists s a b, slice_ok s /\ before (slice_reports s) a b /\ stage a = EXPORT /\ stage b = EXPORT.
Proof.
  exists (Slice [] [Mesh 3 [0; 2]%nat [1%nat]] [(1, 2)%Z] [-1; 0; 2]%Z 3), (Report EXPORT 1 3), (Report EXPORT 3 3). split.
  - split_and!; [constructor|apply Forall_cons_2; [done|constructor]| |cbn; lia|cbn; lia].
    apply Forall_cons_2; [|constructor]. split_and!; [cbn; unfold Nat.lt; lia|done| |].
    + repeat (apply Forall_cons_2; [cbn; lia|]). constructor.
    + repeat (apply Forall_cons_2; [cbn; lia|]). constructor.
  - split; [|done]. set (l := slice_reports _). exists (take 8 l), [], (drop 10 l). vm_compute. reflexivity.
Qed.

Print Assumptions C46_bounded.
Print Assumptions C46_monotone.
Print Assumptions C46_ends.
Print Assumptions C46_slice_bounded.
Print Assumptions C46_falls_refuted.
