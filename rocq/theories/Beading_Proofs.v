(** Lemmas for C47. *)
From Coq Require Import ZArith QArith Qround Lia Lqa.
From stdpp Require Import list.
From Verif Require Import Common Wall_Model Beading_Model Beading_Spec.
Open Scope Z_scope.

(** *** numbers *)
Lemma Qltb_true a b : Qltb a b = true <-> (a < b)%Q.
Proof.
  unfold Qltb. rewrite negb_true_iff. split.
  - intros H. apply Qnot_le_lt. intros H'. apply Qle_bool_iff in H'. congruence.
  - intros H. destruct (Qle_bool b a) eqn:E; [|done]. apply Qle_bool_iff in E. lra.
Qed.
Lemma Qltb_false a b : Qltb a b = false <-> (b <= a)%Q.
Proof. unfold Qltb. by rewrite negb_false_iff, Qle_bool_iff. Qed.
Lemma Qle_bool_false a b : Qle_bool a b = false <-> (b < a)%Q.
Proof. rewrite <- (Qltb_true b a). unfold Qltb. by rewrite negb_true_iff. Qed.
Lemma qtrunc_nonneg q : (0 <= q)%Q -> 0 <= qtrunc q /\ (inject_Z (qtrunc q) <= q < inject_Z (qtrunc q) + 1)%Q.
Proof.
  intros Hq. unfold qtrunc. rewrite (proj2 (Qle_bool_iff 0 q)) by done. pose proof (Qfloor_le q) as H1. pose proof (Qlt_floor q) as H2.
  rewrite inject_Z_plus in H2. split; [|done]. apply (Qfloor_resp_le 0 q) in Hq. done.
Qed.
Lemma qtrunc_opp q : qtrunc (- q) = - qtrunc q.
Proof.
  unfold qtrunc. destruct (Qle_bool 0 q) eqn:E1, (Qle_bool 0 (- q)) eqn:E2.
  - apply Qle_bool_iff in E1. apply Qle_bool_iff in E2. assert (E : (q == 0)%Q) by lra. 
    assert (E' : (- q == 0)%Q) by lra. by rewrite (Qfloor_comp _ _ E), (Qfloor_comp _ _ E').
  - f_equal. apply Qfloor_comp. lra.
  - lia.
  - apply Qle_bool_false in E1. apply Qle_bool_false in E2. lra.
Qed.
Lemma qtrunc_near q : (Qabs.Qabs (inject_Z (qtrunc q) - q) < 1)%Q.
Proof.
  apply Qabs.Qabs_Qlt_condition. destruct (Qlt_le_dec q 0) as [H|H].
  - assert (Hq : (0 <= - q)%Q) by lra. apply qtrunc_nonneg in Hq as [_ Hq]. rewrite qtrunc_opp, inject_Z_opp in Hq. lra.
  - apply qtrunc_nonneg in H as [_ H]. lra.
Qed.
Global Instance qtrunc_proper : Proper (Qeq ==> eq) qtrunc.
Proof.
  intros a b E. unfold qtrunc. rewrite <- (Qfloor_comp _ _ E). assert (E' : (- a == - b)%Q) by (by rewrite E). rewrite <- (Qfloor_comp _ _ E').
  destruct (Qle_bool 0 a) eqn:E1, (Qle_bool 0 b) eqn:E2; try done.
  - apply Qle_bool_iff in E1. apply Qle_bool_false in E2. lra.
  - apply Qle_bool_iff in E2. apply Qle_bool_false in E1. lra.
Qed.
Lemma qtrunc_Z z : qtrunc (inject_Z z) = z.
Proof.
  unfold qtrunc. destruct (Qle_bool _ _); [by rewrite Qfloor_Z|]. rewrite <- inject_Z_opp, Qfloor_Z. lia.
Qed.
Lemma qtrunc_le a b : (a <= b)%Q -> qtrunc a <= qtrunc b.
Proof.
  intros H. unfold qtrunc. destruct (Qle_bool 0 a) eqn:E1, (Qle_bool 0 b) eqn:E2.
  - by apply Qfloor_resp_le.
  - apply Qle_bool_iff in E1. apply Qle_bool_false in E2. lra.
  - apply Qle_bool_false in E1. apply Qle_bool_iff in E2. assert (H1 : (0 <= - a)%Q) by lra.
    apply (Qfloor_resp_le 0) in H1. apply (Qfloor_resp_le 0) in E2. change (Qfloor 0) with 0 in *. lia.
  - assert (H1 : (- b <= - a)%Q) by lra. apply Qfloor_resp_le in H1. lia.
Qed.
Lemma half_near x : Z.abs (2 * (x ÷ 2) - x) <= 1.
Proof. pose proof (Z.quot_rem' x 2). pose proof (Z.rem_bound_abs x 2). lia. Qed.
Lemma double_half x : (x + x) ÷ 2 = x.
Proof. replace (x + x) with (x * 2) by lia. by apply Z.quot_mul. Qed.

(** *** lists *)
Lemma sum_app a b : sum (a ++ b) = sum a + sum b.
Proof. induction a as [|x a IH]; simpl; lia. Qed.
Lemma sum_reverse a : sum (reverse a) = sum a.
Proof. induction a as [|x a IH]; [done|]. rewrite reverse_cons, sum_app. simpl. lia. Qed.
Lemma sum_nonneg l : Forall (Z.le 0) l -> 0 <= sum l.
Proof. induction 1; simpl; lia. Qed.
Lemma sum_replicate n x : sum (replicate n x) = Z.of_nat n * x.
Proof. induction n as [|n IH]; simpl sum; [lia|]. unfold sum in *. simpl. rewrite IH. lia. Qed.
Lemma total_sum l : total l = sum l.
Proof. done. Qed.
Lemma sum_take_S l i w : l !! i = Some w -> sum (take (S i) l) = sum (take i l) + w.
Proof. intros H. rewrite (take_S_r _ _ _ H), sum_app. simpl. lia. Qed.
Lemma pal_take_drop (l : list Z) i : reverse l = l -> (i <= length l)%nat -> sum (take i l) = sum (drop (length l - i) l).
Proof.
  intros H Hi. rewrite <- H at 1. rewrite <- (take_drop (length l - i) l) at 1. rewrite reverse_app.
  rewrite take_app_alt by (rewrite reverse_length, drop_length; lia). by rewrite sum_reverse.
Qed.
(** beads from both sides make the sum *)
Lemma pal_sum l i j w w' : reverse l = l -> (i + j + 1 = length l)%nat -> l !! i = Some w -> l !! j = Some w' ->
  (2 * sum (take i l) + w) + (2 * sum (take j l) + w') = 2 * sum l.
Proof.
  intros Hp Hij Hw Hw'. pose proof (pal_take_drop l i Hp ltac:(lia)) as H1. pose proof (pal_take_drop l (S i) Hp ltac:(lia)) as H2.
  rewrite (sum_take_S _ _ _ Hw) in H2. replace (length l - i)%nat with (S j) in H1 by lia. replace (length l - S i)%nat with j in H2 by lia.
  pose proof (f_equal sum (take_drop j l)) as H3. rewrite sum_app in H3. pose proof (f_equal sum (take_drop (S j) l)) as H4. rewrite sum_app, (sum_take_S _ _ _ Hw') in H4.
  lia.
Qed.
Lemma pal_lookup (l : list Z) i j w w' : reverse l = l -> (i + j + 1 = length l)%nat -> l !! i = Some w -> l !! j = Some w' -> w = w'.
Proof.
  intros Hp Hij Hw Hw'. rewrite <- Hp in Hw. rewrite reverse_lookup in Hw by lia. replace (length l - S i)%nat with j in Hw by lia. congruence.
Qed.

(** *** the locations follow from the widths *)
Lemma locations_from_length ws : forall l w, length (locations_from l w ws) = length ws.
Proof. induction ws as [|x ws IH]; intros l w; simpl; [done|]. by rewrite IH. Qed.
Lemma locations_length ws : length (locations ws) = length ws.
Proof. destruct ws; simpl; [done|]. by rewrite locations_from_length. Qed.
Lemma locations_from_next ws : forall l w i x y a b, (w :: ws) !! i = Some x -> (w :: ws) !! S i = Some y ->
  (l :: locations_from l w ws) !! i = Some a -> (l :: locations_from l w ws) !! S i = Some b -> b - a = (x + y) ÷ 2.
Proof.
  induction ws as [|v ws IH]; intros l w i x y a b H1 H2 H3 H4; [done|].
  destruct i as [|i].
  - cbn in *. simplify_eq. lia.
  - cbn [locations_from lookup list_lookup] in *. by eapply IH.
Qed.
Lemma locations_next ws i x y a b : ws !! i = Some x -> ws !! S i = Some y -> locations ws !! i = Some a -> locations ws !! S i = Some b -> b - a = (x + y) ÷ 2.
Proof. destruct ws as [|w ws]; [done|]. apply locations_from_next. Qed.
Lemma locations_prefix ws i w l : ws !! i = Some w -> locations ws !! i = Some l -> Z.abs (2 * l - (2 * sum (take i ws) + w)) <= Z.of_nat i + 1.
Proof.
  revert w l. induction i as [|i IH]; intros w l Hw Hl.
  - destruct ws as [|x ws]; [done|]. cbn in *. simplify_eq. pose proof (half_near w). lia.
  - assert (H : is_Some (ws !! i)). { apply lookup_lt_is_Some. apply lookup_lt_Some in Hw. lia. } destruct H as [w0 Hw0].
    assert (H : is_Some (locations ws !! i)). { apply lookup_lt_is_Some. apply lookup_lt_Some in Hl. lia. } destruct H as [l0 Hl0].
    pose proof (IH _ _ Hw0 Hl0) as H. pose proof (locations_next _ _ _ _ _ _ Hw0 Hw Hl0 Hl) as Hn. rewrite (sum_take_S _ _ _ Hw0). pose proof (half_near (w0 + w)). lia.
Qed.
Lemma locations_replicate n w i : (i < n)%nat -> locations (replicate n w) !! i = Some (w ÷ 2 + Z.of_nat i * w).
Proof.
  intros Hi. destruct (lookup_lt_is_Some_2 (locations (replicate n w)) i) as [l Hl]; [by rewrite locations_length, replicate_length|].
  rewrite Hl. f_equal. revert l Hl. induction i as [|i IH]; intros l Hl.
  - destruct n; [lia|]. cbn in Hl. simplify_eq. lia.
  - destruct (lookup_lt_is_Some_2 (locations (replicate n w)) i) as [l0 Hl0]; [rewrite locations_length, replicate_length; lia|].
    pose proof (IH ltac:(lia) _ Hl0). 
    pose proof (locations_next (replicate n w) i w w l0 l) as Hn. rewrite !lookup_replicate_2 in Hn by lia. specialize (Hn eq_refl eq_refl Hl0 Hl). rewrite double_half in Hn. lia.
Qed.

(** *** the weights *)
Lemma one_over_01 r : (0 < one_over_squared r <= 1)%Q.
Proof.
  unfold one_over_squared. destruct (2 <=? r) eqn:E; [|lra]. apply Z.leb_le in E.
  assert (H : (1 <= inject_Z (r - 1))%Q) by (change 1%Q with (inject_Z 1); rewrite <- Zle_Qle; lia).
  set (x := inject_Z (r - 1)) in *. assert (Hi : (0 < / x)%Q) by (apply Qinv_lt_0_compat; lra). assert (E1 : (x * / x == 1)%Q) by (apply Qmult_inv_r; lra).
  assert (H1 : (/ x <= 1)%Q) by nra. unfold Qdiv. split; nra.
Qed.
Lemma weight_nonneg k m i : (0 <= weight k m i)%Q.
Proof. unfold weight. destruct (Qle_bool _ 0) eqn:E; [lra|]. apply Qle_bool_false in E. lra. Qed.
Lemma weight_opposite k n i j : i + j + 1 = n -> (weight k (inject_Z (n - 1) / 2) i == weight k (inject_Z (n - 1) / 2) j)%Q.
Proof.
  intros H. unfold weight. 
  assert (E : (inject_Z (n - 1) == inject_Z i + inject_Z j)%Q). { rewrite <- inject_Z_plus. by replace (n - 1) with (i + j) by lia. }
  assert (E1 : (1 - k * (inject_Z i - inject_Z (n - 1) / 2) * (inject_Z i - inject_Z (n - 1) / 2) == 1 - k * (inject_Z j - inject_Z (n - 1) / 2) * (inject_Z j - inject_Z (n - 1) / 2))%Q) by (rewrite E; field).
  set (a := (1 - k * (inject_Z i - _) * _)%Q) in *. set (b := (1 - k * (inject_Z j - _) * _)%Q) in *.
  destruct (Qle_bool a 0) eqn:Ea, (Qle_bool b 0) eqn:Eb; try done.
  - apply Qle_bool_iff in Ea. apply Qle_bool_false in Eb. lra.
  - apply Qle_bool_iff in Eb. apply Qle_bool_false in Ea. lra.
Qed.
Lemma weight_middle k n : (0 < k <= 1)%Q -> 0 < n -> (0 < weight k (inject_Z (n - 1) / 2) ((n - 1) / 2))%Q.
Proof.
  intros Hk Hn. unfold weight. set (d := (inject_Z ((n - 1) / 2) - inject_Z (n - 1) / 2)%Q).
  assert (Hd : (- (1 # 2) <= d <= 0)%Q).
  { pose proof (Z.div_mod (n - 1) 2). pose proof (Z.mod_pos_bound (n - 1) 2).
    assert (H1 : (inject_Z (2 * ((n - 1) / 2)) <= inject_Z (n - 1))%Q) by (rewrite <- Zle_Qle; lia).
    assert (H2 : (inject_Z (n - 1) <= inject_Z (2 * ((n - 1) / 2) + 1))%Q) by (rewrite <- Zle_Qle; lia).
    rewrite inject_Z_plus in H2. rewrite inject_Z_mult in H1, H2. change (inject_Z 2) with 2%Q in *. change (inject_Z 1) with 1%Q in *. unfold d.
    assert (Ed : (inject_Z (n - 1) / 2 == inject_Z (n - 1) * (1 # 2))%Q) by field. rewrite Ed. split; lra. }
  assert (H : (0 < 1 - k * d * d)%Q) by nra. 
  destruct (Qle_bool (1 - k * d * d) 0) eqn:E; [apply Qle_bool_iff in E; lra|done].
Qed.

Definition qsum (l : list Q) : Q := foldr Qplus 0%Q l.
Lemma foldl_qsum l : forall a, (foldl Qplus a l == a + qsum l)%Q.
Proof. induction l as [|x l IH]; intros a; simpl; [ring|]. rewrite IH. ring. Qed.
Lemma qsum_nonneg l : Forall (Qle 0) l -> (0 <= qsum l)%Q.
Proof. induction 1; simpl; lra. Qed.
Lemma qsum_elem l x : Forall (Qle 0) l -> x ∈ l -> (x <= qsum l)%Q.
Proof.
  intros H Hx. induction H as [|y l Hy Hl IH]; [by apply elem_of_nil in Hx|]. simpl. apply elem_of_cons in Hx as [->|Hx].
  - apply qsum_nonneg in Hl. lra.
  - specialize (IH Hx). lra.
Qed.

(** the sum of rounded shares *)
Lemma sum_near w d t l : (~ t == 0)%Q ->
  (Qabs.Qabs (inject_Z (sum (map (bead_width w d t) l)) - (inject_Z (Z.of_nat (length l) * w) + inject_Z d * (qsum l / t))) <= inject_Z (Z.of_nat (length l)))%Q.
Proof.
  intros Ht. induction l as [|x l IH].
  - change (sum (map (bead_width w d t) [])) with 0. change (Z.of_nat (length (@nil Q)) * w) with 0. change (Z.of_nat (length (@nil Q))) with 0.
    change (qsum []) with 0%Q. change (inject_Z 0) with 0%Q. assert (E : (0 / t == 0)%Q) by (field; done). apply Qabs.Qabs_Qle_condition. rewrite E. lra.
  - simpl map. simpl sum. change (foldr Z.add 0 (map (bead_width w d t) l)) with (sum (map (bead_width w d t) l)). simpl length. simpl qsum. rewrite Nat2Z.inj_succ.
    replace (Z.succ (Z.of_nat (length l)) * w) with (w + Z.of_nat (length l) * w) by lia. rewrite !inject_Z_plus.
    replace (Z.succ (Z.of_nat (length l))) with (1 + Z.of_nat (length l)) by lia. rewrite inject_Z_plus. change (inject_Z 1) with 1%Q.
    unfold bead_width at 1. rewrite inject_Z_plus.
    pose proof (qtrunc_near (inject_Z d * (x / t))) as Hx. apply Qabs.Qabs_Qlt_condition in Hx. apply Qabs.Qabs_Qle_condition in IH. apply Qabs.Qabs_Qle_condition.
    change (foldr Qplus 0%Q l) with (qsum l).
    assert (E : ((x + qsum l) / t == x / t + qsum l / t)%Q) by (field; done). rewrite E. 
    assert (E2 : (inject_Z d * (x / t + qsum l / t) == inject_Z d * (x / t) + inject_Z d * (qsum l / t))%Q) by ring. rewrite E2. lra.
Qed.

Definition weights (r n : Z) : list Q := map (fun i => weight (one_over_squared r) (inject_Z (n - 1) / 2) (Z.of_nat i)) (seq 0 (Z.to_nat n)).
Lemma weights_spec r n : 0 < n -> Forall (Qle 0) (weights r n) /\ length (weights r n) = Z.to_nat n /\ (0 < qsum (weights r n))%Q /\
  forall i j x y, (i + j + 1 = Z.to_nat n)%nat -> weights r n !! i = Some x -> weights r n !! j = Some y -> (x == y)%Q.
Proof.
  intros Hn. assert (Hnn : Forall (Qle 0) (weights r n)) by (apply Forall_map, Forall_forall; intros i _; apply weight_nonneg).
  split; [done|]. split; [unfold weights; by rewrite map_length, seq_length|]. split.
  - eapply Qlt_le_trans; [apply (weight_middle (one_over_squared r) n); [apply one_over_01|done]|]. apply qsum_elem; [done|].
    unfold weights. apply elem_of_list_fmap. exists (Z.to_nat ((n - 1) / 2)). pose proof (Z.div_pos (n - 1) 2). pose proof (Z.div_le_upper_bound (n - 1) 2 (n - 1)).
    rewrite Z2Nat.id by lia. split; [done|]. apply elem_of_seq. lia.
  - intros i j x y Hij Hx Hy. unfold weights in Hx, Hy. rewrite list_lookup_fmap_Some in Hx. rewrite list_lookup_fmap_Some in Hy.
    destruct Hx as (i' & Hi & ->). destruct Hy as (j' & Hj & ->). apply lookup_seq in Hi as [-> _]. apply lookup_seq in Hj as [-> _]. apply weight_opposite. lia.
Qed.

(** *** the Distributed strategy *)
Record near_fits (thickness n : Z) (ws ls : list Z) : Prop := {
  nf_ws : length ws = Z.to_nat n;
  nf_ls : length ls = Z.to_nat n;
  nf_sum : Z.abs (thickness - sum ws) <= n;
  nf_pal : reverse ws = ws;
  nf_first : forall w l, ws !! 0%nat = Some w -> ls !! 0%nat = Some l -> l = w ÷ 2;
  nf_next : forall (i : nat) w w' l l', (S i <= length ws / 2)%nat -> ws !! i = Some w -> ws !! S i = Some w' -> ls !! i = Some l -> ls !! S i = Some l' ->
    Z.abs (2 * (l' - l) - (w + w')) <= 4;
  nf_opposite : forall (i j : nat) l l', (i + j + 1 = length ws)%nat -> ls !! i = Some l -> ls !! j = Some l' -> Z.abs (l + l' - thickness) <= 2 * n }.

Lemma palindrome (l : list Z) : (forall i j x y, (i + j + 1 = length l)%nat -> l !! i = Some x -> l !! j = Some y -> x = y) -> reverse l = l.
Proof.
  intros H. apply list_eq. intros i. destruct (decide (i < length l)%nat) as [Hi|Hi].
  - rewrite reverse_lookup by done. destruct (lookup_lt_is_Some_2 l i Hi) as [x Hx]. destruct (lookup_lt_is_Some_2 l (length l - S i)) as [y Hy]; [lia|].
    rewrite Hx, Hy. f_equal. symmetry. eapply (H i (length l - S i)%nat); [lia|done..].
  - rewrite !lookup_ge_None_2; [done|lia|rewrite reverse_length; lia].
Qed.
Lemma width_zero w t l : map (bead_width w 0 t) l = replicate (length l) w.
Proof.
  induction l as [|x l IH]; [done|]. simpl. rewrite IH. f_equal.
  unfold bead_width. assert (E : (inject_Z 0 * (x / t) == inject_Z 0)%Q) by (unfold Qdiv; ring). rewrite E, qtrunc_Z. lia.
Qed.
Lemma distributed_spec w r thickness n : 1 <= n ->
  exists ws ls, compute_distributed w r thickness n = Ok (Beading thickness ws ls (Some 0)) /\ near_fits thickness n ws ls /\
    (0 <= w -> 0 <= thickness -> (n - 1) * w <= thickness -> Forall (Z.le 0) ws) /\
    (thickness = n * w -> ws = replicate (Z.to_nat n) w /\ forall i l, (S i <= (Z.to_nat n + 1) / 2)%nat -> ls !! i = Some l -> l = w ÷ 2 + Z.of_nat i * w).
Proof.
  intros Hn. unfold compute_distributed. destruct (2 <? n) eqn:E2; [apply Z.ltb_lt in E2|apply Z.ltb_ge in E2].
  - cbv zeta. change (map _ (seq 0 (Z.to_nat n))) with (weights r n). destruct (weights_spec r n ltac:(lia)) as (W1 & W2 & W3 & W4).
    pose proof (foldl_qsum (weights r n) 0) as Et. set (t := foldl Qplus 0%Q (weights r n)) in *.
    assert (Ht : (0 < t)%Q) by lra. assert (Ht0 : (~ t == 0)%Q) by lra.
    destruct (Qeq_bool t 0) eqn:E0; [apply Qeq_bool_iff in E0; lra|].
    set (d := thickness - n * w). set (ws := map (bead_width w d t) (weights r n)). exists ws, (locations ws). split; [done|].
    assert (Lw : length ws = Z.to_nat n) by (unfold ws; by rewrite map_length).
    assert (Hs : Z.abs (thickness - sum ws) <= n).
    { pose proof (sum_near w d t (weights r n) Ht0) as Hs. fold ws in Hs. rewrite W2, Z2Nat.id in Hs by lia.
      assert (E1 : (qsum (weights r n) / t == 1)%Q). { assert (E1 : (qsum (weights r n) == t)%Q) by lra. rewrite E1. field. done. }
      rewrite E1, Qmult_1_r, <- inject_Z_plus in Hs. replace (n * w + d) with thickness in Hs by (unfold d; lia).
      apply Qabs.Qabs_Qle_condition in Hs as [Hs1 Hs2]. rewrite <- inject_Z_opp in Hs1. 
      assert (Hm : (inject_Z (sum ws) - inject_Z thickness == inject_Z (sum ws - thickness))%Q) by (unfold Z.sub; rewrite inject_Z_plus, inject_Z_opp; ring).
      rewrite Hm in Hs1, Hs2. rewrite <- Zle_Qle in Hs1, Hs2. lia. }
    assert (Hp : reverse ws = ws).
    { apply palindrome. rewrite Lw. intros i j x y Hij Hx Hy. unfold ws in Hx, Hy. rewrite list_lookup_fmap_Some in Hx. rewrite list_lookup_fmap_Some in Hy.
      destruct Hx as (a & Ha & ->). destruct Hy as (b & Hb & ->). pose proof (W4 i j a b Hij Ha Hb) as Eab. unfold bead_width. by rewrite Eab. }
    split; [|split].
    + constructor; try done.
      * by rewrite locations_length.
      * intros a l Ha Hl. destruct ws; [done|]. cbn in *. congruence.
      * intros i a b l l' _ Ha Hb Hl Hl'. rewrite (locations_next _ _ _ _ _ _ Ha Hb Hl Hl'). pose proof (half_near (a + b)). lia.
      * intros i j l l' Hij Hl Hl'. destruct (lookup_lt_is_Some_2 ws i) as [a Ha]; [lia|]. destruct (lookup_lt_is_Some_2 ws j) as [b Hb]; [lia|].
        pose proof (locations_prefix _ _ _ _ Ha Hl). pose proof (locations_prefix _ _ _ _ Hb Hl'). pose proof (pal_sum _ _ _ _ _ Hp Hij Ha Hb). lia.
    + intros Hw Hth Hge. apply Forall_forall. intros x Hx. unfold ws in Hx. apply elem_of_list_fmap in Hx as (a & -> & Ha). unfold bead_width.
      assert (Hq : (- inject_Z w <= inject_Z d * (a / t))%Q).
      { assert (Hd : (- inject_Z w <= inject_Z d)%Q) by (rewrite <- inject_Z_opp, <- Zle_Qle; unfold d; lia).
        assert (Hw' : (0 <= inject_Z w)%Q) by (change 0%Q with (inject_Z 0); rewrite <- Zle_Qle; lia).
        assert (Ha1 : (0 <= a / t <= 1)%Q). { pose proof (proj1 (Forall_forall _ _) W1 a Ha) as Wa. split; [apply Qle_shift_div_l; lra|apply Qle_shift_div_r; [done|]].
          assert (a <= qsum (weights r n))%Q by (by apply qsum_elem). lra. }
        set (q := (a / t)%Q) in *. nra. }
      apply qtrunc_le in Hq. rewrite <- inject_Z_opp, qtrunc_Z in Hq. lia.
    + intros Eth. assert (Ews : ws = replicate (Z.to_nat n) w).
      { unfold ws. rewrite <- W2. replace d with 0 by (unfold d; lia). apply width_zero. }
      split; [done|]. intros i l Hi Hl. rewrite Ews in Hl. rewrite locations_replicate in Hl; [congruence|]. apply lookup_lt_Some in Hl. by rewrite locations_length, replicate_length in Hl.
  - destruct (n =? 2) eqn:E3; [apply Z.eqb_eq in E3|apply Z.eqb_neq in E3].
    + subst n. eexists _, _. split; [reflexivity|]. pose proof (half_near thickness) as Hh. pose proof (half_near (thickness ÷ 2)) as Hh2. split; [constructor; try done|split].
      * simpl. lia.
      * by intros a l [= <-] [= <-].
      * intros [|i] a b l l' Hi Ha Hb Hl Hl'; [|apply lookup_lt_Some in Hb; simpl in Hb; lia]. injection Ha as <-. injection Hb as <-. injection Hl as <-. injection Hl' as <-. lia.
      * intros [|[|i]] [|[|j]] l l' Hij Hl Hl'; try (simpl in Hij; lia); cbn in Hl, Hl'; simplify_eq; lia.
      * intros _ Ht _. pose proof (Z.quot_pos thickness 2). repeat constructor; lia.
      * intros ->. rewrite (Z.mul_comm 2 w), Z.quot_mul by lia. split; [done|]. intros [|i] l Hi Hl; [cbn in Hl; simplify_eq; lia|]. simpl in Hi. lia.
    + replace n with 1 by lia. eexists _, _. split; [reflexivity|]. pose proof (half_near thickness) as Hh. split; [constructor; try done|split].
      * simpl. lia.
      * by intros a l [= <-] [= <-].
      * intros [|[|i]] [|[|j]] l l' Hij Hl Hl'; try (simpl in Hij; lia); cbn in Hl, Hl'; simplify_eq; lia.
      * intros _ Ht _. repeat constructor; lia.
      * intros ->. rewrite Z.mul_1_l. split; [done|]. intros [|i] l Hi Hl; [cbn in Hl; simplify_eq; lia|]. done.
Qed.

(** *** the Redistribute strategy *)
Lemma lookup_wrap {A} (x y : A) l i z : (x :: l ++ [y]) !! i = Some z ->
  (i = 0%nat /\ z = x) \/ (exists j, i = S j /\ l !! j = Some z) \/ (i = S (length l) /\ z = y).
Proof.
  destruct i as [|i]; [intros [= ->]; by left|]. cbn [lookup list_lookup]. intros H. apply lookup_app_Some in H as [H|[H1 H2]].
  - right. left. by exists i.
  - right. right. apply list_lookup_singleton_Some in H2 as [H2 ->]. split; [lia|done].
Qed.
Lemma wrap_fits thickness outer n ws ls : 1 <= n -> near_fits (thickness - 2 * outer) n ws ls ->
  fits thickness (Beading thickness (outer :: ws ++ [outer]) (outer ÷ 2 :: map (fun l => l + outer) ls ++ [thickness - outer ÷ 2])
    (Some (thickness - total (outer :: ws ++ [outer])))).
Proof.
  intros Hn []. assert (Ll : length ls = length ws) by congruence. pose proof (half_near outer) as Ho.
  constructor; cbn [total_thickness bead_widths toolpath_locations left_over].
  - done.
  - simpl. rewrite !app_length, map_length. simpl. lia.
  - eexists. split; [done|]. change total with sum. split; [lia|]. simpl sum. rewrite sum_app. simpl. rewrite app_length. simpl. lia.
  - rewrite app_comm_cons, reverse_snoc, reverse_cons, nf_pal0. done.
  - intros w l [= <-] [= <-]. done.
  - intros i w w' l l' Hi Hw Hw' Hl Hl'. simpl length in Hi. rewrite app_length in Hi. simpl length in Hi.
    replace (S (length ws + 1))%nat with (length ws + 1 * 2)%nat in Hi by lia. rewrite Nat.div_add in Hi by lia. 
    assert (Hlw : (length ws / 2 < length ws)%nat) by (apply Nat.div_lt; lia).
    apply lookup_wrap in Hw as [[-> ->]|[(j & -> & Hw)|[-> ->]]]; [| |lia].
    + cbn in Hl. injection Hl as <-. apply lookup_wrap in Hw' as [[? ?]|[(j' & [= <-] & Hw')|[[= E] ->]]]; [done| |lia].
      apply lookup_wrap in Hl' as [[? ?]|[(j' & [= <-] & Hl')|[[= E] ->]]]; [done| |rewrite map_length in E; lia].
      rewrite list_lookup_fmap_Some in Hl'. destruct Hl' as (l0 & Hl0 & ->). pose proof (nf_first0 _ _ Hw' Hl0) as ->. pose proof (half_near w'). lia.
    + apply lookup_wrap in Hw' as [[? ?]|[(j' & [= <-] & Hw')|[[= E] ->]]]; [done| |lia].
      apply lookup_wrap in Hl as [[? ?]|[(j' & [= <-] & Hl)|[[= E] ->]]]; [done| |rewrite map_length in E; lia].
      apply lookup_wrap in Hl' as [[? ?]|[(j' & [= <-] & Hl')|[[= E] ->]]]; [done| |rewrite map_length in E; lia].
      rewrite list_lookup_fmap_Some in Hl. rewrite list_lookup_fmap_Some in Hl'. destruct Hl as (a & Ha & ->). destruct Hl' as (b & Hb & ->).
      pose proof (nf_next0 j w w' a b ltac:(lia) Hw Hw' Ha Hb). lia.
  - intros i j l l' Hij Hl Hl'. simpl length in Hij |- *. rewrite app_length in Hij |- *. simpl length in Hij |- *.
    apply lookup_wrap in Hl as [[-> ->]|[(i0 & -> & Hl)|[-> ->]]]; apply lookup_wrap in Hl' as [[-> ->]|[(j0 & -> & Hl')|[-> ->]]]; rewrite ?map_length in *; try lia.
    + apply lookup_lt_Some in Hl'. rewrite map_length in Hl'. lia.
    + apply lookup_lt_Some in Hl. rewrite map_length in Hl. lia.
    + rewrite list_lookup_fmap_Some in Hl. rewrite list_lookup_fmap_Some in Hl'. destruct Hl as (a & Ha & ->). destruct Hl' as (b & Hb & ->).
      pose proof (nf_opposite0 i0 j0 a b ltac:(lia) Ha Hb). lia.
Qed.

Section redistribute.
  Variables (outer w r : Z) (ratio split add : Q).
  Hypothesis (Ho : 0 < outer) (Hw : 0 < w) (Hr : (0 <= ratio <= 1)%Q).
  Let s := Redistribute outer ratio (Distributed w split add r).

  Definition bead_number (thickness n : Z) : Z := if n <=? 2 then n else if 2 * outer <? thickness then n else 2.
  Lemma redistribute_none thickness n : (inject_Z thickness < ratio * inject_Z outer)%Q -> compute s thickness n = Ok (Beading thickness [] [] (Some thickness)).
  Proof. intros H. cbn [compute s]. apply Qltb_true in H. by rewrite H, orb_true_r. Qed.
  Lemma two_fits thickness : let a := thickness ÷ 2 in
    fits thickness (Beading thickness [a; a] [a ÷ 2; thickness - a ÷ 2] (Some (thickness - total [a; a]))).
  Proof.
    cbv zeta. pose proof (half_near thickness) as H1. pose proof (half_near (thickness ÷ 2)) as H2. set (a := thickness ÷ 2) in *.
    constructor; cbn [total_thickness bead_widths toolpath_locations left_over]; try done.
    - eexists. split; [done|]. simpl. lia.
    - by intros ? ? [= <-] [= <-].
    - intros [|i] ? ? ? ? Hi Ha Hb Hl Hl'; [|apply lookup_lt_Some in Hb; simpl in Hb; lia]. injection Ha as <-. injection Hb as <-. injection Hl as <-. injection Hl' as <-. lia.
    - intros [|[|i]] [|[|j]] l l' Hij Hl Hl'; try (simpl in Hij; lia); simpl length; cbn in Hl, Hl'; simplify_eq; lia.
  Qed.
  Lemma one_fits thickness : fits thickness (Beading thickness [thickness] [thickness ÷ 2] (Some (thickness - total [thickness]))).
  Proof.
    pose proof (half_near thickness) as H1. 
    constructor; cbn [total_thickness bead_widths toolpath_locations left_over]; try done.
    - eexists. split; [done|]. simpl. lia.
    - by intros ? ? [= <-] [= <-].
    - intros [|[|i]] [|[|j]] l l' Hij Hl Hl'; try (simpl in Hij; lia); simpl length; cbn in Hl, Hl'; simplify_eq; lia.
  Qed.
  Lemma redistribute_spec thickness n : 1 <= n -> (ratio * inject_Z outer <= inject_Z thickness)%Q ->
    exists b, compute s thickness n = Ok b /\ fits thickness b /\ Z.of_nat (length (bead_widths b)) = bead_number thickness n /\
      (n <= 2 \/ thickness <= 2 * outer \/ (n - 3) * w <= thickness - 2 * outer -> Forall (Z.le 0) (bead_widths b)).
  Proof.
    intros Hn Ht. cbn [compute s]. apply Qltb_false in Ht as E. rewrite E, orb_false_r. rewrite (proj2 (Z.eqb_neq n 0)) by lia.
    assert (Ht0 : 0 <= thickness). { rewrite Zle_Qle. change (inject_Z 0) with 0%Q. assert (0 < inject_Z outer)%Q by (change 0%Q with (inject_Z 0); rewrite <- Zlt_Qlt; lia). nra. }
    unfold bead_number. destruct (n <=? 2) eqn:E2; [apply Z.leb_le in E2|apply Z.leb_gt in E2].
    - rewrite (proj2 (Z.ltb_ge 0 (n - 2))) by lia. cbn [andb rbind fst snd]. rewrite (proj2 (Z.ltb_ge 2 n)) by lia. 
      destruct (1 <? n) eqn:E1; [apply Z.ltb_lt in E1|apply Z.ltb_ge in E1].
      + replace n with 2 by lia. eexists. split; [done|]. cbn [app]. split; [apply two_fits|]. split; [done|]. intros _. pose proof (Z.quot_pos thickness 2). repeat constructor; lia.
      + replace n with 1 by lia. rewrite Z.quot_1_r. eexists. split; [done|]. split; [apply one_fits|]. split; [done|]. intros _. repeat constructor; lia.
    - rewrite (proj2 (Z.ltb_lt 0 (n - 2))) by lia. rewrite (proj2 (Z.ltb_lt 2 n)), (proj2 (Z.ltb_lt 1 n)) by lia. cbn [andb].
      destruct (2 * outer <? thickness) eqn:E1; [apply Z.ltb_lt in E1|apply Z.ltb_ge in E1].
      + rewrite (proj2 (Z.ltb_lt 0 _)) by lia. destruct (distributed_spec w r (thickness - 2 * outer) (n - 2) ltac:(lia)) as (ws & ls & -> & Hf & Hnn & _).
        cbn [rbind fst snd bead_widths toolpath_locations]. rewrite Z.min_r by (apply Z.quot_le_lower_bound; lia).
        eexists. split; [done|]. cbn [app]. split; [by apply (wrap_fits thickness outer (n - 2)); [lia|]|]. split.
        * cbn [bead_widths]. simpl length. rewrite app_length. simpl length. destruct Hf. lia.
        * cbn [bead_widths]. intros H. constructor; [lia|]. apply Forall_app_2; [apply Hnn; lia|]. repeat constructor. lia.
      + rewrite (proj2 (Z.ltb_ge 0 _)) by lia. cbn [rbind fst snd]. 
        rewrite Z.min_l by (apply Z.quot_le_upper_bound; lia). eexists. split; [done|]. cbn [app]. split; [apply two_fits|]. split; [done|].
        intros _. pose proof (Z.quot_pos thickness 2). repeat constructor; lia.
  Qed.
  Lemma redistribute_preferred k : 1 <= k ->
    exists ls, compute s (2 * outer + (2 * k - 2) * w) (2 * k) =
      Ok (Beading (2 * outer + (2 * k - 2) * w) (outer :: replicate (Z.to_nat (2 * k - 2)) w ++ [outer]) ls (Some 0)) /\
      length ls = Z.to_nat (2 * k) /\
      forall i l, (i < Z.to_nat k)%nat -> ls !! i = Some l -> l = if Z.of_nat i =? 0 then outer ÷ 2 else outer + (Z.of_nat i - 1) * w + w ÷ 2.
  Proof.
    intros Hk. cbn [compute s]. set (t := 2 * outer + (2 * k - 2) * w). 
    assert (E : Qltb (inject_Z t) (ratio * inject_Z outer) = false).
    { apply Qltb_false. assert (Hto : (inject_Z outer <= inject_Z t)%Q) by (rewrite <- Zle_Qle; unfold t; nia). 
      assert (0 < inject_Z outer)%Q by (change 0%Q with (inject_Z 0); rewrite <- Zlt_Qlt; lia). nra. }
    rewrite E, (proj2 (Z.eqb_neq (2 * k) 0)) by lia. cbn [orb]. 
    assert (Et : t - 2 * outer = (2 * k - 2) * w) by (unfold t; lia). rewrite Et. rewrite (proj2 (Z.ltb_lt 1 (2 * k))) by lia.
    destruct (decide (k = 1)) as [->|Hk1].
    - change (2 * 1 - 2) with 0. cbn [Z.ltb Z.compare andb rbind fst snd]. change (2 * 1) with 2. 
      replace (t ÷ 2) with outer. 2:{ unfold t. replace (2 * outer + (2 * 1 - 2) * w) with (outer * 2) by lia. by rewrite Z.quot_mul. }
      change (2 <? 2) with false. cbn iota. cbn [app]. eexists. split; [f_equal; f_equal; f_equal; unfold total, t; simpl; lia|].
      split; [done|]. intros [|i] l Hi Hl; [|lia]. cbn in Hl. simplify_eq. done.
    - rewrite (proj2 (Z.ltb_lt 0 (2 * k - 2))), (proj2 (Z.ltb_lt 0 ((2 * k - 2) * w))), (proj2 (Z.ltb_lt 2 (2 * k))) by nia. cbn [andb].
      destruct (distributed_spec w r ((2 * k - 2) * w) (2 * k - 2) ltac:(lia)) as (ws & ls & -> & Hf & _ & Hp). destruct (Hp eq_refl) as [-> Hl].
      cbn [rbind fst snd bead_widths toolpath_locations]. rewrite Z.min_r by (apply Z.quot_le_lower_bound; unfold t; nia). cbn [app].
      eexists. split; [f_equal; f_equal; f_equal|].
      { change total with sum. simpl sum. rewrite sum_app, sum_replicate. simpl. unfold t. lia. }
      destruct Hf. split; [simpl length; rewrite app_length, map_length; simpl length; lia|].
      intros i l Hi H. apply lookup_wrap in H as [[-> ->]|[(j & -> & H)|[-> ->]]]; [done| |rewrite map_length in Hi; lia].
      rewrite list_lookup_fmap_Some in H. destruct H as (a & Ha & ->). rewrite (Hl j a); [| |done].
      + rewrite (proj2 (Z.eqb_neq _ 0)) by lia. lia.
      + replace (Z.to_nat (2 * k - 2) + 1)%nat with (1 + (Z.to_nat k - 1) * 2)%nat by lia. rewrite Nat.div_add by lia. simpl. lia.
  Qed.
End redistribute.

(** *** the Limited strategy *)
Lemma at_Some l i x : l !! i = Some x -> at_ l (Z.of_nat i) = Ok x.
Proof. intros H. unfold at_. rewrite (proj2 (Z.leb_le 0 _)) by lia. by rewrite Nat2Z.id, H. Qed.
Lemma insert_at_ok l i x : (i <= length l)%nat -> insert_at (Z.of_nat i) x l = Ok (take i l ++ x :: drop i l).
Proof. intros H. unfold insert_at. rewrite (proj2 (Z.leb_le 0 _)), (proj2 (Z.leb_le _ _)) by lia. by rewrite Nat2Z.id. Qed.
Lemma set_at_ok l i x : (i < length l)%nat -> set_at l (Z.of_nat i) x = Ok (<[i := x]> l).
Proof. intros H. unfold set_at. rewrite (proj2 (Z.leb_le 0 _)), (proj2 (Z.ltb_lt _ _)) by lia. cbn [andb]. by rewrite Nat2Z.id. Qed.
Lemma lookup_inserted (l : list Z) k x i y : (k <= length l)%nat -> (take k l ++ x :: drop k l) !! i = Some y ->
  ((i < k)%nat /\ l !! i = Some y) \/ (i = k /\ y = x) \/ ((k < i)%nat /\ l !! pred i = Some y).
Proof.
  intros Hk H. apply lookup_app_Some in H as [H|[H1 H2]].
  - left. apply lookup_lt_Some in H as Hl. rewrite take_length in Hl. rewrite lookup_take in H by lia. split; [lia|done].
  - rewrite take_length, Nat.min_l in * by lia. destruct (i - k)%nat as [|j] eqn:E; [injection H2 as <-; right; left; split; [lia|done]|].
    right. right. change ((drop k l) !! j = Some y) in H2. rewrite lookup_drop in H2. split; [lia|]. by replace (pred i) with (k + j)%nat by lia.
Qed.
Lemma pal_halves (l : list Z) k : reverse l = l -> (length l = 2 * k)%nat -> reverse (drop k l) = take k l /\ reverse (take k l) = drop k l.
Proof.
  intros Hp Hl. assert (E : reverse (drop k l) ++ reverse (take k l) = take k l ++ drop k l) by (by rewrite <- reverse_app, !take_drop, Hp).
  apply app_inj_1 in E; [done|]. rewrite reverse_length, drop_length, take_length. lia.
Qed.

Definition with_marker (k : nat) (b : beading) (l w : Z) : beading :=
  Beading (total_thickness b) (take k (bead_widths b) ++ 0 :: drop k (bead_widths b))
    (take k (toolpath_locations b) ++ (l + w ÷ 2) :: drop k (toolpath_locations b)) (left_over b).
Lemma marker_fits thickness b k l w : fits thickness b -> (length (bead_widths b) = 2 * S k)%nat ->
  toolpath_locations b !! k = Some l -> bead_widths b !! k = Some w -> fits thickness (with_marker (S k) b l w).
Proof.
  intros [fits_total0 fits_length0 fits_left_over0 fits_symmetric0 fits_first0 fits_next0 fits_opposite0] Hlen Hl Hw. assert (Elen : length (take (S k) (bead_widths b) ++ 0 :: drop (S k) (bead_widths b)) = (2 * S k + 1)%nat).
  { rewrite app_length, take_length. simpl length. rewrite drop_length. lia. }
  pose proof (half_near w) as Hh.
  constructor; cbn [with_marker total_thickness bead_widths toolpath_locations left_over]; rewrite ?Elen.
  - done.
  - rewrite app_length, take_length. simpl length. rewrite drop_length. lia.
  - destruct fits_left_over0 as (lo & H1 & H2 & H3). exists lo. split; [done|]. split; [|lia]. rewrite sum_app. simpl sum.
    pose proof (f_equal sum (take_drop (S k) (bead_widths b))) as H. rewrite sum_app in H. cbn [sum foldr] in *. unfold sum in *. lia.
  - rewrite reverse_app, reverse_cons. destruct (pal_halves _ (S k) fits_symmetric0 ltac:(lia)) as [-> ->]. by rewrite <- app_assoc.
  - intros w0 l0 H1 H2. apply (fits_first0 w0 l0); [destruct (bead_widths b)|destruct (toolpath_locations b)]; done.
  - intros i a a' c c' Hi Ha Ha' Hc Hc'. replace (2 * S k + 1)%nat with (1 + S k * 2)%nat in Hi by lia. rewrite Nat.div_add in Hi by lia. cbn [Nat.div Nat.divmod fst] in Hi.
    change (1 / 2)%nat with 0%nat in Hi.
    apply lookup_inserted in Ha as [[Q1 Ha]|[[Q1 ->]|[Q1 Ha]]]; try lia. apply lookup_inserted in Hc as [[Q2 Hc]|[[Q2 ->]|[Q2 Hc]]]; try lia.
    apply lookup_inserted in Ha' as [[Q3 Ha']|[[Q3 ->]|[Q3 Ha']]]; try lia; apply lookup_inserted in Hc' as [[Q4 Hc']|[[Q4 ->]|[Q4 Hc']]]; try lia.
    + eapply (fits_next0 i); try done. rewrite Hlen, Nat.mul_comm, Nat.div_mul by lia. lia.
    + assert (i = k) as -> by lia. simplify_eq. lia.
  - intros i j a c Hij Ha Hc. 
    apply lookup_inserted in Ha as [[Q1 Ha]|[[Q1 ->]|[Q1 Ha]]]; try lia; apply lookup_inserted in Hc as [[Q2 Hc]|[[Q2 ->]|[Q2 Hc]]]; try lia.
    + pose proof (fits_opposite0 i (pred j) a c ltac:(lia) Ha Hc). lia.
    + destruct (lookup_lt_is_Some_2 (toolpath_locations b) (S k)) as [l' Hl']; [lia|]. destruct (lookup_lt_is_Some_2 (bead_widths b) (S k)) as [w' Hw']; [lia|].
      pose proof (fits_opposite0 k (S k) l l' ltac:(lia) Hl Hl'). pose proof (fits_next0 k w w' l l') as Hn. rewrite Hlen in Hn.
      rewrite (Nat.mul_comm 2 (S k)), Nat.div_mul in Hn by lia. specialize (Hn ltac:(lia) Hw Hw' Hl Hl').
      pose proof (pal_lookup _ k (S k) w w' fits_symmetric0 ltac:(lia) Hw Hw') as ->. lia.
    + pose proof (fits_opposite0 (pred i) j a c ltac:(lia) Ha Hc). lia.
Qed.

Lemma limited_below k p thickness n b : (1 <= k)%nat -> n <= 2 * Z.of_nat k -> compute p thickness n = Ok b -> length (toolpath_locations b) = length (bead_widths b) ->
  (length (bead_widths b) <> (2 * k)%nat -> compute (Limited (2 * Z.of_nat k) p) thickness n = Ok b) /\
  (length (bead_widths b) = (2 * k)%nat -> exists l w, toolpath_locations b !! pred k = Some l /\ bead_widths b !! pred k = Some w /\
     compute (Limited (2 * Z.of_nat k) p) thickness n = Ok (with_marker k b l w)).
Proof.
  intros Hk Hn Hb Hlen. cbn [compute]. rewrite (proj2 (Z.leb_le n _)) by lia. rewrite Hb. cbn [rbind]. split.
  - intros Hne. rewrite (proj2 (Z.eqb_neq (Z.of_nat (length (toolpath_locations b))) _)) by lia. by rewrite andb_false_r.
  - intros He. destruct (lookup_lt_is_Some_2 (toolpath_locations b) (pred k)) as [l Hl]; [lia|]. destruct (lookup_lt_is_Some_2 (bead_widths b) (pred k)) as [w Hw]; [lia|].
    exists l, w. split; [done|]. split; [done|]. rewrite (proj2 (Z.eqb_eq (Z.of_nat (length (toolpath_locations b))) (2 * Z.of_nat k))) by lia.
    replace (Z.of_nat (length (toolpath_locations b))) with (Z.of_nat k * 2) by lia. rewrite Z.rem_mul by lia. cbn [Z.eqb andb]. 
    rewrite (Z.mul_comm 2), Z.quot_mul by lia. replace (Z.of_nat k - 1) with (Z.of_nat (pred k)) by lia. rewrite (at_Some _ _ _ Hl), (at_Some _ _ _ Hw). cbn [rbind].
    rewrite !insert_at_ok by lia. cbn [rbind]. done.
Qed.

(** the other side *)
Lemma mirror_ok thickness L n j : forall i, length L = n -> (2 * (i + j) <= n)%nat -> let f l := thickness - l in
  mirror thickness (Z.of_nat n) (map Z.of_nat (seq i j)) (take (n - i) L ++ reverse (map f (take i L))) =
    Ok (take (n - (i + j)) L ++ reverse (map f (take (i + j) L))).
Proof.
  induction j as [|j IH]; intros i HL Hj f; [by rewrite Nat.add_0_r|]. cbn [seq map mirror].
  destruct (lookup_lt_is_Some_2 L i) as [x Hx]; [lia|]. destruct (lookup_lt_is_Some_2 L (n - i - 1)) as [y Hy]; [lia|].
  rewrite (at_Some _ i x). 2:{ rewrite lookup_app_l by (rewrite take_length; lia). rewrite lookup_take by lia. done. }
  cbn [rbind]. replace (Z.of_nat n - 1 - Z.of_nat i) with (Z.of_nat (n - i - 1)) by lia.
  rewrite set_at_ok. 2:{ rewrite app_length, take_length, reverse_length, map_length, take_length. lia. }
  cbn [rbind]. replace (i + S j)%nat with (S i + j)%nat by lia. etransitivity; [|exact (IH (S i) HL ltac:(lia))]. f_equal.
  rewrite (take_S_r _ _ _ Hx), map_app, reverse_app. cbn [map reverse]. replace (n - i)%nat with (S (n - i - 1)) by lia. rewrite (take_S_r _ _ _ Hy).
  rewrite <- app_assoc. rewrite insert_app_r_alt by (rewrite take_length; lia). replace (S (n - i - 1) - 1 - length (take (n - i - 1) L))%nat with 0%nat by (rewrite take_length; lia). replace (n - i - 1 - length (take (n - i - 1) L))%nat with 0%nat by (rewrite take_length; lia). cbn [app insert list_insert].
  replace (n - S i)%nat with (n - i - 1)%nat by lia. done.
Qed.
Lemma limited_above k p thickness n W L a : (1 <= k)%nat -> 2 * Z.of_nat k < n -> let opt := getOptimalThickness p (2 * Z.of_nat k) in
  compute p opt (2 * Z.of_nat k) = Ok (Beading opt W L (Some a)) -> length W = (2 * k)%nat -> length L = (2 * k)%nat -> reverse W = W ->
  exists l w, L !! pred k = Some l /\ W !! pred k = Some w /\
    compute (Limited (2 * Z.of_nat k) p) thickness n =
      Ok (Beading thickness (take k W ++ [0; 0] ++ drop k W)
        (take k L ++ [l + w ÷ 2; thickness - (l + w ÷ 2)] ++ reverse (map (fun l => thickness - l) (take k L))) (Some (a + (thickness - opt)))).
Proof.
  intros Hk Hn opt Hb LW LL Hp. destruct (lookup_lt_is_Some_2 L (pred k)) as [l Hl]; [lia|]. destruct (lookup_lt_is_Some_2 W (pred k)) as [w Hw]; [lia|].
  exists l, w. split; [done|]. split; [done|]. cbn [compute]. rewrite (proj2 (Z.leb_gt n _)) by lia. fold opt. rewrite Hb. cbn [rbind left_over of_opt total_thickness bead_widths toolpath_locations].
  rewrite LL. replace (Z.of_nat (2 * k)) with (Z.of_nat k * 2) by lia. rewrite Z.rem_mul by lia. cbn [Z.eqb rbind fst snd].
  assert (E : (Z.of_nat k * 2 + 1) ÷ 2 = Z.of_nat k). { replace (Z.of_nat k * 2 + 1) with (1 + Z.of_nat k * 2) by lia. rewrite Z.quot_add by lia. by change (1 ÷ 2) with 0. }
  rewrite E, Nat2Z.id. pose proof (mirror_ok thickness L (2 * k) k 0 LL ltac:(lia)) as Hm. cbv zeta in Hm. cbn [take map] in Hm. rewrite Nat.sub_0_r in Hm.
  change (reverse []) with (@nil Z) in Hm. rewrite app_nil_r in Hm. rewrite take_ge in Hm by lia. replace (Z.of_nat (2 * k)) with (Z.of_nat k * 2) in Hm by lia.
  rewrite Hm. cbn [rbind]. replace (2 * k - (0 + k))%nat with k by lia. cbn [Nat.add]. set (R := reverse (map (fun l => thickness - l) (take k L))).
  assert (LR : length R = k) by (unfold R; rewrite reverse_length, map_length, take_length; lia).
  assert (Lt : length (take k L) = k) by (rewrite take_length; lia).
  rewrite (Z.mul_comm 2), Z.quot_mul by lia. replace (Z.of_nat k - 1) with (Z.of_nat (pred k)) by lia.
  rewrite (at_Some _ _ l). 2:{ rewrite lookup_app_l by lia. by rewrite lookup_take by lia. } rewrite (at_Some _ _ _ Hw). cbn [rbind].
  rewrite (insert_at_ok (take k L ++ R)) by (rewrite app_length; lia). rewrite (insert_at_ok W) by lia. cbn [rbind].
  rewrite take_app_alt, drop_app_alt by done.
  replace (Z.of_nat k * 2 - Z.of_nat (pred k)) with (Z.of_nat (S k)) by lia.
  destruct R as [|y R'] eqn:ER; [simpl in LR; lia|].
  assert (Ey : y = thickness - l).
  { assert (H : R !! 0%nat = Some y) by (by rewrite ER). unfold R in H. rewrite reverse_lookup in H by (rewrite map_length; lia). rewrite map_length, Lt in H.
    rewrite list_lookup_fmap_Some in H. destruct H as (z & Hz & ->). rewrite lookup_take in Hz by lia. replace (k - 1)%nat with (pred k) in Hz by lia. congruence. }
  destruct (lookup_lt_is_Some_2 W k) as [w' Hw']; [lia|]. pose proof (pal_lookup W (pred k) k w w' Hp ltac:(lia) Hw Hw') as <-.
  rewrite (at_Some _ (S k) y). 2:{ rewrite lookup_app_r by lia. rewrite Lt. replace (S k - k)%nat with 1%nat by lia. done. }
  assert (Ltw : length (take k W) = k) by (rewrite take_length; lia).
  rewrite (at_Some (take k W ++ 0 :: drop k W) (S k) w). 2:{ rewrite lookup_app_r by lia. rewrite Ltw. replace (S k - k)%nat with 1%nat by lia. change (drop k W !! 0%nat = Some w). rewrite lookup_drop. by rewrite Nat.add_0_r. }
  cbn [rbind]. rewrite !insert_at_ok by (rewrite app_length; simpl length; rewrite ?drop_length; lia). cbn [rbind].
  change (take k L ++ (l + w ÷ 2) :: y :: R') with (take k L ++ [l + w ÷ 2] ++ y :: R'). change (take k W ++ 0 :: drop k W) with (take k W ++ [0] ++ drop k W).
  rewrite (app_assoc (take k L)), (app_assoc (take k W)), !take_app_alt, !drop_app_alt by (rewrite app_length; simpl length; lia).
  do 2 f_equal.
  - by rewrite <- app_assoc.
  - rewrite <- app_assoc. cbn [app]. replace (y - w ÷ 2) with (thickness - (l + w ÷ 2)) by lia. done.
Qed.

(** *** insets *)
Definition base (P : parameters) : strategy :=
  let ret := Redistribute (preferred_bead_width_outer P) (minimum_variable_line_ratio P)
    (Distributed (preferred_bead_width_inner P) (wall_split_middle_threshold P) (wall_add_middle_threshold P) (inward_distributed_center_wall_count P)) in
  if print_thin_walls P then Widening ret (min_feature_size P) (min_bead_width P) else ret.
Definition insets (P : parameters) (p : strategy) : strategy :=
  let ret := if 0 <? outer_wall_offset P then OuterWallInset (outer_wall_offset P) p else p in
  if negb (inner_wall_offset P =? 0) then InnerWallInset (inner_wall_offset P) ret else ret.
Lemma make_eq P : makeStrategy P = Limited (max_bead_count P) (insets P (base P)).
Proof. done. Qed.
Lemma base_without P : base (without_insets P) = base P.
Proof. done. Qed.
Lemma insets_none P p : no_insets P -> insets P p = p.
Proof. intros [H1 H2]. unfold insets. rewrite (proj2 (Z.ltb_ge _ _)) by lia. by rewrite H2. Qed.
Definition moved_locations (P : parameters) (thickness : Z) (ls : list Z) : list Z :=
  match ls with [] => [] | l :: ls' => moved P thickness 0 l :: map (fun l => l + inner_wall_offset P) ls' end.
Lemma moved_length P t ls : length (moved_locations P t ls) = length ls.
Proof. destruct ls; simpl; [done|]. by rewrite map_length. Qed.
Lemma moved_lookup P t ls i : moved_locations P t ls !! i = moved P t (Z.of_nat i) <$> ls !! i.
Proof.
  destruct ls as [|l ls]; [done|]. destruct i as [|i]; [done|].
  change (((fun l => l + inner_wall_offset P) <$> ls) !! i = moved P t (Z.of_nat (S i)) <$> ls !! i). rewrite list_lookup_fmap.
  destruct (ls !! i); [|done]. cbn [fmap option_fmap option_map]. unfold moved. rewrite (proj2 (Z.eqb_neq (Z.of_nat (S i)) 0)) by lia. done.
Qed.
Definition inset_beading (P : parameters) (t : Z) (b : beading) : beading :=
  if (count_positive (bead_widths b) <? 2)%nat then b
  else Beading (total_thickness b) (bead_widths b) (moved_locations P t (toolpath_locations b)) (left_over b).
Lemma insets_spec P p t n b : compute p t n = Ok b -> length (toolpath_locations b) = length (bead_widths b) ->
  compute (insets P p) t n = Ok (inset_beading P t b).
Proof.
  intros Hb Hl. destruct b as [tt ws ls lo]. cbn [toolpath_locations bead_widths] in Hl. unfold insets, inset_beading. cbn [bead_widths toolpath_locations total_thickness left_over].
  assert (E : (count_positive ws <? 2)%nat = false -> exists l ls', ls = l :: ls').
  { intros H. apply Nat.ltb_ge in H. destruct ls as [|l ls']; [|eauto]. destruct ws; [|done]. cbn in H. lia. }
  assert (E1 : compute (if 0 <? outer_wall_offset P then OuterWallInset (outer_wall_offset P) p else p) t n =
    Ok (if (count_positive ws <? 2)%nat then Beading tt ws ls lo else Beading tt ws (match ls with [] => [] | l :: ls' => moved P t 0 l :: ls' end) lo)).
  { destruct (0 <? outer_wall_offset P) eqn:Eo.
    - cbn [compute]. rewrite Hb. cbn [rbind bead_widths toolpath_locations total_thickness left_over]. destruct (count_positive ws <? 2)%nat; [done|].
      destruct (E eq_refl) as (l & ls' & ->). change 0 with (Z.of_nat 0) at 1. rewrite (at_Some _ 0 l) by done. cbn [rbind]. change 0 with (Z.of_nat 0) at 1.
      rewrite set_at_ok by (simpl; lia). cbn [rbind]. unfold moved. by rewrite Eo.
    - rewrite Hb. destruct (count_positive ws <? 2)%nat; [done|]. destruct (E eq_refl) as (l & ls' & ->). unfold moved. by rewrite Eo. }
  destruct (inner_wall_offset P =? 0) eqn:Ei; cbn [negb].
  - apply Z.eqb_eq in Ei. rewrite E1. destruct (count_positive ws <? 2)%nat; [done|]. destruct ls as [|l ls']; [done|]. cbn [moved_locations]. rewrite Ei.
    do 2 f_equal. f_equal. symmetry. transitivity (map id ls'); [|apply map_id]. apply map_ext. intros x. unfold id. lia.
  - cbn [compute]. rewrite E1. cbn [rbind]. destruct (count_positive ws <? 2)%nat eqn:Ec; cbn [bead_widths toolpath_locations total_thickness left_over]; rewrite Ec; [done|].
    destruct (E eq_refl) as (l & ls' & ->). done.
Qed.
Lemma inset_length P t b : length (toolpath_locations (inset_beading P t b)) = length (toolpath_locations b).
Proof. unfold inset_beading. destruct (_ <? _)%nat; [done|]. apply moved_length. Qed.
Lemma inset_widths P t b : bead_widths (inset_beading P t b) = bead_widths b /\ total_thickness (inset_beading P t b) = total_thickness b /\ left_over (inset_beading P t b) = left_over b.
Proof. unfold inset_beading. by destruct (_ <? _)%nat. Qed.
Lemma insets_optimal P p n : getOptimalThickness (insets P p) n = getOptimalThickness p n.
Proof. unfold insets. by destruct (0 <? _), (negb _). Qed.
Lemma insets_transition P p n : getTransitionThickness (insets P p) n = getTransitionThickness p n.
Proof. unfold insets. by destruct (0 <? _), (negb _). Qed.
Lemma insets_count P p t : getOptimalBeadCount (insets P p) t = getOptimalBeadCount p t.
Proof. unfold insets. by destruct (0 <? _), (negb _). Qed.
Lemma base_thick P t n : ~ thin P t -> compute (base P) t n =
  compute (Redistribute (preferred_bead_width_outer P) (minimum_variable_line_ratio P)
    (Distributed (preferred_bead_width_inner P) (wall_split_middle_threshold P) (wall_add_middle_threshold P) (inward_distributed_center_wall_count P))) t n.
Proof.
  intros H. unfold base. destruct (print_thin_walls P) eqn:E; [|done]. cbn [compute optimal_width]. unfold thin in H. rewrite (proj2 (Z.ltb_ge _ _)); [done|].
  destruct (Z.le_gt_cases (preferred_bead_width_inner P) t) as [|Hlt]; [done|]. exfalso. apply H. split; [done|lia].
Qed.
Lemma base_optimal P n : 2 <= n -> getOptimalThickness (base P) n = 2 * preferred_bead_width_outer P + (n - 2) * preferred_bead_width_inner P.
Proof. intros H. unfold base. destruct (print_thin_walls P); cbn [getOptimalThickness]; rewrite Z.max_r by lia; ring. Qed.

(** *** the number of beads *)
Section count.
  Variables (w r : Z) (split add : Q).
  Hypothesis (Hw : 0 < w) (Hs : (0 < split <= 1)%Q) (Ha : (0 < add <= 1)%Q).
  Let d := Distributed w split add r.
  Lemma transition_bounds l : 0 <= l -> exists x, getTransitionThickness d l = l * w + x /\ 0 <= x <= w /\
    x = qtrunc (inject_Z w * (if Z.rem l 2 =? 1 then split else add)).
  Proof.
    intros Hl. cbn [getTransitionThickness d]. set (t := if Z.rem l 2 =? 1 then split else add). assert (Ht : (0 < t <= 1)%Q) by (unfold t; destruct (_ =? _); done).
    assert (Hw' : (0 < inject_Z w)%Q) by (change 0%Q with (inject_Z 0); by rewrite <- Zlt_Qlt). exists (qtrunc (inject_Z w * t)).
    replace (w * (l + 1) - w * l) with w by lia. assert (E : (inject_Z (w * l) + t * inject_Z w == inject_Z (l * w) + inject_Z w * t)%Q) by (rewrite (Z.mul_comm w l); ring). rewrite E.
    assert (Hx : (0 <= inject_Z w * t <= inject_Z w)%Q) by nra. destruct (qtrunc_nonneg _ (proj1 Hx)) as [H0 H1]. split; [|split; [|done]].
    - assert (Hs' : (0 <= inject_Z (l * w) + inject_Z w * t)%Q). { assert (0 <= inject_Z (l * w))%Q by (change 0%Q with (inject_Z 0); rewrite <- Zle_Qle; nia). lra. }
      destruct (qtrunc_nonneg _ Hs') as [H2 H3]. set (a := qtrunc (inject_Z (l * w) + inject_Z w * t)) in *. set (b := qtrunc (inject_Z w * t)) in *.
      assert (A1 : (inject_Z a < inject_Z (l * w + b + 1))%Q) by (rewrite !inject_Z_plus; change (inject_Z 1) with 1%Q; lra). rewrite <- Zlt_Qlt in A1.
      assert (A2 : (inject_Z (l * w + b) < inject_Z (a + 1))%Q) by (rewrite !inject_Z_plus; change (inject_Z 1) with 1%Q; lra). rewrite <- Zlt_Qlt in A2. lia.
    - split; [done|]. rewrite Zle_Qle. lra.
  Qed.
  Lemma distributed_count t : 0 <= t -> exists n, getOptimalBeadCount d t = Ok n /\ 0 <= n /\ (n - 1) * w <= t /\ t <= (n + 1) * w /\
    forall l, 0 <= l -> (l < n <-> getTransitionThickness d l <= t).
  Proof.
    intros Ht. unfold d at 1. cbn [getOptimalBeadCount]. rewrite (proj2 (Z.eqb_neq w 0)) by lia. eexists. split; [done|].
    rewrite Z.quot_div_nonneg by lia. set (c := t / w). assert (Hc : 0 <= c) by (apply Z.div_pos; lia). pose proof (Z.div_mod t w) as H1. pose proof (Z.mod_pos_bound t w) as H2. fold c in H1.
    destruct (transition_bounds c Hc) as (x & Hx & Hx1 & Hx2). rewrite <- Hx2. 
    assert (Hb : c * w <= t < (c + 1) * w) by lia.
    destruct (x <=? t - c * w) eqn:E; [apply Z.leb_le in E|apply Z.leb_gt in E].
    - split; [lia|]. split; [nia|]. split; [nia|]. intros l Hl. destruct (transition_bounds l Hl) as (y & Hy & Hy1 & _). rewrite Hy. split; intros H.
      + destruct (Z.eq_dec l c) as [->|Hne]; [assert (y = x) as -> by lia; lia|]. assert ((l + 1) * w <= c * w) by nia. lia.
      + destruct (Z.lt_ge_cases l (c + 1)) as [|Hge]; [lia|]. assert ((c + 1) * w <= l * w) by nia. lia.
    - split; [lia|]. split; [nia|]. split; [nia|]. intros l Hl. destruct (transition_bounds l Hl) as (y & Hy & Hy1 & _). rewrite Hy. split; intros H.
      + assert ((l + 1) * w <= c * w) by nia. lia.
      + destruct (Z.lt_ge_cases l (c + 0)) as [|Hge]; [lia|]. destruct (Z.eq_dec l c) as [->|Hne]; [assert (y = x) as -> by lia; lia|]. assert ((c + 1) * w <= l * w) by nia. lia.
  Qed.
  Variables (outer : Z) (ratio : Q).
  Hypothesis (Ho : 0 < outer) (Hr : (0 <= ratio <= 1)%Q).
  Let s := Redistribute outer ratio d.
  Lemma redistribute_count t : exists n, getOptimalBeadCount s t = Ok n /\ 0 <= n /\ (2 < n -> 2 * outer < t /\ (n - 3) * w <= t - 2 * outer) /\
    (t < 2 * outer -> n <= 2) /\ (2 * outer < t -> t - 2 * outer <= (n - 1) * w) /\
    forall l, 0 <= l -> (t < getTransitionThickness s l -> n <= l) /\ (getTransitionThickness s l + 1 <= t -> l < n).
  Proof.
    assert (Ho' : (0 < inject_Z outer)%Q) by (change 0%Q with (inject_Z 0); by rewrite <- Zlt_Qlt).
    assert (T0 : getTransitionThickness s 0 = qtrunc (ratio * inject_Z outer)) by done.
    assert (T1 : getTransitionThickness s 1 = qtrunc ((1 + split) * inject_Z outer)) by done.
    assert (T2 : forall l, 2 <= l -> exists y, getTransitionThickness s l = 2 * outer + getTransitionThickness d (l - 2) /\ getTransitionThickness d (l - 2) = (l - 2) * w + y /\ 0 <= y <= w).
    { intros l Hl. unfold s. cbn [getTransitionThickness]. rewrite (proj2 (Z.eqb_neq l 0)), (proj2 (Z.eqb_neq l 1)) by lia.
      destruct (transition_bounds (l - 2) ltac:(lia)) as (y & Hy & Hy1 & _). exists y. split; [|split; [done|lia]]. fold d. lia. }
    assert (B0 : (0 <= ratio * inject_Z outer <= inject_Z outer)%Q) by nra. assert (B1 : (inject_Z outer <= (1 + split) * inject_Z outer <= inject_Z (2 * outer))%Q) by (rewrite inject_Z_mult; change (inject_Z 2) with 2%Q; nra).
    assert (B1' : (0 <= (1 + split) * inject_Z outer)%Q) by lra.
    destruct (qtrunc_nonneg _ (proj1 B0)) as [H0 H0']. destruct (qtrunc_nonneg _ B1') as [H1 H1']. set (q0 := qtrunc (ratio * inject_Z outer)) in *. set (q1 := qtrunc ((1 + split) * inject_Z outer)) in *.
    assert (L0 : q0 <= outer) by (rewrite Zle_Qle; lra). assert (L1 : q1 <= 2 * outer) by (rewrite Zle_Qle; lra).
    assert (L1' : outer <= q1). { assert (H : (inject_Z outer < inject_Z (q1 + 1))%Q) by (rewrite inject_Z_plus; change (inject_Z 1) with 1%Q; lra). rewrite <- Zlt_Qlt in H. lia. }
    unfold s at 1. cbn [getOptimalBeadCount getSplitMiddleThreshold]. 
    destruct (Qltb (inject_Z t) (ratio * inject_Z outer)) eqn:E; [apply Qltb_true in E|apply Qltb_false in E].
    { assert (Hq : t <= q0). { assert (H : (inject_Z t < inject_Z (q0 + 1))%Q) by (rewrite inject_Z_plus; change (inject_Z 1) with 1%Q; lra). rewrite <- Zlt_Qlt in H. lia. }
      exists 0. split; [done|]. split; [lia|]. split; [lia|]. split; [lia|]. split; [lia|]. intros l Hl. split; [lia|]. intros H. exfalso.
      destruct (Z.eq_dec l 0) as [->|]; [lia|]. destruct (Z.eq_dec l 1) as [->|]; [lia|]. destruct (T2 l ltac:(lia)) as (y & Q1 & Q2 & Q3). assert (0 <= (l - 2) * w) by nia. lia. }
    assert (Hq0 : q0 <= t). { rewrite Zle_Qle. lra. }
    destruct (t <=? 2 * outer) eqn:E2; [apply Z.leb_le in E2|apply Z.leb_gt in E2].
    - unfold d. cbn [getSplitMiddleThreshold]. destruct (Qltb _ (inject_Z t)) eqn:E3; [apply Qltb_true in E3|apply Qltb_false in E3].
      + assert (q1 <= t) by (rewrite Zle_Qle; lra). exists 2. split; [done|]. split; [lia|]. split; [lia|]. split; [lia|]. split; [lia|]. intros l Hl.
        destruct (Z.eq_dec l 0) as [->|]; [lia|]. destruct (Z.eq_dec l 1) as [->|]; [lia|]. destruct (T2 l ltac:(lia)) as (y & Q1 & Q2 & Q3). assert (0 <= (l - 2) * w) by nia. lia.
      + assert (t <= q1). { assert (H : (inject_Z t < inject_Z (q1 + 1))%Q) by (rewrite inject_Z_plus; change (inject_Z 1) with 1%Q; lra). rewrite <- Zlt_Qlt in H. lia. }
        exists 1. split; [done|]. split; [lia|]. split; [lia|]. split; [lia|]. split; [lia|]. intros l Hl.
        destruct (Z.eq_dec l 0) as [->|]; [lia|]. destruct (Z.eq_dec l 1) as [->|]; [lia|]. destruct (T2 l ltac:(lia)) as (y & Q1 & Q2 & Q3). assert (0 <= (l - 2) * w) by nia. lia.
    - fold d. destruct (distributed_count (t - 2 * outer) ltac:(lia)) as (n & -> & Hn & N1 & N1' & N2). cbn [rbind]. exists (n + 2). split; [done|]. split; [lia|]. split; [lia|]. split; [lia|]. split; [lia|]. intros l Hl.
      destruct (Z.eq_dec l 0) as [->|]; [lia|]. destruct (Z.eq_dec l 1) as [->|]; [lia|]. destruct (T2 l ltac:(lia)) as (y & Q1 & Q2 & Q3). specialize (N2 (l - 2) ltac:(lia)). lia.
  Qed.
End count.
