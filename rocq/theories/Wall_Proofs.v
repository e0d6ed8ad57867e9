From Coq Require Import ZArith QArith Qround Lqa.
From stdpp Require Import list.
From Verif Require Import Common Geo_Model Order_Model Wall_Model Wall_Spec.
From Verif Require Coast_Model Coast_Props Ooze_Props.
Open Scope Z_scope.

Lemma last_def {A} (l : list A) b a : List.last (b :: l) a = List.last l b.
Proof. revert b a. induction l as [|c l IH]; intros b a; [done|]. change (List.last (c :: l) a = List.last (c :: l) b). by rewrite !IH. Qed.

(** ** Rounding *)
Lemma inject_Z_ne n : n <> 0 -> ~ (inject_Z n == 0)%Q.
Proof. unfold Qeq. cbn. lia. Qed.
Lemma llrint_comp a b : (a == b)%Q -> llrint a = llrint b.
Proof.
  intros H. unfold llrint. assert (E : Qfloor a = Qfloor b) by (by rewrite H). rewrite E.
  assert (C : Qcompare (a - inject_Z (Qfloor b)) (1 # 2) = Qcompare (b - inject_Z (Qfloor b)) (1 # 2)).
  { apply Qcompare_comp; [|reflexivity]. by rewrite H. }
  by rewrite C.
Qed.
Lemma llrint_Z n : llrint (inject_Z n) = n.
Proof.
  pose proof (Coast_Props.llrint_between n n (inject_Z n) ltac:(lra) ltac:(lra)). lia.
Qed.
Lemma llrint_eq q n : (q == inject_Z n)%Q -> llrint q = n.
Proof. intros H. by rewrite (llrint_comp _ _ H), llrint_Z. Qed.
Lemma llrint_mono a b : (a <= b)%Q -> llrint a <= llrint b.
Proof.
  intros H. destruct (decide (llrint a <= llrint b)) as [|N]; [done|exfalso].
  (* the integer between would be a bound of both *)
  set (m := llrint b) in *. assert (L : m + 1 <= llrint a) by lia.
  destruct (Coast_Props.llrint_near a) as [A1 A2], (Coast_Props.llrint_near b) as [B1 B2]. fold m in B1, B2.
  assert (E : (inject_Z (m + 1) <= inject_Z (llrint a))%Q) by (by rewrite <- Zle_Qle).
  rewrite inject_Z_plus in E. change (inject_Z 1) with 1%Q in E.
  assert (a == b)%Q as C by lra. rewrite (llrint_comp _ _ C) in L. subst m. lia.
Qed.
Lemma lerp_0 a b t : (t == 0)%Q -> lerp a b t = a.
Proof. intros H. apply llrint_eq. rewrite H. ring. Qed.
Lemma lerp_1 a b t : (t == 1)%Q -> lerp a b t = b.
Proof. intros H. apply llrint_eq. rewrite H. ring. Qed.
Lemma lerp2_0 a b t : (t == 0)%Q -> lerp2 a b t = a.
Proof. intros H. unfold lerp2. rewrite !lerp_0 by done. by destruct a. Qed.
Lemma lerp2_1 a b t : (t == 1)%Q -> lerp2 a b t = b.
Proof. intros H. unfold lerp2. rewrite !lerp_1 by done. by destruct b. Qed.
Lemma lerp2_comp a b t u : (t == u)%Q -> lerp2 a b t = lerp2 a b u.
Proof. intros H. unfold lerp2, lerp. f_equal; apply llrint_comp; by rewrite H. Qed.

Lemma vSize_0 p q : vSize (psub p q) = 0 -> p = q.
Proof.
  destruct p as [a b], q as [c d]. unfold vSize, psub, vSize2. cbn. intros H.
  set (n := (a - c) * (a - c) + (b - d) * (b - d)) in *.
  assert (0 <= n) by (pose proof (Z.square_nonneg (a - c)); pose proof (Z.square_nonneg (b - d)); subst n; lia). pose proof (Z.sqrt_nonneg n). pose proof (Z.sqrt_spec n ltac:(lia)).
  destruct (n <=? _) eqn:E; [|lia]. apply Z.leb_le in E. rewrite H in E. assert (n = 0) by lia.
  assert (A : (a - c) * (a - c) = 0 /\ (b - d) * (b - d) = 0).
  { pose proof (Z.square_nonneg (a - c)). pose proof (Z.square_nonneg (b - d)). subst n. lia. }
  destruct A as [A B]. apply Z.mul_eq_0 in A. apply Z.mul_eq_0 in B. f_equal; lia.
Qed.

(** ** Pieces *)
Lemma pieces_pos P len dw : (1 <= pieces_of P len dw)%nat.
Proof. unfold pieces_of. lia. Qed.
Lemma pieces_res P len dw : pieces_of P len dw <> 1%nat -> 0 <= len -> 1 <= max_resolution P ->
  Z.of_nat (pieces_of P len dw) * max_resolution P <= len.
Proof.
  unfold pieces_of. intros H1 H2 H3. set (r := len ÷ max_resolution P) in *.
  assert (r * max_resolution P <= len).
  { subst r. rewrite Z.quot_div_nonneg by lia. rewrite Z.mul_comm. apply Z.mul_div_le. lia. }
  destruct (decide (Z.of_nat (Z.to_nat (Z.max 1 (Z.min (((Z.abs dw * len) ÷ 4 + max_area_deviation P - 1) ÷ max_area_deviation P) r))) <= r)).
  - nia.
  - lia.
Qed.
Lemma pieces_const P len : 0 <= len -> 1 <= max_area_deviation P -> pieces_of P len 0 = 1%nat.
Proof.
  intros H1 H2. unfold pieces_of. change (Z.abs 0 * len) with 0. change (0 ÷ 4) with 0.
  assert (E : (0 + max_area_deviation P - 1) ÷ max_area_deviation P = 0) by (apply Z.quot_small; lia).
  rewrite E. lia.
Qed.
Lemma piece_length_spec len n : 0 <= len -> (1 <= n)%nat ->
  2 * Z.abs (Z.of_nat n * piece_length_of len n - len) <= Z.of_nat n /\ 0 <= piece_length_of len n.
Proof.
  intros H1 H2. unfold piece_length_of. 
  assert (K : Z.of_nat n ÷ 2 = Z.of_nat n / 2) by (apply Z.quot_div_nonneg; lia). rewrite K.
  pose proof (Z.div_pos (Z.of_nat n) 2 ltac:(lia) ltac:(lia)). rewrite Z.quot_div_nonneg by lia.
  set (k := Z.of_nat n) in *. pose proof (Z.div_mod k 2 ltac:(lia)). pose proof (Z.mod_pos_bound k 2 ltac:(lia)).
  pose proof (Z.div_mod (len + k / 2) k ltac:(lia)). pose proof (Z.mod_pos_bound (len + k / 2) k ltac:(lia)).
  split; [|apply Z.div_pos; lia]. set (q := (len + k / 2) / k) in *. set (m := (len + k / 2) mod k) in *. lia.
Qed.
Lemma piece_length_1 len : 0 <= len -> piece_length_of len 1 = len.
Proof. intros H. unfold piece_length_of. change (Z.of_nat 1 ÷ 2) with 0. change (Z.of_nat 1) with 1. rewrite Z.quot_1_r. lia. Qed.
Lemma piece_length_le len n : 0 <= len -> (1 <= n)%nat -> (n <> 1%nat -> Z.of_nat n <= len) -> piece_length_of len n <= len.
Proof.
  intros H1 H2 H3. destruct (decide (n = 1%nat)) as [-> |N]; [by rewrite piece_length_1|]. specialize (H3 N).
  pose proof (piece_length_spec len n H1 H2) as [A B]. nia.
Qed.

Definition printed P (a b : corner) : Z :=
  let len := length_of a b in let n := pieces_of P len (width_of b - width_of a) in Z.of_nat n * piece_length_of len n.
Lemma length_nonneg a b : 0 <= length_of a b.
Proof. apply Ooze_Props.vSize_nonneg. Qed.
Lemma printed_spec P a b : 1 <= max_area_deviation P -> 1 <= max_resolution P -> printed_for P a b (printed P a b).
Proof.
  intros HD HR. unfold printed, printed_for. pose proof (length_nonneg a b) as L. set (len := length_of a b) in *.
  set (n := pieces_of P len (width_of b - width_of a)).
  pose proof (pieces_pos P len (width_of b - width_of a)) as N. fold n in N.
  destruct (piece_length_spec len n L N) as [A B].
  assert (C : n = 1%nat \/ Z.of_nat n * max_resolution P <= len).
  { destruct (decide (n = 1%nat)); [by left|right]. by apply pieces_res. }
  split; [|split; [|split]].
  - destruct C as [-> |C]; [rewrite piece_length_1 by lia; nia|nia].
  - intros E. assert (n = 1%nat) as ->; [|rewrite piece_length_1 by lia; lia].
    unfold n. rewrite E, Z.sub_diag. by apply pieces_const.
  - intros L'. destruct C as [-> |C]; [rewrite piece_length_1 by lia; lia|]. nia.
  - nia.
Qed.

Lemma piece_width_between w0 w1 n i : (i < n)%nat -> Z.min w0 w1 <= piece_width w0 w1 n i <= Z.max w0 w1.
Proof.
  intros H. unfold piece_width.
  assert (N : (0 < inject_Z (Z.of_nat n))%Q) by (rewrite <- (Zlt_Qlt 0); lia).
  set (t := ((inject_Z (Z.of_nat i) + (1 # 2)) / inject_Z (Z.of_nat n))%Q).
  assert (T : (0 <= t <= 1)%Q).
  { unfold t. assert (I : (0 <= inject_Z (Z.of_nat i))%Q) by (rewrite <- (Zle_Qle 0); lia).
    assert (I2 : (inject_Z (Z.of_nat i) + 1 <= inject_Z (Z.of_nat n))%Q).
    { change 1%Q with (inject_Z 1). rewrite <- inject_Z_plus, <- Zle_Qle. lia. }
    split; [apply Qle_shift_div_l; [done|lra]|apply Qle_shift_div_r; [done|lra]]. }
  clearbody t. unfold Z.sub. rewrite (inject_Z_plus w1 (- w0)), inject_Z_opp.
  destruct (Z.le_ge_cases w0 w1) as [L|L].
  - rewrite Z.min_l, Z.max_r by lia. apply Coast_Props.llrint_between.
    + rewrite Zle_Qle in L. nra. + rewrite Zle_Qle in L. nra.
  - rewrite Z.min_r, Z.max_l by lia. apply Coast_Props.llrint_between; rewrite Zle_Qle in L; nra.
Qed.

Fixpoint with_lengths P (c0 : corner) (todo : list corner) : list (corner * Z) :=
  match todo with [] => [] | c1 :: todo' => (c1, printed P c0 c1) :: with_lengths P c1 todo' end.

(** ** One sub-segment *)
Lemma min_list_le_d l d : min_list l d <= d.
Proof. unfold min_list. induction l; cbn; lia. Qed.
Lemma min_list_le l d x : x ∈ l -> min_list l d <= x.
Proof. unfold min_list. induction l as [|y l IH]; [by rewrite elem_of_nil|]. rewrite elem_of_cons. intros [-> |H]; cbn; [lia|]. specialize (IH H). lia. Qed.
Lemma min_list_gt l d a : a < d -> (forall x, x ∈ l -> a < x) -> a < min_list l d.
Proof.
  unfold min_list. induction l as [|y l IH]; cbn; [done|]. intros H1 H2. apply Z.min_glb_lt; [apply H2; left|].
  apply IH; [done|]. intros x Hx. apply H2. by right.
Qed.

Section pass.
  Context (P : wpar) (total : Z) (closure : bool) (size : nat) (first : corner) (rest : list (corner * Z)).
  Hypothesis scarf_pos : 0 < scarf_split_distance P.
  Hypothesis speed_pos : 0 < speed_split_distance P.
  Notation place := (place P closure first rest).
  Notation step := (step P total closure size first rest).
  Notation follows := (follows P total closure size first rest).
  Notation until := (until P closure).

  Record inv (st : wst) (a : Z) : Prop := {
    inv_pos : processed st = a;
    inv_nonneg : 0 <= a;
    inv_origin : origin st = place a;
    inv_acc : closure = false -> a < accelerate_length P -> (acc_origin st == acc_at P a)%Q;
    inv_dec : closure = false -> decelerating P total a = true -> (dec_origin st == dec_from P total a)%Q;
    inv_keep : keep st = negb closure || (a <? scarf_seam_length P) }.

  Lemma sub_spec c0 c1 base l st a r index width : inv st a -> keep st = true ->
    (forall b, base < b -> b <= base + l -> line_at first rest b = Some (c0, c1, b - base)) ->
    base <= a -> 0 < r -> a + r <= base + l ->
    Z.min (width_of c0) (width_of c1) <= width <= Z.max (width_of c0) (width_of c1) ->
    index = ((c1.1 + size - 1) mod size)%nat ->
    exists b, let q := sub_segment P total closure (place_of c0) (place_of c1) (length_of c0 c1) index width st (a - base) r in
      a < b /\ b <= until (a + r) /\ step a b q.1.1 /\ inv q.1.2 b /\ q.2 = b - base.
  Proof.
    intros [I1 I2 I3 I4 I5 I6] K HL HB HR HE HW HI.
    unfold sub_segment. rewrite I1. set (b := min_list (split_positions P total closure st) (a + r)).
    assert (Hge : forall x, x ∈ split_positions P total closure st -> a < x).
    { intros x. unfold split_positions, process_scarf, process_acceleration, deceleration_started, start_decelerate_position. rewrite I1, !elem_of_app.
      intros [H|[H|H]].
      - destruct (a <? scarf_seam_length P) eqn:E; [|by apply elem_of_nil in H]. apply Z.ltb_lt in E.
        rewrite !elem_of_cons, elem_of_nil in H. destruct H as [-> |[-> |[]]]; lia.
      - destruct (negb closure && (a <? accelerate_length P)) eqn:E; [|by apply elem_of_nil in H].
        apply andb_true_iff in E as [_ E]. apply Z.ltb_lt in E.
        rewrite !elem_of_cons, elem_of_nil in H. destruct H as [-> |[-> |[]]]; lia.
      - destruct (negb closure && (0 <? decelerate_length P)); [|by apply elem_of_nil in H].
        rewrite elem_of_cons, elem_of_nil in H. cbn in H. destruct H as [-> |[]].
        destruct (total - decelerate_length P <=? a) eqn:E; [lia|]. apply Z.leb_gt in E. lia. }
    assert (Hab : a < b) by (apply min_list_gt; [lia|done]).
    assert (Hbr : b <= a + r) by apply min_list_le_d.
    assert (Hscarf : a < scarf_seam_length P -> b <= scarf_seam_length P /\ b - a <= scarf_split_distance P).
    { intros H. unfold b, split_positions, process_scarf. rewrite I1, (proj2 (Z.ltb_lt _ _) H).
      split; [apply min_list_le; set_solver|].
      match goal with |- min_list ?x ?y - _ <= _ => pose proof (min_list_le x y (a + scarf_split_distance P) ltac:(set_solver)) end. lia. }
    assert (Hacc : closure = false -> a < accelerate_length P -> b <= accelerate_length P /\ b - a <= speed_split_distance P).
    { intros H0 H. unfold b, split_positions, process_acceleration. rewrite I1, (proj2 (Z.ltb_lt _ _) H), H0. cbn [negb andb].
      split; [apply min_list_le; set_solver|].
      match goal with |- min_list ?x ?y - _ <= _ => pose proof (min_list_le x y (a + speed_split_distance P) ltac:(set_solver)) end. lia. }
    assert (Hdec : closure = false -> 0 < decelerate_length P ->
      if total - decelerate_length P <=? a then b - a <= speed_split_distance P else b <= total - decelerate_length P).
    { intros H0 H. unfold b, split_positions, deceleration_started, start_decelerate_position. rewrite I1, (proj2 (Z.ltb_lt _ _) H), H0. cbn [negb andb].
      match goal with |- context [min_list (?x1 ++ ?x2 ++ [?z]) ?y] => pose proof (min_list_le (x1 ++ x2 ++ [z]) y z ltac:(set_solver)) as M end.
      destruct (total - decelerate_length P <=? a); lia. }
    assert (Hline : line_at first rest b = Some (c0, c1, b - base)) by (apply HL; lia).
    assert (Eb : (a - base) + (b - a) = b - base) by lia.
    assert (Hstarted : deceleration_started P total closure st = negb closure && decelerating P total a).
    { unfold deceleration_started, decelerating, start_decelerate_position. rewrite I1. by rewrite andb_assoc. }
    assert (Hplace : P3 (lerp2 (place_of c0) (place_of c1) (inject_Z (a - base + (b - a)) / inject_Z (length_of c0 c1))).1
                (lerp2 (place_of c0) (place_of c1) (inject_Z (a - base + (b - a)) / inject_Z (length_of c0 c1))).2
                (if process_scarf P st && negb closure then llrint (qlerp (inject_Z (scarf_max_z_offset P)) 0 (inject_Z b / inject_Z (scarf_seam_length P))) else 0)
            = place b).
    { unfold Wall_Spec.place, point_at, height. rewrite Hline, Eb. cbn [fst snd]. f_equal.
      unfold process_scarf. rewrite I1. destruct closure; [by rewrite andb_false_r|]. cbn [negb]. rewrite andb_true_r. cbn [andb].
      destruct (a <? scarf_seam_length P) eqn:E1, (b <? scarf_seam_length P) eqn:E2; apply Z.ltb_lt in E1 || apply Z.ltb_ge in E1; apply Z.ltb_lt in E2 || apply Z.ltb_ge in E2.
      - apply llrint_comp. unfold qlerp. ring.
      - destruct (Hscarf E1) as [H1 _]. assert (b = scarf_seam_length P) as <- by lia.
        apply llrint_eq. unfold qlerp. change (inject_Z 0) with 0%Q. field. apply inject_Z_ne. lia.
      - lia.
      - done. }
    clearbody b. exists b. cbn zeta. rewrite Hplace. split; [done|]. split; [|split; [|split]].
    - unfold Wall_Spec.until. destruct closure; [|done]. cbn in I6. rewrite I6 in K. apply Z.ltb_lt in K.
      destruct (Hscarf K). lia.
    - constructor; cbn [fst snd s_from s_to s_speed s_travel_to_z s_ratio0 s_ratio1 s_width s_index]; try done.
      + unfold Wall_Spec.speed, process_acceleration. rewrite Hstarted, I1. destruct closure; cbn [negb andb].
        { ring. }
        apply Qmult_comp.
        * destruct (a <? accelerate_length P) eqn:E; [|reflexivity]. apply Z.ltb_lt in E. unfold qlerp. rewrite (I4 eq_refl E). reflexivity.
        * destruct (decelerating P total a) eqn:E; [|reflexivity]. unfold qlerp. rewrite (I5 eq_refl eq_refl). reflexivity.
      + exists c0, c1, (b - base). split; [done|]. split; [lia|]. rewrite Eb. split; [|split; [reflexivity|done]].
        replace (b - base - (b - a)) with (a - base) by lia. reflexivity.
    - constructor; cbn [fst snd processed origin acc_origin dec_origin keep]; try done; try lia.
      + intros Hc H. unfold process_acceleration. rewrite I1, Hc. cbn [negb andb]. rewrite (proj2 (Z.ltb_lt a _)) by lia. reflexivity.
      + intros Hc H. rewrite Hstarted, Hc. cbn [negb andb]. unfold dec_from. rewrite (proj2 (Z.eqb_neq b 0)) by lia.
        destruct (decelerating P total a) eqn:E; [reflexivity|].
        unfold decelerating in H, E. apply andb_true_iff in H as [D H]. rewrite D, andb_true_l in E. apply Z.ltb_lt in D.
        specialize (Hdec Hc D). rewrite E in Hdec. apply Z.leb_le in H. assert (E2 : total - b = decelerate_length P) by lia.
        unfold dec_at. rewrite E2. field. apply inject_Z_ne. lia.
      + destruct closure; [done|]. rewrite I6. done.
    - cbn. lia.
  Qed.
  Lemma follows_app a ds1 ds2 s1 s2 : follows a ds1 s1 -> follows (List.last ds1 a) ds2 s2 -> follows a (ds1 ++ ds2) (s1 ++ s2).
  Proof.
    revert a s1. induction ds1 as [|b ds1 IH]; intros a [|s s1]; try done.
    intros [H1 H2] H3. split; [done|]. apply IH; [done|]. by rewrite last_def in H3.
  Qed.

  Lemma cut_piece_spec c0 c1 base l width : 
    (forall b, base < b -> b <= base + l -> line_at first rest b = Some (c0, c1, b - base)) ->
    Z.min (width_of c0) (width_of c1) <= width <= Z.max (width_of c0) (width_of c1) ->
    forall fuel st a r, inv st a -> base <= a -> 0 <= r -> r <= Z.of_nat fuel -> a + r <= base + l ->
    keep st = true ->
    exists st' ds segs,
      cut_piece P total closure fuel (place_of c0) (place_of c1) (length_of c0 c1) ((c1.1 + size - 1) mod size)%nat width st (a - base) r
        = Ok (st', until (a + r) - base, MSeg <$> segs) /\
      follows a ds segs /\ inv st' (until (a + r)) /\ List.last ds a = until (a + r).
  Proof.
    intros HL HW. induction fuel as [|fuel IH]; intros st a r I HB HR HF HE K.
    - assert (r = 0) as -> by lia. cbn. rewrite Z.add_0_r.
      assert (U : until a = a).
      { unfold Wall_Spec.until. destruct I as [_ _ _ _ _ I6]. rewrite I6 in K. destruct closure; [|done]. cbn in K. apply Z.ltb_lt in K. lia. }
      rewrite U. by exists st, [], [].
    - assert (U0 : until a = a).
      { unfold Wall_Spec.until. destruct I as [_ _ _ _ _ I6]. rewrite I6 in K. destruct closure; [|done]. cbn in K. apply Z.ltb_lt in K. lia. }
      destruct (decide (r = 0)) as [-> |NR].
      { cbn. rewrite Z.add_0_r, U0. by exists st, [], []. }
      cbn [cut_piece]. rewrite (proj2 (Z.ltb_lt 0 r)), K by lia. cbn [andb].
      destruct (sub_spec c0 c1 base l st a r _ width I K HL HB ltac:(lia) HE HW eq_refl) as (b & B1 & B2 & B3 & B4 & B5).
      set (q := sub_segment _ _ _ _ _ _ _ _ _ _ _) in *. rewrite B5.
      assert (Ub : until (a + r) <= a + r) by (unfold Wall_Spec.until; destruct closure; lia).
      replace (r - (b - base - (a - base))) with (a + r - b) by lia.
      destruct (keep q.1.2) eqn:K2.
      + destruct (IH q.1.2 b (a + r - b) B4 ltac:(lia) ltac:(lia) ltac:(lia) ltac:(lia) K2) as (st' & ds & segs & E & F & I' & L).
        rewrite E. replace (b + (a + r - b)) with (a + r) in * by lia. cbn.
        exists st', (b :: ds), (q.1.1 :: segs). split; [done|]. split; [done|]. split; [done|].
        by rewrite last_def.
      + (* the closure ends here *)
        assert (Eb : closure = true /\ scarf_seam_length P <= b).
        { destruct B4 as [_ _ _ _ _ B4]. rewrite K2 in B4. symmetry in B4. apply orb_false_iff in B4 as [C1 C2].
          apply negb_false_iff in C1. apply Z.ltb_ge in C2. done. }
        destruct Eb as [Ec Eb]. assert (Uf : until (a + r) = b).
        { unfold Wall_Spec.until in *. rewrite Ec in *. lia. }
        rewrite Uf. exists q.1.2, [b], [q.1.1].
        destruct fuel; cbn [cut_piece]; rewrite K2, andb_false_r; done.
  Qed.

  Lemma until_add x y : 0 <= y -> until x = x \/ until (x + y) = until x.
  Proof. unfold Wall_Spec.until. destruct closure; [|by left]. lia. Qed.

  (** the pieces of a line *)
  Lemma cut_line_spec c0 c1 base l pl pieces fuel : 
    (forall b, base < b -> b <= base + l -> line_at first rest b = Some (c0, c1, b - base)) ->
    is_small_feature P && negb closure = false -> 0 <= pl -> pl <= Z.of_nat fuel ->
    forall n piece st a, inv st a -> base <= a -> (piece + n <= pieces)%nat -> a + Z.of_nat n * pl <= base + l ->
    keep st = true ->
    exists st' ds segs,
      cut_line P total closure fuel (place_of c0) (place_of c1) (width_of c0) (width_of c1) (length_of c0 c1) pl pieces
        ((c1.1 + size - 1) mod size)%nat n piece st (a - base)
        = Ok (st', until (a + Z.of_nat n * pl) - base, MSeg <$> segs) /\
      follows a ds segs /\ inv st' (until (a + Z.of_nat n * pl)) /\ List.last ds a = until (a + Z.of_nat n * pl).
  Proof.
    intros HL HS HP HF. induction n as [|n IH]; intros piece st a I HB HN HE K.
    - cbn. rewrite Z.add_0_r.
      assert (U0 : until a = a).
      { unfold Wall_Spec.until. destruct I as [_ _ _ _ _ I6]. rewrite I6 in K. destruct closure; [|done]. cbn in K. apply Z.ltb_lt in K. lia. }
      rewrite U0. by exists st, [], [].
    - cbn [cut_line]. rewrite K, HS. cbn [negb].
      destruct (cut_piece_spec c0 c1 base l (piece_width (width_of c0) (width_of c1) pieces piece) HL ltac:(apply piece_width_between; lia)
                  fuel st a pl I HB HP HF ltac:(nia) K) as (st1 & ds1 & segs1 & E1 & F1 & I1 & L1).
      rewrite E1. cbn [rbind fst snd].
      replace (a + Z.of_nat (S n) * pl) with (a + pl + Z.of_nat n * pl) in * by lia.
      destruct (keep st1) eqn:K1.
      + assert (U1 : until (a + pl) = a + pl).
        { destruct I1 as [_ _ _ _ _ I6]. rewrite I6 in K1. unfold Wall_Spec.until in *. destruct closure; [|done]. cbn in K1. apply Z.ltb_lt in K1. lia. }
        rewrite U1 in *.
        destruct (IH (S piece) st1 (a + pl) I1 ltac:(lia) ltac:(lia) ltac:(lia) K1) as (st2 & ds2 & segs2 & E2 & F2 & I2 & L2).
        rewrite E2. cbn [rbind fst snd]. exists st2, (ds1 ++ ds2), (segs1 ++ segs2). rewrite fmap_app.
        split; [done|]. split; [|split; [done|]].
        * apply follows_app; [done|]. by rewrite L1.
        * rewrite <- L2, <- L1. clear. induction ds1 as [|x ds1 IH] using rev_ind; [done|].
          rewrite List.last_last. destruct ds2 as [|y ds2] using rev_ind; [by rewrite app_nil_r, List.last_last|]. rewrite app_assoc. by rewrite !List.last_last.
      + assert (U1 : until (a + pl + Z.of_nat n * pl) = until (a + pl)).
        { destruct I1 as [_ _ _ _ _ I6]. rewrite I6 in K1. apply orb_false_iff in K1 as [C1 C2]. apply negb_false_iff in C1. apply Z.ltb_ge in C2.
          unfold Wall_Spec.until in *. rewrite C1 in *. lia. }
        rewrite U1. exists st1, ds1, segs1. destruct n; cbn [cut_line]; [|rewrite K1; cbn [negb]]; cbn [rbind fst snd]; rewrite app_nil_r; done.
  Qed.

  Lemma cut_lines_cons fuel c0 c1 todo st :
    cut_lines P total closure fuel size (place_of c0) (width_of c0) (c1 :: todo) st =
    if negb (keep st) then Ok (st, [])
    else
      let n := pieces_of P (length_of c0 c1) (width_of c1 - width_of c0) in
      let! r := cut_line P total closure fuel (place_of c0) (place_of c1) (width_of c0) (width_of c1) (length_of c0 c1)
                  (piece_length_of (length_of c0 c1) n) n ((c1.1 + size - 1) mod size)%nat n 0 st 0 in
      let! r' := cut_lines P total closure fuel size (place_of c1) (width_of c1) todo r.1.1 in
      Ok (r'.1, r.2 ++ r'.2).
  Proof. by destruct c1 as [i [p w]]. Qed.

  (** the lines *)
  Lemma cut_lines_spec fuel : is_small_feature P && negb closure = false -> 1 <= max_area_deviation P -> 1 <= max_resolution P ->
    forall todo c0 base st, inv st base -> keep st = true ->
    (forall d, base < d -> line_at first rest d = line_at c0 (with_lengths P c0 todo) (d - base)) ->
    short_lines fuel c0 todo ->
    exists st' ds segs,
      cut_lines P total closure fuel size (place_of c0) (width_of c0) todo st = Ok (st', MSeg <$> segs) /\
      follows base ds segs /\ List.last ds base = until (base + sum (with_lengths P c0 todo).*2) /\
      (forall e, e ∈ ends base (with_lengths P c0 todo) -> e = until e -> e ∈ base :: ds).
  Proof.
    intros HS HD HR. induction todo as [|c1 todo IH]; intros c0 base st I K HL HF.
    - cbn. rewrite Z.add_0_r. exists st, [], []. split; [done|]. split; [done|]. split.
      + unfold Wall_Spec.until. destruct I as [_ _ _ _ _ I6]. rewrite I6 in K. destruct closure; [|done]. cbn in K. apply Z.ltb_lt in K. cbn. lia.
      + intros e He. by apply elem_of_nil in He.
    - destruct HF as [HF1 HF2].
      rewrite cut_lines_cons, K. cbn [negb]. cbv zeta.
      set (n := pieces_of P (length_of c0 c1) (width_of c1 - width_of c0)).
      set (l := printed P c0 c1).
      assert (El : Z.of_nat n * piece_length_of (length_of c0 c1) n = l) by done.
      pose proof (printed_spec P c0 c1 HD HR) as (_ & _ & Lpos & Lnn). fold l in Lpos, Lnn.
      pose proof (pieces_pos P (length_of c0 c1) (width_of c1 - width_of c0)) as Npos. fold n in Npos.
      destruct (piece_length_spec (length_of c0 c1) n (length_nonneg _ _) Npos) as [_ PL].
      assert (PLE : piece_length_of (length_of c0 c1) n <= length_of c0 c1).
      { apply piece_length_le; [apply length_nonneg|done|]. intros N1. pose proof (pieces_res P (length_of c0 c1) (width_of c1 - width_of c0) N1 (length_nonneg _ _) HR). fold n in H. nia. }
      assert (HL1 : forall b, base < b -> b <= base + l -> line_at first rest b = Some (c0, c1, b - base)).
      { intros b B1 B2. rewrite HL by done. cbn. fold l. rewrite (proj2 (Z.ltb_lt 0 l)), (proj2 (Z.leb_le (b - base) l)) by lia. done. }
      destruct (cut_line_spec c0 c1 base l (piece_length_of (length_of c0 c1) n) n fuel HL1 HS PL ltac:(lia) n 0%nat st base I ltac:(lia) ltac:(lia) ltac:(lia) K)
        as (st1 & ds1 & segs1 & E1 & F1 & I1 & L1).
      rewrite El in *. rewrite Z.sub_diag in E1. rewrite E1. cbn [rbind fst snd].
      cbn [with_lengths fmap list_fmap sum foldr ends snd]. fold l. fold (sum (with_lengths P c1 todo).*2).
      set (S1 := sum (with_lengths P c1 todo).*2) in *.
      destruct (keep st1) eqn:K1.
      + assert (U1 : until (base + l) = base + l).
        { destruct I1 as [_ _ _ _ _ I6]. rewrite I6 in K1. unfold Wall_Spec.until in *. destruct closure; [|done]. cbn in K1. apply Z.ltb_lt in K1. lia. }
        rewrite U1 in *.
        destruct (IH c1 (base + l) st1 I1 K1) as (st2 & ds2 & segs2 & E2 & F2 & L2 & N2).
        { intros d D. rewrite HL by lia. cbn. fold l. rewrite (proj2 (Z.leb_gt (d - base) l)) by lia. rewrite andb_false_r. f_equal. lia. }
        { done. }
        rewrite E2. cbn [rbind fst snd]. exists st2, (ds1 ++ ds2), (segs1 ++ segs2). rewrite fmap_app. split; [done|].
        split; [|split].
        * apply follows_app; [done|]. by rewrite L1.
        * replace (base + (l + S1)) with (base + l + S1) by lia. fold S1 in L2. rewrite <- L2, <- L1. clear. 
          destruct ds2 as [|y ds2] using rev_ind; [by rewrite app_nil_r|]. rewrite app_assoc. by rewrite !List.last_last.
        * intros e. rewrite elem_of_cons. intros [-> |He] Ue.
          -- rewrite <- L1. rewrite elem_of_cons, elem_of_app. destruct ds1 as [|y ds1] using rev_ind; [by left|].
             rewrite List.last_last. right. left. set_solver.
          -- specialize (N2 e He Ue). rewrite elem_of_cons in N2. destruct N2 as [-> |N2]; [|set_solver].
             rewrite <- L1. rewrite elem_of_cons, elem_of_app. destruct ds1 as [|y ds1] using rev_ind; [by left|].
             rewrite List.last_last. right. left. set_solver.
      + assert (U1 : closure = true /\ scarf_seam_length P <= base + l /\ scarf_seam_length P = until (base + l)).
        { destruct I1 as [_ _ _ _ _ I6]. rewrite I6 in K1. apply orb_false_iff in K1 as [C1 C2]. apply negb_false_iff in C1. apply Z.ltb_ge in C2.
          unfold Wall_Spec.until in *. rewrite C1 in *. lia. }
        destruct U1 as (C1 & C2 & C3).
        assert (SN : 0 <= S1).
        { unfold S1, sum. clear -HD HR. revert c1. induction todo as [|c2 todo IH]; intros c1; cbn; [lia|].
          pose proof (printed_spec P c1 c2 HD HR) as (_ & _ & _ & Hn). specialize (IH c2). lia. }
        exists st1, ds1, segs1. split; [|split; [done|split]].
        * destruct todo as [|[i2 [p2 w2]] todo]; cbn [cut_lines]; [|rewrite K1; cbn [negb]]; cbn [rbind fst snd]; by rewrite app_nil_r.
        * rewrite L1. unfold Wall_Spec.until in *. rewrite C1 in *. lia.
        * assert (EL : forall e, e ∈ ends (base + l) (with_lengths P c1 todo) -> base + l <= e).
          { generalize (base + l). clear -HD HR. revert c1. induction todo as [|c2 todo IH]; intros c1 x e; cbn; [by rewrite elem_of_nil|].
            pose proof (printed_spec P c1 c2 HD HR) as (_ & _ & _ & Hn). rewrite elem_of_cons. intros [-> |H]; [lia|].
            apply IH in H. lia. }
          intros e. rewrite elem_of_cons. intros He Ue. assert (e = until (base + l)) as ->.
          { destruct He as [-> |He]; [done|]. apply EL in He. unfold Wall_Spec.until in *. rewrite C1 in *. lia. }
          rewrite <- L1. rewrite elem_of_cons. destruct ds1 as [|y ds1] using rev_ind; [by left|]. rewrite List.last_last. right. set_solver.
  Qed.
End pass.

Lemma point_at_0 P first rest : printed_lengths P first rest -> point_at first rest 0 = place_of first.
Proof.
  unfold point_at. revert first. induction rest as [|[next l] rest IH]; intros first; [done|].
  cbn. intros [(_ & _ & H1 & H2) H3]. destruct (0 <? l) eqn:E; cbn [andb].
  - rewrite (proj2 (Z.leb_le 0 l)) by (apply Z.ltb_lt in E; lia). apply lerp2_0. unfold Qdiv. ring.
  - apply Z.ltb_ge in E. assert (l = 0) as -> by lia. cbn.
    assert (N : place_of next = place_of first).
    { apply vSize_0. pose proof (length_nonneg first next). unfold length_of in *. lia. }
    specialize (IH next H3). rewrite N in IH. change (0 - 0) with 0. exact IH.
Qed.
Lemma with_lengths_ok P c0 todo : 1 <= max_area_deviation P -> 1 <= max_resolution P -> printed_lengths P c0 (with_lengths P c0 todo).
Proof. intros H1 H2. revert c0. induction todo as [|c1 todo IH]; intros c0; cbn; [done|]. split; [by apply printed_spec|done]. Qed.
Lemma with_lengths_fst P c0 todo : (with_lengths P c0 todo).*1 = todo.
Proof. revert c0. induction todo as [|c1 todo IH]; intros c0; cbn; [done|]. by rewrite IH. Qed.
