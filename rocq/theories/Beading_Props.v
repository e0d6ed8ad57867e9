(** C47: the walls that the beading strategies spread over a thickness. *)
From Coq Require Import QArith Qround Lqa.
From stdpp Require Import list strings.
From Verif Require Import Common Wall_Model Beading_Model Beading_Spec Beading_Proofs.
Open Scope Z_scope.

Lemma max_nat P : sensible P -> exists k, (1 <= k)%nat /\ max_bead_count P = 2 * Z.of_nat k.
Proof. intros [_ _ _ _ _ (k & H1 & H2)]. exists (Z.to_nat k). lia. Qed.
Lemma walls_number P t n : walls P t n = bead_number (preferred_bead_width_outer P) t n.
Proof.
  unfold walls, bead_number. set (o := 2 * preferred_bead_width_outer P). destruct (2 <? n) eqn:E1, (t <=? o) eqn:E2, (n <=? 2) eqn:E3, (o <? t) eqn:E4; cbn [andb]; try done; 
  rewrite ?Z.ltb_lt, ?Z.ltb_ge, ?Z.leb_le, ?Z.leb_gt in *; lia.
Qed.

(** Walls without insets: they fit the thickness, their number is that asked for (plus a marker in the middle where the
    maximum is reached), and none has a negative width as long as the inner ones but one fit between the outer ones. *)
Theorem C47_walls P t n : sensible P -> no_insets P -> ~ thin P t -> 1 <= n <= max_bead_count P -> wide_enough P t ->
  exists r, compute (makeStrategy P) t n = Ok r /\ fits t r /\
    Z.of_nat (length (bead_widths r)) = walls P t n + (if walls P t n =? max_bead_count P then 1 else 0) /\
    (walls P t n = max_bead_count P -> bead_widths r !! Z.to_nat (max_bead_count P / 2) = Some 0) /\
    (n <= 2 \/ t <= 2 * preferred_bead_width_outer P \/ (n - 3) * preferred_bead_width_inner P <= t - 2 * preferred_bead_width_outer P ->
     Forall (Z.le 0) (bead_widths r)).
Proof.
  intros HS N T Hn W. destruct (max_nat P HS) as (k & Hk & Ek). rewrite make_eq, (insets_none _ _ N), Ek in *.
  destruct (redistribute_spec (preferred_bead_width_outer P) (preferred_bead_width_inner P) (inward_distributed_center_wall_count P)
    (minimum_variable_line_ratio P) (wall_split_middle_threshold P) (wall_add_middle_threshold P) ltac:(apply HS) ltac:(apply HS) ltac:(apply HS) t n ltac:(lia) W) as (b & Hb & Fb & Lb & Nb).
  rewrite <- (base_thick P t n T) in Hb. rewrite walls_number. set (m := bead_number _ _ _) in *.
  destruct (limited_below k (base P) t n b Hk ltac:(lia) Hb ltac:(apply Fb)) as [H1 H2].
  destruct (m =? 2 * Z.of_nat k) eqn:E; [apply Z.eqb_eq in E|apply Z.eqb_neq in E].
  - destruct H2 as (l & w & Hl & Hw & ->); [lia|]. eexists. split; [done|]. destruct k as [|k]; [lia|]. split; [by apply marker_fits; [|lia|..]|].
    cbn [with_marker bead_widths]. assert (Lt : length (take (S k) (bead_widths b)) = S k) by (rewrite take_length; lia). split; [|split].
    + rewrite app_length, Lt. simpl length. rewrite drop_length. lia.
    + intros _. rewrite Z.mul_comm, Z.div_mul, Nat2Z.id by lia. rewrite lookup_app_r by lia. by rewrite Lt, Nat.sub_diag.
    + intros H. specialize (Nb H). apply Forall_app. split; [by apply Forall_take|]. constructor; [lia|]. by apply Forall_drop.
  - exists b. rewrite H1 by lia. split; [done|]. split; [done|]. split; [lia|]. split; [lia|]. done.
Qed.

(** Too narrow for a wall, or no walls asked for: there are none *)
Theorem C47_none P t n : sensible P -> ~ thin P t -> n <= max_bead_count P -> n = 0 \/ ~ wide_enough P t ->
  exists r, compute (makeStrategy P) t n = Ok r /\ empty t r.
Proof.
  intros HS T Hn H. destruct (max_nat P HS) as (k & Hk & Ek). rewrite make_eq, Ek in *. exists (Beading t [] [] (Some t)). split; [|done].
  assert (Hb : compute (base P) t n = Ok (Beading t [] [] (Some t))).
  { rewrite (base_thick P t n T). destruct H as [->|H]; [done|]. apply redistribute_none. by apply Qnot_le_lt. }
  apply (insets_spec P) in Hb; [|done]. by apply (limited_below k) in Hb as [Hb _]; [apply Hb; simpl; lia|lia|lia|].
Qed.

(** Walls that fit lie within the thickness: those of the outer half at most half a thickness from the outline *)
Theorem C47_inside t r : fits t r -> Forall (Z.le 0) (bead_widths r) ->
  forall (i : nat) l, (2 * i < length (bead_widths r))%nat -> toolpath_locations r !! i = Some l ->
    - 2 * Z.of_nat i <= l /\ 2 * l <= t + 3 * Z.of_nat (length (bead_widths r)) + 1.
Proof.
  intros F Hnn i l Hi Hl. assert (Hi2 : (i < length (bead_widths r))%nat) by lia. destruct (lookup_lt_is_Some_2 _ _ Hi2) as [w Hw].
  assert (H : forall i w l, (2 * i < length (bead_widths r))%nat -> bead_widths r !! i = Some w -> toolpath_locations r !! i = Some l -> Z.abs (2 * l - (2 * sum (take i (bead_widths r)) + w)) <= 4 * Z.of_nat i + 1).
  { clear -F. induction i as [|i IH]; intros w l Hi Hw Hl.
    - rewrite (fits_first t r F w l Hw Hl). simpl sum. pose proof (half_near w). lia.
    - destruct (lookup_lt_is_Some_2 (bead_widths r) i) as [w0 Hw0]; [lia|]. destruct (lookup_lt_is_Some_2 (toolpath_locations r) i) as [l0 Hl0]; [rewrite (fits_length t r F); lia|].
      specialize (IH w0 l0 ltac:(lia) Hw0 Hl0). rewrite (sum_take_S _ _ _ Hw0).
      assert (Hd : (S i <= length (bead_widths r) / 2)%nat) by (apply Nat.div_le_lower_bound; lia).
      pose proof (fits_next t r F i w0 w l0 l Hd Hw0 Hw Hl0 Hl). lia. }
  specialize (H i w l Hi Hw Hl). 
  assert (Sn : forall x : list Z, Forall (Z.le 0) x -> 0 <= sum x) by (intros x; induction 1; simpl; unfold sum in *; lia).
  assert (Hw0 : 0 <= w) by (eapply Forall_lookup_1 in Hnn; [|exact Hw]; done).
  pose proof (Sn _ (Forall_take _ i _ Hnn)) as H1.
  destruct (fits_left_over t r F) as (lo & _ & E & Hlo). pose proof (fits_symmetric t r F) as Hp.
  pose proof (pal_sum (bead_widths r) i (length (bead_widths r) - 1 - i)%nat) as Hq.
  destruct (lookup_lt_is_Some_2 (bead_widths r) (length (bead_widths r) - 1 - i)%nat) as [w' Hw']; [lia|]. specialize (Hq w w' Hp ltac:(lia) Hw Hw').
  assert (Hle : sum (take i (bead_widths r)) <= sum (take (length (bead_widths r) - 1 - i) (bead_widths r))).
  { replace (length (bead_widths r) - 1 - i)%nat with (i + (length (bead_widths r) - 1 - i - i))%nat by lia. rewrite <- (take_drop i (take (i + _) _)), sum_app, take_take, Nat.min_l by lia.
    pose proof (Sn _ (Forall_drop _ i _ (Forall_take _ (i + (length (bead_widths r) - 1 - i - i)) _ Hnn))). lia. }
  assert (w = w') as <- by (eapply pal_lookup; [exact Hp| |exact Hw|exact Hw']; lia). lia.
Qed.

(** Insets do not change the widths; with two or more walls they move the first one by the outer offset, never beyond the
    middle, and all the others by the inner offset.  A marker in the middle borders the innermost wall where that now is. *)
Theorem C47_insets P t n : sensible P -> ~ thin P t -> 1 <= n <= max_bead_count P -> wide_enough P t ->
  exists b r, compute (makeStrategy (without_insets P)) t n = Ok b /\ compute (makeStrategy P) t n = Ok r /\
    bead_widths r = bead_widths b /\ total_thickness r = total_thickness b /\ left_over r = left_over b /\
    length (toolpath_locations r) = length (toolpath_locations b) /\
    forall (i : nat) l, toolpath_locations b !! i = Some l ->
      if decide (walls P t n = max_bead_count P /\ Z.of_nat i = max_bead_count P / 2)
      then exists x w, toolpath_locations r !! pred i = Some x /\ bead_widths r !! pred i = Some w /\ toolpath_locations r !! i = Some (x + w ÷ 2)
      else toolpath_locations r !! i = Some (
        if decide (walls P t n = max_bead_count P /\ max_bead_count P / 2 < Z.of_nat i) then
          if (count_positive (bead_widths b) <? 2)%nat then l else l + inner_wall_offset P
        else if (count_positive (bead_widths b) <? 2)%nat then l else moved P t (Z.of_nat i) l).
Proof.
  intros HS T Hn W. destruct (max_nat P HS) as (k & Hk & Ek). rewrite !make_eq, base_without. rewrite (insets_none (without_insets P)) by (split; cbn; lia).
  change (max_bead_count (without_insets P)) with (max_bead_count P). rewrite Ek in *.
  destruct (redistribute_spec (preferred_bead_width_outer P) (preferred_bead_width_inner P) (inward_distributed_center_wall_count P)
    (minimum_variable_line_ratio P) (wall_split_middle_threshold P) (wall_add_middle_threshold P) ltac:(apply HS) ltac:(apply HS) ltac:(apply HS) t n ltac:(lia) W) as (b & Hb & Fb & Lb & _).
  rewrite <- (base_thick P t n T) in Hb. rewrite walls_number. set (m := bead_number _ _ _) in *. pose proof (fits_length t b Fb) as Ll.
  pose proof (insets_spec P _ _ _ _ Hb Ll) as Hb'. set (b' := inset_beading P t b) in *. pose proof (inset_widths P t b) as (Ew & Et & Elo). fold b' in Ew, Et, Elo.
  assert (Ll' : length (toolpath_locations b') = length (bead_widths b')) by (rewrite Ew; unfold b'; rewrite inset_length; exact Ll).
  assert (Lk : forall i l, toolpath_locations b !! i = Some l -> toolpath_locations b' !! i = Some (if (count_positive (bead_widths b) <? 2)%nat then l else moved P t (Z.of_nat i) l)).
  { intros i l Hl. unfold b', inset_beading. destruct (_ <? 2)%nat; [done|]. cbn [toolpath_locations]. by rewrite moved_lookup, Hl. }
  destruct (limited_below k _ t n b Hk ltac:(lia) Hb Ll) as [H1 H2]. destruct (limited_below k _ t n b' Hk ltac:(lia) Hb' Ll') as [H1' H2'].
  destruct (decide (m = 2 * Z.of_nat k)) as [E|E].
  - destruct H2 as (l0 & w0 & Hl0 & Hw0 & ->); [lia|]. destruct H2' as (l0' & w0' & Hl0' & Hw0' & ->); [rewrite Ew; lia|]. eexists _, _. split; [done|]. split; [done|].
    cbn [with_marker bead_widths total_thickness left_over toolpath_locations]. rewrite Ew in *. rewrite Hw0 in Hw0'. injection Hw0' as <-. split; [done|]. split; [done|]. split; [done|].
    assert (Lt : length (take k (toolpath_locations b)) = k) by (rewrite take_length; lia). assert (Lt' : length (take k (toolpath_locations b')) = k) by (rewrite take_length; lia).
    split. { rewrite !app_length, Lt, Lt'. simpl length. rewrite !drop_length. lia. }
    assert (Ec : count_positive (take k (bead_widths b) ++ 0 :: drop k (bead_widths b)) = count_positive (bead_widths b)).
    { unfold count_positive. rewrite <- (take_drop k (bead_widths b)) at 3. rewrite !filter_app, filter_cons_False by lia. done. }
    rewrite Ec. rewrite Z.mul_comm, Z.div_mul by lia. intros i l Hl. apply lookup_inserted in Hl as [[Hi Hl]|[[-> ->]|[Hi Hl]]]; [..|lia].
    + rewrite decide_False by lia. rewrite decide_False by lia. rewrite lookup_app_l by lia. rewrite lookup_take by lia. auto.
    + rewrite decide_True by lia. exists l0', w0. rewrite !lookup_app_l by (rewrite ?take_length; lia). rewrite !lookup_take by lia. rewrite Hl0', Hw0. split; [done|]. split; [done|].
      rewrite lookup_app_r by lia. by rewrite Lt', Nat.sub_diag.
    + rewrite decide_False by lia. rewrite decide_True by lia. apply Lk in Hl. rewrite lookup_app_r by lia. rewrite Lt'. destruct i as [|i]; [lia|]. replace (S i - k)%nat with (S (i - k)) by lia.
      change (drop k (toolpath_locations b') !! (i - k)%nat = Some (if (count_positive (bead_widths b) <? 2)%nat then l else l + inner_wall_offset P)). rewrite lookup_drop. cbn [pred] in Hl. replace (k + (i - k))%nat with i by lia. rewrite Hl. 
      destruct (_ <? 2)%nat; [done|]. unfold moved. rewrite (proj2 (Z.eqb_neq _ 0)) by lia. done.
  - rewrite H1, H1' by (rewrite ?Ew; lia). exists b, b'. rewrite Ew. split; [done|]. split; [done|]. split; [done|]. split; [done|]. split; [done|]. split; [congruence|].
    intros i l Hl. rewrite decide_False by lia. rewrite decide_False by lia. auto.
Qed.

(** Where thin walls are printed, something thinner than an inner wall gets one wall in its middle, at least as wide as the
    minimum, or none when it is thinner than the minimum feature size. *)
Theorem C47_thin P t n : sensible P -> thin P t -> n <= max_bead_count P ->
  compute (makeStrategy P) t n = Ok (if min_feature_size P <=? t then Beading t [Z.max t (min_bead_width P)] [t ÷ 2] None else Beading t [] [] (Some t)).
Proof.
  intros HS [T1 T2] Hn. destruct (max_nat P HS) as (k & Hk & Ek). rewrite make_eq, Ek in *.
  assert (Hb : compute (base P) t n = Ok (if min_feature_size P <=? t then Beading t [Z.max t (min_bead_width P)] [t ÷ 2] None else Beading t [] [] (Some t))).
  { unfold base. rewrite T1. cbn [compute optimal_width]. rewrite (proj2 (Z.ltb_lt _ _)) by lia. by destruct (_ <=? t). }
  set (b := if min_feature_size P <=? t then _ else _) in *. assert (L : length (toolpath_locations b) = length (bead_widths b)) by (unfold b; by destruct (_ <=? t)).
  assert (L1 : (length (bead_widths b) <= 1)%nat) by (unfold b; destruct (_ <=? t); simpl; lia).
  apply (insets_spec P) in Hb; [|done]. assert (E : inset_beading P t b = b).
  { unfold inset_beading. rewrite (proj2 (Nat.ltb_lt _ _)); [done|]. unfold count_positive. pose proof (filter_length (fun w => 0 < w) (bead_widths b)). lia. }
  rewrite E in Hb. apply (limited_below k) in Hb as [Hb _]; [apply Hb; lia|lia|lia|done].
Qed.

(** More walls than the maximum: each side gets half of the maximum number, with the preferred widths, next to each other
    from the outside in; two markers without width border the gap between them; what is left over is the gap. *)
Theorem C47_too_many P t n k : sensible P -> max_bead_count P = 2 * Z.of_nat k -> max_bead_count P < n ->
  (print_thin_walls P = true -> preferred_bead_width_inner P <= 2 * preferred_bead_width_outer P + (2 * Z.of_nat k - 2) * preferred_bead_width_inner P) ->
  let outer := preferred_bead_width_outer P in let inner := preferred_bead_width_inner P in
  let full := 2 * outer + (2 * Z.of_nat k - 2) * inner in
  let H := half_locations P full k in let x := border P full k in
  compute (makeStrategy P) t n = Ok (Beading t
    ((outer :: replicate (k - 1) inner) ++ [0; 0] ++ replicate (k - 1) inner ++ [outer])
    (H ++ [x; t - x] ++ reverse (map (fun l => t - l) H))
    (Some (t - full))).
Proof.
  intros HS Ek Hn Hthin outer inner full H x. assert (Hk : (1 <= k)%nat) by (destruct (max_nat P HS) as (k' & ? & ?); lia). rewrite make_eq, Ek in *.
  assert (Eo : getOptimalThickness (insets P (base P)) (2 * Z.of_nat k) = full) by (rewrite insets_optimal; apply base_optimal; lia).
  destruct (redistribute_preferred outer inner (inward_distributed_center_wall_count P) (minimum_variable_line_ratio P) (wall_split_middle_threshold P) (wall_add_middle_threshold P)
    ltac:(apply HS) ltac:(apply HS) ltac:(apply HS) (Z.of_nat k) ltac:(lia)) as (ls & Hc & Lls & Hls).
  fold full in Hc. change outer with (preferred_bead_width_outer P) in Hc at 1. change inner with (preferred_bead_width_inner P) in Hc at 1. rewrite <- base_thick in Hc.
  2:{ intros [T1 T2]. specialize (Hthin T1). unfold full, outer, inner in T2. lia. }
  set (W := outer :: replicate (Z.to_nat (2 * Z.of_nat k - 2)) inner ++ [outer]) in *.
  assert (LW : length W = (2 * k)%nat) by (unfold W; simpl length; rewrite app_length, replicate_length; simpl length; lia).
  apply (insets_spec P) in Hc; [|cbn [toolpath_locations bead_widths]; lia]. 
  assert (Hpos : 0 < outer /\ 0 < inner) by (split; apply HS).
  assert (Ec : (count_positive W <? 2)%nat = false).
  { apply Nat.ltb_ge. unfold count_positive, W. rewrite filter_cons_True by lia. rewrite filter_app, filter_cons_True by lia. simpl length. rewrite app_length. simpl length. lia. }
  unfold inset_beading in Hc. cbn [bead_widths toolpath_locations total_thickness left_over] in Hc. rewrite Ec in Hc.
  assert (EW : W = (outer :: replicate (k - 1) inner) ++ (replicate (k - 1) inner ++ [outer])).
  { unfold W. rewrite <- app_comm_cons, app_assoc, <- replicate_add. do 3 f_equal. lia. }
  assert (Ltk : length (outer :: replicate (k - 1) inner) = k) by (simpl length; rewrite replicate_length; lia).
  pose proof (limited_above k (insets P (base P)) t n W (moved_locations P full ls) 0 Hk ltac:(lia)) as HL. cbv zeta in HL. rewrite Eo in HL.
  destruct (HL Hc LW) as (l & w & Hl & Hw & Hres); [rewrite moved_length; lia| |].
  { unfold W. by rewrite reverse_cons, reverse_app, reverse_singleton, reverse_replicate. }
  rewrite Hres. clear HL Hres Hc.
  assert (EH : take k (moved_locations P full ls) = H).
  { apply list_eq. intros i. destruct (decide (i < k)%nat) as [Hi|Hi].
    - rewrite lookup_take, moved_lookup by done. destruct (lookup_lt_is_Some_2 ls i) as [y Hy]; [lia|]. rewrite Hy. unfold H, half_locations. change (map ?f ?a) with (f <$> a). rewrite list_lookup_fmap, lookup_seq_lt by lia.
      cbn [fmap option_fmap option_map Nat.add]. do 2 f_equal. unfold preferred_location. apply (Hls i); [lia|done].
    - rewrite !lookup_ge_None_2; [done|..]; unfold H, half_locations; rewrite ?map_length, ?seq_length, ?take_length; lia. }
  rewrite EH. assert (Ex : l + w ÷ 2 = x).
  { assert (Hl2 : H !! pred k = Some l) by (rewrite <- EH, lookup_take by lia; done). unfold H, half_locations in Hl2. change (map ?f ?a) with (f <$> a) in Hl2. rewrite list_lookup_fmap, lookup_seq_lt in Hl2 by lia.
    cbn [fmap option_fmap option_map Nat.add] in Hl2. injection Hl2 as <-. unfold x, border. do 2 f_equal. unfold innermost_width.
    rewrite EW, lookup_app_l in Hw by lia. destruct (k =? 1)%nat eqn:E1; [apply Nat.eqb_eq in E1; subst k; cbn in Hw; by injection Hw as <-|]. apply Nat.eqb_neq in E1.
    destruct k as [|[|k]]; [lia..|]. cbn [pred lookup list_lookup] in Hw. apply lookup_replicate in Hw as [-> _]. done. }
  rewrite Ex. do 2 f_equal. rewrite EW, take_app_alt, drop_app_alt by done. done.
Qed.

(** *** the number of walls *)
Lemma limited_count P t : sensible P -> exists c n, getOptimalBeadCount (base P) t = Ok c /\ getOptimalBeadCount (makeStrategy P) t = Ok n /\
  n = (if c <=? max_bead_count P then c else if (c =? max_bead_count P + 1) && (t <? getOptimalThickness (base P) (max_bead_count P + 1) - 10)
       then max_bead_count P else max_bead_count P + 1).
Proof.
  intros HS. rewrite make_eq. cbn [getOptimalBeadCount]. rewrite insets_count, insets_optimal.
  destruct (redistribute_count (preferred_bead_width_inner P) (inward_distributed_center_wall_count P) (wall_split_middle_threshold P) (wall_add_middle_threshold P)
    ltac:(apply HS) ltac:(apply HS) ltac:(apply HS) (preferred_bead_width_outer P) (minimum_variable_line_ratio P) ltac:(apply HS) ltac:(apply HS) t) as (c & Hc & _).
  assert (Hb : exists c, getOptimalBeadCount (base P) t = Ok c).
  { unfold base. destruct (print_thin_walls P); [|eauto]. set (R := Redistribute _ _ _) in *. cbn [getOptimalBeadCount]. destruct (t <? _); [eauto|]. rewrite Hc. cbn [rbind]. destruct (_ && _); eauto. }
  clear c Hc. destruct Hb as [c Hc]. rewrite Hc. cbn [rbind]. exists c. eexists. split; [done|]. split; [|done].
  destruct (c <=? _); [done|]. destruct (c =? _); [|done]. by destruct (t <? _).
Qed.
Lemma base_count P t c : sensible P -> getOptimalBeadCount (base P) t = Ok c ->
  0 <= c /\ (2 < c -> 2 * preferred_bead_width_outer P < t /\ (c - 3) * preferred_bead_width_inner P <= t - 2 * preferred_bead_width_outer P) /\
  (2 * preferred_bead_width_outer P < t -> c = 0 \/ t - 2 * preferred_bead_width_outer P <= (c - 1) * preferred_bead_width_inner P) /\
  forall l, 0 <= l -> (t < getTransitionThickness (base P) l -> c <= l) /\
    ((print_thin_walls P = true -> min_feature_size P <= preferred_bead_width_outer P) -> getTransitionThickness (base P) l + 1 <= t -> l < c).
Proof.
  intros HS. 
  destruct (redistribute_count (preferred_bead_width_inner P) (inward_distributed_center_wall_count P) (wall_split_middle_threshold P) (wall_add_middle_threshold P)
    ltac:(apply HS) ltac:(apply HS) ltac:(apply HS) (preferred_bead_width_outer P) (minimum_variable_line_ratio P) ltac:(apply HS) ltac:(apply HS) t) as (n & Hn & N0 & N1 & N2 & N3 & N4).
  unfold base. set (R := Redistribute _ _ _) in *. destruct (print_thin_walls P) eqn:Et.
  - cbn [getOptimalBeadCount getTransitionThickness]. destruct (t <? min_feature_size P) eqn:E; [apply Z.ltb_lt in E|apply Z.ltb_ge in E].
    + intros [= <-]. split; [lia|]. split; [lia|]. split; [lia|]. intros l Hl. split; [lia|]. intros Hm H. specialize (Hm eq_refl). exfalso.
      destruct (l =? 0) eqn:El; [lia|]. apply Z.eqb_neq in El.
      assert (preferred_bead_width_outer P <= getTransitionThickness R l); [|lia]. destruct HS. 
      assert (Ho' : (0 < inject_Z (preferred_bead_width_outer P))%Q) by (change 0%Q with (inject_Z 0); by rewrite <- Zlt_Qlt).
      unfold R. cbn [getTransitionThickness]. rewrite (proj2 (Z.eqb_neq l 0)) by lia. destruct (l =? 1) eqn:E1.
      * cbn [getSplitMiddleThreshold]. rewrite <- (qtrunc_Z (preferred_bead_width_outer P)) at 1. apply qtrunc_le. nra.
      * apply Z.eqb_neq in E1. destruct (transition_bounds (preferred_bead_width_inner P) (inward_distributed_center_wall_count P) (wall_split_middle_threshold P) (wall_add_middle_threshold P) s_inner s_split s_add (l - 2) ltac:(lia)) as (y & Hy & Hy1 & _).
        cbn [getTransitionThickness] in Hy. rewrite Hy. assert (0 <= (l - 2) * preferred_bead_width_inner P) by nia. lia.
    + rewrite Hn. cbn [rbind]. rewrite (proj2 (Z.leb_le _ _) E). cbn [andb]. intros Hc.
      assert (Ec : c = Z.max 1 n). { destruct (n <? 1) eqn:E1; injection Hc as <-; [apply Z.ltb_lt in E1|apply Z.ltb_ge in E1]; lia. }
      split; [lia|]. split; [intros; assert (c = n) as -> by lia; apply N1; lia|]. assert (0 < preferred_bead_width_inner P) by apply HS. split; [intros Ht; right; specialize (N3 Ht); nia|]. intros l Hl. destruct (l =? 0) eqn:El.
      * apply Z.eqb_eq in El. split; lia.
      * apply Z.eqb_neq in El. specialize (N4 l Hl). split; [lia|]. intros _. lia.
  - rewrite Hn. intros [= <-]. split; [done|]. split; [done|]. split; [auto|]. intros l Hl. specialize (N4 l Hl). split; [apply N4|]. intros _. apply N4.
Qed.

(** The number of walls chosen for a thickness is at most one more than the maximum, and it goes from l to more than l at the
    transition thickness of l, give or take a micrometre. *)
Theorem C47_bead_count P t : sensible P ->
  exists n, getOptimalBeadCount (makeStrategy P) t = Ok n /\ 0 <= n <= max_bead_count P + 1 /\
    forall l, 0 <= l <= max_bead_count P ->
      (t < getTransitionThickness (makeStrategy P) l -> n <= l) /\
      ((print_thin_walls P = true -> min_feature_size P <= preferred_bead_width_outer P) ->
       (l = max_bead_count P -> (wall_add_middle_threshold P * inject_Z (preferred_bead_width_inner P) <= inject_Z (preferred_bead_width_inner P - 10))%Q) ->
       getTransitionThickness (makeStrategy P) l + 1 <= t -> l < n).
Proof.
  intros HS. destruct (limited_count P t HS) as (c & n & Hc & Hn & En). exists n. split; [done|]. destruct (base_count P t c HS Hc) as (C0 & C1 & C2 & C3).
  set (m := max_bead_count P) in *. assert (Hm : 2 <= m) by (destruct (s_max P HS) as (k & ? & ?); unfold m; lia).
  assert (Hc3 : forall x, 0 <= x <= m -> (x < c -> x <= n)) by (intros x Hx Hxc; rewrite En; destruct (c <=? m); [lia|]; destruct (_ && _); lia).
  assert (Hnc : n <= c). { rewrite En. destruct (c <=? m) eqn:E; [lia|]. apply Z.leb_gt in E. destruct (_ && _); lia. }
  split. { rewrite En. destruct (c <=? m) eqn:E; [apply Z.leb_le in E; lia|]. destruct (_ && _); lia. }
  intros l Hl. rewrite make_eq. cbn [getTransitionThickness]. rewrite insets_transition, insets_optimal. fold m. 
  assert (Eopt : getOptimalThickness (base P) (m + 1) = 2 * preferred_bead_width_outer P + (m - 1) * preferred_bead_width_inner P) by (rewrite base_optimal by lia; lia).
  assert (Hin : 0 < preferred_bead_width_inner P) by apply HS.
  destruct (l <? m) eqn:E; [apply Z.ltb_lt in E|apply Z.ltb_ge in E].
  - destruct (C3 l ltac:(lia)) as [D1 D2]. split; [intros H; specialize (D1 H); lia|]. intros Hf _ Ht. specialize (D2 Hf Ht).
    rewrite En. destruct (c <=? m); [lia|]. destruct (_ && _); lia.
  - assert (l = m) as -> by lia. rewrite (proj2 (Z.eqb_eq m m)) by done. rewrite Eopt. split.
    + intros Ht. rewrite En, Eopt. destruct (c <=? m) eqn:Ec; [apply Z.leb_le in Ec; lia|]. apply Z.leb_gt in Ec.
      rewrite (proj2 (Z.ltb_lt _ _) Ht). destruct (Z.eqb_spec c (m + 1)) as [|Hne]; [cbn [andb]; lia|]. exfalso. specialize (C1 ltac:(lia)).
      assert ((m - 1) * preferred_bead_width_inner P <= (c - 3) * preferred_bead_width_inner P) by nia. lia.
    + intros Hf Ha Ht. specialize (Ha eq_refl). destruct (C3 m ltac:(lia)) as [_ D2]. specialize (D2 Hf).
      assert (Hmc : m < c).
      { apply D2. assert (Etr : getTransitionThickness (base P) m = 2 * preferred_bead_width_outer P + getTransitionThickness (Distributed (preferred_bead_width_inner P) (wall_split_middle_threshold P) (wall_add_middle_threshold P) (inward_distributed_center_wall_count P)) (m - 2)).
        { unfold base. set (D := Distributed _ _ _ _). destruct (print_thin_walls P); cbn [getTransitionThickness]; rewrite ?(proj2 (Z.eqb_neq m 0)), ?(proj2 (Z.eqb_neq m 1)) by lia; lia. }
        rewrite Etr. destruct (transition_bounds (preferred_bead_width_inner P) (inward_distributed_center_wall_count P) (wall_split_middle_threshold P) (wall_add_middle_threshold P) (s_inner P HS) (s_split P HS) (s_add P HS) (m - 2) ltac:(lia)) as (y & Hy & _ & Ey).
        rewrite Hy. assert (Hy2 : y <= preferred_bead_width_inner P - 10).
        { rewrite Ey. assert (Er : Z.rem (m - 2) 2 = 0). { destruct (s_max P HS) as (k & Hk1 & Hk2). unfold m. rewrite Hk2. replace (2 * k - 2) with ((k - 1) * 2) by lia. apply Z.rem_mul. lia. }
          rewrite Er. cbn [Z.eqb]. rewrite <- (qtrunc_Z (preferred_bead_width_inner P - 10)). apply qtrunc_le. lra. }
        lia. }
      rewrite En, Eopt. rewrite (proj2 (Z.leb_gt _ _) Hmc). rewrite (proj2 (Z.ltb_ge t _)) by lia. rewrite andb_false_r. lia.
Qed.

(** With the number of walls that is chosen for the thickness, up to the maximum, all is well *)
Theorem C47_chosen P t n : sensible P -> no_insets P -> ~ thin P t ->
  getOptimalBeadCount (makeStrategy P) t = Ok n -> n <= max_bead_count P ->
  exists r, compute (makeStrategy P) t n = Ok r /\ (empty t r \/ fits t r /\ Forall (Z.le 0) (bead_widths r)).
Proof.
  intros HS N T Hn Hm. destruct (limited_count P t HS) as (c & n' & Hc & Hn' & En). rewrite Hn in Hn'. injection Hn' as <-.
  destruct (base_count P t c HS Hc) as (C0 & C1 & _ & _).
  assert (Hnc : 0 <= n <= c). { rewrite En. destruct (s_max P HS) as (k & ? & ?). destruct (c <=? _) eqn:E; [lia|]. apply Z.leb_gt in E. destruct (_ && _); lia. }
  destruct (decide (n = 0)) as [E0|E0]; [destruct (C47_none P t n HS T Hm (or_introl E0)) as (r & ? & ?); eauto|].
  destruct (Qlt_le_dec (inject_Z t) (minimum_variable_line_ratio P * inject_Z (preferred_bead_width_outer P))) as [W|W].
  { destruct (C47_none P t n HS T Hm) as (r & ? & ?); [right; by apply Qlt_not_le|eauto]. }
  destruct (C47_walls P t n HS N T ltac:(lia) W) as (r & H1 & H2 & _ & _ & H3). exists r. split; [done|]. right. split; [done|]. apply H3.
  destruct (Z.le_gt_cases n 2) as [|Hn2]; [by left|]. right. right. assert (Hi : 0 < preferred_bead_width_inner P) by apply HS. specialize (C1 ltac:(lia)). nia.
Qed.

(** *** concrete cases *)
Definition P0 : parameters := Parameters 400 450 false 340 200 (1 # 2) (3 # 4) 4 0 0 1 (1 # 2).
Definition P_thin : parameters := Parameters 400 450 true 340 200 (1 # 2) (3 # 4) 4 0 0 1 (1 # 2).
Definition P_inset : parameters := Parameters 400 450 true 340 200 (1 # 2) (3 # 4) 4 30 20 1 (1 # 2).
Lemma sensible_0 : sensible P0. Proof. constructor; cbn; try lia; try lra. exists 2. lia. Qed.
Lemma sensible_thin : sensible P_thin. Proof. constructor; cbn; try lia; try lra. exists 2. lia. Qed.
Lemma sensible_inset : sensible P_inset. Proof. constructor; cbn; try lia; try lra. exists 2. lia. Qed.

Example C47_walls_example : no_insets P0 /\ ~ thin P0 1301 /\ wide_enough P0 1301 /\ walls P0 1301 3 = 3 /\
  getOptimalBeadCount (makeStrategy P0) 1301 = Ok 3 /\
  compute (makeStrategy P0) 1301 3 = Ok (Beading 1301 [400; 501; 400] [200; 650; 1101] (Some 0)) /\
  compute (makeStrategy P0) 1690 4 = Ok (Beading 1690 [400; 445; 0; 445; 400] [200; 622; 844; 1068; 1490] (Some 0)).
Proof. split; [done|]. split; [intros [H _]; done|]. split; [vm_compute; discriminate|]. split; [done|]. split; [vm_compute; reflexivity|]. split; vm_compute; reflexivity. Qed.
Example C47_none_example : ~ wide_enough P0 150 /\ compute (makeStrategy P0) 150 1 = Ok (Beading 150 [] [] (Some 150)).
Proof. split; [intros H; vm_compute in H; by apply H|]. vm_compute. reflexivity. Qed.
Example C47_insets_example : ~ thin P_inset 1301 /\ wide_enough P_inset 1301 /\
  compute (makeStrategy P_inset) 1690 4 = Ok (Beading 1690 [400; 445; 0; 445; 400] [230; 642; 864; 1088; 1510] (Some 0)).
Proof. split; [intros [_ H]; cbn in H; lia|]. split; [vm_compute; discriminate|]. vm_compute. reflexivity. Qed.
Example C47_thin_example : thin P_thin 250 /\ compute (makeStrategy P_thin) 250 1 = Ok (Beading 250 [340] [125] None).
Proof. split; [split; [done|cbn; lia]|]. vm_compute. reflexivity. Qed.
Example C47_too_many_example : compute (makeStrategy P_inset) 5000 9 = 
  Ok (Beading 5000 [400; 450; 0; 0; 450; 400] [230; 645; 870; 4130; 4355; 4770] (Some 3300)).
Proof. vm_compute. reflexivity. Qed.
Example C47_bead_count_example : getTransitionThickness (makeStrategy P_thin) 2 = 1137 /\ getOptimalBeadCount (makeStrategy P_thin) 1136 = Ok 2 /\
  getOptimalBeadCount (makeStrategy P_thin) 1138 = Ok 3 /\ getOptimalBeadCount (makeStrategy P_thin) 9000 = Ok 5.
Proof. repeat split; vm_compute; reflexivity. Qed.

(** *** where it does not hold *)
(** Asked for more walls than the thickness has room for, the widths can be negative. *)
Theorem C47_negative_refuted : ~ forall P t n, sensible P -> no_insets P -> ~ thin P t -> 1 <= n <= max_bead_count P -> wide_enough P t ->
  exists r, compute (makeStrategy P) t n = Ok r /\ Forall (Z.le 0) (bead_widths r).
Proof.
  intros H. destruct (H (Parameters 400 450 false 340 200 (1 # 2) (3 # 4) 6 0 0 1 (1 # 2)) 1000 5) as (r & Hr & Hf).
  - constructor; cbn; try lia; try lra. exists 3. lia.
  - done.
  - by intros [? _].
  - cbn. lia.
  - vm_compute. discriminate.
  - vm_compute in Hr. injection Hr as <-. cbn in Hf. repeat (apply Forall_cons in Hf as [? Hf]; try lia).
Qed.
(** The inner offset moves also the wall in the middle and those beyond it, so that a wall no longer lies opposite to its counterpart. *)
Theorem C47_inset_opposite_refuted : ~ forall P t n r (i j : nat) l l', sensible P -> ~ thin P t -> 1 <= n <= max_bead_count P -> wide_enough P t ->
  compute (makeStrategy P) t n = Ok r -> (i + j + 1 = length (bead_widths r))%nat ->
  toolpath_locations r !! i = Some l -> toolpath_locations r !! j = Some l' -> Z.abs (l + l' - t) <= 3 * Z.of_nat (length (bead_widths r)).
Proof.
  intros H. specialize (H P_inset 1301 3 (Beading 1301 [400; 501; 400] [230; 670; 1121] (Some 0)) 1%nat 1%nat 670 670 sensible_inset).
  assert (Hf : Z.abs (670 + 670 - 1301) <= 3 * Z.of_nat 3); [|lia]. apply H; try done.
  intros [_ Ht]; cbn in Ht; lia.
Qed.
(** The outer offset can move the first wall past the second one. *)
Theorem C47_inset_order_refuted : ~ forall P t n r l l', sensible P -> ~ thin P t -> 1 <= n <= max_bead_count P -> wide_enough P t ->
  compute (makeStrategy P) t n = Ok r -> toolpath_locations r !! 0%nat = Some l -> toolpath_locations r !! 1%nat = Some l' -> l <= l'.
Proof.
  intros H. specialize (H (Parameters 400 450 false 340 200 (1 # 2) (3 # 4) 4 500 0 1 (1 # 2)) 1690 4 (Beading 1690 [400; 445; 0; 445; 400] [700; 622; 844; 1068; 1490] (Some 0)) 700 622).
  assert (700 <= 622); [|lia]. apply H; try done.
  - constructor; cbn; try lia; try lra. exists 2. lia.
  - by intros [? _].
Qed.
(** With thin walls and an inner wall wider than both outer ones together, the amount left over is read before it is set. *)
Theorem C47_uninitialised_refuted : ~ forall P t n, sensible P -> max_bead_count P < n -> exists r, compute (makeStrategy P) t n = Ok r.
Proof.
  intros H. destruct (H (Parameters 200 450 true 340 200 (1 # 2) (3 # 4) 2 0 0 1 (1 # 2)) 2000 3) as [r Hr]; [|cbn; lia|].
  - constructor; cbn; try lia; try lra. exists 1. lia.
  - vm_compute in Hr. discriminate.
Qed.
(** A maximum of no walls makes the strategy read before the start of the walls. *)
Theorem C47_no_walls_refuted P t n : max_bead_count P = 0 -> print_thin_walls P = false -> 0 < n -> compute (makeStrategy P) t n = UB.
Proof.
  intros Hm Hp Hn. rewrite make_eq, Hm. cbn [compute]. rewrite (proj2 (Z.leb_gt n 0)) by lia. set (opt := getOptimalThickness _ _).
  assert (Hb : compute (base P) opt 0 = Ok (Beading opt [] [] (Some opt))) by (unfold base; by rewrite Hp).
  rewrite (insets_spec P _ _ _ _ Hb) by done. cbn. done.
Qed.
(** The name of a strategy made by the factory: asking for it never returns. *)
Theorem C47_name_refuted P fuel : toString fuel (makeStrategy P) = NoFuel.
Proof.
  assert (HR : forall fuel o r p, toString fuel (Redistribute o r p) = NoFuel) by (induction fuel0 as [|f IH]; intros; [done|]; cbn [toString]; by rewrite IH).
  assert (HW : forall fuel, toString fuel (base P) = NoFuel).
  { intros f. unfold base. destruct (print_thin_walls P); [|apply HR]. destruct f; [done|]. cbn [toString]. by rewrite HR. }
  rewrite make_eq. destruct fuel as [|f]; [done|]. cbn [toString]. 
  assert (HO : forall f, toString f (if 0 <? outer_wall_offset P then OuterWallInset (outer_wall_offset P) (base P) else base P) = NoFuel).
  { intros g. destruct (0 <? _); [|apply HW]. destruct g; [done|]. cbn [toString]. by rewrite HW. }
  assert (HI : forall f, toString f (insets P (base P)) = NoFuel).
  { intros g. unfold insets. destruct (negb _); [|apply HO]. destruct g; [done|]. cbn [toString]. by rewrite HO. }
  by rewrite HI.
Qed.
(** The thickness at which thin walls begin to be widened is not reported by any strategy made by the factory. *)
Theorem C47_nonlinear_refuted P l : getNonlinearThicknesses (makeStrategy P) l = [].
Proof. done. Qed.

Print Assumptions C47_walls.
Print Assumptions C47_none.
Print Assumptions C47_inside.
Print Assumptions C47_insets.
Print Assumptions C47_thin.
Print Assumptions C47_too_many.
Print Assumptions C47_bead_count.
Print Assumptions C47_chosen.
Print Assumptions C47_negative_refuted.
Print Assumptions C47_inset_opposite_refuted.
Print Assumptions C47_inset_order_refuted.
Print Assumptions C47_uninitialised_refuted.
Print Assumptions C47_no_walls_refuted.
Print Assumptions C47_name_refuted.
Print Assumptions C47_nonlinear_refuted.
