(** C71: combing paths. *)
From Coq Require Import ZArith QArith Lia Lqa Sorting.Sorted.
From stdpp Require Import prelude list.
From Verif Require Import Common Geo_Model Combing_Model Combing_Spec.
Open Scope Z_scope.

Lemma rev_reverse {A} (l : list A) : rev l = reverse l.
Proof. apply rev_alt. Qed.

(** ** rounding *)
Lemma llrint_close n d : 0 < d -> (-(1#2) <= inject_Z (llrint n d) - inject_Z n / inject_Z d <= 1#2)%Q.
Proof.
  intros Hd. assert (Hq : (0 < inject_Z d)%Q) by (change 0%Q with (inject_Z 0); by rewrite <- Zlt_Qlt).
  assert (H : - d <= 2 * (llrint n d * d - n) <= d).
  { unfold llrint. pose proof (Z.div_mod n d ltac:(lia)). pose proof (Z.mod_pos_bound n d Hd). set (q := n / d) in *. set (r := n mod d) in *. clearbody q r.
    destruct (Z.ltb_spec (2 * r) d); [lia|]. destruct (Z.ltb_spec d (2 * r)); [lia|]. destruct (Z.even q); lia. }
  assert (E : (inject_Z (llrint n d) - inject_Z n / inject_Z d == inject_Z (llrint n d * d - n) / inject_Z d)%Q).
  { unfold Z.sub. rewrite inject_Z_plus, inject_Z_mult, inject_Z_opp. field. intros H0. rewrite H0 in Hq. by apply Qlt_irrefl in Hq. }
  rewrite E. destruct H as [H1 H2]. rewrite Zle_Qle in H1, H2. rewrite inject_Z_mult in H1, H2. rewrite inject_Z_opp in H1. change (inject_Z 2) with (2#1)%Q in *. split.
  - apply Qle_shift_div_l; [done|]. lra.
  - apply Qle_shift_div_r; [done|]. lra.
Qed.
Lemma slid_between a p t : 0 <= t <= 10 -> between a p (slid a p t).
Proof.
  intros Ht. exists (inject_Z t / 10)%Q. split.
  { destruct Ht as [H1 H2]. rewrite Zle_Qle in H1, H2. change (inject_Z 0) with 0%Q in H1. change (inject_Z 10) with 10%Q in H2. split; [apply Qle_shift_div_l; lra|apply Qle_shift_div_r; lra]. }
  assert (H : forall u v, (-(1#2) <= inject_Z (u + llrint ((v - u) * t) 10) - (inject_Z u + inject_Z t / 10 * inject_Z (v - u)) <= 1#2)%Q).
  { intros u v. pose proof (llrint_close ((v - u) * t) 10 ltac:(lia)) as H. rewrite inject_Z_plus.
    assert (E : (inject_Z ((v - u) * t) / inject_Z 10 == inject_Z t / 10 * inject_Z (v - u))%Q). { rewrite inject_Z_mult. change (inject_Z 10) with 10%Q. field. }
    rewrite E in H. lra. }
  split; apply H.
Qed.
Lemma vSize_nonneg p : 0 <= vSize p.
Proof. unfold vSize. pose proof (Z.sqrt_nonneg (vSize2 p)). destruct (_ <=? _); lia. Qed.

(** ** optimizing *)
Section optimize.
  Context (collides : pt -> pt -> bool) (start_point : pt) (basic : list pt).
  Notation allowed := (allowed collides basic).
  Definition chain (o : list pt) : Prop := forall i a b, o !! S i = Some a -> o !! i = Some b -> allowed a b.
  (** the optimized path, backwards, from whose head [p] can be reached *)
  Definition good (o : list pt) (p : pt) : Prop := (exists q, head o = Some q /\ allowed q p) /\ last o = Some start_point /\ chain o.

  Lemma chain_cons q o : chain (q :: o) <-> (forall q', head o = Some q' -> allowed q' q) /\ chain o.
  Proof.
    split.
    - intros H. split; [intros q' E; apply (H 0%nat); [|done]; by destruct o|]. intros i a b E1 E2. by apply (H (S i)).
    - intros [H1 H2] [|i] a b E1 E2; [|by apply (H2 i)]. cbn in E2. injection E2 as <-. apply H1. cbn in E1. by destruct o.
  Qed.
  Lemma shortcut_good p : forall ns o, good o p -> good (shortcut collides ns p o) p.
  Proof.
    induction ns as [|n ns IH]; intros o Ho; [done|]. cbn [shortcut]. destruct (n =? 0)%nat; [done|]. destruct (o !! n) as [q|] eqn:Eq; [|by apply IH].
    destruct (collides q p) eqn:Ec; cbn [negb]; [by apply IH|]. destruct Ho as (_ & Hl & Hc). pose proof (drop_S o q n Eq) as Ed. split; [|split].
    - exists q. split; [by rewrite Ed|by apply free].
    - assert (Hn : (n < length o)%nat) by (by eapply lookup_lt_Some). rewrite <- Hl. rewrite <- (take_drop n o) at 2. rewrite last_app. rewrite Ed. rewrite !last_cons. by destruct (last (drop (S n) o)).
    - intros i a b E1 E2. rewrite lookup_drop in E1, E2. rewrite Nat.add_succ_r in E1. by apply (Hc (n + i)%nat).
  Qed.
  Lemma drop_corners_good p : forall o, good o p -> good (drop_corners collides p o) p.
  Proof.
    induction o as [|q o IH]; intros Ho; [done|]. cbn [drop_corners]. destruct o as [|q' o]; [done|]. destruct (collides q' p) eqn:Ec; [done|]. apply IH.
    destruct Ho as (_ & Hl & Hc). split; [exists q'; split; [done|by apply free]|]. split; [done|]. by apply chain_cons in Hc as [_ Hc].
  Qed.
  Lemma slide_ok good_place towards : forall ts p, Forall (fun t => 0 <= t <= 10) ts ->
    let q := slide good_place towards ts p in (q = p \/ good_place q = true) /\ (forall b, b = towards -> allowed p b -> allowed q b) /\ (forall a, a = towards -> allowed a p -> allowed a q).
  Proof.
    induction ts as [|t ts IH]; intros p Hts; cbn [slide]; [split; [by left|done]|]. inversion Hts; subst. destruct (good_place (slid towards p t)) eqn:Eg; [|split; [by left|done]].
    destruct (IH (slid towards p t)) as (H1' & H2' & H3'); [done|]. split; [|split].
    - destruct H1' as [->|?]; by right.
    - intros b -> Hb. apply H2'; [done|]. eapply last_part; [exact Hb|]. by apply slid_between.
    - intros a -> Ha. apply H3'; [done|]. eapply first_part; [exact Ha|]. by apply slid_between.
  Qed.
  Lemma fractions_ok : Forall (fun t => 0 <= t <= 10) fractions.
  Proof. unfold fractions. repeat constructor; lia. Qed.

  Lemma step_good first previous current o : good o previous -> hop basic previous current -> (first = true -> o = [start_point]) ->
    exists o', optimize_step collides start_point first previous current o = Ok o' /\ good o' current.
  Proof.
    intros Ho Hhop Hfirst. unfold optimize_step. destruct (decide (current = previous)) as [->|Hne]; [by exists o|].
    destruct Ho as ((q & Eq & Hq) & Hl & Hc). rewrite Eq. cbn [of_opt rbind]. destruct (collides q current) eqn:Ec.
    - set (n := Nat.min 8 (length o)). eexists. split; [done|].
      pose proof (shortcut_good previous [n; n / 2; n / 4; n / 8]%nat o ltac:(split; [by exists q|done])) as Hs.
      assert (Hgiven : allowed previous current) by (by apply given).
      destruct first.
      + specialize (Hfirst eq_refl). clearbody n. subst o. assert (Esh : shortcut collides [n; n / 2; n / 4; n / 8]%nat previous [start_point] = [start_point]).
        { assert (Hany : forall ns, shortcut collides ns previous [start_point] = [start_point]).
          { induction ns as [|m ns IH]; [done|]. cbn [shortcut]. destruct m as [|m]; [done|]. cbn. done. } apply Hany. }
        rewrite Esh in Hs |- *.
        destruct (slide_ok (fun p => negb (collides start_point p)) current fractions previous fractions_ok) as (H1 & H2 & _). set (added := slide _ _ _ _) in *.
        split; [exists added; split; [done|by apply H2]|]. split; [done|]. apply chain_cons. split.
        * intros q' [= <-]. destruct H1 as [->|H1]; [|apply free; by apply negb_true_iff]. destruct Hs as ((q' & [= <-] & Hq') & _). done.
        * intros [|i] a b E1 E2; done.
      + destruct Hs as ((q' & Eq' & Hq') & Hl' & Hc'). split; [exists previous; done|]. split.
        * rewrite last_cons, Hl'. done.
        * apply chain_cons. split; [|done]. intros q2 E2. by assert (q2 = q') as -> by congruence.
    - eexists. split; [done|]. apply drop_corners_good. split; [|done]. exists q. split; [done|by apply free].
  Qed.
  Lemma steps_good : forall points first previous o k, good o previous -> (first = true -> o = [start_point]) -> drop k basic = previous :: points ->
    exists o' p, optimize_steps collides start_point first previous points o = Ok o' /\ last (previous :: points) = Some p /\ good o' p.
  Proof.
    induction points as [|p points IH]; intros first previous o k Ho Hf Hk; cbn [optimize_steps]; [by exists o, previous|].
    assert (H0 : basic !! k = Some previous) by (rewrite <- (Nat.add_0_r k), <- lookup_drop, Hk; done).
    assert (H1 : basic !! S k = Some p) by (rewrite <- (Nat.add_1_r k), <- lookup_drop, Hk; done).
    destruct (step_good first previous p o Ho ltac:(by exists k) Hf) as (o1 & E1 & Ho1). rewrite E1. cbn [rbind].
    destruct (IH false p o1 (S k)) as (o' & z & E & Hz & Ho'); [done|done| |].
    { rewrite <- Nat.add_1_r, <- drop_drop, Hk. done. }
    exists o', z. split; [done|]. split; [|done]. done.
  Qed.

  Lemma optimize_ok comb_path end_point : comb_path <> [] -> last comb_path = Some end_point -> basic = start_point :: comb_path ->
    exists path, optimizePath collides start_point comb_path = Ok path /\ head path = Some start_point /\ last path = Some end_point /\ (forall a b, hop path a b -> allowed a b).
  Proof.
    intros Hne Hlast Hbasic. unfold optimizePath. destruct comb_path as [|p rest]; [done|]. cbn [head of_opt rbind tail]. rewrite Hlast. cbn [of_opt rbind].
    destruct (steps_good rest true p [start_point] 1%nat) as (o & z & E & Hz & Ho).
    - split; [exists start_point; split; [done|]; apply given; exists 0%nat; by rewrite Hbasic|]. split; [done|]. intros [|i] a b E1 E2; done.
    - done.
    - by rewrite Hbasic.
    - assert (z = end_point) as -> by congruence. rewrite E. cbn [rbind].
      set (o' := match o with q :: q' :: rest0 => _ | _ => o end). assert (Ho' : good o' end_point).
      { unfold o'. destruct o as [|q [|q' o]]; [done|done|]. destruct Ho as ((q2 & [= <-] & Hq) & Hl & Hc). apply chain_cons in Hc as [Hc1 Hc2].
        destruct (collides q' end_point) eqn:Ec; cbn [negb].
        - destruct (slide_ok (fun p => negb (collides p end_point)) q' fractions q fractions_ok) as (H1 & _ & H3). set (q2 := slide _ _ _ _) in *. split; [|split].
          + exists q2. split; [done|]. destruct H1 as [->|H1]; [done|]. apply free. by apply negb_true_iff.
          + done.
          + apply chain_cons. split; [|done]. intros q3 [= <-]. apply H3; [done|]. by apply Hc1.
        - split; [exists q'; split; [done|by apply free]|]. split; [done|done]. }
      eexists. split; [done|]. clearbody o'. destruct Ho' as ((q & Eq & Hq) & Hl & Hc). split; [|split].
      + rewrite rev_reverse, head_reverse, last_cons, Hl. done.
      + rewrite rev_reverse, last_reverse. done.
      + assert (Hc2 : chain (end_point :: o')). { apply chain_cons. split; [|done]. intros q' E'. by assert (q' = q) as -> by congruence. }
        intros a b (i & E1 & E2). rewrite rev_reverse in E1, E2. assert (Hi : (S i < length (end_point :: o'))%nat) by (apply lookup_lt_Some in E2; by rewrite reverse_length in E2).
        rewrite reverse_lookup in E1, E2 by lia. apply (Hc2 (length (end_point :: o') - S (S i))%nat); [|done]. rewrite <- E1. f_equal. lia.
  Qed.
End optimize.

(** ** the ways around a polygon *)
Lemma way_length_cons a b l : way_length (a :: b :: l) = vSize (psub b a) + way_length (b :: l).
Proof. done. Qed.
Lemma way_length_nonneg l : 0 <= way_length l.
Proof. induction l as [|a [|b l] IH]; [done|done|]. rewrite way_length_cons. pose proof (vSize_nonneg (psub b a)). lia. Qed.
Lemma way_length_snoc l : forall a z, way_length (a :: l ++ [z]) = way_length (a :: l) + vSize (psub z (default a (last l))).
Proof.
  induction l as [|b l IH]; intros a z; [cbn; lia|]. cbn [app]. rewrite !way_length_cons, IH, last_cons. destruct (last l); cbn [default]; unfold default, id; lia.
Qed.

Section ways.
  Context (corner : list pt -> nat -> pt) (poly : list pt).
  Notation n := (length poly).
  Definition fwd_list (v k : nat) : list pt := map (corner poly) (map (fun i => (v + i) mod n)%nat (seq 0 k)).
  Definition bwd_list (v k : nat) : list pt := map (corner poly) (map (fun i => (v + k * n - i) mod n)%nat (seq 0 k)).

  Lemma next_mod v : (v < n)%nat -> (if (v <? n - 1)%nat then S v else 0%nat) = ((v + 1) mod n)%nat.
  Proof.
    intros Hv. destruct (Nat.ltb_spec v (n - 1)).
    - rewrite Nat.mod_small by lia. lia.
    - replace (v + 1)%nat with n by lia. by rewrite Nat.mod_same by lia.
  Qed.
  Lemma prev_mod v : (v < n)%nat -> (if (0 <? v)%nat then (v - 1)%nat else (n - 1)%nat) = ((v + n - 1) mod n)%nat.
  Proof.
    intros Hv. destruct (Nat.ltb_spec 0 v).
    - replace (v + n - 1)%nat with ((v - 1) + 1 * n)%nat by lia. rewrite Nat.mod_add by lia. by rewrite Nat.mod_small by lia.
    - rewrite Nat.mod_small by lia. lia.
  Qed.

  Lemma forward_ok : forall k fuel v prev, (v < n)%nat -> (k < n)%nat -> (k < fuel)%nat ->
    forward corner fuel poly v ((v + k) mod n)%nat prev = Ok (fwd_list v k, way_length (prev :: fwd_list v k)).
  Proof.
    induction k as [|k IH]; intros fuel v prev Hv Hk Hf; (destruct fuel as [|fuel]; [lia|]); cbn [forward].
    - rewrite Nat.add_0_r, Nat.mod_small by done. by rewrite decide_True by done.
    - rewrite decide_False.
      2:{ intros E. destruct (decide (v + S k < n)%nat) as [Hs|Hs]; [rewrite Nat.mod_small in E; lia|].
          replace (v + S k)%nat with ((v + S k - n) + 1 * n)%nat in E by lia. rewrite Nat.mod_add, Nat.mod_small in E by lia. lia. }
      rewrite next_mod by done.
      assert (Hv' : ((v + 1) mod n < n)%nat) by (apply Nat.mod_upper_bound; lia).
      replace ((v + S k) mod n)%nat with (((v + 1) mod n + k) mod n)%nat.
      2:{ rewrite Nat.add_mod_idemp_l by lia. f_equal. lia. }
      rewrite IH by (done || lia). cbn [rbind fst snd].
      assert (El : fwd_list v (S k) = corner poly v :: fwd_list ((v + 1) mod n)%nat k).
      { unfold fwd_list. cbn [seq map]. f_equal; [by rewrite Nat.add_0_r, Nat.mod_small|]. f_equal. rewrite <- seq_shift, map_map. apply map_ext. intros i.
        rewrite Nat.add_mod_idemp_l by lia. f_equal. lia. }
      rewrite El. by rewrite way_length_cons.
  Qed.

  Fixpoint back_idx (v k : nat) : list nat := match k with O => [] | S k => v :: back_idx ((v + n - 1) mod n)%nat k end.
  Lemma backward_ok : forall k fuel v prev rev_len fwd_len, (v < n)%nat -> (k < n)%nat -> (k < fuel)%nat ->
    let full := map (corner poly) (back_idx v k) in
    exists pts len, backward corner fuel poly v ((v + (n - k)) mod n)%nat prev rev_len fwd_len = Ok (pts, len) /\
      (pts = full /\ len = rev_len + way_length (prev :: full) \/ fwd_len < len /\ len <= rev_len + way_length (prev :: full)).
  Proof.
    induction k as [|k IH]; intros fuel v prev rev_len fwd_len Hv Hk Hf full; (destruct fuel as [|fuel]; [lia|]); cbn [backward].
    - rewrite decide_True. { exists [], rev_len. split; [done|]. left. split; [done|]. cbn. lia. }
      rewrite Nat.sub_0_r. replace (v + n)%nat with (v + 1 * n)%nat by lia. rewrite Nat.mod_add by lia. by rewrite Nat.mod_small.
    - rewrite decide_False.
      2:{ intros E. destruct (decide (v + (n - S k) < n)%nat) as [Hs|Hs]; [rewrite Nat.mod_small in E; lia|].
          replace (v + (n - S k))%nat with ((v - S k) + 1 * n)%nat in E by lia. rewrite Nat.mod_add, Nat.mod_small in E by lia. lia. }
      assert (Efull : full = corner poly v :: map (corner poly) (back_idx ((v + n - 1) mod n)%nat k)) by done. rewrite Efull. rewrite way_length_cons.
      set (rest := map (corner poly) (back_idx ((v + n - 1) mod n)%nat k)) in *. pose proof (way_length_nonneg (corner poly v :: rest)).
      destruct (Z.ltb_spec fwd_len (rev_len + vSize (psub (corner poly v) prev))).
      + eexists _, _. split; [done|]. right. split; [done|]. lia.
      + rewrite prev_mod by done. assert (Hv' : ((v + n - 1) mod n < n)%nat) by (apply Nat.mod_upper_bound; lia).
        destruct (IH fuel ((v + n - 1) mod n)%nat (corner poly v) (rev_len + vSize (psub (corner poly v) prev)) fwd_len) as (pts & len & E & Hr); [done|lia|lia|].
        replace ((v + (n - S k)) mod n)%nat with (((v + n - 1) mod n + (n - k)) mod n)%nat.
        2:{ rewrite Nat.add_mod_idemp_l by lia. replace (v + n - 1 + (n - k))%nat with ((v + (n - S k)) + 1 * n)%nat by lia. by rewrite Nat.mod_add by lia. }
        rewrite E. cbn [rbind fst snd]. eexists _, _. split; [done|]. fold rest in Hr. destruct Hr as [[-> ->]|[H1 H2]]; [left; split; [done|lia]|right; split; [done|lia]].
  Qed.
  Lemma back_idx_spec : forall k v, (v < n)%nat -> (k <= n)%nat -> back_idx v k = map (fun i => (v + n - i) mod n)%nat (seq 0 k).
  Proof.
    induction k as [|k IH]; intros v Hv Hk; [done|]. cbn [back_idx seq map]. f_equal.
    - rewrite Nat.sub_0_r. replace (v + n)%nat with (v + 1 * n)%nat by lia. rewrite Nat.mod_add by lia. by rewrite Nat.mod_small.
    - rewrite IH by (lia || (apply Nat.mod_upper_bound; lia)). rewrite <- seq_shift, map_map. apply map_ext_in. intros i Hi. apply in_seq in Hi.
      destruct (decide (v = 0%nat)) as [->|Hv0].
      + rewrite Nat.add_0_l, (Nat.mod_small (n - 1)) by lia. replace (n - 1 + n - i)%nat with ((n - S i) + 1 * n)%nat by lia. rewrite Nat.mod_add by lia. f_equal. 
      + replace (v + n - 1)%nat with ((v - 1) + 1 * n)%nat by lia. rewrite Nat.mod_add, (Nat.mod_small (v - 1)) by lia. f_equal. lia.
  Qed.
End ways.

Section paths.
  Context (apply unapply : pt -> pt) (corner : list pt -> nat -> pt) (boundary : list (list pt)) (start_point end_point : pt) (dist : Z).
  Notation y := (apply start_point).2.
  Notation detour := (detour_of unapply corner boundary y dist).

  Lemma around_ok fuel c c' polygon : boundary !! poly_idx c = Some polygon -> (point_idx c < length polygon)%nat -> (point_idx c' < length polygon)%nat ->
    point_idx c <> point_idx c' -> (length polygon <= fuel)%nat ->
    exists d, around apply unapply corner boundary start_point dist fuel c c' = Ok d /\ detour (c, c') d.
  Proof.
    intros Hp Hv Hw Hne Hfuel. unfold around. rewrite Hp. cbn [of_opt rbind]. set (n := length polygon) in *. set (v := point_idx c) in *. set (w := point_idx c') in *.
    change (transformed_start_point apply start_point).2 with y. set (first := unapply (x_ c - Z.abs dist, y)). set (lastp := unapply (x_ c' + Z.abs dist, y)).
    set (k := ((w + n - v) mod n)%nat). assert (Hk : (k < n)%nat) by (apply Nat.mod_upper_bound; lia).
    assert (Hk0 : (0 < k)%nat).
    { unfold k. destruct (decide (w < v)%nat). { rewrite Nat.mod_small by lia. lia. } replace (w + n - v)%nat with ((w - v) + 1 * n)%nat by lia. rewrite Nat.mod_add, Nat.mod_small by lia. lia. }
    assert (Ew : ((v + k) mod n = w)%nat).
    { unfold k. rewrite Nat.add_mod_idemp_r by lia. replace (v + (w + n - v))%nat with (w + 1 * n)%nat by lia. rewrite Nat.mod_add by lia. by rewrite Nat.mod_small. }
    pose proof (forward_ok corner polygon k fuel v first Hv Hk ltac:(lia)) as Ef. fold n in Ef. rewrite Ew in Ef. rewrite Ef. cbn [rbind fst snd]. clear Ef.
    set (fw := fwd_list corner polygon v k). assert (Hfw : fw = map (corner polygon) (corners_forward n v w)) by done.
    assert (Hfl : exists z, last fw = Some z).
    { destruct (last fw) eqn:E; [by eexists|]. apply last_None in E. apply (f_equal length) in E. unfold fw, fwd_list in E. rewrite !map_length, seq_length in E. cbn in E. lia. }
    destruct Hfl as (zf & Hzf). rewrite Hzf.
    assert (Hfwl : way_length (first :: fw) + vSize (psub lastp zf) = way_length (first :: fw ++ [lastp])) by (rewrite way_length_snoc, Hzf; done). rewrite Hfwl.
    set (j := ((v + n - w) mod n)%nat). assert (Hj : (j < n)%nat) by (apply Nat.mod_upper_bound; lia).
    assert (Hj0 : (0 < j)%nat).
    { unfold j. destruct (decide (v < w)%nat). { rewrite Nat.mod_small by lia. lia. } replace (v + n - w)%nat with ((v - w) + 1 * n)%nat by lia. rewrite Nat.mod_add, Nat.mod_small by lia. lia. }
    assert (Epred : forall u, (u < n)%nat -> (if (u =? 0)%nat then (n - 1)%nat else (u - 1)%nat) = ((u + n - 1) mod n)%nat).
    { intros u Hu. destruct (Nat.eqb_spec u 0) as [->|Hu0]. { rewrite Nat.mod_small by lia. lia. } replace (u + n - 1)%nat with ((u - 1) + 1 * n)%nat by lia. rewrite Nat.mod_add, Nat.mod_small by lia. done. }
    rewrite !Epred by done. set (mi := ((v + n - 1) mod n)%nat). assert (Hmi : (mi < n)%nat) by (apply Nat.mod_upper_bound; lia).
    assert (Emi : ((w + n - 1) mod n = (mi + (n - j)) mod n)%nat).
    { unfold mi. rewrite Nat.add_mod_idemp_l by lia. unfold j. destruct (decide (v < w)%nat).
      - rewrite (Nat.mod_small (v + n - w)) by lia. f_equal. lia.
      - replace (v + n - w)%nat with ((v - w) + 1 * n)%nat by lia. rewrite (Nat.mod_add (v - w)), (Nat.mod_small (v - w)) by lia. replace (v + n - 1 + (n - (v - w)))%nat with ((w + n - 1) + 1 * n)%nat by lia. by rewrite Nat.mod_add by lia. }
    rewrite Emi. destruct (backward_ok corner polygon j fuel mi first 0 (way_length (first :: fw ++ [lastp])) Hmi Hj ltac:(lia)) as (pts & len & Eb & Hb). fold n in Eb. rewrite Eb. cbn [rbind fst snd].
    set (bw := map (corner polygon) (back_idx polygon mi j)) in *.
    assert (Hbw : bw = map (corner polygon) (corners_backward n v w)).
    { unfold bw, corners_backward. f_equal. rewrite back_idx_spec by (done || lia). fold n j. apply map_ext_in. intros i Hi. apply in_seq in Hi. unfold mi.
      destruct (decide (v = 0%nat)) as [->|Hv0].
      - rewrite Nat.add_0_l, (Nat.mod_small (n - 1)) by lia. replace (n - 1 + n - i)%nat with ((n - 1 - i) + 1 * n)%nat by lia. rewrite Nat.mod_add by lia. done.
      - replace (v + n - 1)%nat with ((v - 1) + 1 * n)%nat at 1 by lia. rewrite Nat.mod_add, (Nat.mod_small (v - 1)) by lia. f_equal. lia. }
    eexists. split; [done|]. exists polygon. split; [done|]. intros way f b. cbn [fst snd] in *.
    assert (Hf : f = first :: fw ++ [lastp]) by (unfold f, way; by rewrite Hfw).
    assert (Hbb : b = first :: bw ++ [lastp]) by (unfold b, way; by rewrite Hbw).
    rewrite <- Hf in *.
    destruct Hb as [[-> ->]|[H1 H2]].
    - assert (Hbl : exists z, last bw = Some z).
      { destruct (last bw) eqn:E; [by eexists|]. apply last_None in E. apply (f_equal length) in E. unfold bw in E. rewrite map_length, back_idx_spec, map_length, seq_length in E by (done || lia). cbn in E. lia. }
      destruct Hbl as (zb & Hzb). rewrite Hzb.
      assert (Hbwl : 0 + way_length (first :: bw) + vSize (psub lastp zb) = way_length b) by (rewrite Hbb, way_length_snoc, Hzb; done). rewrite Hbwl.
      destruct (Z.ltb_spec (way_length f) (way_length b)); [rewrite <- Hf|rewrite <- Hbb]; (split; [by eauto|]; lia).
    - assert (Hle : way_length (first :: bw) <= way_length b) by (rewrite Hbb, way_length_snoc; pose proof (vSize_nonneg (psub lastp (default first (last bw)))); lia).
      destruct (Z.ltb_spec (way_length f) (match last pts with Some back => len + vSize (psub lastp back) | None => len end)) as [_|Hge].
      + rewrite <- Hf. split; [by left|]. lia.
      + exfalso. destruct (last pts) as [z|]; [pose proof (vSize_nonneg (psub lastp z)); lia|lia].
  Qed.

  Lemma next_same_spec p : forall l, match next_same p l with
    | Some (c, l') => exists skipped, l = skipped ++ c :: l' /\ poly_idx c = p /\ forall s, s ∈ skipped -> poly_idx s <> p
    | None => forall c, c ∈ l -> poly_idx c <> p end.
  Proof.
    induction l as [|c l IH]; cbn [next_same]; [by intros c Hc%elem_of_nil|]. case_decide as Hp.
    - exists []. split; [done|]. split; [done|]. by intros s Hs%elem_of_nil.
    - destruct (next_same p l) as [[c' l']|].
      + destruct IH as (sk & -> & H1 & H2). exists (c :: sk). split; [done|]. split; [done|]. intros s [->|Hs]%elem_of_cons; [done|by apply H2].
      + intros c' [->|Hc]%elem_of_cons; [done|by apply IH].
  Qed.

  Definition place (c : crossing) : nat * nat := (poly_idx c, point_idx c).
  Lemma basic_ok : forall fuel l, (forall c, c ∈ l -> exists polygon, boundary !! poly_idx c = Some polygon /\ (point_idx c < length polygon)%nat) -> NoDup (map place l) ->
    (length l + list_max (map length boundary) < fuel)%nat ->
    exists D detours, plan l D /\ Forall2 detour D detours /\ basic_path apply unapply corner boundary start_point end_point dist fuel l = Ok (concat detours ++ [end_point]).
  Proof.
    induction fuel as [|fuel IH]; intros l Hin Hnd Hf; [lia|]. cbn [basic_path]. destruct l as [|c l]; [exists [], []; split; [constructor|]; split; [constructor|done]|].
    pose proof (next_same_spec (poly_idx c) l) as Hns. destruct (next_same (poly_idx c) l) as [[c' l']|].
    - destruct Hns as (sk & -> & Hp & Hsk). cbn [length] in Hf. rewrite app_length in Hf. cbn [length] in Hf.
      destruct (Hin c ltac:(left)) as (polygon & E1 & H1). destruct (Hin c') as (polygon' & E2 & H2). { right. apply elem_of_app. right. left. } rewrite Hp in E2. assert (polygon' = polygon) as -> by congruence.
      assert (Hne : point_idx c <> point_idx c').
      { intros E. cbn [map] in Hnd. apply NoDup_cons in Hnd as [Hn _]. apply Hn. change (map place) with (fmap (M := list) place). apply elem_of_list_fmap. exists c'. split; [unfold place; congruence|]. apply elem_of_app. right. left. }
      assert (Hlen : (length polygon <= list_max (map length boundary))%nat).
      { pose proof (proj1 (list_max_le (map length boundary) _) (Nat.le_refl _)) as Hm. rewrite Forall_forall in Hm. apply Hm. change (map (@length pt) boundary) with (length <$> boundary). apply elem_of_list_fmap. exists polygon. split; [done|]. by eapply elem_of_list_lookup_2. }
      destruct (around_ok (S fuel) c c' polygon E1 H1 H2 Hne ltac:(lia)) as (d & Ed & Hd). rewrite Ed. cbn [rbind].
      destruct (IH l') as (D & ds & Hpl & Hds & Eb).
      + intros c2 Hc2. apply Hin. right. apply elem_of_app. right. by right.
      + cbn [map] in Hnd. rewrite map_app in Hnd. apply NoDup_cons in Hnd as [_ Hnd]. apply NoDup_app in Hnd as (_ & _ & Hnd). cbn [map] in Hnd. by apply NoDup_cons in Hnd as [_ Hnd].
      + lia.
      + rewrite Eb. cbn [rbind]. exists ((c, c') :: D), (d :: ds). split; [by constructor|]. split; [by constructor|]. cbn [concat]. by rewrite app_assoc.
    - destruct (IH l) as (D & ds & Hpl & Hds & Eb).
      + intros c2 Hc2. apply Hin. by right.
      + cbn [map] in Hnd. by apply NoDup_cons in Hnd as [_ Hnd].
      + cbn [length] in Hf. lia.
      + exists D, ds. split; [by constructor|]. split; done.
  Qed.
End paths.

(** ** crossings *)
Section crossings.
  Context (apply : pt -> pt) (start_point end_point : pt).
  Notation y := (apply start_point).2.

  Lemma edge_crossing_spec p0 p1 x : edge_crossing apply start_point end_point p0 p1 = Some x <-> crosses apply start_point end_point (p0, p1) /\ x = rounded_x y (p0, p1).
  Proof.
    unfold edge_crossing, crosses, rounded_x, transformed_start_point, transformed_end_point. cbn [fst snd]. set (yy := y). set (xx := p0.1 + _).
    destruct (Z.leb_spec yy p0.2), (Z.leb_spec p1.2 yy), (Z.leb_spec yy p1.2), (Z.leb_spec p0.2 yy), (Z.eqb_spec p1.2 p0.2), (Z.leb_spec (apply start_point).1 xx), (Z.leb_spec xx (apply end_point).1),
      (Z.eqb_spec p1.2 yy), (Z.ltb_spec p1.2 p0.2), (Z.eqb_spec p0.2 yy), (Z.ltb_spec p0.2 p1.2); cbn [andb orb negb]; split; first [intros [=]; lia | intros [= <-]; split; [split; lia|done] | intros [[? ?] ?]; first [lia | by f_equal]].
  Qed.
  Lemma polygon_crossings_spec poly : forall points p0 point c, c ∈ polygon_crossings apply start_point end_point poly p0 point points <->
    poly_idx c = poly /\ exists v b p, point_idx c = (point + v)%nat /\ points !! v = Some b /\
      (p = p0 /\ v = 0%nat \/ exists a, (0 < v)%nat /\ points !! (v - 1)%nat = Some a /\ p = apply a) /\ crosses apply start_point end_point (p, apply b) /\ x_ c = rounded_x y (p, apply b).
  Proof.
    induction points as [|b points IH]; intros p0 point c; cbn [polygon_crossings].
    - split; [by intros H%elem_of_nil|]. intros (_ & v & b & p & _ & H & _). done.
    - set (rest := polygon_crossings _ _ _ _ _ _ _) in *.
      assert (Hrest : c ∈ rest <-> poly_idx c = poly /\ exists v b' p, point_idx c = (point + v)%nat /\ (0 < v)%nat /\ (b :: points) !! v = Some b' /\
        (exists a, (b :: points) !! (v - 1)%nat = Some a /\ p = apply a) /\ crosses apply start_point end_point (p, apply b') /\ x_ c = rounded_x y (p, apply b')).
      { unfold rest. rewrite IH. clear IH. split; intros (Hp & v & b' & p & H); (split; [done|]).
        - exists (S v), b', p. destruct H as (H1 & H2 & H3 & H4 & H5). split; [lia|]. split; [lia|]. split; [done|]. split; [|done].
          replace (S v - 1)%nat with v by lia. destruct H3 as [[-> ->]|(a & Ha & Ea & ->)]; [by exists b|]. exists a. split; [|done]. destruct v; [lia|]. cbn. by replace v with (S v - 1)%nat by lia.
        - destruct H as (H1 & H0 & H2 & (a & Ea & ->) & H4 & H5). destruct v as [|v]; [lia|]. exists v, b', (apply a). split; [lia|]. split; [done|]. split; [|done].
          replace (S v - 1)%nat with v in Ea by lia. destruct v as [|v]; [left; cbn in Ea; split; congruence|]. right. exists a. split; [lia|]. split; [|done]. by replace (S v - 1)%nat with v by lia. }
      clear IH. clearbody rest. pose proof (edge_crossing_spec p0 (apply b)) as Hec. destruct (edge_crossing apply start_point end_point p0 (apply b)) as [x|].
      + destruct (proj1 (Hec x) eq_refl) as [Hcr Hx]. rewrite elem_of_cons, Hrest. split.
        * intros [->|(Hp & v & b' & p & H1 & H0 & H2 & (a & Ea & ->) & H4 & H5)].
          -- split; [done|]. exists 0%nat, b, p0. cbn. split; [lia|]. split; [done|]. split; [by left|]. done.
          -- split; [done|]. exists v, b', (apply a). split; [done|]. split; [done|]. split; [|done]. right. by exists a.
        * intros (Hp & v & b' & p & H1 & H2 & H3 & H4 & H5). destruct H3 as [[-> ->]|(a & Ha & Ea & ->)].
          -- left. cbn in H2. injection H2 as <-. destruct c as [cp cx cv]. cbn in *. f_equal; [done|congruence|lia].
          -- right. split; [done|]. exists v, b', (apply a). split; [done|]. split; [done|]. split; [done|]. split; [by exists a|done].
      + rewrite Hrest. split.
        * intros (Hp & v & b' & p & H1 & H0 & H2 & (a & Ea & ->) & H4 & H5). split; [done|]. exists v, b', (apply a). split; [done|]. split; [done|]. split; [|done]. right. by exists a.
        * intros (Hp & v & b' & p & H1 & H2 & H3 & H4 & H5). destruct H3 as [[-> ->]|(a & Ha & Ea & ->)].
          -- exfalso. cbn in H2. injection H2 as <-. pose proof (proj2 (Hec _) (conj H4 eq_refl)). done.
          -- split; [done|]. exists v, b', (apply a). split; [done|]. split; [done|]. split; [done|]. split; [by exists a|done].
  Qed.
  Lemma polygon_crossings_nodup poly : forall points p0 point, NoDup (map place (polygon_crossings apply start_point end_point poly p0 point points)).
  Proof.
    induction points as [|b points IH]; intros p0 point; cbn [polygon_crossings]; [by apply NoDup_nil|]. destruct (edge_crossing _ _ _ _ _); [|by apply IH]. cbn [map]. apply NoDup_cons. split; [|by apply IH].
    change (map place) with (fmap (M := list) place). intros (c & Ec & Hc)%elem_of_list_fmap. apply polygon_crossings_spec in Hc as (_ & v & _ & _ & Hv & _). unfold place in Ec. cbn in Ec. injection Ec as _ Ec. lia.
  Qed.

  Definition block (poly : nat) (points : list pt) : list crossing := match last points with Some back => polygon_crossings apply start_point end_point poly (apply back) 0 points | None => [] end.
  Fixpoint raw (poly : nat) (polygons : list (list pt)) : list crossing := match polygons with [] => [] | points :: polygons => block poly points ++ raw (S poly) polygons end.

  Lemma block_spec boundary poly points c : boundary !! poly = Some points ->
    c ∈ block poly points <-> poly_idx c = poly /\ exists e, turned_edge apply boundary poly (point_idx c) e /\ crosses apply start_point end_point e /\ x_ c = rounded_x y e.
  Proof.
    intros Hb. unfold block. destruct (last points) as [back|] eqn:El.
    - rewrite polygon_crossings_spec. split; intros (Hp & H); (split; [done|]).
      + destruct H as (v & b & p & Hv & Eb & Hpp & Hc & Hx). exists (p, apply b). split; [|done]. cbn in Hv. rewrite Hv. exists points.
        destruct Hpp as [[-> ->]|(a & Ha & Ea & ->)]; [exists back, b; done|]. exists a, b. split; [done|]. split; [done|]. split; [|done]. destruct (Nat.eqb_spec v 0); [lia|done].
      + destruct H as (e & (polygon & a & b & E1 & E2 & E3 & ->) & Hc & Hx). assert (polygon = points) as -> by congruence. exists (point_idx c), b, (apply a). split; [done|]. split; [done|]. split; [|done].
        destruct (Nat.eqb_spec (point_idx c) 0) as [E|E]; [left; split; [congruence|done]|]. right. exists a. split; [lia|done].
    - apply last_None in El as ->. split; [by intros H%elem_of_nil|]. intros (_ & e & (polygon & a & b & E1 & E2 & _) & _). assert (polygon = []) as -> by congruence. done.
  Qed.
  Lemma block_poly poly points c : c ∈ block poly points -> poly_idx c = poly.
  Proof. unfold block. destruct (last points); [intros H%polygon_crossings_spec; by destruct H|by intros H%elem_of_nil]. Qed.
  Lemma raw_poly : forall polygons poly c, c ∈ raw poly polygons -> (poly <= poly_idx c)%nat.
  Proof. induction polygons as [|points polygons IH]; intros poly c; cbn [raw]; [by intros H%elem_of_nil|]. intros [H%block_poly|H%IH]%elem_of_app; lia. Qed.
  Lemma raw_spec : forall polygons poly c, c ∈ raw poly polygons <-> exists i points, polygons !! i = Some points /\ c ∈ block (poly + i) points.
  Proof.
    induction polygons as [|points polygons IH]; intros poly c; cbn [raw].
    - split; [by intros H%elem_of_nil|]. by intros (i & points & H & _).
    - rewrite elem_of_app, IH. split.
      + intros [H|(i & points' & E & H)]; [exists 0%nat, points; by rewrite Nat.add_0_r|]. exists (S i), points'. split; [done|]. by rewrite Nat.add_succ_r.
      + intros (i & points' & E & H). destruct i as [|i]; [left; rewrite Nat.add_0_r in H; cbn in E; by injection E as ->|]. right. exists i, points'. split; [done|]. by rewrite Nat.add_succ_r in H.
  Qed.
  Lemma raw_nodup : forall polygons poly, NoDup (map place (raw poly polygons)).
  Proof.
    induction polygons as [|points polygons IH]; intros poly; cbn [raw]; [by apply NoDup_nil|]. rewrite map_app. apply NoDup_app. split; [|split; [|apply IH]].
    - unfold block. destruct (last points); [apply polygon_crossings_nodup|by apply NoDup_nil].
    - change (map place) with (fmap (M := list) place). intros x (c & -> & Hc)%elem_of_list_fmap (c' & E & Hc')%elem_of_list_fmap. apply block_poly in Hc. apply raw_poly in Hc'. unfold place in E. injection E as E _. lia.
  Qed.
  Lemma crossings_with_app p l l' : crossings_with p (l ++ l') = (crossings_with p l + crossings_with p l')%nat.
  Proof. unfold crossings_with. by rewrite filter_app, app_length. Qed.
  Lemma crossings_with_all p l : (forall c, c ∈ l -> poly_idx c = p) -> crossings_with p l = length l.
  Proof.
    unfold crossings_with. induction l as [|c l IH]; intros H; [done|]. rewrite filter_cons_True by (apply H; left). cbn. rewrite IH; [done|]. intros c' Hc'. apply H. by right.
  Qed.
  Lemma crossings_with_none p l : (forall c, c ∈ l -> poly_idx c <> p) -> crossings_with p l = 0%nat.
  Proof.
    unfold crossings_with. induction l as [|c l IH]; intros H; [done|]. rewrite filter_cons_False by (apply H; left). apply IH. intros c' Hc'. apply H. by right.
  Qed.

  Lemma all_crossings_ok fail : forall polygons poly acc, Forall (fun polygon => polygon <> []) polygons -> (fail = true -> Nat.odd (length acc) = false) ->
    exists r, all_crossings apply start_point end_point fail poly polygons acc = Ok r /\
      match r with
      | None => fail = true /\ exists p, Nat.odd (crossings_with p (raw poly polygons)) = true
      | Some l => l = acc ++ raw poly polygons /\ (fail = true -> forall p, Nat.odd (crossings_with p (raw poly polygons)) = false)
      end.
  Proof.
    induction polygons as [|points polygons IH]; intros poly acc Hne Hacc; cbn [all_crossings raw].
    - eexists. split; [done|]. cbn. split; [by rewrite app_nil_r|]. done.
    - inversion Hne; subst. destruct (last points) as [back|] eqn:El; [|by apply last_None in El]. cbn [of_opt rbind].
      assert (Eb : polygon_crossings apply start_point end_point poly (apply back) 0 points = block poly points) by (unfold block; by rewrite El). rewrite Eb.
      assert (Hown : crossings_with poly (block poly points ++ raw (S poly) polygons) = length (block poly points)).
      { rewrite crossings_with_app, crossings_with_all by (intros c; apply block_poly). rewrite crossings_with_none; [lia|]. intros c Hc%raw_poly. lia. }
      destruct fail; cbn [andb].
      + specialize (Hacc eq_refl). destruct (Nat.odd (length (acc ++ block poly points))) eqn:Eo; rewrite app_length, Nat.odd_add, Hacc, xorb_false_l in Eo.
        * exists None. split; [done|]. split; [done|]. exists poly. by rewrite Hown.
        * destruct (IH (S poly) (acc ++ block poly points)) as (r & E & Hr); [done|intros _; by rewrite app_length, Nat.odd_add, Hacc, Eo|].
          exists r. split; [done|]. destruct r as [l|].
          -- destruct Hr as [-> Hr]. split; [by rewrite app_assoc|]. intros _ p. destruct (decide (p = poly)) as [->|Hp]; [by rewrite Hown|]. rewrite crossings_with_app, crossings_with_none.
             { cbn. by apply Hr. } intros c Hc%block_poly. congruence.
          -- destruct Hr as [_ (p & Hp)]. split; [done|]. exists p. rewrite crossings_with_app, crossings_with_none; [done|]. intros c Hc%block_poly. destruct (decide (p = poly)) as [->|]; [|congruence].
             exfalso. rewrite crossings_with_none in Hp; [done|]. intros c' Hc'%raw_poly. lia.
      + destruct (IH (S poly) (acc ++ block poly points)) as (r & E & Hr); [done|done|]. exists r. split; [done|]. destruct r as [l|]; [|by destruct Hr]. destruct Hr as [-> _]. split; [by rewrite app_assoc|done].
  Qed.

  Lemma insert_perm c : forall l, insert_crossing c l ≡ₚ c :: l.
  Proof. induction l as [|c' l IH]; [done|]. cbn [insert_crossing]. destruct (_ <=? _); [done|]. rewrite IH. apply perm_swap. Qed.
  Lemma sort_perm l : sort_crossings l ≡ₚ l.
  Proof. induction l as [|c l IH]; [done|]. cbn [sort_crossings foldr]. fold (sort_crossings l). by rewrite insert_perm, IH. Qed.
  Definition le_x (c c' : crossing) : Prop := x_ c <= x_ c'.
  Lemma insert_sorted c : forall l, StronglySorted le_x l -> StronglySorted le_x (insert_crossing c l).
  Proof.
    induction l as [|c' l IH]; intros Hs; [by repeat constructor|]. cbn [insert_crossing]. inversion Hs as [|? ? Hs' Hall]; subst. unfold le_x in *. destruct (Z.leb_spec (x_ c) (x_ c')).
    - constructor; [done|]. constructor; [done|]. rewrite Forall_forall in Hall |- *. intros c2 H2. specialize (Hall c2 H2). lia.
    - constructor; [by apply IH|]. rewrite Forall_forall in Hall |- *. intros c2 H2. rewrite insert_perm in H2. apply elem_of_cons in H2 as [->|H2]; [lia|]. by apply Hall.
  Qed.
  Lemma sort_sorted l : StronglySorted le_x (sort_crossings l).
  Proof. induction l as [|c l IH]; [constructor|]. by apply insert_sorted. Qed.
  Lemma sorted_lookup (l : list crossing) : StronglySorted le_x l -> forall i j c c', (i < j)%nat -> l !! i = Some c -> l !! j = Some c' -> x_ c <= x_ c'.
  Proof.
    induction 1 as [|c0 l Hs IH Hall]; intros i j c c' Hij E1 E2; [done|]. destruct j as [|j]; [lia|]. destruct i as [|i].
    - cbn in E1, E2. injection E1 as <-. rewrite Forall_forall in Hall. apply Hall. by eapply elem_of_list_lookup_2.
    - apply (IH i j); [lia|done|done].
  Qed.
  Lemma crossings_with_perm p l l' : l ≡ₚ l' -> crossings_with p l = crossings_with p l'.
  Proof. intros H. unfold crossings_with. by rewrite H. Qed.

  Lemma crossings_ok boundary : crossings_of apply boundary start_point end_point (sort_crossings (raw 0 boundary)).
  Proof.
    split; [|split].
    - rewrite sort_perm. pose proof (raw_nodup boundary 0) as H. change (map place) with (fmap (M := list) place) in H. by apply NoDup_fmap_1 in H.
    - apply sorted_lookup, sort_sorted.
    - intros c. rewrite sort_perm, raw_spec. split.
      + intros (i & points & E & H). cbn in H. apply (block_spec boundary) in H as [Hp H]; [|done]. by rewrite Hp.
      + intros (e & He & H). destruct He as (points & a & b & E & He). exists (poly_idx c), points. split; [done|]. cbn. apply (block_spec boundary); [done|]. split; [done|]. exists e. split; [|done]. by exists points, a, b.
  Qed.
  Lemma sorted_places boundary : NoDup (map place (sort_crossings (raw 0 boundary))).
  Proof. pose proof (raw_nodup boundary 0) as H. change (map place) with (fmap (M := list) place) in *. by rewrite sort_perm. Qed.

  (** a crossing is rounded by less than one *)
  Lemma rounded_exact e : e.1.2 <> e.2.2 -> (inject_Z (rounded_x y e) - 1 < exact_x y e /\ exact_x y e < inject_Z (rounded_x y e) + 1)%Q.
  Proof.
    destruct e as [[ea eb] [ec ed]]. cbn [fst snd]. intros Hne. unfold rounded_x, exact_x. cbn [fst snd]. set (n := (ec - ea) * (y - eb)). set (d := ed - eb). assert (Hd : d <> 0) by lia.
    assert (H : (-1 < inject_Z n / inject_Z d - inject_Z (n ÷ d) /\ inject_Z n / inject_Z d - inject_Z (n ÷ d) < 1)%Q).
    { pose proof (Z.quot_rem' n d). pose proof (Z.rem_bound_abs n d Hd). set (q := n ÷ d) in *. set (r := Z.rem n d) in *. clearbody q r.
      assert (Hdq : ~ (inject_Z d == 0)%Q) by (change 0%Q with (inject_Z 0); rewrite inject_Z_injective; done).
      assert (E : (inject_Z n / inject_Z d - inject_Z q == inject_Z r / inject_Z d)%Q). { rewrite H. rewrite inject_Z_plus, inject_Z_mult. by field. }
      rewrite E. clear E. destruct (decide (0 < d)) as [Hp|Hp].
      - assert (Hpq : (0 < inject_Z d)%Q) by (change 0%Q with (inject_Z 0); by rewrite <- Zlt_Qlt). assert (Hr1 : - d < r) by lia. assert (Hr2 : r < d) by lia. rewrite Zlt_Qlt in Hr1, Hr2. rewrite inject_Z_opp in Hr1.
        split; [apply Qlt_shift_div_l; [done|lra]|apply Qlt_shift_div_r; [done|lra]].
      - assert (Hpq : (0 < inject_Z (- d))%Q) by (change 0%Q with (inject_Z 0); rewrite <- Zlt_Qlt; lia). assert (Hr1 : d < r) by lia. assert (Hr2 : r < - d) by lia. rewrite Zlt_Qlt in Hr1, Hr2. rewrite inject_Z_opp in Hr2, Hpq.
        assert (E : (inject_Z r / inject_Z d == (- inject_Z r) / (- inject_Z d))%Q) by (by field). rewrite E. split; [apply Qlt_shift_div_l; [done|lra]|apply Qlt_shift_div_r; [done|lra]]. }
    rewrite inject_Z_plus. set (u := (inject_Z n / inject_Z d)%Q) in *. clearbody u. destruct H. split; lra.
  Qed.
  Lemma polygon_collides_false : forall points p0, polygon_collides apply start_point end_point p0 points = false ->
    forall v b p, points !! v = Some b -> (p = p0 /\ v = 0%nat \/ exists a, (0 < v)%nat /\ points !! (v - 1)%nat = Some a /\ p = apply a) -> edge_collides apply start_point end_point p (apply b) = false.
  Proof.
    induction points as [|b0 points IH]; intros p0; cbn [polygon_collides]; [done|]. destruct (edge_collides _ _ _ p0 (apply b0)) eqn:E; [done|]. intros H v b p Eb Hp. destruct Hp as [[-> ->]|(a & Ha & Ea & ->)].
    - cbn in Eb. by injection Eb as <-.
    - destruct v as [|v]; [lia|]. apply (IH _ H v b (apply a)); [done|]. replace (S v - 1)%nat with v in Ea by lia. destruct v as [|v]; [left; cbn in Ea; split; congruence|]. right. exists a. split; [lia|]. split; [|done]. by replace (S v - 1)%nat with v by lia.
  Qed.
  Lemma collision_ok : forall polygons, Forall (fun polygon => polygon <> []) polygons -> exists r, lineSegmentCollidesWithBoundary apply start_point end_point polygons = Ok r /\
    (r = false -> unobstructed apply polygons start_point end_point).
  Proof.
    induction polygons as [|points polygons IH]; intros Hne; cbn [lineSegmentCollidesWithBoundary].
    - exists false. split; [done|]. intros _ p v e (polygon & a & b & E & _). done.
    - inversion Hne; subst. destruct (last points) as [back|] eqn:El; [|by apply last_None in El]. cbn [of_opt rbind]. destruct (polygon_collides apply start_point end_point (apply back) points) eqn:Ec; [by exists true|].
      destruct (IH ltac:(done)) as (r & E & Hr). exists r. split; [done|]. intros ->. specialize (Hr eq_refl). intros p v e (polygon & a & b & E1 & E2 & E3 & ->). destruct p as [|p]; [|apply (Hr p v); by exists polygon, a, b].
      cbn in E1. injection E1 as <-. intros yy Hned Hy [H1' H2'].
      assert (Hcol : edge_collides apply start_point end_point (apply a) (apply b) = false).
      { apply (polygon_collides_false points (apply back) Ec v b); [done|]. destruct (Nat.eqb_spec v 0) as [->|Hv0]; [left; split; congruence|]. right. exists a. split; [lia|done]. }
      pose proof (rounded_exact (apply a, apply b) Hned) as [H3' H4']. fold yy in H3', H4'. unfold edge_collides, transformed_start_point, transformed_end_point in Hcol. fold yy in Hcol.
      change ((apply a).1 + _) with (rounded_x yy (apply a, apply b)) in Hcol. cbn [fst snd] in *.
      assert (HA : (apply start_point).1 < rounded_x yy (apply a, apply b)) by (rewrite Zlt_Qlt; lra). assert (HB : rounded_x yy (apply a, apply b) < (apply end_point).1) by (rewrite Zlt_Qlt; lra).
      apply Z.ltb_lt in HA, HB. rewrite HA, HB in Hcol. cbn [andb] in Hcol. rewrite !andb_true_r in Hcol. apply andb_false_iff in Hcol as [Hcol|Hcol].
      + apply negb_false_iff, Z.eqb_eq in Hcol. lia.
      + apply orb_false_iff in Hcol as [Ha Hb]. apply andb_false_iff in Ha, Hb. rewrite !Z.leb_gt in Ha, Hb. lia.
  Qed.
End crossings.

(** ** the property *)
Theorem C71_comb apply unapply collides corner boundary start_point end_point dist max_ignored fail :
  Forall (fun polygon => polygon <> []) boundary ->
  exists r, (exists enough, forall fuel, (enough <= fuel)%nat -> generateCombingPath apply unapply collides corner boundary start_point end_point dist fuel max_ignored fail = Ok r) /\
    (r = Some [start_point; end_point] /\ (shorterThen (psub end_point start_point) max_ignored = true \/ unobstructed apply boundary start_point end_point) \/
     exists S, crossings_of apply boundary start_point end_point S /\
       match r with
       | None => fail = true /\ exists p, Nat.odd (crossings_with p S) = true
       | Some path =>
           (fail = true -> forall p, Nat.odd (crossings_with p S) = false) /\
           exists D detours, plan S D /\ Forall2 (detour_of unapply corner boundary (apply start_point).2 dist) D detours /\
             head path = Some start_point /\ last path = Some end_point /\
             forall a b, hop path a b -> allowed collides (start_point :: concat detours ++ [end_point]) a b
       end).
Proof.
  intros Hne. unfold generateCombingPath.
  assert (Hcol : exists r, (if shorterThen (psub end_point start_point) max_ignored then Ok false else lineSegmentCollidesWithBoundary apply start_point end_point boundary) = Ok r /\
    (r = false -> shorterThen (psub end_point start_point) max_ignored = true \/ unobstructed apply boundary start_point end_point)).
  { destruct (shorterThen _ _); [exists false; by auto|]. destruct (collision_ok apply start_point end_point boundary Hne) as (r & E & Hr). exists r. split; [done|]. auto. }
  destruct Hcol as (col & -> & Hcol). cbn [rbind]. destruct col; cbn [negb]; [|exists (Some [start_point; end_point]); split; [by exists 0%nat|left; auto]].
  unfold calcScanlineCrossings. destruct (all_crossings_ok apply start_point end_point fail boundary 0 [] Hne ltac:(done)) as (r & -> & Hr). cbn [rbind]. destruct r as [l|].
  - destruct Hr as [-> Hfail]. rewrite app_nil_l. set (S := sort_crossings (raw apply start_point end_point 0 boundary)). pose proof (crossings_ok apply start_point end_point boundary) as HS. fold S in HS.
    assert (Hpl : forall fuel, (length S + list_max (map length boundary) < fuel)%nat -> exists D detours, plan S D /\ Forall2 (detour_of unapply corner boundary (apply start_point).2 dist) D detours /\
        basic_path apply unapply corner boundary start_point end_point dist fuel S = Ok (concat detours ++ [end_point])).
    { intros fuel. apply basic_ok; [|apply sorted_places]. intros c Hc. apply HS in Hc as (e & (polygon & a & b & E1 & E2 & _) & _). exists polygon. split; [done|]. by eapply lookup_lt_Some. }
    (* the same for every amount of fuel *)
    assert (Hpl1 : exists D detours, plan S D /\ Forall2 (detour_of unapply corner boundary (apply start_point).2 dist) D detours /\
      exists enough, forall fuel, (enough <= fuel)%nat -> basic_path apply unapply corner boundary start_point end_point dist fuel S = Ok (concat detours ++ [end_point])).
    { set (e0 := Datatypes.S (length S + list_max (map length boundary))). destruct (Hpl e0 ltac:(unfold e0; lia)) as (D & ds & H1 & H2 & E). exists D, ds. split; [done|]. split; [done|]. exists e0.
      intros fuel Hf. 
      assert (Hmono_f : forall poly f f' v w prev r, (f <= f')%nat -> forward corner f poly v w prev = Ok r -> forward corner f' poly v w prev = Ok r).
      { intros poly. induction f as [|f IHf]; intros f' v w prev r Hff Er; [done|]. destruct f' as [|f']; [lia|]. cbn [forward] in Er |- *. case_decide; [done|]. apply rbind_ok in Er as (r1 & E1 & Er). by rewrite (IHf f' _ _ _ _ ltac:(lia) E1). }
      assert (Hmono_b : forall poly f f' v w prev rl fl r, (f <= f')%nat -> backward corner f poly v w prev rl fl = Ok r -> backward corner f' poly v w prev rl fl = Ok r).
      { intros poly. induction f as [|f IHf]; intros f' v w prev rl fl r Hff Er; [done|]. destruct f' as [|f']; [lia|]. cbn [backward] in Er |- *. case_decide; [done|]. destruct (_ <? _); [done|]. apply rbind_ok in Er as (r1 & E1 & Er). by rewrite (IHf f' _ _ _ _ _ _ ltac:(lia) E1). }
      assert (Hmono_a : forall f f' c c' r, (f <= f')%nat -> around apply unapply corner boundary start_point dist f c c' = Ok r -> around apply unapply corner boundary start_point dist f' c c' = Ok r).
      { intros f f' c c' r Hff. unfold around. destruct (boundary !! poly_idx c); [|done]. cbn [of_opt rbind]. intros Er. apply rbind_ok in Er as (r1 & E1 & Er). rewrite (Hmono_f _ _ f' _ _ _ _ Hff E1). cbn [rbind]. apply rbind_ok in Er as (r2 & E2 & Er). rewrite (Hmono_b _ _ f' _ _ _ _ _ _ Hff E2). done. }
      assert (Hmono : forall f f' l r, (f <= f')%nat -> basic_path apply unapply corner boundary start_point end_point dist f l = Ok r -> basic_path apply unapply corner boundary start_point end_point dist f' l = Ok r).
      { induction f as [|f IHf]; intros f' l r Hff Er; [done|]. destruct f' as [|f']; [lia|]. cbn [basic_path] in Er |- *. destruct l as [|c l]; [done|]. destruct (next_same _ l) as [[c' l']|]; [|apply (IHf f'); [lia|done]].
        apply rbind_ok in Er as (r1 & E1 & Er). rewrite (Hmono_a _ (Datatypes.S f') _ _ _ Hff E1). cbn [rbind]. apply rbind_ok in Er as (r2 & E2 & Er). by rewrite (IHf f' _ _ ltac:(lia) E2). }
      by apply (Hmono e0 fuel). }
    destruct Hpl1 as (D & ds & H1 & H2 & enough & Eb).
    destruct (optimize_ok collides start_point (start_point :: concat ds ++ [end_point]) (concat ds ++ [end_point]) end_point) as (path & Ep & Hh & Hl & Hhop).
    { by destruct (concat ds). } { by rewrite last_snoc. } { done. }
    exists (Some path). split.
    + exists enough. intros fuel Hf. rewrite (Eb fuel Hf). cbn [rbind]. rewrite Ep. done.
    + right. exists S. split; [done|]. split; [|exists D, ds; done]. intros Hft p. specialize (Hfail Hft p). unfold S. by rewrite (crossings_with_perm p _ _ (sort_perm _)).
  - exists None. split; [by exists 0%nat|]. right. exists (sort_crossings (raw apply start_point end_point 0 boundary)). split; [apply crossings_ok|]. destruct Hr as [Hf (p & Hp)]. split; [done|]. exists p. by rewrite (crossings_with_perm p _ _ (sort_perm _)).
Qed.
Print Assumptions C71_comb.

(** A rectangular obstacle. *)
Definition box : list pt := [(10, -10); (30, -10); (30, 20); (10, 20)].
Definition apart (p q : pt) : bool :=
  (* whether the axis-parallel box around the way overlaps the inside of the obstacle *)
  (Z.max p.1 q.1 <=? 10) || (30 <=? Z.min p.1 q.1) || (Z.max p.2 q.2 <=? -10) || (20 <=? Z.min p.2 q.2).
Definition moved (polygon : list pt) (v : nat) : pt := let p := default (0, 0) (polygon !! v) in ((if p.1 <? 20 then 5 else 35), (if p.2 <? 0 then -15 else 25)).
(** the way around an obstacle that is passed on its lower side, as that is shorter, with the last corner moved closer to the one before; a short way is not checked; an obstacle around the end *)
Example C71_nonvacuous :
  Forall (fun polygon => polygon <> []) [box] /\
  generateCombingPath id id (fun p q => negb (apart p q)) moved [box] (0, 0) (50, 0) 5 10 5 true = Ok (Some [(0, 0); (5, -15); (32, -15); (50, 0)]) /\
  generateCombingPath id id (fun p q => negb (apart p q)) moved [box] (0, 0) (50, 0) 5 10 60 true = Ok (Some [(0, 0); (50, 0)]) /\
  generateCombingPath id id (fun p q => negb (apart p q)) moved [box] (0, 0) (25, 0) 5 10 5 true = Ok None /\
  generateCombingPath id id (fun p q => negb (apart p q)) moved [box] (0, 0) (25, 0) 5 10 5 false = Ok (Some [(0, 0); (25, 0)]).
Proof. split; [by repeat constructor|]. vm_compute. done. Qed.
