(** C51: retracting and priming while travelling. *)
From Coq Require Import ZArith QArith Qminmax Lqa Lia.
From stdpp Require Import list.
From Verif Require Import Common Geo_Model Order_Model GCode_Model Coast_Model Ooze_Model Ooze_Spec.
Open Scope Q_scope.

Lemma Qle_bool_false a b : Qle_bool a b = false <-> b < a.
Proof.
  split; intros H.
  - apply Qnot_le_lt. intros H'. apply Qle_bool_iff in H'. congruence.
  - destruct (Qle_bool a b) eqn:E; [|done]. apply Qle_bool_iff in E. lra.
Qed.

Lemma duration_nonneg v : 0 <= duration v.
Proof. unfold duration. destruct (Qle_bool v 0) eqn:E; [lra|]. apply Qle_bool_false in E. lra. Qed.
Lemma duration_pos v : 0 <= v -> duration v == v.
Proof. intros H. unfold duration. destruct (Qle_bool v 0) eqn:E; [apply Qle_bool_iff in E; lra|lra]. Qed.
Lemma duration_le v w : v <= w -> duration v <= duration w.
Proof.
  intros H. unfold duration. destruct (Qle_bool v 0) eqn:E1, (Qle_bool w 0) eqn:E2; rewrite ?Qle_bool_iff, ?Qle_bool_false in *; lra.
Qed.
Global Instance duration_proper : Proper (Qeq ==> Qeq) duration.
Proof.
  intros v w H. unfold duration. destruct (Qle_bool v 0) eqn:E1, (Qle_bool w 0) eqn:E2; rewrite ?Qle_bool_iff, ?Qle_bool_false in *; lra.
Qed.
Lemma duration_neg v : v <= 0 -> duration v == 0.
Proof. intros H. unfold duration. apply Qle_bool_iff in H. by rewrite H. Qed.

Lemma vSize_nonneg p : (0 <= vSize p)%Z.
Proof. unfold vSize. cbv zeta. pose proof (Z.sqrt_nonneg (vSize2 p)). case_match; lia. Qed.
Lemma vSize_sym a b : vSize (psub a b) = vSize (psub b a).
Proof. unfold vSize. assert (vSize2 (psub a b) = vSize2 (psub b a)) as ->; [|done]. unfold vSize2, psub. simpl. ring. Qed.

Lemma seconds_nonneg v a b : 0 < v -> 0 <= seconds v a b.
Proof.
  intros H. unfold seconds. apply Qle_shift_div_l; [lra|]. apply Qle_shift_div_l; [done|].
  rewrite !Qmult_0_l. change 0 with (inject_Z 0). rewrite <- Zle_Qle. apply vSize_nonneg.
Qed.
Lemma seconds_sym v a b : seconds v a b = seconds v b a.
Proof. unfold seconds. by rewrite vSize_sym. Qed.

(** ** The durations of the segments *)
Lemma qsum_app l1 l2 : qsum (l1 ++ l2) == qsum l1 + qsum l2.
Proof. induction l1; simpl; [lra|]. rewrite IHl1. lra. Qed.
Lemma qsum_nonneg l : Forall (fun x => 0 <= x) l -> 0 <= qsum l.
Proof. induction 1; simpl; lra. Qed.
Lemma qsum_reverse l : qsum (reverse l) == qsum l.
Proof. induction l as [|a l IH]; [done|]. rewrite reverse_cons, qsum_app, IH. simpl. lra. Qed.
Lemma durs_nonneg v a ends : 0 < v -> Forall (fun x => 0 <= x) (durs v a ends).
Proof. intros H. revert a. induction ends; intros b; constructor; [apply duration_nonneg|done]. Qed.
Lemma durs_length v a ends : length (durs v a ends) = length ends.
Proof. revert a; induction ends; intros; simpl; congruence. Qed.
Lemma durs_snoc v a ends b : durs v a (ends ++ [b]) = durs v a ends ++ [duration (seconds v (default a (last ends)) b)].
Proof.
  revert a. induction ends as [|c ends IH]; intros a; [done|]. simpl. rewrite IH. do 2 f_equal.
  destruct ends as [|d ends]; [done|]. rewrite last_cons_cons. destruct (last (d :: ends)) eqn:E; [done|]. by apply last_None in E.
Qed.
Lemma durs_lookup v a ends k b : ends !! k = Some b -> exists c, (a :: ends) !! k = Some c /\ durs v a ends !! k = Some (duration (seconds v c b)).
Proof.
  revert a k. induction ends as [|e ends IH]; intros a k H; [done|]. destruct k as [|k]; simpl in *.
  - inversion H; subst. eauto.
  - apply IH. done.
Qed.

Lemma travel_duration_eq v start pts : 0 < v ->
  travel_duration start pts v == qsum (durs v start (toPoint2LL <$> pts)).
Proof.
  intros Hv. unfold travel_duration.
  assert (H : forall a, inject_Z (travel_distance a pts) / v / 1000 == qsum (durs v a (toPoint2LL <$> pts))).
  { induction pts as [|p pts IH]; intros a; [cbn; field; lra|].
    cbn [travel_distance fmap list_fmap durs qsum foldr]. fold (qsum (durs v (toPoint2LL p) (toPoint2LL <$> pts))).
    rewrite <- IH, inject_Z_plus, duration_pos by by apply seconds_nonneg. unfold seconds. field. lra. }
  rewrite H. apply duration_pos. apply qsum_nonneg. by apply durs_nonneg.
Qed.

(** the travel backwards *)
Lemma durs_reverse v a ends z l : reverse (a :: ends) = z :: l -> durs v z l = reverse (durs v a ends).
Proof.
  revert z l. induction ends as [|b ends IH] using rev_ind; intros z l H.
  - change (reverse [a]) with [a] in H. inversion H; subst. done.
  - rewrite app_comm_cons, reverse_snoc in H. inversion H; subst z l.
    destruct (reverse (a :: ends)) as [|y l'] eqn:E; [by apply (f_equal length) in E; rewrite reverse_length in E|].
    cbn [durs]. rewrite (IH y l' eq_refl), durs_snoc, reverse_snoc. f_equal.
    rewrite seconds_sym. do 2 f_equal.
    assert (Hy : last (a :: ends) = Some y) by (rewrite <- (reverse_involutive (a :: ends)), E, last_reverse; done).
    destruct ends as [|c ends]; [simpl in Hy; by inversion Hy|]. rewrite last_cons_cons in Hy. by rewrite Hy.
Qed.

(** ** The split loop *)
Definition tol : Q := 1 # 1000.
Fixpoint sidx (D before : Q) (ds : list Q) : nat :=
  match ds with
  | [] => 0
  | d :: ds' => if Qle_bool (duration (D - tol)) (before + d) || match ds' with [] => true | _ => false end then 0 else S (sidx D (before + d) ds')
  end.
Fixpoint partials (D before hop tr : Q) (i : nat) (ds : list Q) : list Q :=
  match i, ds with
  | S i', d :: ds' => (hop + (before + d) / D * (tr - hop)) :: partials D (before + d) hop tr i' ds'
  | _, _ => []
  end.

Lemma split_loop_fields v D rev a ends before ao :
  let r := split_loop v D rev a ends before ao in
  amount_while_still r = amount_while_still ao /\ hop_amount r = hop_amount ao /\ hop_ratio r = hop_ratio ao
  /\ amount_while_travel r = amount_while_travel ao.
Proof.
  cbv zeta. revert a before ao. induction ends as [|b ends IH]; intros a before ao; [done|]. cbn [split_loop].
  match goal with |- context [if ?c then _ else _] => destruct c end; [done|].
  match goal with |- context [split_loop v D rev b ends ?x ?y] => destruct (IH b x y) as (-> & -> & -> & ->) end. done.
Qed.

Lemma sidx_lt D before ds : ds ≠ [] -> (sidx D before ds < length ds)%nat.
Proof.
  revert before. induction ds as [|d ds IH]; intros before H; [done|]. cbn [sidx length].
  match goal with |- context [if ?c then _ else _] => destruct c eqn:E end; [lia|].
  destruct ds; [by rewrite orb_true_r in E|]. specialize (IH (before + d) ltac:(done)). lia.
Qed.

Lemma sidx_before D before ds k : 0 <= before -> Forall (fun x => 0 <= x) ds -> (k < sidx D before ds)%nat ->
  before + qsum (take (S k) ds) < D - tol.
Proof.
  revert before k. induction ds as [|d ds IH]; intros before k Hb HF Hk; [simpl in Hk; lia|]. cbn [sidx] in Hk.
  apply Forall_cons in HF as [Hd HF].
  match type of Hk with context [if ?c then _ else _] => destruct c eqn:E end; [lia|].
  apply orb_false_iff in E as [E _]. apply Qle_bool_false in E.
  assert (Ht : duration (D - tol) == D - tol).
  { unfold duration in *. destruct (Qle_bool (D - tol) 0) eqn:E0; [|lra]. lra. }
  rewrite Ht in E. destruct k as [|k].
  - change (take 1 (d :: ds)) with (d :: take 0 ds). rewrite take_0. simpl. lra.
  - specialize (IH (before + d) k ltac:(lra) HF ltac:(lia)).
    change (take (S (S k)) (d :: ds)) with (d :: take (S k) ds). cbn [qsum foldr]. fold (qsum (take (S k) ds)). lra.
Qed.

Lemma sidx_at D before ds : 0 <= before -> Forall (fun x => 0 <= x) ds -> ds ≠ [] -> D <= before + qsum ds ->
  D - tol <= before + qsum (take (S (sidx D before ds)) ds).
Proof.
  revert before. induction ds as [|d ds IH]; intros before Hb HF Hne HD; [done|]. cbn [sidx].
  apply Forall_cons in HF as [Hd HF].
  match goal with |- context [if ?c then _ else _] => destruct c eqn:E end.
  - change (take 1 (d :: ds)) with (d :: take 0 ds). rewrite take_0. simpl qsum. apply orb_true_iff in E as [E|E].
    + apply Qle_bool_iff in E. unfold duration in E. destruct (Qle_bool (D - tol) 0) eqn:E0; [apply Qle_bool_iff in E0|]; lra.
    + destruct ds; [|done]. simpl in HD. unfold tol. lra.
  - apply orb_false_iff in E as [E E2]. destruct ds as [|d' ds]; [done|].
    cbn [qsum foldr] in HD. specialize (IH (before + d) ltac:(lra) HF ltac:(done)).
    change (take (S (S ?k)) (d :: d' :: ds)) with (d :: take (S k) (d' :: ds)).
    remember (d' :: ds) as ds1. cbn [qsum foldr]. fold (qsum (take (S (sidx D (before + d) ds1)) ds1)).
    assert (D <= before + d + qsum ds1). { subst ds1. cbn [qsum foldr]. lra. } lra.
Qed.

Lemma partials_length D before hop tr i ds : (i <= length ds)%nat -> length (partials D before hop tr i ds) = i.
Proof.
  revert before ds. induction i as [|i IH]; intros before ds H; [by destruct ds|]. destruct ds as [|d ds]; simpl in *; [lia|].
  f_equal. apply IH. lia.
Qed.

Lemma split_loop_amounts v D rev a ends before ao : ends ≠ [] ->
  amount_by_segment (split_loop v D rev a ends before ao)
  = let l := amount_by_segment ao
             ++ partials D before (hop_amount ao) (amount_while_travel ao) (sidx D before (durs v a ends)) (durs v a ends) in
    if rev then hop_amount ao :: l else l ++ [amount_while_travel ao].
Proof.
  cbv zeta. revert a before ao. induction ends as [|b ends IH]; intros a before ao Hne; [done|]. clear Hne.
  cbn [split_loop durs sidx]. fold (seconds v a b). fold tol.
  assert (Hd : match durs v b ends with [] => true | _ => false end = match ends with [] => true | _ => false end) by by destruct ends.
  rewrite Hd.
  destruct (Qle_bool (duration (D - tol)) (before + duration (seconds v a b)) || match ends with [] => true | _ => false end) eqn:E.
  - cbn [amount_by_segment partials]. by rewrite app_nil_r.
  - rewrite IH by (destruct ends; [by rewrite orb_true_r in E|done]). cbn [amount_by_segment hop_amount amount_while_travel partials].
    destruct rev; rewrite <- !app_assoc; done.
Qed.

Lemma split_loop_split v D rev a ends before ao : ends ≠ [] ->
  let i := sidx D before (durs v a ends) in
  exists c b, (a :: ends) !! i = Some c /\ ends !! i = Some b
    /\ split_position (split_loop v D rev a ends before ao)
       = (if Qle_bool (duration (seconds v c b)) tol then c
          else lerp2 c b (duration (D - foldl Qplus before (take i (durs v a ends))) / duration (seconds v c b))).
Proof.
  cbv zeta. revert a before ao. induction ends as [|b ends IH]; intros a before ao Hne; [done|]. clear Hne.
  cbn [split_loop durs sidx]. fold (seconds v a b). fold tol.
  assert (Hd : match durs v b ends with [] => true | _ => false end = match ends with [] => true | _ => false end) by by destruct ends.
  rewrite Hd.
  destruct (Qle_bool (duration (D - tol)) (before + duration (seconds v a b)) || match ends with [] => true | _ => false end) eqn:E.
  - exists a, b. done.
  - assert (Hne : ends ≠ []) by (destruct ends; [by rewrite orb_true_r in E|done]).
    destruct (IH b (before + duration (seconds v a b))
      (AO (amount_while_still ao) (hop_amount ao) (hop_ratio ao) (amount_while_travel ao) (split_position ao)
              (amount_by_segment ao ++
                 [hop_amount ao + (before + duration (seconds v a b)) / D * (amount_while_travel ao - hop_amount ao)])) Hne)
      as (c & e & Hc & He & Hs).
    exists c, e. split; [done|]. split; [done|]. rewrite Hs. done.
Qed.

Lemma foldl_sum before l : foldl Qplus before l == before + qsum l.
Proof. revert before. induction l as [|d l IH]; intros before; simpl; [lra|]. rewrite IH. lra. Qed.

(** ** Retracting and priming fit into the travel *)
Lemma qsum_take_drop k l : qsum l == qsum (take k l) + qsum (drop k l).
Proof. rewrite <- (take_drop k l) at 1. apply qsum_app. Qed.

Lemma take_reverse {A} j (l : list A) : (j <= length l)%nat -> take j (reverse l) = reverse (drop (length l - j) l).
Proof.
  intros H. rewrite <- (take_drop (length l - j) l) at 1. rewrite reverse_app. rewrite take_app_alt; [done|].
  rewrite reverse_length, drop_length. lia.
Qed.

Lemma fits Dr Dp ds : Forall (fun x => 0 <= x) ds -> ds ≠ [] -> Dr + Dp <= qsum ds ->
  (sidx Dr 0 ds + sidx Dp 0 (reverse ds) < length ds)%nat.
Proof.
  intros HF Hne Hsum.
  assert (HFr : Forall (fun x => 0 <= x) (reverse ds)) by by apply Forall_reverse.
  assert (Hner : reverse ds ≠ []). { intros H. apply Hne. rewrite <- (reverse_involutive ds), H. done. }
  pose proof (sidx_lt Dr 0 ds Hne) as H1. pose proof (sidx_lt Dp 0 (reverse ds) Hner) as H2. rewrite reverse_length in H2.
  destruct (decide (sidx Dr 0 ds + sidx Dp 0 (reverse ds) < length ds)%nat) as [|Hn]; [done|]. exfalso.
  set (i := sidx Dr 0 ds) in *. set (j := sidx Dp 0 (reverse ds)) in *.
  (* the segment in which priming starts is before the one in which retracting ends *)
  set (m := (length ds - 1 - j)%nat).
  assert (Hm : (m < i)%nat) by (unfold m; lia).
  assert (Hj : (0 < j)%nat) by lia.
  pose proof (sidx_before Dr 0 ds m ltac:(lra) HF Hm) as Hr.
  pose proof (sidx_before Dp 0 (reverse ds) (j - 1) ltac:(lra) HFr ltac:(unfold j in *; lia)) as Hp.
  replace (S (j - 1)) with j in Hp by lia.
  assert (Hq : qsum (take j (reverse ds)) == qsum (drop (S m) ds)).
  { rewrite take_reverse by lia. rewrite qsum_reverse. replace (length ds - j)%nat with (S m) by (unfold m; lia). done. }
  rewrite Hq in Hp. rewrite (qsum_take_drop (S m) ds) in Hsum. unfold tol in *. lra.
Qed.

(** ** The writer *)
Section writer.
  Context (points : list pt3) (r p : anti_oozing).
  Notation n := (length points).
  Notation np := (length (amount_by_segment p)).
  Notation nr := (length (amount_by_segment r)).

  Lemma write_priming_from k i : (i + k = n)%nat -> (n - i <= np)%nat ->
    write_segments points r p Priming (seq i k) = Ok (with_amounts (drop i points) (reverse (take (n - i) (amount_by_segment p)))).
  Proof.
    revert i. induction k as [|k IH]; intros i Hk Hnp; cbn [seq write_segments].
    - rewrite drop_ge by lia. by destruct (reverse _).
    - destruct (lookup_lt_is_Some_2 points i) as [pt Hpt]; [lia|].
      destruct (lookup_lt_is_Some_2 (amount_by_segment p) (n - 1 - i)) as [a Ha]; [lia|].
      cbn [writeTravelSegment]. unfold write_priming. rewrite Hpt. cbn [of_opt rbind]. rewrite Ha. cbn [rbind fst snd].
      rewrite IH by lia. cbn [rbind]. rewrite (drop_S points pt i Hpt).
      replace (n - i)%nat with (S (n - 1 - i)) by lia. rewrite (take_S_r _ _ a Ha), reverse_snoc.
      replace (n - S i)%nat with (n - 1 - i)%nat by lia. done.
  Qed.

  Lemma write_travelling_from k i : (i + k = n)%nat -> (1 <= np)%nat -> (i <= n - np)%nat -> (np <= n)%nat ->
    write_segments points r p Travelling (seq i k)
    = Ok (without (take (n - np - i) (drop i points)) ++ [(toPoint3LL (split_position p), None)]
          ++ with_amounts (drop (n - np) points) (reverse (amount_by_segment p))).
  Proof.
    revert i. induction k as [|k IH]; intros i Hk H1 H2 H3; [lia|]. cbn [seq write_segments].
    destruct (lookup_lt_is_Some_2 points i) as [pt Hpt]; [lia|].
    cbn [writeTravelSegment]. unfold write_travelling.
    destruct (Nat.eqb (S (n - 1 - i)) np) eqn:E.
    - apply Nat.eqb_eq in E. assert (Hi : i = (n - np)%nat) by lia.
      pose proof (write_priming_from (S k) i Hk ltac:(lia)) as Hp. cbn [seq write_segments writeTravelSegment] in Hp.
      apply rbind_ok in Hp as (w & Hw & Hp). apply rbind_ok in Hw as (m & Hm & [= <-]).
      rewrite Hm. cbn [rbind fst snd] in *. apply rbind_ok in Hp as (ms & Hms & Hp). rewrite Hms. cbn [rbind].
      replace (n - np - i)%nat with 0%nat by lia. rewrite take_0. cbn [without fmap list_fmap app]. do 2 f_equal.
      inversion Hp as [Hp']. rewrite Hp'. rewrite take_ge by lia. by rewrite <- Hi.
    - apply Nat.eqb_neq in E. rewrite Hpt. cbn [of_opt rbind fst snd]. rewrite IH by lia. cbn [rbind]. f_equal.
      rewrite (drop_S points pt i Hpt). replace (n - np - i)%nat with (S (n - np - S i)) by lia. done.
  Qed.

  (** all segments, when retracting ends not after the segment in which priming starts *)
  Lemma write_retracting_from k i : (i + k = n)%nat -> (1 <= np)%nat -> (np <= n)%nat -> (i < nr)%nat -> (nr - 1 <= n - np)%nat ->
    write_segments points r p Retracting (seq i k)
    = Ok (with_amounts (take (nr - 1 - i) (drop i points)) (take (nr - 1 - i) (drop i (amount_by_segment r)))
          ++ [(toPoint3LL (split_position r), Some (default 0 (last (amount_by_segment r))))]
          ++ without (take (n - np - (nr - 1)) (drop (nr - 1) points)) ++ [(toPoint3LL (split_position p), None)]
          ++ with_amounts (drop (n - np) points) (reverse (amount_by_segment p))).
  Proof.
    revert i. induction k as [|k IH]; intros i Hk H1 H2 H3 H4; [lia|]. cbn [seq write_segments].
    destruct (lookup_lt_is_Some_2 points i) as [pt Hpt]; [lia|].
    destruct (lookup_lt_is_Some_2 (amount_by_segment r) i) as [a Ha]; [lia|].
    cbn [writeTravelSegment].
    destruct (Nat.eqb (S i) nr) eqn:E.
    - apply Nat.eqb_eq in E. assert (Hi : i = (nr - 1)%nat) by lia. rewrite Ha. cbn [of_opt rbind].
      pose proof (write_travelling_from (S k) i Hk H1 ltac:(lia) H2) as Ht. cbn [seq write_segments writeTravelSegment] in Ht.
      apply rbind_ok in Ht as (w & Hw & Ht). rewrite Hw. cbn [rbind fst snd].
      apply rbind_ok in Ht as (ms & Hms & Ht). rewrite Hms. cbn [rbind].
      replace (nr - 1 - i)%nat with 0%nat by lia. rewrite !take_0. cbn [with_amounts zip_with app].
      assert (Hl : last (amount_by_segment r) = Some a).
      { rewrite last_lookup. replace (pred nr) with i by lia. done. }
      rewrite Hl. cbn [default from_option id]. inversion Ht as [Ht']. rewrite Ht'. by rewrite <- Hi.
    - apply Nat.eqb_neq in E. rewrite Ha, Hpt. cbn [of_opt rbind fst snd]. rewrite IH by lia. cbn [rbind]. f_equal.
      rewrite (drop_S points pt i Hpt), (drop_S (amount_by_segment r) a i Ha).
      replace (nr - 1 - i)%nat with (S (nr - 1 - S i)) by lia. done.
  Qed.
End writer.

(** ** The amounts *)
Definition used_ratio (firmware : bool) (s : ooze_settings) : Q := if firmware then 0 else during_travel s.

Lemma base_ok firmware z s :
  0 <= z -> 0 <= distance s -> 0 < ospeed s -> 0 <= during_travel s -> during_travel s <= 1 ->
  let i := (base_amounts firmware z s).1 in let a := (base_amounts firmware z s).2 in let rho := used_ratio firmware s in
  0 <= exp_duration i /\ exp_duration i == Qmax 0 (distance s * rho / ospeed s - z)
  /\ exp_amount i == exp_duration i * ospeed s
  /\ amount_while_still a == distance s * (1 - rho) /\ hop_amount a == amount_while_still a + Qmin (distance s * rho) (ospeed s * z)
  /\ hop_amount a + exp_amount i == distance s
  /\ amount_by_segment a = [] /\ 0 <= amount_while_still a /\ amount_while_still a <= hop_amount a.
Proof.
  intros Hz Hd Hv H0 H1 i a rho. unfold i, a, base_amounts. cbn [fst snd exp_duration exp_amount amount_while_still hop_amount amount_by_segment].
  fold (used_ratio firmware s). fold rho.
  assert (Hr0 : 0 <= rho) by (unfold rho, used_ratio; destruct firmware; lra).
  assert (Hr1 : rho <= 1) by (unfold rho, used_ratio; destruct firmware; lra).
  assert (Hdr : 0 <= distance s * rho) by nra.
  assert (Hvz : 0 <= ospeed s * z) by nra.
  assert (Hq : 0 <= distance s / ospeed s) by (apply Qle_shift_div_l; lra).
  assert (He : Qmax 0 (duration (duration (duration (distance s / ospeed s) * rho) - z)) == Qmax 0 (distance s * rho / ospeed s - z)).
  { rewrite (duration_pos (distance s / ospeed s)) by done.
    rewrite (duration_pos (distance s / ospeed s * rho)) by nra.
    assert (Heq : distance s / ospeed s * rho == distance s * rho / ospeed s) by (field; lra). rewrite Heq.
    set (x := distance s * rho / ospeed s - z). destruct (Qlt_le_dec x 0) as [Hx|Hx].
    - rewrite duration_neg by lra. rewrite (Q.max_l 0 0), (Q.max_l 0 x) by lra. done.
    - by rewrite duration_pos. }
  assert (Hmin : (if Qle_bool z 0 then 0 else Qmin (distance s * rho) (ospeed s * z)) == Qmin (distance s * rho) (ospeed s * z)).
  { destruct (Qle_bool z 0) eqn:E; [|done]. apply Qle_bool_iff in E. assert (Hz0 : z == 0) by lra.
    rewrite Q.min_r; [rewrite Hz0; lra|]. rewrite Hz0. lra. }
  rewrite He, Hmin. split; [apply Q.le_max_l|]. split; [done|]. split; [done|]. split; [lra|]. split; [lra|].
  split.
  { set (q := distance s * rho / ospeed s).
    assert (Hqv : q * ospeed s == distance s * rho) by (unfold q; field; lra).
    destruct (Qlt_le_dec (q - z) 0) as [Hx|Hx].
    - rewrite Q.max_l by lra. rewrite Q.min_l by nra. lra.
    - rewrite Q.max_r by lra. rewrite Q.min_r by nra. lra. }
  split; [done|]. split; [nra|].
  assert (0 <= Qmin (distance s * rho) (ospeed s * z)) by (apply Q.min_glb; done). lra.
Qed.

(** keeping the ratio: what is primed in all is to what is retracted in all as the settings say *)
Theorem C51_ratio R P rr rp ra pa r p :
  0 < R -> 0 < P -> 0 <= rr -> 0 <= rp -> hop_amount r + ra == rr -> hop_amount p + pa == rp ->
  let r' := (keep_ratio R P rr rp r p).1 in let p' := (keep_ratio R P rr rp r p).2 in
  (hop_amount p' + pa) * R == (hop_amount r' + ra) * P
  /\ hop_amount r' + ra == Qmin rr (rp * R / P)
  /\ hop_amount p' + pa == Qmin rp (rr * P / R)
  /\ hop_amount r' - amount_while_still r' == hop_amount r - amount_while_still r
  /\ hop_amount p' - amount_while_still p' == hop_amount p - amount_while_still p.
Proof.
  intros HR HP Hrr Hrp Hr Hp r' p'. unfold r', p', keep_ratio.
  assert (HR0 : Qeq_bool R 0 = false). { destruct (Qeq_bool R 0) eqn:E; [apply Qeq_bool_eq in E; lra|done]. }
  rewrite HR0. unfold less_still.
  assert (Hx : rp * R / P == rp / P * R) by (field; lra). assert (Hy : rr * P / R == rr / R * P) by (field; lra).
  assert (HrpP : rp / P * P == rp) by (field; lra). assert (HrrR : rr / R * R == rr) by (field; lra).
  assert (Hrp0 : 0 <= rp / P) by (apply Qle_shift_div_l; lra). assert (Hrr0 : 0 <= rr / R) by (apply Qle_shift_div_l; lra).
  rewrite Hx, Hy.
  destruct (Qeq_bool rr 0) eqn:Err.
  - apply Qeq_bool_eq in Err.
    assert (Hz : rr / R == 0) by (rewrite Err; field; lra).
    destruct (Qle_bool rp 0) eqn:Erp; cbn [fst snd hop_amount amount_while_still].
    + apply Qle_bool_iff in Erp. assert (Hrpz : rp == 0) by lra. assert (Hz2 : rp / P == 0) by (rewrite Hrpz; field; lra).
      rewrite Hz, Hz2. split; [nra|]. split; [rewrite Q.min_l; nra|]. split; [rewrite Q.min_l; nra|]. split; lra.
    + apply Qle_bool_false in Erp. rewrite Hz. split; [rewrite Err; nra|]. split; [rewrite Q.min_l; nra|].
      split; [rewrite Q.min_r; [rewrite Err|]; nra|]. split; lra.
  - assert (Hrrp : 0 < rr). { destruct (Qlt_le_dec 0 rr); [done|]. assert (rr == 0) as H by lra. apply Qeq_bool_iff in H. congruence. }
    assert (Hcmp : P / R <= rp / rr <-> rr / R * P <= rp).
    { split; intros H.
      - assert (Hm : P / R * rr <= rp / rr * rr) by (apply Qmult_le_compat_r; lra).
        assert (He : rp / rr * rr == rp) by (field; lra). assert (He2 : P / R * rr == rr / R * P) by (field; lra). lra.
      - apply Qle_shift_div_l; [done|]. assert (He2 : P / R * rr == rr / R * P) by (field; lra). lra. }
    assert (Hcmp2 : rp / rr <= P / R <-> rp <= rr / R * P).
    { split; intros H.
      - assert (Hm : rp / rr * rr <= P / R * rr) by (apply Qmult_le_compat_r; lra).
        assert (He : rp / rr * rr == rp) by (field; lra). assert (He2 : P / R * rr == rr / R * P) by (field; lra). lra.
      - apply Qle_shift_div_r; [done|]. assert (He2 : P / R * rr == rr / R * P) by (field; lra). lra. }
    destruct (Qle_bool (P / R) (rp / rr)) eqn:E1; cbn [negb].
    + apply Qle_bool_iff in E1. apply Hcmp in E1.
      assert (E1' : rr <= rp / P * R).
      { setoid_replace rr with (rr / R * P / P * R) by (field; lra).
        apply Qmult_le_compat_r; [|lra]. apply Qmult_le_compat_r; [done|]. apply Qlt_le_weak, Qinv_lt_0_compat. done. }
      destruct (Qle_bool (rp / rr) (P / R)) eqn:E2; cbn [negb fst snd hop_amount amount_while_still].
      * apply Qle_bool_iff in E2. apply Hcmp2 in E2. assert (Heq : rp == rr / R * P) by lra.
        split. { rewrite Hr, Hp, Heq. field. lra. }
        split; [rewrite Q.min_l; lra|]. split; [rewrite Q.min_l; lra|]. split; lra.
      * apply Qle_bool_false in E2.
        assert (He : rr * (P / R) == rr / R * P) by (field; lra).
        split. { setoid_replace (hop_amount p - (rp - rr * (P / R)) + pa) with (rr / R * P) by (rewrite <- Hp, <- He; ring).
          rewrite Hr. field. lra. }
        split; [rewrite Q.min_l; lra|]. split; [rewrite Q.min_r; lra|]. split; lra.
    + apply Qle_bool_false in E1. cbn [fst snd hop_amount amount_while_still].
      assert (He : rp / (P / R) == rp / P * R) by (field; split; lra).
      assert (Hlt : rp < rr / R * P).
      { apply Qnot_le_lt. intros H. apply Hcmp in H. lra. }
      assert (Hlt' : rp / P * R <= rr).
      { setoid_replace rr with (rr / R * P / P * R) by (field; lra).
        apply Qmult_le_compat_r; [|lra]. apply Qmult_le_compat_r; [lra|]. apply Qlt_le_weak, Qinv_lt_0_compat. done. }
      split. { setoid_replace (hop_amount r - (rr - rp / (P / R)) + ra) with (rp / P * R) by (rewrite <- Hr, <- He; ring).
        rewrite Hp. field. lra. }
      split; [rewrite Q.min_r; lra|]. split; [rewrite Q.min_l; lra|]. split; lra.
Qed.

Lemma keep_ratio_segments R P rr rp r p :
  amount_by_segment (keep_ratio R P rr rp r p).1 = amount_by_segment r
  /\ amount_by_segment (keep_ratio R P rr rp r p).2 = amount_by_segment p.
Proof. unfold keep_ratio, less_still. repeat case_match; done. Qed.

Record plan (firmware : bool) (c : rconfig) (z travel : Q) (r1 p1 : anti_oozing) (ra pa Dr Dp : Q) : Prop := Plan {
  pl_fit : Dr + Dp <= travel; pl_Dr : 0 <= Dr; pl_Dp : 0 <= Dp; pl_ra : 0 <= ra; pl_pa : 0 <= pa;
  pl_hr : 0 <= hop_amount r1; pl_hp : 0 <= hop_amount p1;
  pl_sr : amount_while_still r1 <= hop_amount r1; pl_sp : amount_while_still p1 <= hop_amount p1;
  pl_tr : amount_while_travel r1 == hop_amount r1 + ra; pl_tp : amount_while_travel p1 == hop_amount p1 + pa;
  pl_R : amount_while_travel r1 <= rdistance c;
  pl_P : amount_while_travel p1 * rdistance c == amount_while_travel r1 * (rdistance c + prime_extra c);
  pl_nr : amount_by_segment r1 = []; pl_np : amount_by_segment p1 = [];
  pl_pspeed : Dp * pspeed c == pa;
  pl_rspeed : keep_retracting c = false \/ ~ enough firmware c z travel -> Dr * rspeed c == ra;
  pl_keep : keep_retracting c = true -> 0 < ra -> Dr + Dp == travel;
  pl_short : ~ enough firmware c z travel ->
    amount_while_travel r1
    == Qmin (rdistance c - missing firmware c z travel * wanted firmware z (rdistance c) (rspeed c) (retract_ratio c) * rspeed c)
            ((rdistance c + prime_extra c
              - missing firmware c z travel * wanted firmware z (rdistance c + prime_extra c) (pspeed c) (prime_ratio c) * pspeed c)
             * rdistance c / (rdistance c + prime_extra c))
    /\ hop_amount r1 - amount_while_still r1
       == Qmin (rdistance c * (if firmware then 0 else retract_ratio c)) (rspeed c * z)
    /\ hop_amount p1 - amount_while_still p1
       == Qmin ((rdistance c + prime_extra c) * (if firmware then 0 else prime_ratio c)) (pspeed c * z);
  pl_full : enough firmware c z travel ->
    amount_while_travel r1 == rdistance c
    /\ amount_while_still r1 == rdistance c * (1 - if firmware then 0 else retract_ratio c)
    /\ hop_amount r1 == amount_while_still r1 + Qmin (rdistance c * (if firmware then 0 else retract_ratio c)) (rspeed c * z)
    /\ amount_while_still p1 == (rdistance c + prime_extra c) * (1 - if firmware then 0 else prime_ratio c)
    /\ hop_amount p1 == amount_while_still p1
         + Qmin ((rdistance c + prime_extra c) * (if firmware then 0 else prime_ratio c)) (pspeed c * z) }.

Lemma compute_plan firmware c z start points v :
  ok_config c -> 0 <= z ->
  exists r1 p1 ra pa Dr Dp y l,
    plan firmware c z (travel_duration start points v) r1 p1 ra pa Dr Dp
    /\ reverse (start :: (toPoint2LL <$> points)) = y :: l
    /\ (computeAntiOozeAmounts firmware c z start points v).1
       = split_loop v Dr false start (toPoint2LL <$> points) 0 r1
    /\ (computeAntiOozeAmounts firmware c z start points v).2
       = (let p2 := split_loop v Dp true y l 0 p1 in shift p2 (amount_while_travel r1 - amount_while_travel p2)).
Proof.
  intros (HR & Hrs & Hps & Hpv & Hr0 & Hr1 & Hp0 & Hp1) Hz.
  set (T := travel_duration start points v).
  assert (HT : 0 <= T) by apply duration_nonneg.
  set (rs := OozeSettings (rdistance c) (rspeed c) (retract_ratio c)).
  set (ps := OozeSettings (rdistance c + prime_extra c) (pspeed c) (prime_ratio c)).
  pose proof (base_ok firmware z rs Hz ltac:(cbn; lra) ltac:(cbn; lra) ltac:(cbn; lra) ltac:(cbn; lra)) as Br.
  pose proof (base_ok firmware z ps Hz ltac:(cbn; lra) ltac:(cbn; lra) ltac:(cbn; lra) ltac:(cbn; lra)) as Bp.
  cbv zeta in Br, Bp.
  set (ir := (base_amounts firmware z rs).1) in *. set (ip := (base_amounts firmware z ps).1) in *.
  set (r0 := (base_amounts firmware z rs).2) in *. set (p0 := (base_amounts firmware z ps).2) in *.
  destruct Br as (R1 & R2 & R3 & R4 & R5 & R6 & R7 & R8 & R9). destruct Bp as (P1 & P2 & P3 & P4 & P5 & P6 & P7 & P8 & P9).
  unfold used_ratio in *. cbn [distance ospeed during_travel] in *.
  change (if firmware then 0 else during_travel rs) with (if firmware then 0 else retract_ratio c) in *.
  change (if firmware then 0 else during_travel ps) with (if firmware then 0 else prime_ratio c) in *.
  change (distance rs) with (rdistance c) in *. change (distance ps) with (rdistance c + prime_extra c) in *.
  change (ospeed rs) with (rspeed c) in *. change (ospeed ps) with (pspeed c) in *.
  set (total := exp_duration ir + exp_duration ip). set (free := T - total). set (short := negb (Qle_bool 0 free)).
  set (reduction := - (free / total)).
  set (ra := if short then exp_amount ir - exp_amount ir * reduction else exp_amount ir).
  set (pa := if short then exp_amount ip - exp_amount ip * reduction else exp_amount ip).
  set (rp := if short then keep_ratio (distance rs) (distance ps) (distance rs - exp_amount ir * reduction)
                              (distance ps - exp_amount ip * reduction) r0 p0 else (r0, p0)).
  set (rsp := if negb short && keep_retracting c && negb (Qle_bool free 0) then ra / (exp_duration ir + free) else rspeed c).
  set (r1 := with_travel rp.1 (hop_amount rp.1 + ra)). set (p1 := with_travel rp.2 (hop_amount rp.2 + pa)).
  set (Dr := duration (ra / rsp)). set (Dp := duration (pa / pspeed c)).
  destruct (reverse (start :: (toPoint2LL <$> points))) as [|y l] eqn:Erev.
  { apply (f_equal length) in Erev. rewrite reverse_length in Erev. done. }
  exists r1, p1, ra, pa, Dr, Dp, y, l.
  assert (Henough : enough firmware c z T -> short = false).
  { unfold enough, total_wanted, wanted. intros H. unfold short. apply negb_false_iff, Qle_bool_iff. unfold free, total. rewrite R2, P2. lra. }
  assert (Hea : 0 <= exp_amount ir) by (rewrite R3; nra). assert (Hep : 0 <= exp_amount ip) by (rewrite P3; nra).
  split; [|split; [done|split]].
  2: { unfold computeAntiOozeAmounts. cbv zeta. fold rs ps. fold ir ip r0 p0. fold T. fold total. fold free. fold short. fold reduction.
       fold ra pa. fold rp. change (ospeed rs) with (rspeed c). fold rsp. fold r1 p1. cbn [fst]. reflexivity. }
  2: { unfold computeAntiOozeAmounts. cbv zeta. fold rs ps. fold ir ip r0 p0. fold T. fold total. fold free. fold short. fold reduction.
       fold ra pa. fold rp. change (ospeed rs) with (rspeed c). fold rsp. fold r1 p1. cbn [snd].
       assert (Hr2 : amount_while_travel (travel_split start points v rsp ra false r1) = amount_while_travel r1).
       { unfold travel_split. cbn [app]. apply (split_loop_fields v (duration (ra / rsp)) false start (toPoint2LL <$> points) 0 r1). }
       rewrite Hr2. unfold travel_split. rewrite <- reverse_cons, Erev. reflexivity. }
  destruct (short) eqn:Es.
  - assert (Hf : free < 0). { unfold short in Es. apply negb_true_iff, Qle_bool_false in Es. done. }
    assert (Htot : 0 < total) by (unfold free in Hf; lra).
    set (x := T / total).
    assert (Hred : reduction == 1 - x) by (unfold reduction, free, x; field; lra).
    assert (Hx0 : 0 <= x) by (apply Qle_shift_div_l; lra).
    assert (Hx1 : x < 1) by (apply Qlt_shift_div_r; [done|unfold free in Hf; lra]).
    assert (Hxt : x * total == T) by (unfold x; field; lra).
    assert (Hra : ra == exp_amount ir * x) by (unfold ra; rewrite Hred; ring).
    assert (Hpa : pa == exp_amount ip * x) by (unfold pa; rewrite Hred; ring).
    assert (Hrsp : rsp = rspeed c) by done.
    assert (HDr : Dr == exp_duration ir * x).
    { unfold Dr. rewrite Hrsp, Hra, R3. rewrite duration_pos.
      - field. lra.
      - apply Qle_shift_div_l; [done|]. nra. }
    assert (HDp : Dp == exp_duration ip * x).
    { unfold Dp. rewrite Hpa, P3. rewrite duration_pos.
      - field. lra.
      - apply Qle_shift_div_l; [done|]. nra. }
    set (rr := distance rs - exp_amount ir * reduction). set (rq := distance ps - exp_amount ip * reduction).
    assert (Hrr : hop_amount r0 + ra == rr). { unfold rr, ra. change (distance rs) with (rdistance c). lra. }
    assert (Hrq : hop_amount p0 + pa == rq). { unfold rq, pa. change (distance ps) with (rdistance c + prime_extra c). lra. }
    assert (Hrr0 : 0 <= rr) by (rewrite <- Hrr, Hra; nra).
    assert (Hrq0 : 0 <= rq) by (rewrite <- Hrq, Hpa; nra).
    destruct (C51_ratio (distance rs) (distance ps) rr rq ra pa r0 p0 HR ltac:(cbn; lra) Hrr0 Hrq0 Hrr Hrq) as (K1 & K2 & K3 & K4 & K5).
    fold rr rq in rp. fold rp in K1, K2, K3, K4, K5.
    destruct (keep_ratio_segments (distance rs) (distance ps) rr rq r0 p0) as [S1 S2]. fold rp in S1, S2.
    change (distance rs) with (rdistance c) in K1, K2, K3. change (distance ps) with (rdistance c + prime_extra c) in K1, K2, K3.
    assert (Hrrv : rr == rdistance c - exp_amount ir * (1 - x)) by (unfold rr; rewrite Hred; reflexivity).
    assert (Hrqv : rq == rdistance c + prime_extra c - exp_amount ip * (1 - x)) by (unfold rq; rewrite Hred; reflexivity).
    assert (Her : exp_amount ir <= rdistance c) by lra. assert (Hepp : exp_amount ip <= rdistance c + prime_extra c) by lra.
    (* what is left of each while not travelling *)
    assert (Hhr : 0 <= hop_amount rp.1).
    { assert (Hle : ra <= Qmin rr (rq * rdistance c / (rdistance c + prime_extra c))); [|lra].
      apply Q.min_glb; [lra|]. apply Qle_shift_div_l; [lra|]. rewrite Hra, Hrqv.
      assert (0 <= exp_amount ir * (rdistance c + prime_extra c)) by nra.
      assert (exp_amount ip * rdistance c <= (rdistance c + prime_extra c) * rdistance c) by nra.
      assert (exp_amount ir * (rdistance c + prime_extra c) <= rdistance c * (rdistance c + prime_extra c)) by nra.
      set (A := exp_amount ir * (rdistance c + prime_extra c)) in *. set (B := rdistance c * (rdistance c + prime_extra c)) in *.
      set (C := exp_amount ip * rdistance c) in *.
      assert (HC : C <= B) by (unfold B, C in *; lra).
      setoid_replace (exp_amount ir * x * (rdistance c + prime_extra c)) with (A * x) by (unfold A; ring).
      setoid_replace ((rdistance c + prime_extra c - exp_amount ip * (1 - x)) * rdistance c) with (B - C * (1 - x)) by (unfold B, C; ring).
      nra. }
    assert (Hhp : 0 <= hop_amount rp.2).
    { assert (Hle : pa <= Qmin rq (rr * (rdistance c + prime_extra c) / rdistance c)); [|lra].
      apply Q.min_glb; [lra|]. apply Qle_shift_div_l; [lra|]. rewrite Hpa, Hrrv.
      set (A := exp_amount ip * rdistance c). set (B := rdistance c * (rdistance c + prime_extra c)).
      set (C := exp_amount ir * (rdistance c + prime_extra c)).
      assert (HA : A <= B) by (unfold A, B; nra). assert (HC : C <= B) by (unfold B, C; nra).
      setoid_replace (exp_amount ip * x * rdistance c) with (A * x) by (unfold A; ring).
      setoid_replace ((rdistance c - exp_amount ir * (1 - x)) * (rdistance c + prime_extra c)) with (B - C * (1 - x)) by (unfold B, C; ring).
      nra. }
    split; unfold r1, p1; cbn [with_travel amount_while_still hop_amount amount_while_travel amount_by_segment].
    + rewrite HDr, HDp. rewrite <- Hxt. unfold total. lra.
    + apply duration_nonneg.
    + apply duration_nonneg.
    + rewrite Hra. nra.
    + rewrite Hpa. nra.
    + done.
    + done.
    + lra.
    + lra.
    + lra.
    + lra.
    + rewrite K2. eapply Qle_trans; [apply Q.le_min_l|]. rewrite Hrrv. nra.
    + done.
    + by rewrite S1.
    + by rewrite S2.
    + rewrite HDp, Hpa, P3. ring.
    + intros _. rewrite HDr, Hra, R3. ring.
    + intros _ _. rewrite HDr, HDp. rewrite <- Hxt. unfold total. ring.
    + intros _. rewrite K2, K4, K5.
      assert (Hmis : missing firmware c z T == 1 - x).
      { unfold missing, total_wanted, wanted, x, total. rewrite R2, P2. field. unfold total in Htot. rewrite R2, P2 in Htot. lra. }
      assert (HA : rr == rdistance c - missing firmware c z T * wanted firmware z (rdistance c) (rspeed c) (retract_ratio c) * rspeed c).
      { rewrite Hmis, Hrrv, R3. unfold wanted. rewrite R2. ring. }
      assert (HB : rq == rdistance c + prime_extra c - missing firmware c z T * wanted firmware z (rdistance c + prime_extra c) (pspeed c) (prime_ratio c) * pspeed c).
      { rewrite Hmis, Hrqv, P3. unfold wanted. rewrite P2. ring. }
      rewrite HA, HB. split; [reflexivity|]. split; lra.
    + intros H. apply Henough in H. done.
  - assert (Hf : 0 <= free). { unfold short in Es. apply negb_false_iff, Qle_bool_iff in Es. done. }
    assert (HDp : Dp == exp_duration ip).
    { unfold Dp, pa. rewrite P3. setoid_replace (exp_duration ip * pspeed c / pspeed c) with (exp_duration ip) by (field; lra).
      by apply duration_pos. }
    assert (HDr : Dr <= exp_duration ir + free).
    { unfold Dr, rsp, ra. destruct (negb false && keep_retracting c && negb (Qle_bool free 0)) eqn:Ek.
      - apply andb_true_iff in Ek as [_ Ek]. apply negb_true_iff, Qle_bool_false in Ek.
        destruct (Qlt_le_dec 0 (exp_amount ir)) as [Hpos|Hneg].
        + setoid_replace (exp_amount ir / (exp_amount ir / (exp_duration ir + free))) with (exp_duration ir + free) by (field; split; lra).
          rewrite duration_pos by lra. lra.
        + assert (H0 : exp_amount ir == 0) by lra.
          setoid_replace (exp_amount ir / (exp_amount ir / (exp_duration ir + free))) with 0.
          { rewrite duration_neg by lra. lra. }
          rewrite H0. unfold Qdiv. ring.
      - rewrite R3. setoid_replace (exp_duration ir * rspeed c / rspeed c) with (exp_duration ir) by (field; lra).
        rewrite duration_pos by done. lra. }
    split; unfold r1, p1; cbn [with_travel amount_while_still hop_amount amount_while_travel amount_by_segment];
      unfold rp, ra, pa in *; cbn [fst snd].
    + rewrite HDp. unfold free, total in HDr. lra.
    + apply duration_nonneg.
    + apply duration_nonneg.
    + done.
    + done.
    + lra.
    + lra.
    + done.
    + done.
    + lra.
    + lra.
    + lra.
    + rewrite R6, P6. ring.
    + done.
    + done.
    + rewrite HDp, P3. ring.
    + intros Hk. unfold Dr, rsp. destruct Hk as [Hk|Hk].
      * rewrite Hk. cbn [negb andb]. rewrite R3. setoid_replace (exp_duration ir * rspeed c / rspeed c) with (exp_duration ir) by (field; lra).
        rewrite duration_pos by done. ring.
      * destruct Hk. unfold enough, total_wanted, wanted. unfold free, total in Hf. rewrite R2, P2 in Hf. lra.
    + intros Hk Hpos. unfold Dr, rsp. rewrite Hk, HDp. cbn [negb andb].
      destruct (Qle_bool free 0) eqn:E0; cbn [negb].
      * apply Qle_bool_iff in E0. rewrite R3. setoid_replace (exp_duration ir * rspeed c / rspeed c) with (exp_duration ir) by (field; lra).
        rewrite duration_pos by done. unfold free, total in *. lra.
      * apply Qle_bool_false in E0.
        setoid_replace (exp_amount ir / (exp_amount ir / (exp_duration ir + free))) with (exp_duration ir + free) by (field; split; lra).
        rewrite duration_pos by lra. unfold free, total. lra.
    + intros Hk. destruct Hk. unfold enough, total_wanted, wanted. unfold free, total in Hf. rewrite R2, P2 in Hf. lra.
    + intros _. split; [lra|]. split; [done|]. split; [done|]. split; done.
Qed.

(** ** The moves *)
Lemma rising_le low low' l high : low' <= low -> rising low l high -> rising low' l high.
Proof. destruct l; simpl; [lra|]. intros H [H1 H2]. split; [lra|done]. Qed.
Lemma rising_last low l x high : rising low l x -> x <= high -> rising low (l ++ [x]) high.
Proof. revert low. induction l as [|y l IH]; intros low; simpl; [lra|]. intros [H1 H2] H. split; [done|]. by apply IH. Qed.
Lemma falling_snoc high l x low : falling high l x -> low <= x -> falling high (l ++ [x]) low.
Proof. revert high. induction l as [|y l IH]; intros high; simpl; [lra|]. intros [H1 H2] H. split; [done|]. by apply IH. Qed.
Lemma rising_reverse low l high : rising low l high -> falling high (reverse l) low.
Proof.
  revert low. induction l as [|y l IH]; intros low; [done|]. simpl. intros [H1 H2].
  rewrite reverse_cons. apply falling_snoc; [|done]. by apply IH.
Qed.
Lemma falling_map high l low d : falling high l low -> falling (high + d) ((fun a => a + d) <$> l) (low + d).
Proof. revert high. induction l as [|y l IH]; intros high; simpl; [lra|]. intros [H1 H2]. split; [lra|]. by apply IH. Qed.
Lemma falling_eq high high' l low low' : high == high' -> low == low' -> falling high l low -> falling high' l low'.
Proof.
  revert high high'. induction l as [|y l IH]; intros high high' H1 H2; simpl; [lra|]. intros [H3 H4]. split; [lra|].
  by apply (IH y y).
Qed.

Lemma partials_rise D before hop tr i ds :
  0 < D -> 0 <= before -> before <= D -> hop <= tr -> Forall (fun x => 0 <= x) ds ->
  (forall k, (k < i)%nat -> before + qsum (take (S k) ds) <= D) ->
  rising (hop + before / D * (tr - hop)) (partials D before hop tr i ds) tr.
Proof.
  intros HD. assert (Hend : forall b, 0 <= b -> b <= D -> hop <= tr -> hop + b / D * (tr - hop) <= tr).
  { intros b H0 H1 H. assert (b / D <= 1) by (apply Qle_shift_div_r; lra). nra. }
  revert before ds. induction i as [|i IH]; intros before ds Hb HbD Hht HF Hk; [destruct ds; by apply Hend|].
  destruct ds as [|d ds]; [by apply Hend|]. cbn [partials rising]. apply Forall_cons in HF as [Hd HF].
  assert (Hbd : before + d <= D). { specialize (Hk 0%nat ltac:(lia)). cbn [take qsum foldr] in Hk. destruct ds; simpl in Hk; lra. }
  split.
  - assert (Hle : before / D <= (before + d) / D). { apply Qle_shift_div_l; [done|]. setoid_replace (before / D * D) with before by (field; lra). lra. }
    nra.
  - apply IH; try done; [lra|]. intros k Hki. specialize (Hk (S k) ltac:(lia)).
    change (take (S (S k)) (d :: ds)) with (d :: take (S k) ds) in Hk. cbn [qsum foldr] in Hk. fold (qsum (take (S k) ds)) in Hk. lra.
Qed.

Lemma partials_at D before hop tr i ds k a : partials D before hop tr i ds !! k = Some a ->
  a == hop + (before + qsum (take (S k) ds)) / D * (tr - hop).
Proof.
  revert before i ds. induction k as [|k IH]; intros before i ds; destruct i, ds as [|d ds]; try done; cbn [partials].
  - intros [= <-]. cbn [take qsum foldr]. assert (H : before + d == before + (d + 0)) by lra.
    destruct ds; cbn [take foldr]; by rewrite <- H.
  - intros H. change ((hop + (before + d) / D * (tr - hop) :: partials D (before + d) hop tr i ds) !! S k)
      with (partials D (before + d) hop tr i ds !! k) in H. apply IH in H. rewrite H.
    change (take (S (S k)) (d :: ds)) with (d :: take (S k) ds). cbn [qsum foldr]. fold (qsum (take (S k) ds)).
    assert (E : before + d + qsum (take (S k) ds) == before + (d + qsum (take (S k) ds))) by lra. by rewrite E.
Qed.

Lemma split_place v D rev a ends ao : 0 < v -> ends ≠ [] -> 0 <= D -> D <= qsum (durs v a ends) ->
  place_at v a ends D (sidx D 0 (durs v a ends)) (split_position (split_loop v D rev a ends 0 ao)).
Proof.
  intros Hv Hne HD Hsum. pose proof (durs_nonneg v a ends Hv) as HF.
  assert (Hned : durs v a ends ≠ []). { intros H. apply (f_equal length) in H. rewrite durs_length in H. destruct ends; done. }
  destruct (split_loop_split v D rev a ends 0 ao Hne) as (c & b & Hc & Hb & Hs).
  set (i := sidx D 0 (durs v a ends)) in *. exists c, b. split; [done|]. split; [done|]. cbv zeta.
  destruct (durs_lookup v a ends i b Hb) as (c' & Hc' & Hd). rewrite Hc in Hc'. inversion Hc'; subst c'. clear Hc'.
  assert (Hdur : duration (seconds v c b) == seconds v c b) by (apply duration_pos; by apply seconds_nonneg).
  pose proof (sidx_at D 0 (durs v a ends) ltac:(lra) HF Hned ltac:(lra)) as Hat. fold i in Hat.
  rewrite (take_S_r _ _ _ Hd), qsum_app in Hat. cbn [qsum foldr] in Hat. fold (qsum (take i (durs v a ends))) in Hat.
  assert (HT0 : 0 <= D - qsum (take i (durs v a ends))).
  { destruct i as [|k] eqn:Ei; [rewrite take_0; simpl qsum; lra|]. pose proof (sidx_before D 0 (durs v a ends) k ltac:(lra) HF) as Hbf.
    specialize (Hbf ltac:(lia)). unfold tol in Hbf. lra. }
  split; [done|]. split; [unfold tol in Hat; lra|].
  destruct (Qle_bool (duration (seconds v c b)) tol) eqn:E.
  - apply Qle_bool_iff in E. left. split; [unfold tol in E; lra|done].
  - apply Qle_bool_false in E. right. split; [unfold tol in E; lra|]. eexists. split; [|exact Hs].
    rewrite foldl_sum. rewrite duration_pos by lra. rewrite Hdur. field. unfold tol in E. lra.
Qed.

Lemma rev_stops (start : pt) (pts : list pt) y l : reverse (start :: pts) = y :: l ->
  length l = length pts.
Proof. intros H. apply (f_equal length) in H. rewrite reverse_length in H. simpl in H. lia. Qed.

(** The amounts: they never decrease while retracting, and priming ends where it has to: with the material of the hop, and
    what had been retracted while standing still. At the end of retracting and at the beginning of priming the same amount is
    retracted, and that is no more than set. What is primed in total has the ratio to what is retracted which is set. *)
Theorem C51_amounts firmware c z start points v :
  ok_config c -> 0 <= z ->
  let r := (computeAntiOozeAmounts firmware c z start points v).1 in
  let p := (computeAntiOozeAmounts firmware c z start points v).2 in
  amount_while_still r <= hop_amount r /\ 0 <= hop_amount r /\ hop_amount r <= amount_while_travel r
  /\ amount_while_travel r <= rdistance c
  /\ amount_while_travel p == amount_while_travel r
  /\ amount_while_still p <= hop_amount p /\ hop_amount p <= amount_while_travel p
  /\ - prime_extra c * (amount_while_travel r / rdistance c) <= hop_amount p
  /\ - prime_extra c <= hop_amount p.
Proof.
  intros Hok Hz r p. destruct (compute_plan firmware c z start points v Hok Hz) as (r1 & p1 & ra & pa & Dr & Dp & y & l & Hpl & Hrev & Hr & Hp).
  destruct Hok as (HR & Hrs & Hps & Hpv & _). destruct Hpl.
  destruct (split_loop_fields v Dr false start (toPoint2LL <$> points) 0 r1) as (F1 & F2 & _ & F4).
  destruct (split_loop_fields v Dp true y l 0 p1) as (G1 & G2 & _ & G4).
  unfold r, p. rewrite Hr, Hp. cbv zeta in *. cbn [shift amount_while_still hop_amount amount_while_travel].
  rewrite F1, F2, F4, G1, G2, G4.
  assert (Hd : amount_while_travel r1 - amount_while_travel p1 == - prime_extra c * (amount_while_travel r1 / rdistance c)).
  { assert (H : amount_while_travel p1 == amount_while_travel r1 * (rdistance c + prime_extra c) / rdistance c).
    { rewrite <- pl_P0. field. lra. }
    rewrite H. field. lra. }
  assert (Hq : amount_while_travel r1 / rdistance c <= 1) by (apply Qle_shift_div_r; lra).
  assert (Hq0 : 0 <= amount_while_travel r1 / rdistance c) by (apply Qle_shift_div_l; lra).
  rewrite Hd. split; [done|]. split; [done|]. split; [lra|]. split; [done|]. split; [lra|]. split; [lra|].
  split; [lra|]. split; [lra|]. nra.
Qed.

(** With enough time, everything is retracted and primed as set: the share of the travel while moving, and the rest
    standing still. *)
Theorem C51_full firmware c z start points v :
  ok_config c -> 0 <= z -> enough firmware c z (travel_duration start points v) ->
  let r := (computeAntiOozeAmounts firmware c z start points v).1 in
  let p := (computeAntiOozeAmounts firmware c z start points v).2 in
  let rho := if firmware then 0 else retract_ratio c in
  let sigma := if firmware then 0 else prime_ratio c in
  let P := rdistance c + prime_extra c in
  amount_while_travel r == rdistance c
  /\ amount_while_still r == rdistance c * (1 - rho)
  /\ hop_amount r == amount_while_still r + Qmin (rdistance c * rho) (rspeed c * z)
  /\ amount_while_travel p == rdistance c
  /\ amount_while_still p == P * (1 - sigma) - prime_extra c
  /\ hop_amount p == amount_while_still p + Qmin (P * sigma) (pspeed c * z).
Proof.
  intros Hok Hz Hen r p rho sigma P.
  destruct (compute_plan firmware c z start points v Hok Hz) as (r1 & p1 & ra & pa & Dr & Dp & y & l & Hpl & Hrev & Hr & Hp).
  destruct Hok as (HR & Hrs & Hps & Hpv & _). destruct Hpl. destruct (pl_full0 Hen) as (A1 & A2 & A3 & A4 & A5).
  destruct (split_loop_fields v Dr false start (toPoint2LL <$> points) 0 r1) as (F1 & F2 & _ & F4).
  destruct (split_loop_fields v Dp true y l 0 p1) as (G1 & G2 & _ & G4).
  unfold r, p. rewrite Hr, Hp. cbv zeta in *. cbn [shift amount_while_still hop_amount amount_while_travel].
  rewrite F1, F2, F4, G1, G2, G4. fold rho in A2, A3. fold sigma P in A4, A5.
  assert (HP : amount_while_travel p1 == P). { rewrite A1 in pl_P0. apply (Qmult_inj_r _ _ (rdistance c)); [lra|]. rewrite pl_P0. unfold P. ring. }
  rewrite HP. split; [done|]. split; [done|]. split; [done|]. split; [lra|]. split; unfold P in *; lra.
Qed.

(** With too little time, the times wanted shrink alike; what remains to be retracted or primed decides the amounts, such
    that they keep their ratio. *)
Theorem C51_short firmware c z start points v :
  ok_config c -> 0 <= z -> let T := travel_duration start points v in ~ enough firmware c z T ->
  let r := (computeAntiOozeAmounts firmware c z start points v).1 in
  let p := (computeAntiOozeAmounts firmware c z start points v).2 in
  let m := missing firmware c z T in
  let R := rdistance c in let P := R + prime_extra c in
  let retractable := R - m * wanted firmware z R (rspeed c) (retract_ratio c) * rspeed c in
  let primable := P - m * wanted firmware z P (pspeed c) (prime_ratio c) * pspeed c in
  amount_while_travel r == Qmin retractable (primable * R / P)
  /\ hop_amount r - amount_while_still r == Qmin (R * (if firmware then 0 else retract_ratio c)) (rspeed c * z)
  /\ amount_while_travel p == amount_while_travel r
  /\ hop_amount p - amount_while_still p == Qmin (P * (if firmware then 0 else prime_ratio c)) (pspeed c * z).
Proof.
  intros Hok Hz T Hen r p m R P retractable primable.
  destruct (compute_plan firmware c z start points v Hok Hz) as (r1 & p1 & ra & pa & Dr & Dp & y & l & Hpl & Hrev & Hr & Hp).
  destruct Hpl. destruct (pl_short0 Hen) as (A1 & A2 & A3).
  destruct (split_loop_fields v Dr false start (toPoint2LL <$> points) 0 r1) as (F1 & F2 & _ & F4).
  destruct (split_loop_fields v Dp true y l 0 p1) as (G1 & G2 & _ & G4).
  unfold r, p. rewrite Hr, Hp. cbv zeta in *. cbn [shift amount_while_still hop_amount amount_while_travel].
  rewrite F1, F2, F4, G1, G2, G4. fold R in A1, A2, A3. fold P in A1, A3. fold T m in A1. fold retractable primable in A1.
  split; [done|]. split; [done|]. split; [lra|]. lra.
Qed.

(** The moves: every point of the travel is visited once, in order. Up to the time [Dr] material is retracted, at a constant
    rate from the amount of the hop to that of the travel; from [Dp] before the end it is primed, at a constant rate back to
    the amount of the hop; in between, nothing happens. Both rates are the set speeds, except that retracting takes all of
    the time left if that is asked for. The moves are only split where retracting ends and priming starts. *)
Theorem C51_moves firmware c z start points v :
  ok_config c -> 0 <= z -> 0 < v -> points ≠ [] ->
  let r := (computeAntiOozeAmounts firmware c z start points v).1 in
  let p := (computeAntiOozeAmounts firmware c z start points v).2 in
  let T := travel_duration start points v in
  let places := toPoint2LL <$> points in
  0 < amount_while_travel r ->
  exists i j up down Dr Dp y back,
    reverse (start :: places) = y :: back
    /\ (i <= j < length points)%nat /\ length up = i /\ length down = (length points - 1 - j)%nat
    /\ write_travel points r p
       = Ok (with_amounts (take i points) up
             ++ [(toPoint3LL (split_position r), Some (amount_while_travel r))]
             ++ without (take (j - i) (drop i points))
             ++ [(toPoint3LL (split_position p), None)]
             ++ with_amounts (drop j points) (down ++ [hop_amount p]))
    /\ 0 <= Dr /\ 0 <= Dp /\ Dr + Dp <= T
    /\ place_at v start places Dr i (split_position r)
    /\ place_at v y back Dp (length points - 1 - j) (split_position p)
    /\ rising (hop_amount r) up (amount_while_travel r)
    /\ (forall k a, up !! k = Some a ->
          a == hop_amount r + reached v start places k / Dr * (amount_while_travel r - hop_amount r))
    /\ falling (amount_while_travel p) down (hop_amount p)
    /\ (forall k a, reverse down !! k = Some a ->
          a == hop_amount p + reached v y back k / Dp * (amount_while_travel p - hop_amount p))
    /\ Dp * pspeed c == amount_while_travel p - hop_amount p
    /\ (keep_retracting c = false \/ ~ enough firmware c z T -> Dr * rspeed c == amount_while_travel r - hop_amount r)
    /\ (keep_retracting c = true -> hop_amount r < amount_while_travel r -> Dr + Dp == T).
Proof.
  intros Hok Hz Hv Hne r p T places Htr.
  destruct (compute_plan firmware c z start points v Hok Hz) as (r1 & p1 & ra & pa & Dr & Dp & y & l & Hpl & Hrev & Hr & Hp).
  destruct Hpl. fold T in pl_fit0, pl_rspeed0, pl_keep0. fold r in Hr. fold p in Hp. fold places in Hr, Hrev.
  destruct (split_loop_fields v Dr false start places 0 r1) as (F1 & F2 & _ & F4).
  destruct (split_loop_fields v Dp true y l 0 p1) as (G1 & G2 & _ & G4). cbv zeta in *.
  pose proof (rev_stops _ _ _ _ Hrev) as Hll. assert (Hlp : length places = length points) by apply fmap_length.
  assert (Hn1 : places ≠ []). { intros H. apply Hne. apply (f_equal length) in H. rewrite Hlp in H. by destruct points. }
  assert (Hn2 : l ≠ []). { intros ->. simpl in Hll. destruct places; done. }
  pose proof (split_loop_amounts v Dr false start places 0 r1 Hn1) as Ar. pose proof (split_loop_amounts v Dp true y l 0 p1 Hn2) as Ap.
  cbv zeta in Ar, Ap. rewrite pl_nr0 in Ar. rewrite pl_np0 in Ap. cbn [app] in Ar, Ap.
  pose proof (durs_reverse v start places y l Hrev) as Hdr.
  set (ds := durs v start places) in *. set (i := sidx Dr 0 ds) in *. set (j' := sidx Dp 0 (durs v y l)) in *.
  assert (HF : Forall (fun x => 0 <= x) ds) by by apply durs_nonneg.
  assert (HFr : Forall (fun x => 0 <= x) (durs v y l)) by by apply durs_nonneg.
  assert (Hlds : length ds = length points) by (unfold ds; rewrite durs_length; done).
  assert (Hldr : length (durs v y l) = length points) by (rewrite durs_length; lia).
  assert (HTs : T == qsum ds) by by apply travel_duration_eq.
  assert (Hsr : qsum (durs v y l) == qsum ds) by (rewrite Hdr; apply qsum_reverse).
  assert (Hfit : (i + j' < length points)%nat).
  { unfold i, j'. rewrite Hdr, <- Hlds. apply fits; [done| |lra]. intros H. rewrite H in Hlds. by destruct points. }
  set (up := partials Dr 0 (hop_amount r1) (amount_while_travel r1) i ds) in *.
  set (dn := partials Dp 0 (hop_amount p1) (amount_while_travel p1) j' (durs v y l)) in *.
  assert (Hlu : length up = i) by (apply partials_length; lia).
  assert (Hld : length dn = j') by (apply partials_length; lia).
  set (d := amount_while_travel r1 - amount_while_travel p1).
  assert (Er : amount_by_segment r = up ++ [amount_while_travel r]). { rewrite Hr, Ar, F4. done. }
  assert (Et : amount_while_travel r = amount_while_travel r1) by by rewrite Hr, F4.
  assert (Eh : hop_amount r = hop_amount r1) by by rewrite Hr, F2.
  assert (Ep : amount_by_segment p = (fun a => a + d) <$> (hop_amount p1 :: dn)). { rewrite Hp. cbn [shift amount_by_segment]. rewrite Ap, G4. done. }
  assert (Eph : hop_amount p = hop_amount p1 + d). { rewrite Hp. cbn [shift hop_amount]. by rewrite G2, G4. }
  assert (Ept : amount_while_travel p = amount_while_travel p1 + d). { rewrite Hp. cbn [shift amount_while_travel]. by rewrite G4. }
  exists i, (length points - 1 - j')%nat, up, (reverse ((fun a => a + d) <$> dn)), Dr, Dp, y, l.
  split; [done|]. split; [lia|]. split; [done|]. split; [rewrite reverse_length, fmap_length; lia|].
  assert (Lr : length (amount_by_segment r) = S i) by (rewrite Er, app_length, Hlu; simpl; lia).
  assert (Lp : length (amount_by_segment p) = S j') by (rewrite Ep, fmap_length; simpl; lia).
  split.
  { unfold write_travel. destruct (Qle_bool (amount_while_travel r) 0) eqn:E; [apply Qle_bool_iff in E; lra|].
    rewrite (write_retracting_from points r p (length points) 0) by lia. rewrite Lr, Lp.
    assert (Hl : last (amount_by_segment r) = Some (amount_while_travel r)) by (rewrite Er; apply last_snoc).
    rewrite Hl. cbn [default from_option id]. rewrite !drop_0. replace (S i - 1 - 0)%nat with i by lia. replace (S i - 1)%nat with i by lia.
    replace (length points - S j')%nat with (length points - 1 - j')%nat by lia.
    assert (Ht : take i (amount_by_segment r) = up) by (rewrite Er; by apply take_app_alt). rewrite Ht.
    assert (Hrv : reverse (amount_by_segment p) = reverse ((fun a => a + d) <$> dn) ++ [hop_amount p]).
    { rewrite Ep. cbn [fmap list_fmap]. rewrite reverse_cons, Eph. done. }
    rewrite Hrv. done. }
  split; [done|]. split; [done|]. split; [done|].
  split. { rewrite Hr. apply split_place; try done. fold ds. lra. }
  split. { replace (length points - 1 - (length points - 1 - j'))%nat with j' by lia. rewrite Hp. cbn [shift split_position].
           apply split_place; try done. lra. }
  assert (Hrise : forall D hop tr m xs, Forall (fun x => 0 <= x) xs -> 0 <= D -> hop <= tr -> m = sidx D 0 xs -> rising hop (partials D 0 hop tr m xs) tr).
  { intros D hop tr m xs HFx HD Hht Hm. destruct m as [|m].
    - by destruct xs.
    - assert (HDp : 0 < D). { pose proof (sidx_before D 0 xs 0 ltac:(lra) HFx ltac:(lia)) as Hb. unfold tol in Hb.
        assert (0 <= qsum (take 1 xs)) by (apply qsum_nonneg; by apply Forall_take). lra. }
      apply (rising_le (hop + 0 / D * (tr - hop))).
      { setoid_replace (0 / D) with 0 by (unfold Qdiv; ring). lra. }
      apply partials_rise; [lra|lra|lra|lra|done|]. intros k Hk. pose proof (sidx_before D 0 xs k ltac:(lra) HFx ltac:(lia)) as Hb. unfold tol in Hb. lra. }
  split. { rewrite Et, Eh. apply Hrise; try done. lra. }
  split. { intros k a Hk. rewrite Et, Eh. apply partials_at in Hk. rewrite Hk. unfold reached. fold ds. rewrite Qplus_0_l. reflexivity. }
  split. { rewrite Eph, Ept, <- fmap_reverse. apply falling_map, rising_reverse. apply Hrise; try done. lra. }
  split. { intros k a Hk. rewrite reverse_involutive in Hk. apply list_lookup_fmap_Some in Hk as (x & Hk & ->).
           apply partials_at in Hk. rewrite Hk, Eph, Ept. unfold reached. rewrite Qplus_0_l. ring. }
  split; [rewrite Ept, Eph; lra|].
  split. { intros H. rewrite (pl_rspeed0 H), Et, Eh, pl_tr0. ring. }
  intros Hk Hlt. apply pl_keep0; [done|]. rewrite Et, Eh in Hlt. lra.
Qed.

(** Without anything to retract, the points are visited one by one. *)
Theorem C51_plain points r p : amount_while_travel r <= 0 -> write_travel points r p = Ok (without points).
Proof.
  intros H. unfold write_travel. apply Qle_bool_iff in H. rewrite H.
  assert (Hk : forall k i, (i + k = length points)%nat -> write_segments points r p TNone (seq i k) = Ok (without (drop i points))).
  { induction k as [|k IH]; intros i Hi; cbn [seq write_segments].
    - rewrite drop_ge by lia. done.
    - destruct (lookup_lt_is_Some_2 points i) as [pt Hpt]; [lia|]. cbn [writeTravelSegment]. rewrite Hpt. cbn [of_opt rbind fst snd].
      rewrite IH by lia. cbn [rbind]. by rewrite (drop_S points pt i Hpt). }
  rewrite Hk by lia. by rewrite drop_0.
Qed.

(** ** What does not hold *)
Definition corner (z : Z) : list pt3 := [P3 10000 0 z; P3 10000 10000 z].

(** The move may be split beyond the end of its segment: here retracting takes half a millisecond longer than the first of
    two segments, and the nozzle goes 50 micrometres past the corner. *)
Theorem C51_overshoot_refuted : exists c, ok_config c /\
  let r := (computeAntiOozeAmounts false c 0 (0%Z, 0%Z) (corner 0) 100).1 in
  let p := (computeAntiOozeAmounts false c 0 (0%Z, 0%Z) (corner 0) 100).2 in
  split_position r = (10050, 0)%Z
  /\ exists a q b, write_travel (corner 0) r p
       = Ok [(P3 10050 0 0, Some a); (P3 10000 0 0, None); (P3 10000 10000 0, q); (P3 10000 10000 0, Some b)].
Proof.
  exists (RC (1005 # 1000) 10 10 0 1 0 false). split; [unfold ok_config; cbn; lra|]. cbv zeta. split; [vm_compute; done|].
  eexists _, _, _. vm_compute. reflexivity.
Qed.

(** The moves to where retracting ends and priming starts forget the height of the travel. *)
Theorem C51_height_refuted : exists c, ok_config c /\
  let r := (computeAntiOozeAmounts false c 0 (0%Z, 0%Z) (corner 500) 100).1 in
  let p := (computeAntiOozeAmounts false c 0 (0%Z, 0%Z) (corner 500) 100).2 in
  exists ms, write_travel (corner 500) r p = Ok ms /\ z3 <$> (fst <$> ms) = [0; 500; 0; 500]%Z.
Proof.
  exists (RC (1 # 2) 10 10 0 1 1 false). split; [unfold ok_config; cbn; lra|]. cbv zeta. eexists. split; vm_compute; reflexivity.
Qed.

(** With too little time, the amount which is to be retracted while standing still may become negative: the nozzle is primed
    before it starts to travel. *)
Theorem C51_still_refuted : exists c, ok_config c /\
  amount_while_still (computeAntiOozeAmounts false c (1 # 10) (0%Z, 0%Z) [P3 45000 0 0] 100).1 == - (9 # 2).
Proof.
  exists (RC 10 100 10 0 1 1 false). split; [unfold ok_config; cbn; lra|]. vm_compute. reflexivity.
Qed.

(** ** An example: half of 2 mm is retracted while travelling, during the first second, and primed during the last two; the
    travel is 4 s long and has three segments, of 0.5, 2.5 and 1 seconds. *)
Definition ex_c : rconfig := RC 2 1 1 1 (1 # 2) (2 # 3) false.
Definition ex_pts : list pt3 := [P3 5000 0 0; P3 30000 0 0; P3 40000 0 0].
Example C51_example :
  ok_config ex_c /\ 0 < amount_while_travel (computeAntiOozeAmounts false ex_c 0 (0%Z, 0%Z) ex_pts 10).1
  /\ enough false ex_c 0 (travel_duration (0%Z, 0%Z) ex_pts 10)
  /\ ~ enough false ex_c 0 (travel_duration (0%Z, 0%Z) (corner 0) 10)
  /\ exists ms, write_travel ex_pts (computeAntiOozeAmounts false ex_c 0 (0%Z, 0%Z) ex_pts 10).1
                  (computeAntiOozeAmounts false ex_c 0 (0%Z, 0%Z) ex_pts 10).2 = Ok ms
     /\ map (fun m : tmove => (m.1, option_map Qred m.2)) ms
        = [(P3 5000 0 0, Some (3 # 2)); (P3 10000 0 0, Some 2); (P3 20000 0 0, None); (P3 30000 0 0, Some 1); (P3 40000 0 0, Some 0)].
Proof.
  split; [unfold ok_config; cbn; lra|]. split; [vm_compute; done|]. split; [vm_compute; done|]. split.
  { unfold enough. vm_compute. intros H. by apply H. }
  eexists. split; vm_compute; reflexivity.
Qed.

Print Assumptions C51_ratio.
Print Assumptions C51_amounts.
Print Assumptions C51_full.
Print Assumptions C51_short.
Print Assumptions C51_moves.
Print Assumptions C51_plain.
Print Assumptions C51_overshoot_refuted.
Print Assumptions C51_height_refuted.
Print Assumptions C51_still_refuted.
