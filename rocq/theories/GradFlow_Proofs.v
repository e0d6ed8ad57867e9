(** Lemmas for C38. *)
From Coq Require Import ZArith QArith Qabs Qround Qminmax Lia Lqa.
From stdpp Require Import list relations.
From Verif Require Import Common GCode_Model Wall_Model GradFlow_Model GradFlow_Spec.
Open Scope Q_scope.

Lemma Qltb_true a b : Qltb a b = true <-> a < b.
Proof.
  unfold Qltb. rewrite negb_true_iff. split.
  - intros H. apply Qnot_le_lt. intros H'. apply Qle_bool_iff in H'. congruence.
  - intros H. destruct (Qle_bool b a) eqn:E; [|done]. apply Qle_bool_iff in E. lra.
Qed.
Lemma Qltb_false a b : Qltb a b = false <-> b <= a.
Proof. unfold Qltb. by rewrite negb_false_iff, Qle_bool_iff. Qed.
Lemma Qle_bool_false a b : Qle_bool a b = false <-> b < a.
Proof. rewrite <- (Qltb_true b a). unfold Qltb. by rewrite negb_true_iff. Qed.
Lemma Qdiv_pos a b : 0 < b -> 0 < a -> 0 < a / b.
Proof. intros. apply Qlt_shift_div_l; lra. Qed.
Lemma Qdiv_nonneg a b : 0 < b -> 0 <= a -> 0 <= a / b.
Proof. intros. apply Qle_shift_div_l; lra. Qed.

(** *** refinement *)
Lemma inserted_app_l l old new : inserted old new -> inserted (l ++ old) (l ++ new).
Proof. intros (l0 & a & x & b & r & -> & -> & H). exists (l ++ l0), a, x, b, r. by rewrite <- !app_assoc. Qed.
Lemma inserted_app_r r old new : inserted old new -> inserted (old ++ r) (new ++ r).
Proof. intros (l0 & a & x & b & r0 & -> & -> & H). exists l0, a, x, b, (r0 ++ r). by rewrite <- !app_assoc. Qed.
Lemma refined_trans a b c : refined a b -> refined b c -> refined a c.
Proof. apply rtc_transitive. Qed.
Lemma refined_app_l l old new : refined old new -> refined (l ++ old) (l ++ new).
Proof. induction 1 as [|a b c H1 H2 IH]; [apply rtc_refl|]. eapply rtc_l; [by apply inserted_app_l|done]. Qed.
Lemma refined_app_r r old new : refined old new -> refined (old ++ r) (new ++ r).
Proof. induction 1 as [|a b c H1 H2 IH]; [apply rtc_refl|]. eapply rtc_l; [by apply inserted_app_r|done]. Qed.
Lemma refined_ends old new : refined old new -> head new = head old /\ last new = last old.
Proof.
  induction 1 as [|u v w H1 H2 [IH1 IH2]]; [done|]. destruct H1 as (l & a & x & b & r & -> & -> & _). rewrite IH1, IH2. split.
  - by destruct l.
  - rewrite !last_app. by rewrite !last_cons_cons.
Qed.
Lemma refined_head x r new : refined (x :: r) new -> exists r', new = x :: r'.
Proof. intros H. apply refined_ends in H as [H _]. destruct new as [|y r']; [done|]. injection H as ->. eauto. Qed.
Lemma refined_nonnil old new : refined old new -> old <> [] -> new <> [].
Proof. intros H Ho ->. apply refined_ends in H as [H _]. by destruct old. Qed.

Lemma linked_nonnil ps r : linked ps r -> r <> [] /\ ps <> [].
Proof. destruct 1 as [p Hp|p x ps r H1 H2]; [done|]. split; [|done]. destruct p; [done|]. done. Qed.
Lemma last_split {A} (l : list A) x : last l = Some x -> exists l', l = l' ++ [x].
Proof. intros H. apply last_Some in H. done. Qed.
Lemma linked_app ps1 : forall l x ps2 r,
  linked ps1 (l ++ [x]) -> linked ps2 (x :: r) -> linked (ps1 ++ ps2) (l ++ x :: r).
Proof.
  intros l x ps2 r H1 H2. remember (l ++ [x]) as u eqn:Eu. revert l Eu.
  induction H1 as [p Hp|p y ps s Hp H1 IH]; intros l Eu.
  - subst p. simpl. replace (l ++ x :: r) with ((l ++ [x]) ++ r) by (by rewrite <- app_assoc).
    apply (linked_cons _ x); [by rewrite last_snoc|done].
  - apply last_split in Hp as Hp'. destruct Hp' as [p' ->]. 
    assert (Hs : exists s', (y :: s) = s' ++ [x] /\ l = p' ++ s').
    { rewrite <- app_assoc in Eu. simpl in Eu. destruct s as [|s0 s] using rev_ind.
      - exists []. apply app_inj_tail in Eu as [-> ->]. by rewrite app_nil_r.
      - exists (y :: s). rewrite app_comm_cons, app_assoc in Eu. apply app_inj_tail in Eu as [<- ->]. done. }
    destruct Hs as (s' & Es & ->). specialize (IH s' Es). simpl.
    destruct s' as [|y' s'].
    + injection Es as -> ->. simpl in *. rewrite app_nil_r.
      replace (p' ++ x :: r) with ((p' ++ [x]) ++ r) by (by rewrite <- app_assoc). by apply (linked_cons _ x).
    + injection Es as <- ->. replace ((p' ++ y :: s') ++ x :: r) with ((p' ++ [y]) ++ s' ++ x :: r) by (by rewrite <- !app_assoc).
      by apply (linked_cons _ y).
Qed.

(** the parts [ps] together are a refinement of [r] *)
Definition cuts (r : list pt3) (ps : list (list pt3)) : Prop := exists r', linked ps r' /\ refined r r'.

Lemma cuts_one r : r <> [] -> cuts r [r].
Proof. intros H. exists r. split; [by constructor|apply rtc_refl]. Qed.
Lemma cuts_app l x r ps1 ps2 : cuts (l ++ [x]) ps1 -> cuts (x :: r) ps2 -> cuts (l ++ x :: r) (ps1 ++ ps2).
Proof.
  intros (r1 & L1 & R1) (r2 & L2 & R2). destruct (refined_head _ _ _ R2) as [r2' ->].
  pose proof (refined_ends _ _ R1) as [_ Hlast]. rewrite last_snoc in Hlast. apply last_split in Hlast as [l' ->].
  exists (l' ++ x :: r2'). split; [by eapply linked_app|].
  replace (l ++ x :: r) with ((l ++ [x]) ++ r) by (by rewrite <- app_assoc).
  eapply refined_trans; [by apply (refined_app_r r)|]. rewrite <- app_assoc. simpl. by apply refined_app_l.
Qed.
Lemma cuts_refined r r' ps : refined r r' -> cuts r' ps -> cuts r ps.
Proof. intros H (r2 & L & R). exists r2. split; [done|]. by eapply refined_trans. Qed.
Lemma cuts_trans ps r gss : linked ps r -> Forall2 cuts ps gss -> cuts r (concat gss).
Proof.
  intros L. revert gss. induction L as [p Hp|p x ps r Hx L IH]; intros gss H.
  - apply Forall2_cons_inv_l in H as (gs & gss' & Hc & Hn & ->). apply Forall2_nil_inv_l in Hn as ->. simpl. by rewrite app_nil_r.
  - apply Forall2_cons_inv_l in H as (gs & gss' & Hc & Hn & ->). simpl. apply last_split in Hx as [l ->].
    rewrite <- app_assoc. simpl. apply cuts_app; [done|]. by apply IH.
Qed.

(** *** the partition point *)
Lemma qtrunc_bounds q : (0 <= q -> (0 <= qtrunc q)%Z /\ inject_Z (qtrunc q) <= q < inject_Z (qtrunc q) + 1) /\
  (q <= 0 -> (qtrunc q <= 0)%Z /\ inject_Z (qtrunc q) - 1 < q <= inject_Z (qtrunc q)).
Proof.
  unfold qtrunc. destruct (Qle_bool 0 q) eqn:E.
  - apply Qle_bool_iff in E. pose proof (Qfloor_le q) as H1. pose proof (Qlt_floor q) as H2.
    rewrite inject_Z_plus in H2. change (inject_Z 1) with 1 in H2.
    assert (H0 : (0 <= Qfloor q)%Z). { apply (Qfloor_resp_le 0 q) in E. done. }
    split; [done|]. intros Hq. assert (Eq : q == 0) by lra. rewrite (Qfloor_comp _ _ Eq). change (Qfloor 0) with 0%Z. 
    change (inject_Z 0) with 0. split; [done|]. lra.
  - apply Qle_bool_false in E. pose proof (Qfloor_le (- q)) as H1. pose proof (Qlt_floor (- q)) as H2.
    rewrite inject_Z_plus in H2. change (inject_Z 1) with 1 in H2. 
    assert (H0 : (0 <= Qfloor (- q))%Z). { assert (Hq : 0 <= - q) by lra. apply (Qfloor_resp_le 0 (-q)) in Hq. done. }
    split; [lra|]. intros _. rewrite inject_Z_opp. split; [lia|]. lra.
Qed.

Lemma partition_coord_between a b t : 0 <= t <= 1 -> coord_between t a b (partition_coord a b t).
Proof.
  intros Ht. unfold coord_between, partition_coord. set (q := inject_Z (b - a) * t).
  pose proof (qtrunc_bounds q) as [Hp Hn]. assert (Hab : inject_Z (b - a) == inject_Z b - inject_Z a).
  { unfold Zminus. rewrite inject_Z_plus, inject_Z_opp. ring. }
  rewrite inject_Z_plus. destruct (Z.le_ge_cases a b) as [Hle|Hle].
  - assert (Hd : 0 <= inject_Z (b - a)) by (change 0 with (inject_Z 0); rewrite <- Zle_Qle; lia).
    assert (Hq : 0 <= q <= inject_Z (b - a)) by (unfold q; nra). destruct Hq as [Hq Hq2]. destruct (Hp Hq) as (H0 & H1 & H2).
    assert (Hle2 : (qtrunc q <= b - a)%Z). { rewrite Zle_Qle. lra. }
    split; [lia|]. apply Qabs_Qlt_condition. unfold q in *. lra.
  - assert (Hd : inject_Z (b - a) <= 0) by (change 0 with (inject_Z 0); rewrite <- Zle_Qle; lia).
    assert (Hq : inject_Z (b - a) <= q <= 0) by (unfold q; nra). destruct Hq as [Hq Hq2]. destruct (Hn Hq2) as (H0 & H1 & H2).
    assert (Hle2 : (b - a <= qtrunc q)%Z). { rewrite Zle_Qle. lra. }
    split; [lia|]. apply Qabs_Qlt_condition. unfold q in *. lra.
Qed.
Lemma partition_at_between a b t : 0 <= t <= 1 -> between a b (partition_at a b t).
Proof. intros Ht. exists t. split; [done|]. split_and!; by apply partition_coord_between. Qed.
Lemma coord_between_sym t a b x : coord_between t a b x -> coord_between (1 - t) b a x.
Proof.
  intros [H1 H2]. split; [lia|]. apply Qabs_Qlt_condition in H2. apply Qabs_Qlt_condition.
  unfold Zminus in *. rewrite inject_Z_plus, inject_Z_opp in *. 
  assert (inject_Z x - (inject_Z b + (1 - t) * (inject_Z a + - inject_Z b)) == inject_Z x - (inject_Z a + t * (inject_Z b + - inject_Z a))) as -> by ring.
  done.
Qed.
Lemma between_sym a b x : between a b x -> between b a x.
Proof. intros (t & Ht & H1 & H2 & H3). exists (1 - t). split; [lra|]. split_and!; by apply coord_between_sym. Qed.

Section partition.
  Variable hypot : Z -> Z -> Q.
  Hypothesis Hhyp : forall x y, 0 <= hypot x y.

  Lemma scan_ok dur spd rest : forall prev cur k0,
    0 < spd -> cur < dur -> dur < cur + path_length hypot prev rest / spd ->
    exists j pp a b, scan hypot dur spd prev rest cur k0 = Ok ((k0 + j)%nat, pp) /\
      (prev :: rest) !! j = Some a /\ (prev :: rest) !! S j = Some b /\ between a b pp.
  Proof.
    induction rest as [|next rest IH]; intros prev cur k0 Hs Hc Hd; cbn [scan path_length] in *.
    { exfalso. assert (0 / spd == 0) as E by (unfold Qdiv; ring). rewrite E in Hd. lra. }
    set (seg := segment_length hypot prev next) in *. assert (Hseg : 0 <= seg) by apply Hhyp.
    assert (Hsum : (seg + path_length hypot next rest) / spd == seg / spd + path_length hypot next rest / spd) by (field; lra).
    rewrite Hsum in Hd. destruct (Qltb (cur + seg / spd) dur) eqn:E.
    - apply Qltb_true in E. destruct (IH next (cur + seg / spd) (S k0) Hs E) as (j & pp & a & b & Hr & Ha & Hb & Hbt); [lra|].
      exists (S j), pp, a, b. rewrite Hr. split; [f_equal; f_equal; lia|]. done.
    - apply Qltb_false in E. exists 0%nat. eexists _, prev, next. split; [by rewrite Nat.add_0_r|]. split; [done|]. split; [done|].
      apply partition_at_between. set (sd := seg / spd) in *. assert (0 < sd) by lra. split.
      + apply Qdiv_nonneg; lra.
      + apply Qle_shift_div_r; lra.
  Qed.

  Lemma path_length_nonneg l : forall p, 0 <= path_length hypot p l.
  Proof. induction l as [|x l IH]; intros p; cbn [path_length]; [lra|]. specialize (IH x). pose proof (Hhyp (x3 x - x3 p) (y3 x - y3 p)). unfold segment_length. lra. Qed.
  Lemma path_length_snoc l : forall p a b, last (p :: l) = Some a ->
    path_length hypot p (l ++ [b]) == path_length hypot p l + segment_length hypot a b.
  Proof.
    induction l as [|x l IH]; intros p a b Hl; cbn [app path_length].
    - injection Hl as ->. ring.
    - rewrite last_cons_cons in Hl. rewrite (IH x a b Hl). ring.
  Qed.

  Hypothesis Heven : forall x y, hypot (- x) (- y) == hypot x y.
  Lemma segment_length_sym a b : segment_length hypot a b == segment_length hypot b a.
  Proof.
    unfold segment_length. rewrite <- (Heven (x3 a - x3 b)). 
    by replace (- (x3 a - x3 b))%Z with (x3 b - x3 a)%Z by lia; replace (- (y3 a - y3 b))%Z with (y3 b - y3 a)%Z by lia.
  Qed.
  Lemma totalLength_reverse l : totalLength hypot (reverse l) == totalLength hypot l.
  Proof.
    induction l as [|p l IH]; [done|]. rewrite reverse_cons. destruct l as [|q l]; [done|].
    destruct (reverse (q :: l)) as [|z m] eqn:Er. { apply (f_equal length) in Er. rewrite reverse_length in Er. done. }
    cbn [app totalLength]. rewrite (path_length_snoc m z q p).
    - cbn [path_length]. rewrite segment_length_sym. cbn [totalLength] in IH. rewrite IH. ring.
    - rewrite <- Er, last_reverse. done.
  Qed.

  (** what a partition gives *)
  Lemma partition_ok p dur spd (forward : bool) : points p <> [] -> 0 < dur -> 0 < spd ->
    (exists d, partition hypot p dur spd forward = Ok (make (orig p) (points p) spd, None, d) /\ 0 <= d) \/
    (exists l x r, l <> [] /\ r <> [] /\ refined (points p) (l ++ x :: r) /\
       partition hypot p dur spd forward =
         Ok (make (orig p) (if forward then l ++ [x] else x :: r) spd,
             Some (make (orig p) (if forward then x :: r else l ++ [x]) (speed p)), 0)).
  Proof.
    intros Hne Hd Hs. unfold partition. cbv zeta. destruct (Qle_bool _ _) eqn:E.
    { left. eexists. split; [done|]. apply Qle_bool_iff in E. lra. }
    right. apply Qle_bool_false in E. destruct forward.
    - destruct (points p) as [|first rest] eqn:Ep; [done|].
      destruct (scan_ok dur spd rest first 0 0 Hs Hd) as (j & pp & a & b & Hr & Ha & Hb & Hbt).
      { cbn [totalLength] in E. lra. }
      rewrite Hr. simpl rbind. 
      exists (take (j + 1) (first :: rest)), pp, (drop (j + 1) (first :: rest)).
      assert (Ed : drop (j + 1) (first :: rest) = b :: drop (S (S j)) (first :: rest)).
      { replace (j + 1)%nat with (S j) by lia. by apply drop_S. }
      assert (Et : take (j + 1) (first :: rest) = take j (first :: rest) ++ [a]).
      { replace (j + 1)%nat with (S j) by lia. by apply take_S_r. }
      split. { rewrite Et. by destruct (take j (first :: rest)). }
      split. { by rewrite Ed. }
      split; [|done]. apply rtc_once. rewrite <- (take_drop (j + 1) (first :: rest)) at 1. rewrite Ed, Et.
      exists (take j (first :: rest)), a, pp, b, (drop (S (S j)) (first :: rest)). by rewrite <- !app_assoc.
    - destruct (reverse (points p)) as [|first rest] eqn:Ep.
      { apply (f_equal length) in Ep. rewrite reverse_length in Ep. by destruct (points p). }
      destruct (scan_ok dur spd rest first 0 0 Hs Hd) as (j & pp & a & b & Hr & Ha & Hb & Hbt).
      { rewrite <- (totalLength_reverse (points p)), Ep in E. cbn [totalLength] in E. lra. }
      rewrite Hr. simpl rbind. cbn [fst snd].
      set (n := length (points p)). assert (En : length (first :: rest) = n) by (by rewrite <- Ep, reverse_length).
      assert (Hj : (S j < n)%nat). { rewrite <- En. by eapply lookup_lt_Some. }
      rewrite <- Ep in Ha, Hb. 
      assert (Ha' : points p !! (n - 1 - j)%nat = Some a).
      { rewrite reverse_lookup in Ha by (unfold n in Hj; lia). rewrite <- Ha. f_equal. unfold n. lia. }
      assert (Hb' : points p !! (n - 2 - j)%nat = Some b).
      { rewrite reverse_lookup in Hb by (unfold n in Hj; lia). rewrite <- Hb. f_equal. unfold n. lia. }
      clearbody n. set (i := (pred n - j)%nat). replace (n - 1 - j)%nat with i in Ha' by lia. 
      assert (Hi : (n - 2 - j)%nat = pred i) by lia. rewrite Hi in Hb'. assert (0 < i)%nat by lia. clearbody i.
      destruct i as [|i]; [lia|]. simpl pred in *.
      assert (Ed : drop (S i) (points p) = a :: drop (S (S i)) (points p)) by (by apply drop_S).
      assert (Et : take (S i) (points p) = take i (points p) ++ [b]) by (by apply take_S_r).
      exists (take (S i) (points p)), pp, (drop (S i) (points p)).
      split. { rewrite Et. by destruct (take i (points p)). }
      split. { by rewrite Ed. }
      split; [|done]. apply rtc_once. rewrite <- (take_drop (S i) (points p)) at 1. rewrite Ed, Et.
      exists (take i (points p)), b, pp, a, (drop (S (S i)) (points p)). rewrite <- !app_assoc. split; [done|]. split; [done|]. by apply between_sym.
  Qed.
End partition.

(** *** paths and their parts *)
Definition valid (p : fpath) : Prop :=
  points p <> [] /\ 0 <= g_volume (orig p) /\ 0 < speed p /\ flow p == g_volume (orig p) * speed p /\ 0 < targetSpeed (orig p).
Definition piece (p q : fpath) : Prop :=
  orig q = orig p /\ 0 < speed q /\ speed q <= speed p /\ flow q == g_volume (orig p) * speed q.
Lemma extrudes_true p : extrudes p = true <-> 0 < flow p.
Proof. unfold extrudes. destruct (Qlt_le_dec 0 (flow p)); split; try done. lra. Qed.
Lemma extrudes_false p : extrudes p = false <-> flow p <= 0.
Proof. unfold extrudes. destruct (Qlt_le_dec 0 (flow p)); split; try done. lra. Qed.
Lemma isTravel_extrudes p : valid p -> isTravel p = negb (extrudes p).
Proof.
  intros (_ & Hv & Hs & Hf & Ht). unfold isTravel, targetFlow. destruct (extrudes p) eqn:E; simpl.
  - apply extrudes_true in E. apply Qle_bool_false. rewrite Hf in E. assert (0 < g_volume (orig p)) by nra. nra.
  - apply extrudes_false in E. apply Qle_bool_iff. rewrite Hf in E. assert (g_volume (orig p) == 0) as -> by nra. lra.
Qed.
Lemma linked_parts_nonnil ps r : linked ps r -> Forall (fun p => p <> []) ps.
Proof.
  induction 1 as [p Hp|p x ps r Hx L IH]; [by repeat constructor|]. constructor; [|done]. by intros ->.
Qed.
Lemma piece_valid p q : valid p -> piece p q -> points q <> [] -> valid q.
Proof. intros (_ & Hv & Hs & Hf & Ht) (Ho & Hs' & Hl & Hf') Hp. unfold valid. rewrite Ho. done. Qed.
Lemma piece_refl p : valid p -> piece p p.
Proof. intros (Hp & Hv & Hs & Hf & Ht). unfold piece. split; [done|]. split; [done|]. split; [lra|done]. Qed.
Lemma piece_trans p q r : piece p q -> piece q r -> piece p r.
Proof.
  intros (Ho & Hs & Hl & Hf) (Ho' & Hs' & Hl' & Hf'). unfold piece. rewrite <- Ho. split; [done|]. split; [done|]. split; [lra|done].
Qed.

(** flows that rise from [c] to [c'] in steps of at most [d] *)
Fixpoint climb (d c : Q) (ps : list fpath) (c' : Q) : Prop :=
  match ps with
  | [] => c == c'
  | p :: ps' => 0 < flow p /\ c <= flow p /\ flow p <= c + d /\ climb d (flow p) ps' c'
  end.
Lemma climb_proper d ps : forall c1 c2 c', c1 == c2 -> climb d c1 ps c' -> climb d c2 ps c'.
Proof. destruct ps as [|p ps]; intros c1 c2 c' E; simpl; [by rewrite E|]. rewrite E. done. Qed.

Section passes.
  Variable hypot : Z -> Z -> Q.
  Hypothesis Hhyp : forall x y, 0 <= hypot x y.
  Hypothesis Heven : forall x y, hypot (- x) (- y) == hypot x y.
  Variable P : params.
  Hypothesis Hstep : 0 < discretized_duration P.
  Definition delta (forward : bool) : Q := (if forward then flow_acceleration P else flow_deceleration P) * discretized_duration P.
  Hypothesis Hdelta : forall forward, 0 < delta forward.
  Definition ordered (forward : bool) (l : list fpath) : list fpath := if forward then l else reverse l.
  Definition stable (st : gstate) : Prop := 0 <= current_flow st /\ (0 < duration_remaining st -> 0 < current_flow st).

  Lemma cuts_split (forward : bool) pts l x r (new : list fpath) q :
    l <> [] -> r <> [] -> refined pts (l ++ x :: r) -> points q = (if forward then l ++ [x] else x :: r) ->
    cuts (if forward then x :: r else l ++ [x]) (map points (ordered forward new)) ->
    cuts pts (map points (ordered forward (q :: new))).
  Proof.
    intros Hl Hr Href Hq Hc. eapply cuts_refined; [done|]. destruct forward; simpl in *.
    - rewrite Hq. apply (cuts_app l x r [l ++ [x]]); [|done]. apply cuts_one. by destruct l.
    - rewrite reverse_cons, map_app. simpl. rewrite Hq. apply cuts_app; [done|]. by apply cuts_one.
  Qed.

  Lemma ramp_ok (forward : bool) p target vol : valid p -> target = flow p -> vol = g_volume (orig p) -> 
    forall fuel rp done st,
    piece p rp -> speed rp = speed p -> points rp <> [] ->
    0 <= current_flow st -> current_flow st < target -> target - current_flow st <= inject_Z (Z.of_nat fuel) * delta forward ->
    exists new st', ramp hypot P fuel forward target vol rp done st = Ok (done ++ new, st') /\
      new <> [] /\ Forall (piece p) new /\ cuts (points rp) (map points (ordered forward new)) /\
      climb (delta forward) (current_flow st) new (current_flow st') /\ fstate st' <> UNDEFINED /\ 0 < current_flow st'.
  Proof.
    intros (Hpp & Hv & Hs & Hf & Ht) -> Evol. 
    assert (Hfuel0 : forall c, c < flow p -> flow p - c <= inject_Z (Z.of_nat 0) * delta forward -> False).
    { intros c H1 H2. change (inject_Z (Z.of_nat 0)) with 0 in H2. lra. }
    induction fuel as [|fuel IH]; intros rp done st Hrp Hsp Hpts H0 Hlt Hfuel; [by destruct (Hfuel0 (current_flow st))|].
    assert (Hfp : 0 < flow p) by lra. assert (Hvol : 0 < vol) by (rewrite Evol; nra).
    cbn [ramp]. rewrite (proj2 (Qltb_true _ _) Hlt). fold (delta forward). set (d := delta forward) in *.
    pose proof (Hdelta forward) as Hd. fold d in Hd.
    set (cur := Qmin (flow p) (current_flow st + d)).
    assert (Hc1 : current_flow st < cur). { unfold cur. apply Q.min_glb_lt; lra. }
    assert (Hc2 : cur <= flow p) by apply Q.le_min_l. assert (Hc3 : cur <= current_flow st + d) by apply Q.le_min_r.
    assert (Hsp1 : 0 < cur / vol) by (apply Qdiv_pos; lra).
    assert (Hsp2 : vol * (cur / vol) == cur) by (field; lra).
    assert (Hsp3 : cur / vol <= speed p). { apply Qle_shift_div_r; [done|]. rewrite Qmult_comm, Evol, <- Hf. done. }
    cbv zeta. destruct (Qeq_bool cur (flow p)) eqn:E.
    - apply Qeq_bool_iff in E. eexists [_], _. split; [done|]. split; [done|]. 
      destruct Hrp as (Ho & Hs' & Hl & Hf').
      assert (Hfrp : flow rp == cur) by (rewrite Hf', E, Hf, Hsp; done).
      split. { constructor; [|done]. unfold piece. cbn [orig speed flow points]. split; [done|]. split; [done|]. split; [done|].
        rewrite <- Evol, Hsp2. done. }
      split. { destruct forward; simpl; by apply cuts_one. }
      split. { cbn [climb flow current_flow]. split; [lra|]. split; [lra|]. split; [lra|]. done. }
      split; [|cbn [current_flow]; lra]. cbn [fstate]. unfold state_of. by destruct (Qltb _ _).
    - assert (Hne : ~ cur == flow p). { intros H. apply Qeq_bool_iff in H. congruence. }
      assert (Hcur : cur == current_flow st + d). 
      { unfold cur. destruct (Q.min_spec (flow p) (current_flow st + d)) as [[_ H]|[_ H]]; [|done]. by destruct Hne. }
      assert (Hpiece : forall pts, piece p (make (orig rp) pts (cur / vol))).
      { intros pts. destruct Hrp as (Ho & Hs' & Hl & Hf'). unfold piece, make. cbn [orig speed flow points]. rewrite Ho. done. }
      assert (Hflow : forall pts, flow (make (orig rp) pts (cur / vol)) == cur).
      { intros pts. destruct Hrp as (Ho & _). unfold make. cbn [flow]. rewrite Ho, <- Evol. done. }
      destruct (partition_ok hypot Hhyp Heven rp (discretized_duration P) (cur / vol) forward Hpts Hstep Hsp1)
        as [(dd & Hr & Hdd)|(l & x & r & Hl & Hr' & Href & Hr)]; rewrite Hr; cbn [rbind fst snd].
      + eexists [_], _. split; [done|]. split; [done|]. split; [by constructor|].
        split. { destruct forward; simpl; by apply cuts_one. }
        cbn [climb current_flow fstate]. rewrite Hflow. split; [|split; [done|lra]]. split; [lra|]. split; [lra|]. split; [lra|]. done.
      + match goal with |- context [ramp hypot P fuel forward _ _ ?rp' ?dn ?st'] => 
          destruct (IH rp' dn st') as (new & st2 & Hres & Hn & Hall & Hcut & Hcl & Hfs & Hc0) end.
        { destruct Hrp as (Ho & Hs' & Hl' & Hf'). unfold piece, make. cbn [orig speed flow points]. rewrite Ho, Hsp. split; [done|]. split; [done|]. split; [lra|done]. }
        { unfold make. cbn [speed]. done. }
        { cbn [points make]. destruct forward; [done|]. by destruct l. }
        { cbn [current_flow]. lra. }
        { cbn [current_flow]. assert (cur < flow p \/ cur == flow p) as [?|?]; [|done|done]. apply Qle_lteq in Hc2. done. }
        { cbn [current_flow]. rewrite Hcur. rewrite Nat2Z.inj_succ, <- Z.add_1_r, inject_Z_plus in Hfuel. change (inject_Z 1) with 1 in Hfuel. lra. }
        rewrite Hres. eexists (_ :: new), st2. rewrite <- app_assoc. split; [done|]. split; [done|].
        split; [by constructor|]. split; [eapply cuts_split; [exact Hl|exact Hr'|exact Href|done|done]|].
        cbn [climb]. split; [|done]. cbn [current_flow] in Hcl. 
        specialize (Hflow (if forward then l ++ [x] else x :: r)).
        split; [lra|]. split; [lra|]. split; [lra|]. eapply climb_proper; [|exact Hcl]. done.
  Qed.

  Lemma ramp_fuel_enough (forward : bool) target current : current < target ->
    target - current <= inject_Z (Z.of_nat (ramp_fuel P forward target current)) * delta forward.
  Proof.
    intros Hlt. unfold ramp_fuel. fold (delta forward). pose proof (Hdelta forward) as Hd. set (d := delta forward) in *.
    pose proof (Qle_ceiling ((target - current) / d)) as Hc. set (c := Qceiling _) in *.
    assert (0 < (target - current) / d) as Hp by (apply Qdiv_pos; lra).
    assert (Hc0 : (0 <= c)%Z). { rewrite Zle_Qle. change (inject_Z 0) with 0. lra. }
    rewrite Nat2Z.inj_succ, Z2Nat.id by done. unfold Z.succ. rewrite inject_Z_plus. change (inject_Z 1) with 1.
    assert (E : target - current == ((target - current) / d) * d) by (field; lra). rewrite E. 
    generalize dependent ((target - current) / d). intros q. intros. nra.
  Qed.

  (** the flow before, as far as it limits the next one *)
  Definition before_flow (forward : bool) (st : gstate) : option Q :=
    match fstate st with UNDEFINED => if forward then None else Some (current_flow st) | _ => Some (current_flow st) end.

  Lemma processGcodePath_ok (forward : bool) p st : valid p -> stable st -> (forward = true -> flow p <= targetFlow (orig p)) ->
    exists new st', processGcodePath hypot P p forward st = Ok (new, st') /\
      Forall (piece p) new /\ cuts (points p) (map points (ordered forward new)) /\ stable st' /\
      if extrudes p
      then fstate st' <> UNDEFINED /\ 
           ((new = [p] /\ current_flow st' = flow p /\ (forall f, before_flow forward st = Some f -> flow p <= f)) \/
            (exists f, before_flow forward st = Some f /\ f = current_flow st /\ climb (delta forward) f new (current_flow st')))
      else new = [p] /\ current_flow st' = current_flow st /\ duration_remaining st' = duration_remaining st /\
           fstate st' = if resets hypot (reset_flow_duration P) p then UNDEFINED else fstate st.
  Proof.
    intros Hval Hst Hfw. pose proof (isTravel_extrudes p Hval) as Htr. unfold processGcodePath. rewrite Htr.
    pose proof Hval as (Hpp & Hv & Hs & Hf & Ht).
    destruct (extrudes p) eqn:E; simpl negb; cbv iota.
    2:{ eexists [p], _. split; [done|]. split; [constructor; [by apply piece_refl|done]|].
        split. { destruct forward; by apply cuts_one. }
        assert (Er : isRetract p || Qltb (reset_flow_duration P) (totalDuration hypot p) = resets hypot (reset_flow_duration P) p).
        { unfold isRetract, resets, totalDuration. f_equal. destruct (Qlt_le_dec _ _) as [H|H].
          - by apply Qltb_true. - by apply Qltb_false. }
        rewrite Er. destruct (resets _ _ _); done. }
    apply extrudes_true in E. assert (Hvol : 0 < g_volume (orig p)) by nra.
    set (cur := match fstate st with UNDEFINED => _ | _ => _ end).
    destruct (Qle_bool (flow p) cur) eqn:Ele.
    { apply Qle_bool_iff in Ele. eexists [p], _. split; [done|]. split; [constructor; [by apply piece_refl|done]|].
      split. { destruct forward; by apply cuts_one. }
      split. { unfold stable. cbn [current_flow duration_remaining]. lra. }
      split; [done|]. left. split; [done|]. split; [done|]. intros f Hbf. unfold before_flow in Hbf. unfold cur in Ele.
      destruct (fstate st), forward; simplify_eq; done. }
    apply Qle_bool_false in Ele. 
    assert (Hbf : before_flow forward st = Some cur /\ cur = current_flow st).
    { unfold before_flow, cur in *. destruct (fstate st), forward; try done. specialize (Hfw eq_refl). lra. }
    destruct Hbf as [Hbf Ecur]. clearbody cur. subst cur. destruct Hst as [Hst1 Hst2].
    destruct (Qltb 0 (duration_remaining st)) eqn:Ed.
    - apply Qltb_true in Ed. specialize (Hst2 Ed).
      set (spd := current_flow st / g_volume (orig p)). assert (Hsp1 : 0 < spd) by (by apply Qdiv_pos).
      assert (Hsp2 : g_volume (orig p) * spd == current_flow st) by (unfold spd; field; lra).
      assert (Hsp3 : spd <= speed p). { unfold spd. apply Qle_shift_div_r; [done|]. rewrite Qmult_comm, <- Hf. lra. }
      assert (Hpiece : forall pts, piece p (make (orig p) pts spd)) by done.
      pose proof (Hdelta forward) as Hd.
      destruct (partition_ok hypot Hhyp Heven p (duration_remaining st) spd forward Hpp Ed Hsp1)
        as [(dd & Hr & Hdd)|(l & x & r & Hl & Hr' & Href & Hr)]; rewrite Hr; cbn [rbind fst snd].
      + eexists [_], _. split; [done|]. split; [by constructor|]. split. { destruct forward; by apply cuts_one. }
        split. { unfold stable. cbn [current_flow]. lra. }
        split; [done|]. right. exists (current_flow st). split; [done|]. split; [done|]. cbn [climb current_flow flow make].
        rewrite Hsp2. split; [lra|]. split; [lra|]. split; [lra|]. done.
      + match goal with |- context [ramp hypot P _ forward ?t ?v ?rp' ?dn ?st'] => 
          destruct (ramp_ok forward p t v Hval eq_refl eq_refl (ramp_fuel P forward t (current_flow st)) rp' dn st') as (new & st2 & Hres & Hn & Hall & Hcut & Hcl & Hfs & Hc0) end.
        { unfold piece, make. cbn [orig speed flow points]. split; [done|]. split; [done|]. split; [lra|done]. }
        { done. }
        { cbn [points make]. destruct forward; [done|]. by destruct l. }
        { cbn [current_flow]. lra. }
        { cbn [current_flow]. done. }
        { cbn [current_flow]. by apply ramp_fuel_enough. }
        rewrite Hres. eexists _, st2. split; [done|]. split; [by constructor|].
        split; [eapply cuts_split; [exact Hl|exact Hr'|exact Href|done|done]|].
        split. { unfold stable. split; [lra|done]. }
        split; [done|]. right. exists (current_flow st). split; [done|]. split; [done|]. 
        cbn [climb app flow make]. split; [lra|]. split; [lra|]. split; [lra|]. eapply climb_proper; [|exact Hcl]. cbn [current_flow]. done.
    - match goal with |- context [ramp hypot P _ forward ?t ?v ?rp' ?dn ?st'] => 
        destruct (ramp_ok forward p t v Hval eq_refl eq_refl (ramp_fuel P forward t (current_flow st)) rp' dn st') as (new & st2 & Hres & Hn & Hall & Hcut & Hcl & Hfs & Hc0) end.
      { by apply piece_refl. }
      { done. }
      { done. }
      { done. }
      { done. }
      { by apply ramp_fuel_enough. }
      rewrite Hres. eexists _, st2. split; [done|]. split; [done|]. split; [done|].
      split. { unfold stable. split; [lra|done]. }
      split; [done|]. right. exists (current_flow st). done.
  Qed.

  (** *** limits on the flow *)
  Lemma rises_cons reset d before p ps : rises_at_most hypot reset d before (p :: ps) =
    if extrudes p then (match before with Some f => flow p <= f + d | None => True end) /\ rises_at_most hypot reset d (Some (flow p)) ps
    else rises_at_most hypot reset d (if resets hypot reset p then None else before) ps.
  Proof. done. Qed.
  Lemma falls_cons d before p ps : falls_at_most d before (p :: ps) =
    if extrudes p then (match before with Some f => f <= flow p + d | None => True end) /\ falls_at_most d (Some (flow p)) ps
    else falls_at_most d before ps.
  Proof. done. Qed.
  Definition weaker_rise (b b' : option Q) : Prop :=
    match b', b with None, _ => True | Some f', Some f => f <= f' | Some _, None => False end.
  Lemma rises_weaken reset d ps : forall b b', weaker_rise b b' ->
    rises_at_most hypot reset d b ps -> rises_at_most hypot reset d b' ps.
  Proof.
    induction ps as [|p ps IH]; intros b b' Hb; [done|]. rewrite !rises_cons. destruct (extrudes p).
    - intros [H1 H2]. split; [|done]. destruct b as [f|], b' as [f'|]; simpl in *; try done. lra.
    - apply IH. by destruct (resets _ _ _).
  Qed.
  Definition weaker_fall (b b' : option Q) : Prop :=
    match b', b with None, _ => True | Some f', Some f => f' <= f | Some _, None => False end.
  Lemma falls_weaken d ps : forall b b', weaker_fall b b' -> falls_at_most d b ps -> falls_at_most d b' ps.
  Proof.
    induction ps as [|p ps IH]; intros b b' Hb; [done|]. rewrite !falls_cons. destruct (extrudes p).
    - intros [H1 H2]. split; [|done]. destruct b as [f|], b' as [f'|]; simpl in *; try done. lra.
    - by apply IH.
  Qed.
  Lemma climb_extrudes d ps : forall c c', climb d c ps c' -> Forall (fun q => extrudes q = true) ps.
  Proof.
    induction ps as [|p ps IH]; intros c c' H; [done|]. destruct H as (H0 & _ & _ & H). constructor; [by apply extrudes_true|]. by eapply IH.
  Qed.
  Lemma climb_le d ps : forall c c', climb d c ps c' -> c <= c'.
  Proof. induction ps as [|p ps IH]; intros c c' H; simpl in H; [lra|]. destruct H as (_ & H1 & _ & H). apply IH in H. lra. Qed.
  Lemma climb_rises reset d ps out : forall c c', climb d c ps c' ->
    rises_at_most hypot reset d (Some c') out -> rises_at_most hypot reset d (Some c) (ps ++ out).
  Proof.
    induction ps as [|p ps IH]; intros c c' H Hout; simpl app.
    - eapply rises_weaken; [|done]. simpl. simpl in H. lra.
    - destruct H as (H0 & H1 & H2 & H). rewrite rises_cons. rewrite (proj2 (extrudes_true p) H0). split; [done|]. by eapply IH.
  Qed.
  Lemma climb_falls d ps : forall c c' out, climb d c ps c' ->
    (forall f, f <= c + d -> falls_at_most d (Some f) out) ->
    forall f, f <= c' + d -> falls_at_most d (Some f) (reverse ps ++ out).
  Proof.
    induction ps as [|p ps IH]; intros c c' out H Hout f Hf.
    - simpl in *. apply Hout. lra.
    - destruct H as (H0 & H1 & H2 & H). rewrite reverse_cons, <- app_assoc. eapply IH; [done| |done].
      intros f' Hf'. simpl app. rewrite falls_cons, (proj2 (extrudes_true p) H0). split; [done|]. by apply Hout.
  Qed.
  (** a falling sequence, then lower flows *)
  Lemma climb_rises_back reset d ps : forall c c' out, 0 <= d -> climb d c ps c' ->
    (forall y, c <= y -> rises_at_most hypot reset d (Some y) out) ->
    forall b, (match b with Some f => c' <= f + d | None => True end) -> ps <> [] ->
    rises_at_most hypot reset d b (reverse ps ++ out).
  Proof.
    induction ps as [|p ps IH]; intros c c' out Hd H Hout b Hb Hne; [done|].
    destruct H as (H0 & H1 & H2 & H). rewrite reverse_cons, <- app_assoc.
    destruct ps as [|q ps].
    - simpl in *. rewrite (proj2 (extrudes_true p) H0). split; [|by apply Hout]. destruct b; [lra|done].
    - eapply IH; [done|exact H| |done|done]. intros y Hy. simpl app. rewrite rises_cons, (proj2 (extrudes_true p) H0).
      split; [lra|]. by apply Hout.
  Qed.

  (** *** groups of parts *)
  Definition group (p : fpath) (gs : list fpath) : Prop :=
    Forall (piece p) gs /\ (extrudes p = false -> gs = [p]) /\ cuts (points p) (map points gs).
  Lemma group_valid p gs : valid p -> group p gs -> Forall valid gs.
  Proof.
    intros Hp (H1 & _ & (r & L & _)). apply linked_parts_nonnil in L. rewrite Forall_map in L.
    apply Forall_forall. intros q Hq. rewrite Forall_forall in H1, L. eapply piece_valid; [done|by apply H1|by apply L].
  Qed.
  Lemma group_nonnil p gs : group p gs -> gs <> [].
  Proof. intros (_ & _ & (r & L & _)). apply linked_nonnil in L as [_ L]. by intros ->. Qed.

  Lemma forward_ok ps : forall st, Forall valid ps -> Forall (fun p => flow p <= targetFlow (orig p)) ps -> stable st ->
    exists gss st', forward_pass hypot P ps st = Ok (concat gss, st') /\ Forall2 group ps gss /\ stable st' /\
      rises_at_most hypot (reset_flow_duration P) (delta true) (before_flow true st) (concat gss) /\
      Forall (fun p => flow p <= targetFlow (orig p)) (concat gss).
  Proof.
    induction ps as [|p ps IH]; intros st Hval Hfl Hst.
    { exists [], st. split; [done|]. split; [constructor|]. done. }
    apply Forall_cons in Hval as [Hp Hval]. apply Forall_cons in Hfl as [Hpf Hfl].
    destruct (processGcodePath_ok true p st Hp Hst (fun _ => Hpf)) as (new & st1 & Hr & Hpc & Hcut & Hst1 & Hcase).
    destruct (IH st1 Hval Hfl Hst1) as (gss & st2 & Hrs & Hgr & Hst2 & Hri & Hfl2).
    exists (new :: gss), st2. simpl forward_pass. rewrite Hr. cbn [rbind fst snd]. rewrite Hrs. cbn [rbind fst snd].
    split; [done|]. assert (Hfl' : Forall (fun q => flow q <= targetFlow (orig q)) new).
    { eapply Forall_impl; [exact Hpc|]. intros q (Ho & Hs & Hl & Hf). unfold targetFlow in *. rewrite Ho, Hf.
      destruct Hp as (_ & Hv & Hsp & Hfp & _). rewrite Hfp in Hpf. nra. }
    split. { constructor; [|done]. split; [done|]. split; [|done]. intros E. rewrite E in Hcase. by destruct Hcase. }
    split; [done|]. split; [|by apply Forall_app_2]. simpl concat.
    destruct (extrudes p) eqn:E.
    - destruct Hcase as [Hfs [(-> & Hcur & Hle)|(f & Hbf & Hf & Hcl)]].
      + simpl app. rewrite rises_cons, E. split.
        * destruct (before_flow true st) as [f|] eqn:Ebf; [|done]. specialize (Hle f eq_refl). pose proof (Hdelta true). lra.
        * eapply rises_weaken; [|exact Hri]. unfold before_flow. destruct (fstate st1); simpl; try done; rewrite Hcur; lra.
      + rewrite Hbf. eapply climb_rises; [done|]. eapply rises_weaken; [|exact Hri].
        unfold before_flow. destruct (fstate st1); simpl; try done; lra.
    - destruct Hcase as (-> & Hcur & _ & Hfs). simpl app. rewrite rises_cons, E.
      eapply rises_weaken; [|exact Hri]. unfold before_flow. rewrite Hfs, Hcur.
      destruct (resets _ _ _); simpl; [done|]. destruct (fstate st); simpl; try done; lra.
  Qed.

  Definition last_flow (ps : list fpath) : option Q := flow <$> last (filter (fun q => extrudes q = true) ps).
  Lemma last_flow_app a b : last_flow (a ++ b) = match last_flow b with Some f => Some f | None => last_flow a end.
  Proof. unfold last_flow. rewrite filter_app, last_app. by destruct (last (filter _ b)). Qed.

  Lemma backward_ok ps st0 : stable st0 -> Forall valid ps ->
    exists gss st', backward_pass hypot P ps st0 = Ok (concat gss, st') /\ Forall2 group ps gss /\ stable st' /\
      (forall f, f <= current_flow st' + delta false -> falls_at_most (delta false) (Some f) (concat gss)) /\
      (forall d, delta false <= d -> forall b, rises_at_most hypot (reset_flow_duration P) d b ps -> rises_at_most hypot (reset_flow_duration P) d b (concat gss)) /\
      (forall d b y, 0 <= d -> current_flow st' <= y -> rises_at_most hypot (reset_flow_duration P) d b (concat gss) ->
         rises_at_most hypot (reset_flow_duration P) d (Some y) (concat gss)) /\
      match last_flow (concat gss) with
      | Some f => f <= current_flow st0 + delta false
      | None => current_flow st' = current_flow st0
      end.
  Proof.
    intros Hst0. pose proof (Hdelta false) as Hd. induction ps as [|p ps IH]; intros Hval.
    { exists [], st0. split; [done|]. split; [constructor|]. done. }
    apply Forall_cons in Hval as [Hp Hval].
    destruct (IH Hval) as (gss & st1 & Hrs & Hgr & Hst1 & Hfall & Hrise & Hfirst & Hlast).
    destruct (processGcodePath_ok false p st1 Hp Hst1 ltac:(done)) as (new & st2 & Hr & Hpc & Hcut & Hst2 & Hcase).
    exists (reverse new :: gss), st2. simpl backward_pass. rewrite Hrs. cbn [rbind fst snd]. rewrite Hr. cbn [rbind fst snd].
    assert (Hbf : before_flow false st1 = Some (current_flow st1)) by (unfold before_flow; by destruct (fstate st1)).
    split; [done|].
    split. { constructor; [|done]. split; [by apply Forall_reverse|]. split; [|done]. intros E. rewrite E in Hcase. by destruct Hcase as [-> _]. }
    split; [done|]. simpl concat. destruct (extrudes p) eqn:E.
    - pose proof (proj1 (extrudes_true p) E) as Ep. destruct Hcase as [Hfs [(-> & Hcur & Hle)|(f & Hbf' & Hf & Hcl)]].
      + specialize (Hle _ Hbf). change (reverse [p]) with [p]. simpl app. rewrite Hcur. split.
        { intros f Hf. rewrite falls_cons, E. split; [done|]. apply Hfall. lra. }
        split. { intros d Hdd b. rewrite !rises_cons, E. intros [H1 H2]. split; [done|]. by apply Hrise. }
        split. { intros d b y Hd0 Hy. rewrite !rises_cons, E. intros [_ H]. split; [lra|done]. }
        change (p :: concat gss) with ([p] ++ concat gss). rewrite last_flow_app.
        revert Hlast. destruct (last_flow (concat gss)); intros Hlast; [done|]. unfold last_flow. rewrite filter_cons_True by done. simpl. rewrite <- Hlast. lra.
      + rewrite Hbf in Hbf'. injection Hbf' as <-.
        assert (Hne : new <> []). { destruct new; [|done]. destruct Hcut as (r & L & _). by apply linked_nonnil in L as [_ L]. }
        split. { eapply climb_falls; [done|]. done. }
        split. { intros d Hdd b. rewrite rises_cons, E. intros [H1 H2]. specialize (Hrise d Hdd _ H2).
          assert (Hcl' : climb d (current_flow st1) new (current_flow st2)).
          { clear -Hcl Hdd. revert Hcl. generalize (current_flow st1) as c. generalize (current_flow st2) as c'. induction new as [|q new IH]; intros c' c H; [done|].
            destruct H as (? & ? & ? & H). split; [done|]. split; [done|]. split; [lra|]. by apply IH. }
          eapply climb_rises_back; [lra|exact Hcl'| | |done].
          - intros y Hy. by eapply Hfirst; [lra|done|exact Hrise].
          - destruct b as [f|]; [|done]. 
            assert (Hle : current_flow st2 <= flow p).
            { clear -Hcl Hpc Hne Hp. destruct Hp as (_ & Hv & _ & Hfp & _). revert Hcl Hne Hpc. generalize (current_flow st1) as c. induction new as [|q new IH]; intros c H Hne Hpc; [done|].
              destruct H as (? & ? & ? & H). apply Forall_cons in Hpc as [(Ho & Hs & Hl & Hf) Hpc]. destruct new as [|q' new].
              - simpl in H. rewrite <- H, Hf, Hfp. nra.
              - by eapply IH. }
            lra. }
        split. { intros d b y Hd0 Hy H. 
          assert (Hrev : exists q new', reverse new = q :: new' /\ flow q == current_flow st2 /\ extrudes q = true).
          { clear -Hcl Hne. destruct new as [|z new _] using rev_ind; [done|]. rewrite reverse_snoc. exists z, (reverse new). split; [done|].
            clear Hne. revert Hcl. generalize (current_flow st1) as c. induction new as [|q new IH]; intros c H.
            - destruct H as (H0 & _ & _ & H). simpl in H. split; [done|]. by apply extrudes_true.
            - destruct H as (_ & _ & _ & H). by eapply IH. }
          destruct Hrev as (q & new' & Er & Hq & Eq). rewrite Er in *. simpl app in *. rewrite rises_cons, Eq in *. destruct H as [_ H].
          split; [lra|done]. }
        rewrite last_flow_app. revert Hlast. destruct (last_flow (concat gss)); intros Hlast; [done|].
        destruct new as [|q new]; [done|]. destruct Hcl as (H0 & H1 & H2 & _). rewrite reverse_cons, last_flow_app.
        unfold last_flow at 1. rewrite filter_cons_True by (by apply extrudes_true). simpl. rewrite <- Hlast. done.
    - destruct Hcase as (-> & Hcur & _ & Hfs). change (reverse [p]) with [p]. simpl app. rewrite Hcur.
      split. { intros f Hf. rewrite falls_cons, E. by apply Hfall. }
      split. { intros d Hdd b. rewrite !rises_cons, E. by apply Hrise. }
      split. { intros d b y Hd0 Hy. rewrite !rises_cons, E. destruct (resets _ _ _); [done|]. by apply Hfirst. }
      unfold last_flow in *. rewrite filter_cons_False by (by rewrite E). done.
  Qed.

  Lemma group_trans p gs gss : group p gs -> Forall2 group gs gss -> group p (concat gss).
  Proof.
    intros (H1 & H2 & (r & L & R)) Hg. split; [|split].
    - clear H2 L. induction Hg as [|q hs gs gss (Hq1 & _) Hg IH]; [done|]. apply Forall_cons in H1 as [Hq H1]. simpl.
      apply Forall_app_2; [|by apply IH]. eapply Forall_impl; [exact Hq1|]. intros x. by apply piece_trans.
    - intros E. specialize (H2 E). subst gs. apply Forall2_cons_inv_l in Hg as (hs & gss' & (_ & Hq & _) & Hn & ->).
      apply Forall2_nil_inv_l in Hn as ->. simpl. rewrite app_nil_r. by apply Hq.
    - eapply cuts_refined; [exact R|]. replace (map points (concat gss)) with (concat (map (map points) gss)) by (symmetry; apply concat_map).
      eapply cuts_trans; [exact L|]. clear -Hg. induction Hg as [|q hs gs gss (_ & _ & Hq) Hg IH]; simpl; [constructor|]. by constructor.
  Qed.
  Lemma groups_compose ps : forall gss hss, Forall2 group ps gss -> Forall2 group (concat gss) hss ->
    exists kss, concat kss = concat hss /\ Forall2 group ps kss.
  Proof.
    induction ps as [|p ps IH]; intros gss hss H1 H2.
    - apply Forall2_nil_inv_l in H1 as ->. apply Forall2_nil_inv_l in H2 as ->. exists []. split; [done|constructor].
    - apply Forall2_cons_inv_l in H1 as (gs & gss' & Hg & H1 & ->). simpl in H2.
      apply Forall2_app_inv_l in H2 as (hs & hss' & Hh & H2 & ->).
      destruct (IH _ _ H1 H2) as (kss & Ek & Hk). exists (concat hs :: kss). rewrite concat_app. simpl. rewrite Ek. split; [done|].
      constructor; [|done]. by eapply group_trans.
  Qed.

  Lemma processGcodePaths_ok ps st : Forall valid ps -> Forall (fun p => flow p <= targetFlow (orig p)) ps -> 0 <= current_flow st -> 0 <= target_end_flow P ->
    fstate st = UNDEFINED -> delta false <= delta true ->
    exists kss, processGcodePaths hypot P ps st = Ok (concat kss) /\ Forall2 group ps kss /\
      rises_at_most hypot (reset_flow_duration P) (delta true) None (concat kss) /\
      falls_at_most (delta false) None (concat kss) /\
      match last_flow (concat kss) with Some f => f <= target_end_flow P + delta false | None => True end.
  Proof.
    intros Hval Hfl H0 Hend Hun Hdd. unfold processGcodePaths.
    destruct (forward_ok ps (GState (current_flow st) 0 (fstate st)) Hval Hfl) as (gss & st1 & Hr & Hg & Hst1 & Hri & Hfl1).
    { unfold stable. cbn [current_flow duration_remaining]. split; [done|lra]. }
    rewrite Hr. cbn [rbind fst snd].
    destruct (backward_ok (concat gss) (GState (Qmin (current_flow st1) (target_end_flow P)) 0 (fstate st1))) as (hss & st2 & Hr2 & Hh & Hst2 & Hfall & Hrise & _ & Hlast).
    { unfold stable. cbn [current_flow duration_remaining]. split; [|lra]. apply Q.min_glb; [|done]. apply Hst1. }
    { apply Forall_concat. clear -Hg Hval. induction Hg as [|p gs ps gss Hp Hg IH]; [done|]. apply Forall_cons in Hval as [Hv Hval].
      constructor; [by eapply group_valid|by apply IH]. }
    rewrite Hr2. cbn [rbind fst snd].
    destruct (groups_compose _ _ _ Hg Hh) as (kss & Ek & Hk). rewrite <- Ek in *. exists kss. split; [done|]. split; [done|].
    split. { apply Hrise; [done|]. unfold before_flow in Hri. cbn [fstate] in Hri. by rewrite Hun in Hri. }
    split. { eapply falls_weaken; [|apply (Hfall (current_flow st2))]; [done|]. pose proof (Hdelta false). lra. }
    destruct (last_flow _); [|done]. cbn [current_flow] in Hlast. pose proof (Q.le_min_r (current_flow st1) (target_end_flow P)). lra.
  Qed.
End passes.
