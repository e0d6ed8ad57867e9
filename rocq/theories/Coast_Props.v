(** C52: coasting. *)
From Coq Require Import ZArith QArith Qround Lqa Lia.
From stdpp Require Import list.
From Verif Require Import Common GCode_Model Coast_Model Coast_Spec.
Open Scope Q_scope.

Lemma dist3_nonneg a b : (0 <= dist3 a b)%Z.
Proof.
  unfold dist3. cbv zeta.
  match goal with |- context [Z.sqrt ?n] => pose proof (Z.sqrt_nonneg n) end.
  case_match; lia.
Qed.

Lemma nominal_nonneg s : 0 <= mm3 (spath s) * flow (spath s) -> 0 <= nominal s.
Proof.
  intros H. unfold nominal. apply Qmult_le_0_compat; [|done].
  apply Qle_shift_div_l; [lra|]. rewrite Qmult_0_l. change 0 with (inject_Z 0). rewrite <- Zle_Qle. apply dist3_nonneg.
Qed.

Lemma total_app v l1 l2 : total v (l1 ++ l2) == total v l1 + total v l2.
Proof. induction l1 as [|a l1 IH]; simpl; [lra|]. rewrite IH. lra. Qed.

Lemma total_nonneg v l : Forall (fun s => 0 <= v s) l -> 0 <= total v l.
Proof. induction 1 as [|a l H _ IH]; simpl; lra. Qed.

Lemma pieces_snoc path from pts p :
  pieces path from (pts ++ [p]) = pieces path from pts ++ [Seg (default from (last pts)) p path].
Proof.
  revert from. induction pts as [|q pts IH]; intros from; [done|].
  simpl. rewrite IH. do 2 f_equal. destruct pts as [|q' pts]; [done|].
  rewrite last_cons_cons. destruct (last (q' :: pts)) eqn:E; [done|]. by apply last_None in E.
Qed.

Lemma pieces_length path from pts : length (pieces path from pts) = length pts.
Proof. revert from; induction pts; simpl; intros; congruence. Qed.

Lemma pieces_path path from pts : Forall (fun s => spath s = path) (pieces path from pts).
Proof. revert from; induction pts; simpl; intros; constructor; auto. Qed.

Lemma pieces_to path from pts : sto <$> pieces path from pts = pts.
Proof. revert from; induction pts; simpl; intros; f_equal; auto. Qed.

Section walk.
  Context (cv mv : Q) (paths : list cpath) (cur : pt3).

  Definition pre_ok (st : cst) : Prop :=
    (reached st = true -> cv <= acc st) /\ (reached st = false -> acc st < cv) /\ (min_reached st = true -> mv <= acc st).

  (** what the state knows after the pieces [l] *)
  Definition post_ok (st : cst) (l : list seg) (st' : cst) : Prop :=
    (reached st' = true <-> cv <= acc st + total nominal l) /\ (min_reached st' = true <-> mv <= acc st + total nominal l)
    /\ (min_reached st' && reached st' = false -> acc st' == acc st + total nominal l)
    /\ (reached st = true -> reached st' = true) /\ (min_reached st = true -> min_reached st' = true).

  Lemma walk_step idx path from i p l' st pc :
    0 <= mm3 path * flow path -> previous_point paths cur idx path i = Ok from ->
    pre_ok st -> (reached st = true \/ pc = NoCoasting) ->
    let s := Seg from p path in
    exists st1 pc1,
      walk_points cv mv paths cur idx path ((i, p) :: l') st pc
        = (if min_reached st1 && reached st1 then Ok (st1, pc1) else walk_points cv mv paths cur idx path l' st1 pc1)
      /\ acc st1 = acc st + nominal s /\ pre_ok st1
      /\ (min_reached st = true -> min_reached st1 = true) /\ (min_reached st1 = true <-> mv <= acc st1)
      /\ (reached st = true -> reached st1 = true /\ pc1 = pc)
      /\ (reached st = false -> cv <= acc st1 -> reached st1 = true /\
          exists t, 0 <= t /\ t < 1 /\ acc st + (1 - t) * nominal s == cv /\ pc1 = PartialCoasting i (lerp3 from p t))
      /\ (reached st = false -> acc st1 < cv -> reached st1 = false /\ pc1 = if Nat.eqb i 0 then CoastEntirePath else NoCoasting).
  Proof.
    intros Hpos Hprev (Hr & Hnr & Hm) Hpc s.
    cbn [walk_points]. rewrite Hprev. cbn [rbind].
    change (INT2MM (dist3 from p) * extrusion_per_length path) with (nominal s).
    assert (Hv : 0 <= nominal s) by by apply nominal_nonneg.
    set (a1 := acc st + nominal s).
    set (m1 := if Qle_bool mv a1 then true else min_reached st).
    assert (Hm1 : m1 = true <-> mv <= a1).
    { unfold m1. destruct (Qle_bool mv a1) eqn:E.
      - apply Qle_bool_iff in E. done.
      - split; intros H; [apply Hm in H; unfold a1; lra|]. apply Qle_bool_iff in H. congruence. }
    assert (Hm2 : min_reached st = true -> m1 = true).
    { intros H. unfold m1. rewrite H. by destruct (Qle_bool mv a1). }
    destruct (reached st) eqn:Er.
    { exists (CSt a1 true m1), pc. cbn [rbind acc reached min_reached fst snd].
      split; [destruct pc; done|]. split; [done|].
      split. { unfold pre_ok; cbn. split; [|split; [done|tauto]]. intros _. specialize (Hr eq_refl). unfold a1. lra. }
      split; [done|]. split; [done|]. split; [done|]. done. }
    destruct Hpc as [?| ->]; [done|].
    destruct (Qle_bool cv a1) eqn:Ec.
    - apply Qle_bool_iff in Ec. specialize (Hnr eq_refl).
      assert (Hs : 0 < nominal s) by (unfold a1 in Ec; lra).
      destruct (Qeq_bool (nominal s) 0) eqn:E0. { apply Qeq_bool_eq in E0. lra. }
      exists (CSt a1 true m1), (PartialCoasting i (lerp3 from p ((a1 - cv) / nominal s))).
      cbn [rbind acc reached min_reached fst snd].
      split; [done|]. split; [done|].
      split. { unfold pre_ok; cbn. split; [done|split; [done|tauto]]. }
      split; [done|]. split; [done|]. split; [done|]. split; [|intros _ ?; lra].
      intros _ _. split; [done|]. exists ((a1 - cv) / nominal s).
      split. { apply Qle_shift_div_l; [done|]. lra. }
      split. { apply Qlt_shift_div_r; [done|]. unfold a1. lra. }
      split; [|done]. unfold a1. field. lra.
    - assert (Hc : a1 < cv).
      { apply Qnot_le_lt. intros H. apply Qle_bool_iff in H. congruence. }
      exists (CSt a1 false m1), (if Nat.eqb i 0 then CoastEntirePath else NoCoasting).
      cbn [rbind acc reached min_reached fst snd].
      split; [done|]. split; [done|].
      split. { unfold pre_ok; cbn. split; [done|split; [done|tauto]]. }
      split; [done|]. split; [done|]. split; [done|]. split; [intros _ ?; lra|]. done.
  Qed.

  Lemma walk_points_ok idx path from pts0 p st pc :
    0 <= mm3 path * flow path ->
    (pts0 ++ [p]) `prefix_of` points path ->
    previous_point paths cur idx path 0 = Ok from ->
    pre_ok st -> (reached st = true \/ pc = NoCoasting) ->
    exists st' pc', walk_points cv mv paths cur idx path (reverse (imap pair (pts0 ++ [p]))) st pc = Ok (st', pc')
      /\ post_ok st (pieces path from (pts0 ++ [p])) st'
      /\ (reached st = true -> pc' = pc)
      /\ (reached st = false -> cv <= acc st + total nominal (pieces path from (pts0 ++ [p])) ->
          exists k s t, pieces path from (pts0 ++ [p]) !! k = Some s /\ 0 <= t /\ t < 1
            /\ acc st + total nominal (drop (S k) (pieces path from (pts0 ++ [p]))) + (1 - t) * nominal s == cv
            /\ pc' = PartialCoasting k (lerp3 (sfrom s) (sto s) t))
      /\ (reached st = false -> acc st + total nominal (pieces path from (pts0 ++ [p])) < cv -> pc' = CoastEntirePath).
  Proof.
    intros Hpos. revert p st pc. induction pts0 as [|q pts0 IH] using rev_ind; intros p st pc Hpre Hprev Hst Hpc.
    - change (reverse (imap pair ([] ++ [p]))) with [(0%nat, p)]. cbn [app pieces].
      destruct (walk_step idx path from 0 p [] st pc Hpos Hprev Hst Hpc) as (st1 & pc1 & -> & Ha & Hst1 & Hm1 & Hm2 & H1 & H2 & H3).
      cbn [walk_points]. exists st1, pc1. set (s := Seg from p path) in *.
      assert (HT : acc st + total nominal [s] == acc st1) by (rewrite Ha; cbn [total foldr]; lra).
      destruct Hst as (Hs1 & Hs2 & Hs3). destruct Hst1 as (Ht1 & Ht2 & Ht3).
      split; [by destruct (min_reached st1 && reached st1)|]. split.
      { unfold post_ok. rewrite !HT. split.
        - split; [done|]. intros H. destruct (reached st) eqn:E; [by apply H1|]. by apply H2.
        - split; [done|]. split; [done|]. split; [|done]. intros H; by apply H1. }
      split; [intros H; by apply H1|]. split.
      + rewrite HT. intros H Hc. destruct (H2 H Hc) as (_ & t & Ht & Ht' & Hc' & ->).
        exists 0%nat, s, t. split; [done|]. split; [done|]. split; [done|]. split; [|done].
        cbn [drop total foldr]. lra.
      + rewrite HT. intros H Hc. by apply H3.
    - assert (Hpre' : (pts0 ++ [q]) `prefix_of` points path).
      { etrans; [|exact Hpre]. by exists [p]. }
      set (l := pts0 ++ [q]) in *.
      assert (Himap : imap pair (l ++ [p]) = imap pair l ++ [(length l, p)]).
      { rewrite imap_app. cbn. by rewrite Nat.add_0_r. }
      rewrite Himap, reverse_snoc.
      assert (Hq : previous_point paths cur idx path (length l) = Ok q).
      { unfold l. rewrite app_length, Nat.add_1_r. cbn [previous_point].
        apply of_opt_ok. apply (prefix_lookup (pts0 ++ [q])); [|done].
        by rewrite lookup_app_r, Nat.sub_diag by lia. }
      destruct (walk_step idx path q (length l) p (reverse (imap pair l)) st pc Hpos Hq Hst Hpc)
        as (st1 & pc1 & -> & Ha & Hst1 & Hm1 & Hm2 & H1 & H2 & H3).
      assert (Hl0 : Nat.eqb (length l) 0 = false).
      { unfold l. rewrite app_length, Nat.add_1_r. done. }
      rewrite Hl0 in H3.
      rewrite pieces_snoc. replace (default from (last l)) with q by (unfold l; by rewrite last_snoc).
      set (s := Seg q p path) in *. set (L := pieces path from l) in *.
      assert (HL : 0 <= total nominal L).
      { apply total_nonneg. eapply Forall_impl; [apply pieces_path|]. intros x Hx. apply nominal_nonneg. cbn in Hx. by rewrite Hx. }
      assert (HT : acc st + total nominal (L ++ [s]) == acc st1 + total nominal L).
      { rewrite Ha, total_app. cbn [total foldr]. lra. }
      destruct Hst as (Hs1 & Hs2 & Hs3).
      assert (Hr1 : reached st1 = true <-> cv <= acc st1).
      { destruct Hst1 as (Ht1 & Ht2 & Ht3). split; [done|]. intros H. destruct (reached st1); [done|]. specialize (Ht2 eq_refl). lra. }
      destruct (min_reached st1 && reached st1) eqn:Eb.
      + apply andb_true_iff in Eb as [Eb1 Eb2]. exists st1, pc1. split; [done|].
        apply Hr1 in Eb2 as Ec. apply Hm2 in Eb1 as Em.
        split.
        { unfold post_ok. rewrite !HT, Eb1, Eb2. split; [split; [intros _; lra|done]|]. split; [split; [intros _; lra|done]|].
          done. }
        split; [intros H; by apply H1|]. split.
        * intros H _. destruct (H2 H Ec) as (_ & t & Ht & Ht' & Hc' & ->).
          exists (length L), s, t. split; [by rewrite lookup_app_r, Nat.sub_diag by lia|].
          split; [done|]. split; [done|]. split.
          { rewrite drop_ge by (rewrite app_length; simpl; lia). cbn [total foldr]. lra. }
          unfold L. by rewrite pieces_length.
        * intros H. rewrite HT. intros. lra.
      + destruct (IH q st1 pc1 Hpre' Hprev Hst1) as (st' & pc' & Hw & (Hp1 & Hp2 & Hp3 & Hp4 & Hp5) & Hpc1 & Hpc2 & Hpc3).
        { destruct (reached st) eqn:Er; [left; by apply H1|].
          destruct (Qlt_le_dec (acc st1) cv) as [Hc|Hc]; [right; by apply H3|left; by apply H2]. }
        exists st', pc'. split; [exact Hw|]. fold l in Hp1, Hp2, Hp3, Hpc2, Hpc3. fold L in Hp1, Hp2, Hp3, Hpc2, Hpc3.
        split.
        { unfold post_ok. rewrite !HT. split; [done|]. split; [done|]. split; [done|]. split.
          - intros H. apply Hp4. by apply H1.
          - intros H. apply Hp5. by apply Hm1. }
        split. { intros H. destruct (H1 H) as [H' <-]. by apply Hpc1. }
        split.
        * intros H. rewrite HT. intros Hc. destruct (Qlt_le_dec (acc st1) cv) as [Hc1|Hc1].
          -- destruct (H3 H Hc1) as [Hn ->]. destruct (Hpc2 Hn Hc) as (k & s' & t & Hk & Ht & Ht' & Hsum & ->).
             exists k, s', t. split; [by apply lookup_app_l_Some|]. split; [done|]. split; [done|]. split; [|done].
             rewrite drop_app_le by (apply lookup_lt_Some in Hk; lia).
             rewrite total_app. cbn [total foldr] in *. rewrite Ha in Hsum. fold (total nominal) in *. lra.
          -- destruct (H2 H Hc1) as (Hy & t & Ht & Ht' & Hc' & Hpart).
             exists (length L), s, t. split; [by rewrite lookup_app_r, Nat.sub_diag by lia|].
             split; [done|]. split; [done|]. split.
             { rewrite drop_ge by (rewrite app_length; simpl; lia). cbn [total foldr]. lra. }
             rewrite (Hpc1 Hy), Hpart. unfold L. by rewrite pieces_length.
        * intros H. rewrite HT. intros Hc. assert (Hc1 : acc st1 < cv) by lra.
          destruct (H3 H Hc1) as [Hn ->]. by apply Hpc3.
  Qed.
End walk.

(** ** Writing *)
Section writing.
  Context (z : Z) (cs : Q).

  Lemma write_paths_app l1 l2 a b :
    write_paths z cs l1 = Ok a -> write_paths z cs l2 = Ok b -> write_paths z cs (l1 ++ l2) = Ok (a ++ b).
  Proof.
    revert a. induction l1 as [|[p pc] l1 IH]; intros a H1 H2; simpl in *; [by inversion H1; subst|].
    apply rbind_ok in H1 as (x & -> & H1). apply rbind_ok in H1 as (y & Hy & [= <-]). cbn [rbind].
    rewrite (IH y Hy H2). cbn [rbind]. by rewrite app_assoc.
  Qed.

  Lemma plain_pieces path from pts : plain z (pieces path from pts) = extruding z path <$> pts.
  Proof. revert from; induction pts; intros; [done|]. unfold plain in *. simpl. by rewrite IHpts. Qed.
  Lemma coast_pieces path from pts : Coast_Spec.coast z cs (pieces path from pts) = coasting_to z cs path <$> pts.
  Proof. revert from; induction pts; intros; [done|]. unfold Coast_Spec.coast in *. simpl. by rewrite IHpts. Qed.

  Lemma write_none path from :
    write_path z cs path NoCoasting = Ok (plain z (pieces path from (points path))).
  Proof. by rewrite plain_pieces. Qed.
  Lemma write_entire path from :
    write_path z cs path CoastEntirePath = Ok (Coast_Spec.coast z cs (pieces path from (points path))).
  Proof. by rewrite coast_pieces. Qed.
  Lemma write_partial path from k s t :
    pieces path from (points path) !! k = Some s ->
    write_path z cs path (PartialCoasting k (lerp3 (sfrom s) (sto s) t))
      = Ok (split_at z cs (pieces path from (points path)) k s t).
  Proof.
    intros Hk. apply lookup_lt_Some in Hk as Hlt. rewrite pieces_length in Hlt.
    assert (Hp : spath s = path).
    { pose proof (pieces_path path from (points path)) as HF. rewrite Forall_lookup in HF. by eapply HF. }
    unfold write_path. destruct (length (points path) <? k)%nat eqn:E; [apply Nat.ltb_lt in E; lia|].
    unfold split_at. rewrite Hp.
    pose proof (plain_pieces path from (points path)) as H1. pose proof (coast_pieces path from (points path)) as H2.
    unfold plain, Coast_Spec.coast in *. rewrite !fmap_take, !fmap_drop, H1, H2. by rewrite <- !fmap_take, <- !fmap_drop.
  Qed.

  Lemma plain_app l1 l2 : plain z (l1 ++ l2) = plain z l1 ++ plain z l2.
  Proof. unfold plain. by rewrite fmap_app. Qed.
  Lemma coast_app l1 l2 : Coast_Spec.coast z cs (l1 ++ l2) = Coast_Spec.coast z cs l1 ++ Coast_Spec.coast z cs l2.
  Proof. unfold Coast_Spec.coast. by rewrite fmap_app. Qed.

  Lemma split_at_app_l l1 l2 k s t : (k < length l1)%nat ->
    split_at z cs (l1 ++ l2) k s t = split_at z cs l1 k s t ++ Coast_Spec.coast z cs l2.
  Proof. intros H. unfold split_at. rewrite take_app_le, drop_app_le, coast_app by lia. by rewrite <- !app_assoc. Qed.
  Lemma split_at_app_r l1 l2 k s t :
    split_at z cs (l1 ++ l2) (length l1 + k) s t = plain z l1 ++ split_at z cs l2 k s t.
  Proof. unfold split_at. rewrite take_add_app, drop_add_app, plain_app by done. by rewrite <- !app_assoc. Qed.
End writing.

(** ** A run of extruding paths *)
Definition end_of (from : pt3) (run : list cpath) : pt3 := foldl (fun f p => default f (last (points p))) from run.

Lemma run_pieces_snoc from run p :
  run_pieces from (run ++ [p]) = run_pieces from run ++ pieces p (end_of from run) (points p).
Proof.
  revert from. induction run as [|q run IH]; intros from; simpl; [by rewrite app_nil_r|].
  by rewrite IH, app_assoc.
Qed.

Lemma run_pieces_nonneg from run : Forall sane run -> Forall (fun s => 0 <= nominal s) (run_pieces from run).
Proof.
  revert from. induction run as [|q run IH]; intros from HF; simpl; [constructor|].
  apply Forall_cons in HF as [[_ Hq] HF]. apply Forall_app; split; [|by apply IH].
  eapply Forall_impl; [apply pieces_path|]. intros x Hx. apply nominal_nonneg. cbn in Hx. by rewrite Hx.
Qed.

Lemma fmap_none {A} (l : list A) : ((fun _ => NoCoasting) <$> l) = replicate (length l) NoCoasting.
Proof. induction l; simpl; [done|]. by f_equal. Qed.

Lemma write_run_none z cs from run :
  write_paths z cs (zip run ((fun _ => NoCoasting) <$> run)) = Ok (plain z (run_pieces from run)).
Proof.
  revert from. induction run as [|p run IH]; intros from; [done|].
  cbn [fmap list_fmap zip zip_with write_paths run_pieces]. rewrite (write_none z cs p from). cbn [rbind].
  rewrite plain_app. setoid_rewrite (IH (default from (last (points p)))). done.
Qed.

Definition indexed (n : nat) (run : list cpath) : list (nat * cpath) := imap (fun i p => ((n + i)%nat, p)) run.

Lemma indexed_snoc n run p : indexed n (run ++ [p]) = indexed n run ++ [((n + length run)%nat, p)].
Proof. unfold indexed. rewrite imap_app. cbn. by rewrite Nat.add_0_r. Qed.

Section run.
  Context (cv mv : Q) (paths : list cpath) (cur : pt3) (z : Z) (cs : Q).

  Lemma walk_path_ok idx path from st :
    sane path -> previous_point paths cur idx path 0 = Ok from -> pre_ok cv mv st ->
    exists st' pc', walk_points cv mv paths cur idx path (reverse (imap pair (points path))) st NoCoasting = Ok (st', pc')
      /\ post_ok cv mv st (pieces path from (points path)) st'
      /\ (reached st = true -> pc' = NoCoasting)
      /\ (reached st = false -> cv <= acc st + total nominal (pieces path from (points path)) ->
          exists k s t, pieces path from (points path) !! k = Some s /\ 0 <= t /\ t < 1
            /\ acc st + total nominal (drop (S k) (pieces path from (points path))) + (1 - t) * nominal s == cv
            /\ pc' = PartialCoasting k (lerp3 (sfrom s) (sto s) t))
      /\ (reached st = false -> acc st + total nominal (pieces path from (points path)) < cv -> pc' = CoastEntirePath).
  Proof.
    intros [Hne Hpos] Hprev Hst.
    destruct (points path) as [|q l] eqn:E using rev_ind; [done|]. clear IHl.
    apply walk_points_ok; auto. by rewrite E.
  Qed.

  Lemma post_pre st l st' : pre_ok cv mv st -> post_ok cv mv st l st' -> min_reached st' && reached st' = false -> pre_ok cv mv st'.
  Proof.
    intros (H1 & H2 & H3) (P1 & P2 & P3 & P4 & P5) Hb. specialize (P3 Hb). unfold pre_ok. rewrite !P3.
    split; [by apply P1|]. split; [|by apply P2].
    intros H. apply Qnot_le_lt. intros Hc. apply P1 in Hc. congruence.
  Qed.

  Lemma walk_paths_total chunk st :
    (forall i p, (i, p) ∈ chunk -> sane p /\ exists from, previous_point paths cur i p 0 = Ok from) ->
    pre_ok cv mv st ->
    exists st' pcs, walk_paths cv mv paths cur chunk st = Ok (st', pcs) /\ length pcs = length chunk.
  Proof.
    revert st. induction chunk as [|[i p] chunk IH]; intros st HF Hst; simpl; [eauto|].
    assert (HF' : forall i p, (i, p) ∈ chunk -> sane p /\ exists from, previous_point paths cur i p 0 = Ok from).
    { intros j q Hj. apply HF. by right. }
    destruct (travel p) eqn:Et.
    { destruct (IH st HF' Hst) as (st' & pcs & -> & Hl). cbn [rbind fst snd]. eexists _, _. split; [done|]. simpl. by f_equal. }
    destruct (HF i p) as [Hs [from Hf]]; [left|].
    destruct (walk_path_ok i p from st Hs Hf Hst) as (st1 & pc1 & -> & Hpost & _). cbn [rbind fst snd].
    destruct (min_reached st1 && reached st1) eqn:Eb.
    { eexists _, _. split; [done|]. simpl. by rewrite fmap_length. }
    destruct (IH st1 HF') as (st' & pcs & -> & Hl); [by eapply post_pre|].
    cbn [rbind fst snd]. eexists _, _. split; [done|]. simpl. by f_equal.
  Qed.

  Lemma walk_paths_travel tr st : Forall (fun p => travel p.2 = true) tr ->
    walk_paths cv mv paths cur tr st = Ok (st, (fun _ => NoCoasting) <$> tr).
  Proof.
    induction 1 as [|[i p] tr Hp _ IH]; simpl; [done|]. cbn in Hp. rewrite Hp, IH. done.
  Qed.

  Lemma walk_run n from run0 p tr st :
    let run := run0 ++ [p] in let S := run_pieces from run in let T := acc st + total nominal S in
    Forall (fun p => travel p.2 = true) tr -> Forall sane run -> Forall (fun p => travel p = false) run ->
    (forall r1 q r2, run = r1 ++ q :: r2 -> previous_point paths cur (n + length r1) q 0 = Ok (end_of from r1)) ->
    pre_ok cv mv st ->
    exists st' pcs, walk_paths cv mv paths cur (reverse (indexed n run) ++ tr) st
        = Ok (st', reverse pcs ++ ((fun _ => NoCoasting) <$> tr))
      /\ length pcs = length run
      /\ post_ok cv mv st S st'
      /\ (reached st = true -> write_paths z cs (zip run pcs) = Ok (plain z S))
      /\ (reached st = false -> cv <= T ->
          exists k s t, S !! k = Some s /\ 0 <= t /\ t < 1
            /\ acc st + total nominal (drop (1 + k) S) + (1 - t) * nominal s == cv
            /\ write_paths z cs (zip run pcs) = Ok (split_at z cs S k s t))
      /\ (reached st = false -> T < cv -> write_paths z cs (zip run pcs) = Ok (Coast_Spec.coast z cs S)).
  Proof.
    cbv zeta. intros Htr Hsane Hnt Hprev Hst.
    revert p st Hsane Hnt Hprev Hst. induction run0 as [|q run0 IH] using rev_ind; intros p st Hsane Hnt Hprev Hst.
    - pose proof (Hprev [] p [] eq_refl) as Hp. cbn [length end_of foldl] in Hp.
      apply Forall_cons in Hsane as [Hs _]. apply Forall_cons in Hnt as [Ht _].
      destruct (walk_path_ok _ p from st Hs Hp Hst) as (st1 & pc1 & Hw & Hpost & H1 & H2 & H3).
      cbn [app run_pieces]. rewrite app_nil_r. set (L := pieces p from (points p)) in *.
      exists st1, [pc1]. split.
      { change (reverse (indexed n [p])) with [((n + 0)%nat, p)]. cbn [app walk_paths]. rewrite Ht, Hw. cbn [rbind fst snd].
        destruct (min_reached st1 && reached st1); [done|]. by rewrite (walk_paths_travel tr st1 Htr). }
      split; [done|]. split; [done|]. cbn [zip zip_with write_paths].
      split. { intros H. rewrite (H1 H), (write_none z cs p from). cbn [rbind]. by rewrite app_nil_r. }
      split.
      + intros H Hc. destruct (H2 H Hc) as (k & s & t & Hk & Ht1 & Ht2 & Hsum & ->). exists k, s, t.
        do 4 (split; [done|]). rewrite (write_partial z cs p from k s t Hk). cbn [rbind]. by rewrite app_nil_r.
      + intros H Hc. rewrite (H3 H Hc), (write_entire z cs p from). cbn [rbind]. by rewrite app_nil_r.
    - set (run := run0 ++ [q]) in *.
      pose proof (Hprev run p [] eq_refl) as Hp.
      apply Forall_app in Hsane as [Hsane' Hs]. apply Forall_cons in Hs as [Hs _].
      apply Forall_app in Hnt as [Hnt' Ht]. apply Forall_cons in Ht as [Ht _].
      destruct (walk_path_ok _ p _ st Hs Hp Hst) as (st1 & pc1 & Hw & Hpost & H1 & H2 & H3).
      rewrite run_pieces_snoc. set (L := pieces p (end_of from run) (points p)) in *. set (R := run_pieces from run) in *.
      assert (HR : 0 <= total nominal R) by (apply total_nonneg; by apply run_pieces_nonneg).
      rewrite indexed_snoc, reverse_snoc. cbn [app walk_paths]. rewrite Ht, Hw. cbn [rbind fst snd].
      pose proof (total_app nominal R L) as HT.
      destruct Hpost as (P1 & P2 & P3 & P4 & P5).
      destruct (min_reached st1 && reached st1) eqn:Eb.
      + apply andb_true_iff in Eb as [Eb1 Eb2]. apply P1 in Eb2 as Hc1. apply P2 in Eb1 as Hm1.
        assert (Hlen : length ((fun _ => NoCoasting) <$> run) = length run) by by rewrite fmap_length.
        exists st1, (((fun _ => NoCoasting) <$> run) ++ [pc1]). split.
        { do 2 f_equal. rewrite reverse_snoc. cbn [app]. f_equal. rewrite fmap_app. f_equal.
          rewrite !fmap_none, reverse_replicate, reverse_length. unfold indexed. by rewrite imap_length. }
        split. { rewrite !app_length, fmap_length. done. }
        split.
        { unfold post_ok. rewrite HT. rewrite Eb1, Eb2. split; [split; [intros _; lra|done]|]. split; [split; [intros _; lra|done]|]. done. }
        rewrite zip_with_app by done.
        assert (Hplain : write_paths z cs (zip run ((fun _ => NoCoasting) <$> run)) = Ok (plain z R)).
        { apply write_run_none. }
        split.
        { intros H. rewrite plain_app. apply write_paths_app; [done|]. cbn [zip_with write_paths].
          rewrite (H1 H), (write_none z cs p (end_of from run)). cbn [rbind]. by rewrite app_nil_r. }
        split.
        * intros H _. destruct (H2 H Hc1) as (k & s & t & Hk & Ht1 & Ht2 & Hsum & ->).
          exists (length R + k)%nat, s, t. split; [by rewrite lookup_app_r, Nat.add_comm, Nat.add_sub by lia|].
          split; [done|]. split; [done|]. split.
          { replace (1 + (length R + k))%nat with (length R + (1 + k))%nat by lia. by rewrite drop_add_app. }
          rewrite split_at_app_r. apply write_paths_app; [done|]. cbn [zip_with write_paths].
          rewrite (write_partial z cs p (end_of from run) k s t Hk). cbn [rbind]. by rewrite app_nil_r.
        * intros H. rewrite HT. intros. lra.
      + assert (Hst1 : pre_ok cv mv st1).
        { eapply post_pre; [exact Hst| |done]. split; [exact P1|]. split; [exact P2|]. split; [auto|]. split; [exact P4|exact P5]. }
        assert (Hb1 : acc st1 == acc st + total nominal L) by by apply P3.
        destruct (IH q st1 Hsane' Hnt') as (st' & pcs & Hw' & Hlen & (Q1 & Q2 & Q3 & Q4 & Q5) & J1 & J2 & J3); [|done|].
        { intros r1 q' r2 Hr. apply (Hprev r1 q' (r2 ++ [p])). fold run in Hr. by rewrite Hr, <- app_assoc. }
        fold run in Hw', Hlen, Q1, Q2, Q3, J1, J2, J3. fold R in Q1, Q2, Q3, J1, J2, J3.
        assert (HT' : acc st + total nominal (R ++ L) == acc st1 + total nominal R) by (rewrite HT, Hb1; lra).
        exists st', (pcs ++ [pc1]). rewrite Hw'. cbn [rbind fst snd].
        split; [by rewrite reverse_snoc|]. split; [rewrite !app_length; simpl; by rewrite Hlen|].
        split.
        { unfold post_ok. rewrite !HT'. split; [done|]. split; [done|]. split; [done|]. split; [|auto].
          intros H. by apply Q4, P4. }
        rewrite zip_with_app by done.
        split.
        { intros H. rewrite plain_app. apply write_paths_app; [by apply J1, P4|]. cbn [zip_with write_paths].
          rewrite (H1 H), (write_none z cs p (end_of from run)). cbn [rbind]. by rewrite app_nil_r. }
        split.
        * intros H. rewrite HT'. intros Hc. destruct (Qlt_le_dec (acc st + total nominal L) cv) as [Hc1|Hc1].
          -- assert (Hn : reached st1 = false).
             { destruct (reached st1) eqn:E; [|done]. assert (cv <= acc st + total nominal L) by by apply P1. lra. }
             destruct (J2 Hn Hc) as (k & s & t & Hk & Ht1 & Ht2 & Hsum & Hw2).
             exists k, s, t. split; [by apply lookup_app_l_Some|]. split; [done|]. split; [done|].
             apply lookup_lt_Some in Hk as Hlt. split.
             { rewrite drop_app_le by lia. rewrite total_app. rewrite Hb1 in Hsum. lra. }
             rewrite split_at_app_l by done. apply write_paths_app; [done|]. cbn [zip_with write_paths].
             rewrite (H3 H Hc1), (write_entire z cs p (end_of from run)). cbn [rbind]. by rewrite app_nil_r.
          -- destruct (H2 H Hc1) as (k & s & t & Hk & Ht1 & Ht2 & Hsum & ->).
             exists (length R + k)%nat, s, t. split; [by rewrite lookup_app_r, Nat.add_comm, Nat.add_sub by lia|].
             split; [done|]. split; [done|]. split.
             { replace (1 + (length R + k))%nat with (length R + (1 + k))%nat by lia. by rewrite drop_add_app. }
             rewrite split_at_app_r. apply write_paths_app; [apply J1; by apply P1|]. cbn [zip_with write_paths].
             rewrite (write_partial z cs p (end_of from run) k s t Hk). cbn [rbind]. by rewrite app_nil_r.
        * intros H. rewrite HT'. intros Hc. rewrite coast_app.
          assert (Hc1 : acc st + total nominal L < cv) by lra.
          assert (Hn : reached st1 = false).
          { destruct (reached st1) eqn:E; [|done]. assert (cv <= acc st + total nominal L) by by apply P1. lra. }
          apply write_paths_app; [by apply J3|]. cbn [zip_with write_paths].
          rewrite (H3 H Hc1), (write_entire z cs p (end_of from run)). cbn [rbind]. by rewrite app_nil_r.
  Qed.
End run.

(** ** Chunks *)
Lemma chunk_by_ne {A} (f : A -> A -> bool) l : Forall (fun c => c ≠ []) (chunk_by f l).
Proof.
  induction l as [|a l IH]; simpl; [constructor|].
  destruct (chunk_by f l) as [|[|b c] cs]; [by repeat constructor| |].
  - by inversion IH.
  - destruct (f a b); constructor; try done. by inversion IH.
Qed.
Lemma chunk_by_concat {A} (f : A -> A -> bool) l : concat (chunk_by f l) = l.
Proof.
  induction l as [|a l IH]; simpl; [done|].
  destruct (chunk_by f l) as [|[|b c] cs]; simpl in *; [by subst| |].
  - by rewrite IH.
  - destruct (f a b); simpl; by rewrite IH.
Qed.
Lemma chunk_by_head {A} (f : A -> A -> bool) a l : exists c cs, chunk_by f (a :: l) = (a :: c) :: cs.
Proof. simpl. destruct (chunk_by f l) as [|[|b c] cs]; eauto. destruct (f a b); eauto. Qed.

Lemma chunk_by_break {A} (f : A -> A -> bool) l1 a l2 :
  (forall x, last l1 = Some x -> f x a = false) -> chunk_by f (l1 ++ a :: l2) = chunk_by f l1 ++ chunk_by f (a :: l2).
Proof.
  intros H. induction l1 as [|x l1 IH]; [done|].
  destruct l1 as [|y l1].
  - specialize (H x eq_refl).
    destruct (chunk_by_head f a l2) as (c & cs & Hc).
    change (chunk_by f ([x] ++ a :: l2)) with (match chunk_by f (a :: l2) with
      | (b :: c) :: cs => if f x b then (x :: b :: c) :: cs else [x] :: (b :: c) :: cs | cs => [x] :: cs end).
    rewrite Hc, H. reflexivity.
  - rewrite last_cons_cons in H. specialize (IH H).
    change (chunk_by f ((x :: y :: l1) ++ a :: l2)) with (match chunk_by f ((y :: l1) ++ a :: l2) with
      | (b :: c) :: cs => if f x b then (x :: b :: c) :: cs else [x] :: (b :: c) :: cs | cs => [x] :: cs end).
    rewrite IH.
    change (chunk_by f (x :: y :: l1)) with (match chunk_by f (y :: l1) with
      | (b :: c) :: cs => if f x b then (x :: b :: c) :: cs else [x] :: (b :: c) :: cs | cs => [x] :: cs end).
    destruct (chunk_by_head f y l1) as (c & cs & Hc). rewrite Hc. simpl. by destruct (f x y).
Qed.

Lemma chunk_travel l c cs b :
  chunk_by same_chunk l = (b :: c) :: cs -> travel b.2 = true -> Forall (fun p => travel p.2 = true) (b :: c).
Proof.
  revert b c cs. induction l as [|a l IH]; intros b c cs H Hb; simpl in H; [done|].
  destruct (chunk_by same_chunk l) as [|[|b' c'] cs'] eqn:E.
  - inversion H; subst. by repeat constructor.
  - inversion H; subst. by repeat constructor.
  - destruct (same_chunk a b') eqn:Es; inversion H; subst.
    + constructor; [done|]. eapply IH; [done|]. unfold same_chunk in Es. by rewrite Hb in Es.
    + by repeat constructor.
Qed.

Lemma chunk_run l1 l2 :
  l1 ≠ [] -> Forall (fun p => travel p.2 = false) l1 -> (forall p, head l2 = Some p -> travel p.2 = true) ->
  exists t cs, chunk_by same_chunk (l1 ++ l2) = (l1 ++ t) :: cs /\ l2 = t ++ concat cs
    /\ Forall (fun p => travel p.2 = true) t.
Proof.
  intros Hne HF Hh. induction HF as [|a l1 Ha HF IH]; [done|].
  destruct l1 as [|b l1].
  - simpl. pose proof (chunk_by_concat same_chunk l2) as Hcc.
    destruct (chunk_by same_chunk l2) as [|[|b c] cs] eqn:E.
    + exists [], []. simpl in Hcc. by subst.
    + exfalso. pose proof (chunk_by_ne same_chunk l2) as Hn. rewrite E in Hn. by inversion Hn.
    + assert (Hb : travel b.2 = true) by (apply Hh; rewrite <- Hcc; done).
      assert (Hs : same_chunk a b = true) by (unfold same_chunk; by rewrite Ha).
      rewrite Hs. exists (b :: c), cs. split; [done|]. split; [by rewrite <- Hcc|]. by eapply chunk_travel.
  - destruct IH as (t & cs & Hc & H2 & Ht); [done|]. exists t, cs.
    change (chunk_by same_chunk ((a :: b :: l1) ++ l2)) with (match chunk_by same_chunk ((b :: l1) ++ l2) with
      | (b :: c) :: cs => if same_chunk a b then (a :: b :: c) :: cs else [a] :: (b :: c) :: cs | cs => [a] :: cs end).
    rewrite Hc. simpl.
    assert (Hs : same_chunk a b = true) by (unfold same_chunk; by rewrite Ha).
    by rewrite Hs.
Qed.

Section top.
  Context (cv mv : Q) (paths : list cpath) (cur : pt3).

  Lemma chunks_app cs1 cs2 r1 r2 :
    chunks_coasting cv mv paths cur cs1 = Ok r1 -> chunks_coasting cv mv paths cur cs2 = Ok r2 ->
    chunks_coasting cv mv paths cur (cs1 ++ cs2) = Ok (r1 ++ r2).
  Proof.
    revert r1. induction cs1 as [|c cs1 IH]; intros r1 H1 H2; simpl in *; [by inversion H1|].
    apply rbind_ok in H1 as (x & -> & H1). apply rbind_ok in H1 as (y & Hy & [= <-]). cbn [rbind].
    rewrite (IH y Hy H2). cbn [rbind]. by rewrite app_assoc.
  Qed.

  Lemma chunk_total chunk : 0 < cv ->
    (forall i p, (i, p) ∈ chunk -> sane p /\ exists from, previous_point paths cur i p 0 = Ok from) ->
    exists r, chunk_coasting cv mv paths cur chunk = Ok r /\ length r = length chunk.
  Proof.
    intros Hcv HF. destruct chunk as [|[i p] chunk]; [by exists []|]. unfold chunk_coasting.
    destruct (negb (wall p)). { eexists. split; [done|]. by rewrite fmap_length. }
    destruct (walk_paths_total cv mv paths cur ((i, p) :: chunk) (CSt 0 false false) HF) as (st' & pcs & -> & Hl).
    { split; [done|]. by split. }
    cbn [rbind fst snd]. destruct (negb (min_reached st')); eexists; (split; [done|]); [by rewrite fmap_length|done].
  Qed.

  Lemma chunks_total cs : 0 < cv ->
    (forall i p, (i, p) ∈ concat cs -> sane p /\ exists from, previous_point paths cur i p 0 = Ok from) ->
    exists r, chunks_coasting cv mv paths cur cs = Ok r /\ length r = length (concat cs).
  Proof.
    intros Hcv. induction cs as [|c cs IH]; intros HF; simpl; [by exists []|].
    destruct (chunk_total c Hcv) as (r & -> & Hl). { intros i p Hi. apply HF. simpl. apply elem_of_app. by left. }
    destruct IH as (rs & -> & Hls). { intros i p Hi. apply HF. simpl. apply elem_of_app. by right. }
    cbn [rbind]. eexists. split; [done|]. rewrite !app_length. by rewrite Hl, Hls.
  Qed.
End top.

Lemma last_Forall {A} (P : A -> Prop) l x : Forall P l -> last l = Some x -> P x.
Proof. intros HF H. rewrite Forall_forall in HF. apply HF. apply last_Some in H as [l' ->]. apply elem_of_app. right. by left. Qed.

Lemma previous_at paths cur l1 p l2 : Forall sane paths -> paths = l1 ++ p :: l2 ->
  previous_point paths cur (length l1) p 0 = Ok (start_after l1 cur).
Proof.
  intros HF ->. unfold previous_point, start_after.
  destruct l1 as [|q l1 _] using rev_ind; [done|].
  rewrite app_length, Nat.add_1_r, last_snoc.
  rewrite <- app_assoc. simpl. rewrite lookup_app_r, Nat.sub_diag by lia. cbn [lookup list_lookup of_opt rbind].
  rewrite !Forall_app in HF. destruct HF as [[_ Hq] _]. apply Forall_cons in Hq as [[Hq _] _].
  destruct (last (points q)) eqn:E; [done|]. by apply last_None in E.
Qed.

Lemma end_of_start pre run cur : Forall sane run -> end_of (start_after pre cur) run = start_after (pre ++ run) cur.
Proof.
  intros HF. destruct run as [|p run _] using rev_ind; [by rewrite app_nil_r|].
  apply Forall_app in HF as [_ Hp]. apply Forall_cons in Hp as [[Hp _] _].
  unfold end_of. rewrite foldl_app. simpl. unfold start_after. rewrite app_assoc, last_snoc.
  destruct (last (points p)) eqn:E; [done|]. by apply last_None in E.
Qed.

Lemma indexed_app n l1 l2 : indexed n (l1 ++ l2) = indexed n l1 ++ indexed (n + length l1) l2.
Proof. unfold indexed. rewrite imap_app. f_equal. apply imap_ext. intros. simpl. f_equal. lia. Qed.

Lemma indexed_lookup n l i p : (i, p) ∈ indexed n l <-> exists k, i = (n + k)%nat /\ l !! k = Some p.
Proof.
  unfold indexed. rewrite elem_of_lookup_imap. split.
  - intros (k & q & [= -> ->] & H). eauto.
  - intros (k & -> & H). eauto.
Qed.

Lemma indexed_snd n l (P : cpath -> Prop) : Forall P l -> Forall (fun p => P p.2) (indexed n l).
Proof. rewrite !Forall_forall. intros H [i p] Hi. apply indexed_lookup in Hi as (k & _ & Hk). apply H. by eapply elem_of_list_lookup_2. Qed.

(** What is written for a run with the given pieces, when the settings ask to leave out [cv] at the end of every run that
    ends in a wall and has at least [mv]. *)
Definition run_written (cv mv : Q) (z : Z) (cs : Q) (ends_in_wall : bool) (l : list seg) (written : res (list move)) : Prop :=
  (ends_in_wall = false -> written = Ok (plain z l))
  /\ (total nominal l < mv -> written = Ok (plain z l))
  /\ (ends_in_wall = true -> mv <= total nominal l -> total nominal l < cv -> written = Ok (Coast_Spec.coast z cs l))
  /\ (ends_in_wall = true -> mv <= total nominal l -> cv <= total nominal l ->
      exists k s t, l !! k = Some s /\ 0 <= t /\ t < 1 /\ total nominal (drop (1 + k) l) + (1 - t) * nominal s == cv
        /\ written = Ok (split_at z cs l k s t)).

Lemma run_chunk cv mv paths cur z cs pre run0 p post tr :
  let run := run0 ++ [p] in
  0 < cv -> Forall sane paths -> paths = pre ++ run ++ post -> Forall (fun q => travel q = false) run ->
  Forall (fun q => travel q.2 = true) tr ->
  exists pcs, chunk_coasting cv mv paths cur (reverse (indexed (length pre) run) ++ tr)
      = Ok (reverse pcs ++ ((fun _ => NoCoasting) <$> tr))
    /\ length pcs = length run
    /\ run_written cv mv z cs (wall p) (run_pieces (start_after pre cur) run) (write_paths z cs (zip run pcs)).
Proof.
  intros run Hcv Hsane Hpaths Hnt Htr.
  assert (Hsr : Forall sane run). { rewrite Hpaths, !Forall_app in Hsane. tauto. }
  set (l := run_pieces (start_after pre cur) run).
  assert (Hnone : forall c : list (nat * cpath), c = reverse (indexed (length pre) run) ++ tr ->
    ((fun _ => NoCoasting) <$> c) = reverse ((fun _ => NoCoasting) <$> run) ++ ((fun _ => NoCoasting) <$> tr)).
  { intros c ->. rewrite fmap_app. f_equal. rewrite !fmap_none, reverse_replicate, reverse_length. unfold indexed. by rewrite imap_length. }
  assert (Hhead : exists c, reverse (indexed (length pre) run) ++ tr = ((length pre + length run0)%nat, p) :: c).
  { unfold run. rewrite indexed_snoc, reverse_snoc. simpl. eauto. }
  destruct Hhead as [c Hc].
  assert (Hplain : write_paths z cs (zip run ((fun _ => NoCoasting) <$> run)) = Ok (plain z l)) by apply write_run_none.
  unfold chunk_coasting. rewrite Hc.
  destruct (wall p) eqn:Ew; simpl negb; cbv iota.
  - destruct (walk_run cv mv paths cur z cs (length pre) (start_after pre cur) run0 p tr (CSt 0 false false))
      as (st' & pcs & Hw & Hlen & (P1 & P2 & _) & _ & H2 & H3); [done|done|done| |by split|].
    { intros r1 q r2 Hr. rewrite end_of_start.
      - rewrite <- app_length. eapply previous_at; [done|]. rewrite Hpaths. unfold run. rewrite Hr. by rewrite <- !app_assoc.
      - fold run in Hr. rewrite Hr in Hsr. apply Forall_app in Hsr. tauto. }
    fold run in Hw, Hlen, P1, P2, H2, H3. fold l in P1, P2, H2, H3. cbn [acc reached min_reached] in *.
    rewrite <- Hc, Hw. cbn [rbind fst snd].
    assert (HT : 0 + total nominal l == total nominal l) by lra. rewrite HT in *.
    destruct (min_reached st') eqn:Em; simpl negb; cbv iota.
    + exists pcs. split; [done|]. split; [done|]. assert (mv <= total nominal l) by by apply P2.
      split; [done|]. split; [intros; lra|]. split; [intros _ _; by apply H3|].
      intros _ _ Hcl. destruct (H2 eq_refl Hcl) as (k & s & t & Hk & Ht1 & Ht2 & Hsum & Hwr).
      exists k, s, t. split; [done|]. split; [done|]. split; [done|]. split; [lra|done].
    + exists ((fun _ => NoCoasting) <$> run). split; [f_equal; by apply Hnone|]. split; [by rewrite fmap_length|].
      assert (Hno : ~ mv <= total nominal l). { intros H. apply P2 in H. done. }
      split; [done|]. split; [done|]. split; intros; done.
  - exists ((fun _ => NoCoasting) <$> run). split; [f_equal; rewrite <- Hc; by apply Hnone|]. split; [by rewrite fmap_length|].
    split; [done|]. split; [done|]. split; intros; done.
Qed.

(** C52: what is written for every maximal sequence of extruding paths. Every point is visited in order; from the coasting
    start on the nozzle only travels; the nominal volume after the coasting start is the coasting volume. *)
Theorem C52_written cv mv paths cur z cs pre run p post :
  0 < cv -> Forall sane paths -> paths = pre ++ run ++ post -> is_run pre run post -> last run = Some p ->
  exists all, calculatePathsCoasting cv mv paths cur = Ok all /\ length all = length paths
    /\ run_written cv mv z cs (wall p) (run_pieces (start_after pre cur) run)
         (write_paths z cs (zip run (take (length run) (drop (length pre) all)))).
Proof.
  intros Hcv Hsane Hpaths (Hne & Hnt & Hpre & Hpost) Hlast.
  apply last_Some in Hlast as [run0 ->]. set (run := run0 ++ [p]) in *.
  assert (Hall : forall i q, (i, q) ∈ indexed 0 paths -> sane q /\ exists from, previous_point paths cur i q 0 = Ok from).
  { intros i q Hi. apply indexed_lookup in Hi as (k & -> & Hk). split.
    - rewrite Forall_forall in Hsane. apply Hsane. by eapply elem_of_list_lookup_2.
    - apply elem_of_list_split_length in Hk as (l1 & l2 & Hl & ->). simpl.
      eexists. eapply previous_at; done. }
  set (rrun := reverse (indexed (length pre) run)). set (rpre := reverse (indexed 0 pre)).
  set (rpost := reverse (indexed (length pre + length run) post)).
  assert (HR : reverse (imap pair paths) = rpost ++ rrun ++ rpre).
  { change (imap pair paths) with (indexed 0 paths). rewrite Hpaths, !indexed_app, !reverse_app. by rewrite <- app_assoc. }
  destruct (chunk_run rrun rpre) as (tr & cs2 & Hc & Hrpre & Htr).
  { unfold rrun, run. rewrite indexed_snoc, reverse_snoc. done. }
  { unfold rrun. apply Forall_reverse. apply (indexed_snd _ _ (fun q => travel q = false)). done. }
  { intros [i q] Hq. unfold rpre in Hq. destruct pre as [|q' pre' _] using rev_ind; [done|].
    rewrite indexed_snoc, reverse_snoc in Hq. simpl in Hq. inversion Hq; subst. apply Hpre. by rewrite last_snoc. }
  assert (Hchunks : chunk_by same_chunk (reverse (imap pair paths)) = chunk_by same_chunk rpost ++ (rrun ++ tr) :: cs2).
  { rewrite HR. rewrite <- Hc. clear Hc.
    assert (Hh : exists c, rrun ++ rpre = ((length pre + length run0)%nat, p) :: c).
    { unfold rrun, run. rewrite indexed_snoc, reverse_snoc. simpl. eauto. }
    destruct Hh as [c Hh]. rewrite Hh. apply chunk_by_break. intros [i q] Hq.
    unfold rpost in Hq. rewrite last_reverse in Hq. destruct post as [|q' post']; [done|].
    unfold indexed in Hq. simpl in Hq. inversion Hq; subst.
    unfold same_chunk. simpl. rewrite (Hpost q eq_refl). unfold run in Hnt. apply Forall_app in Hnt as [_ Hnt].
    apply Forall_cons in Hnt as [-> _]. done. }
  destruct (run_chunk cv mv paths cur z cs pre run0 p post tr Hcv Hsane Hpaths Hnt Htr) as (pcs & Hpcs & Hlen & Hwr).
  fold run in Hpcs, Hlen, Hwr. fold rrun in Hpcs.
  destruct (chunks_total cv mv paths cur (chunk_by same_chunk rpost) Hcv) as (r1 & Hr1 & Hl1).
  { intros i q Hi. rewrite chunk_by_concat in Hi. unfold rpost in Hi. rewrite elem_of_reverse in Hi. apply Hall.
    rewrite Hpaths, !indexed_app. rewrite !elem_of_app. right; right. exact Hi. }
  destruct (chunks_total cv mv paths cur cs2 Hcv) as (r2 & Hr2 & Hl2).
  { intros i q Hi. apply Hall. rewrite Hpaths, !indexed_app. rewrite !elem_of_app. left.
    rewrite <- elem_of_reverse. fold rpre. rewrite Hrpre. apply elem_of_app. by right. }
  assert (Hrest : chunks_coasting cv mv paths cur ((rrun ++ tr) :: cs2) = Ok ((reverse pcs ++ ((fun _ => NoCoasting) <$> tr)) ++ r2)).
  { cbn [chunks_coasting]. rewrite Hpcs, Hr2. done. }
  exists (reverse (r1 ++ (reverse pcs ++ ((fun _ => NoCoasting) <$> tr)) ++ r2)).
  unfold calculatePathsCoasting. rewrite Hchunks, (chunks_app _ _ _ _ _ _ _ _ Hr1 Hrest). cbn [rbind].
  split; [done|].
  assert (Hlpre : length pre = (length tr + length r2)%nat).
  { rewrite Hl2. rewrite <- app_length, <- Hrpre. unfold rpre. rewrite reverse_length. unfold indexed. by rewrite imap_length. }
  assert (Hlpost : length r1 = length post).
  { rewrite Hl1, chunk_by_concat. unfold rpost. rewrite reverse_length. unfold indexed. by rewrite imap_length. }
  split.
  { rewrite reverse_length, !app_length, reverse_length, fmap_length, Hpaths, !app_length, Hlen, Hlpost. lia. }
  replace (take (length run) (drop (length pre) _)) with pcs; [done|].
  rewrite !reverse_app, reverse_involutive, fmap_none, reverse_replicate.
  rewrite <- !app_assoc. rewrite app_assoc. rewrite drop_app_alt by (rewrite app_length, reverse_length, replicate_length; lia).
  by rewrite take_app_alt by done.
Qed.

(** ** The nozzle path *)
Definition position (m : move) : pt3 := match m with Extrude p _ _ => p | Travel p _ => p end.
Definition extrudes (m : move) : bool := match m with Extrude _ _ _ => true | Travel _ _ => false end.

Lemma plain_pos z l : position <$> plain z l = (fun s => place z (spath s) (sto s)) <$> l.
Proof. unfold plain. rewrite <- list_fmap_compose. done. Qed.
Lemma coast_pos z cs l : position <$> Coast_Spec.coast z cs l = (fun s => place z (spath s) (sto s)) <$> l.
Proof. unfold Coast_Spec.coast. rewrite <- list_fmap_compose. done. Qed.
Lemma plain_extrudes z l : Forall (fun m => extrudes m = true) (plain z l).
Proof. unfold plain. apply Forall_fmap. by apply Forall_true. Qed.
Lemma coast_extrudes z cs l : Forall (fun m => extrudes m = false) (Coast_Spec.coast z cs l).
Proof. unfold Coast_Spec.coast. apply Forall_fmap. by apply Forall_true. Qed.

(** C52: coasting visits the points of a run in their order, with at most one more point in between; it first only
    extrudes and then only travels. *)
Theorem C52_nozzle_path cv mv paths cur z cs pre run p post :
  0 < cv -> Forall sane paths -> paths = pre ++ run ++ post -> is_run pre run post -> last run = Some p ->
  let stops := (fun s => place z (spath s) (sto s)) <$> run_pieces (start_after pre cur) run in
  exists all moves ext trav,
    calculatePathsCoasting cv mv paths cur = Ok all
    /\ write_paths z cs (zip run (take (length run) (drop (length pre) all))) = Ok moves
    /\ moves = ext ++ trav /\ Forall (fun m => extrudes m = true) ext /\ Forall (fun m => extrudes m = false) trav
    /\ ((position <$> moves) = stops
        \/ exists k q, (position <$> moves) = take k stops ++ [q] ++ drop k stops).
Proof.
  intros Hcv Hsane Hpaths Hrun Hlast stops.
  destruct (C52_written cv mv paths cur z cs pre run p post Hcv Hsane Hpaths Hrun Hlast) as (all & Hall & _ & Hw).
  set (l := run_pieces (start_after pre cur) run) in *.
  destruct Hw as (H1 & H2 & H3 & H4).
  assert (Hplain : write_paths z cs (zip run (take (length run) (drop (length pre) all))) = Ok (plain z l) ->
    exists all moves ext trav,
    calculatePathsCoasting cv mv paths cur = Ok all
    /\ write_paths z cs (zip run (take (length run) (drop (length pre) all))) = Ok moves
    /\ moves = ext ++ trav /\ Forall (fun m => extrudes m = true) ext /\ Forall (fun m => extrudes m = false) trav
    /\ ((position <$> moves) = stops
        \/ exists k q, (position <$> moves) = take k stops ++ [q] ++ drop k stops)).
  { intros H. exists all, (plain z l), (plain z l), []. split; [done|]. split; [done|]. split; [by rewrite app_nil_r|].
    split; [apply plain_extrudes|]. split; [constructor|]. left. apply plain_pos. }
  destruct (wall p); [|by apply Hplain, H1].
  destruct (Qlt_le_dec (total nominal l) mv) as [Hm|Hm]; [by apply Hplain, H2|].
  destruct (Qlt_le_dec (total nominal l) cv) as [Hc|Hc].
  - exists all, (Coast_Spec.coast z cs l), [], (Coast_Spec.coast z cs l). split; [done|]. split; [by apply H3|]. split; [done|].
    split; [constructor|]. split; [apply coast_extrudes|]. left. apply coast_pos.
  - destruct (H4 eq_refl Hm Hc) as (k & s & t & Hk & Ht1 & Ht2 & Hsum & Hwr).
    exists all, (split_at z cs l k s t), (plain z (take k l) ++ [extruding z (spath s) (lerp3 (sfrom s) (sto s) t)]), (Coast_Spec.coast z cs (drop k l)).
    split; [done|]. split; [done|]. split; [unfold split_at; by rewrite app_assoc|].
    split; [apply Forall_app; split; [apply plain_extrudes|by repeat constructor]|]. split; [apply coast_extrudes|].
    right. exists k, (place z (spath s) (lerp3 (sfrom s) (sto s) t)).
    unfold split_at. rewrite !fmap_app, plain_pos, coast_pos. unfold stops. by rewrite fmap_take, fmap_drop.
Qed.

(** ** The coasting start is on the piece *)
Lemma llrint_near q : inject_Z (llrint q) - (1 # 2) <= q /\ q <= inject_Z (llrint q) + (1 # 2).
Proof.
  unfold llrint. cbv zeta. pose proof (Qfloor_le q) as H1. pose proof (Qlt_floor q) as H2.
  rewrite inject_Z_plus in H2. change (inject_Z 1) with 1 in H2.
  destruct (Qcompare_spec (q - inject_Z (Qfloor q)) (1 # 2)) as [H|H|H].
  - destruct (Z.even (Qfloor q)); [lra|]. rewrite inject_Z_plus. change (inject_Z 1) with 1. lra.
  - lra.
  - rewrite inject_Z_plus. change (inject_Z 1) with 1. lra.
Qed.

Lemma llrint_between a b q : inject_Z a <= q -> q <= inject_Z b -> (a <= llrint q <= b)%Z.
Proof.
  intros Ha Hb. pose proof (llrint_near q) as [H1 H2]. split.
  - assert (H : inject_Z a < inject_Z (llrint q) + 1) by lra. change 1 with (inject_Z 1) in H.
    rewrite <- inject_Z_plus, <- Zlt_Qlt in H. lia.
  - assert (H : inject_Z (llrint q) < inject_Z b + 1) by lra. change 1 with (inject_Z 1) in H.
    rewrite <- inject_Z_plus, <- Zlt_Qlt in H. lia.
Qed.

Lemma lerp_between a b t : 0 <= t -> t <= 1 -> (Z.min a b <= lerp a b t <= Z.max a b)%Z.
Proof.
  intros H0 H1. unfold lerp. destruct (Z.le_ge_cases a b) as [H|H].
  - rewrite Z.min_l, Z.max_r by done. rewrite Zle_Qle in H. apply llrint_between; nra.
  - rewrite Z.min_r, Z.max_l by done. rewrite Zle_Qle in H. apply llrint_between; nra.
Qed.

(** C52: the point where coasting starts is at most half a micron, in every coordinate, from the point of the piece
    that it stands for, and inside the box around the piece. *)
Theorem C52_start a b t : 0 <= t -> t <= 1 ->
  forall c, c ∈ [x3; y3; z3] ->
    (Z.min (c a) (c b) <= c (lerp3 a b t) <= Z.max (c a) (c b))%Z
    /\ inject_Z (c (lerp3 a b t)) - (1 # 2) <= (1 - t) * inject_Z (c a) + t * inject_Z (c b)
    /\ (1 - t) * inject_Z (c a) + t * inject_Z (c b) <= inject_Z (c (lerp3 a b t)) + (1 # 2).
Proof.
  intros H0 H1 c Hc.
  assert (Hl : c (lerp3 a b t) = lerp (c a) (c b) t).
  { rewrite !elem_of_cons, elem_of_nil in Hc. by destruct Hc as [-> |[-> |[-> |[]]]]. }
  rewrite Hl. split; [by apply lerp_between|]. unfold lerp.
  pose proof (llrint_near (inject_Z (c a) + t * (inject_Z (c b) - inject_Z (c a)))) as [H2 H3].
  split; lra.
Qed.

(** ** The volume *)
Lemma total_le v w l : Forall (fun s => v s <= w s) l -> total v l <= total w l.
Proof. induction 1 as [|a l H _ IH]; simpl; lra. Qed.

(** C52: the volume left out is at most the coasting volume, if no line is wider than nominal. *)
Theorem C52_volume cv l k s t :
  l !! k = Some s -> 0 <= t -> t < 1 ->
  Forall (fun s => 0 <= mm3 (spath s) * flow (spath s) /\ width (spath s) <= 1) l ->
  total nominal (drop (1 + k) l) + (1 - t) * nominal s == cv ->
  total printed (drop (1 + k) l) + (1 - t) * printed s <= cv.
Proof.
  intros Hk H0 H1 HF Hsum.
  assert (Hle : Forall (fun s => printed s <= nominal s) l).
  { eapply Forall_impl; [exact HF|]. intros x [Hx Hw]. apply nominal_nonneg in Hx. unfold printed. nra. }
  pose proof (total_le printed nominal (drop (1 + k) l) (Forall_drop _ _ _ Hle)) as Hd.
  rewrite Forall_lookup in Hle. specialize (Hle k s Hk). cbn beta in Hle. nra.
Qed.

(** The planned volume ignores the width of the lines, so of wider lines more than the coasting volume is left out:
    here two cubic millimetres for a coasting volume of one. *)
Definition wide : cpath := CPath [P3 10000 0 0] false true 1 1 2 0 10 1 1.
Definition go : cpath := CPath [P3 0 0 0] true false 0 1 1 0 100 1 1.
Theorem C52_volume_refuted :
  ~ (forall cv mv paths cur z cs pre run p post, 0 < cv -> Forall sane paths -> paths = pre ++ run ++ post ->
      is_run pre run post -> last run = Some p ->
      let l := run_pieces (start_after pre cur) run in
      forall all k s t, calculatePathsCoasting cv mv paths cur = Ok all -> l !! k = Some s -> 0 <= t -> t < 1 ->
        write_paths z cs (zip run (take (length run) (drop (length pre) all))) = Ok (split_at z cs l k s t) ->
        total printed (drop (1 + k) l) + (1 - t) * printed s <= cv).
Proof.
  intros H.
  specialize (H 1 1 [go; wide] (P3 0 0 0) 0%Z 1 [go] [wide] wide []).
  assert (Hc : 1 + 0 <= 0 -> False) by lra.
  cut (total printed [] + (1 - (10 - 1) / 10) * printed (Seg (P3 0 0 0) (P3 10000 0 0) wide) <= 1).
  { intros Hle. vm_compute in Hle. by apply Hle. }
  refine (H _ _ eq_refl _ eq_refl [NoCoasting; PartialCoasting 0 (P3 9000 0 0)] 0%nat _ ((10 - 1) / 10) _ eq_refl _ _ _).
  - lra.
  - repeat constructor; done.
  - split; [done|]. split; [by repeat constructor|]. split; [|done]. intros q [= <-]. done.
  - by vm_compute.
  - by vm_compute.
  - by vm_compute.
  - by vm_compute.
Qed.

(** ** A first path that is not a travel: the current position is in the print, the points of the paths are relative to
    the layer, and the coasting start is put somewhere in between. *)
Theorem C52_height_refuted :
  ~ (forall cv mv paths cur z cs p all, 0 < cv -> Forall sane paths -> Forall (fun q => travel q = false /\ zoff q = 0%Z) paths ->
      last paths = Some p -> z3 cur = z -> Forall (fun q => Forall (fun pt => z3 pt = 0%Z) (points q)) paths ->
      calculatePathsCoasting cv mv paths cur = Ok all ->
      exists moves, write_paths z cs (zip paths all) = Ok moves /\ Forall (fun m => z3 (position m) = z) moves).
Proof.
  intros H. set (w := CPath [P3 3000 0 0] false true 1 1 1 0 10 1 1).
  destruct (H 1 1 [w] (P3 0 0 4000) 4000%Z 1 w [PartialCoasting 0 (P3 2400 0 800)]) as (ms & Hms & HF).
  - lra.
  - repeat constructor; done.
  - by repeat constructor.
  - done.
  - done.
  - by repeat constructor.
  - by vm_compute.
  - vm_compute in Hms. inversion Hms; subst. inversion HF as [|? ? Hz ?]; subst. vm_compute in Hz. done.
Qed.

(** Without a coasting volume and with an empty last piece, the coasting start is not a number. *)
Theorem C52_zero_refuted :
  ~ (forall cv mv paths cur, 0 <= cv -> Forall sane paths -> exists all, calculatePathsCoasting cv mv paths cur = Ok all).
Proof.
  intros H. destruct (H 0 0 [CPath [P3 0 0 0] false true 1 1 1 0 10 1 1] (P3 0 0 0)) as [all Hall]; [lra|by repeat constructor|].
  vm_compute in Hall. done.
Qed.

(** A path without points before a wall makes the code read the last point of an empty vector. *)
Theorem C52_empty_refuted :
  ~ (forall cv mv paths cur, 0 < cv -> Forall (fun p => 0 <= mm3 p * flow p) paths ->
      exists all, calculatePathsCoasting cv mv paths cur = Ok all).
Proof.
  intros H. destruct (H 1 1 [CPath [] true false 0 1 1 0 100 1 1; CPath [P3 0 0 0] false true 1 1 1 0 10 1 1] (P3 0 0 0)) as [all Hall];
    [lra|by repeat constructor|].
  vm_compute in Hall. done.
Qed.

(** ** Example: a wall of two paths between travels, with the coasting volume reaching into the first of them *)
Definition w1 : cpath := CPath [P3 10000 0 0; P3 10000 5000 0] false true (1 # 10) 1 1 0 50 1 1.
Definition w2 : cpath := CPath [P3 5000 5000 0] false true (1 # 10) (1 # 2) 1 0 50 1 1.
Example C52_example :
  Forall sane [go; w1; w2; go] /\ is_run [go] [w1; w2] [go]
  /\ calculatePathsCoasting (1 # 2) 1 [go; w1; w2; go] (P3 0 0 0)
     = Ok [NoCoasting; PartialCoasting 1 (P3 10000 2500 0); CoastEntirePath; NoCoasting]
  /\ write_paths 200 (9 # 10) (zip [w1; w2] [PartialCoasting 1 (P3 10000 2500 0); CoastEntirePath])
     = Ok [Extrude (P3 10000 0 200) (50 * 1 * 1) (1 * 1 * (1 # 10)); Extrude (P3 10000 2500 200) (50 * 1 * 1) (1 * 1 * (1 # 10));
           Travel (P3 10000 5000 200) ((9 # 10) * 50); Travel (P3 5000 5000 200) ((9 # 10) * 50)]
  /\ calculatePathsCoasting (1 # 2) 2 [go; w1; w2; go] (P3 0 0 0) = Ok [NoCoasting; NoCoasting; NoCoasting; NoCoasting].
Proof.
  split; [by repeat constructor|]. split.
  { split; [done|]. split; [by repeat constructor|]. split; intros q [= <-]; done. }
  split; [by vm_compute|]. split; [reflexivity|by vm_compute].
Qed.

Print Assumptions C52_written.
Print Assumptions C52_nozzle_path.
Print Assumptions C52_start.
Print Assumptions C52_volume.
Print Assumptions C52_volume_refuted.
Print Assumptions C52_height_refuted.
