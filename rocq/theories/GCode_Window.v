(** C28: the limit on the number of retractions within an extruded amount. *)
From Coq Require Import ZArith QArith Qabs Lqa.
From stdpp Require Import list.
From Verif Require Import Common GCode_Model GCode_Spec GCode_Pos.
Local Open Scope Q_scope.

Section window.
  Variables (relative volumetric : bool) (vlen : pt3 -> Q) (speed_z_hop : nat -> Q) (retraction_enable : nat -> bool).

  Notation qeql := (Forall2 Qeq).
  Lemma qeql_refl l : qeql l l.
  Proof. reflexivity. Qed.
  Lemma qeql_trans a b c : qeql a b -> qeql b c -> qeql a c.
  Proof. intros. by etransitivity. Qed.

  (** the remembered retractions, as volumes since the start of the print *)
  Definition absv (a : attr) : list Q := map (fun v => v + filament a) (vols a).
  Definition keep (st st' : gst) : Prop := forall n, qeql (absv (attrs st' n)) (absv (attrs st n)).
  Lemma keep_refl st : keep st st.
  Proof. intros n. apply qeql_refl. Qed.
  Lemma keep_trans a b c : keep a b -> keep b c -> keep a c.
  Proof. intros H1 H2 n. eapply qeql_trans; [apply H2|apply H1]. Qed.
  Lemma keep_attrs st st' : attrs st' = attrs st -> keep st st'.
  Proof. intros E n. rewrite E. apply qeql_refl. Qed.
  Lemma keep_upd st f : (forall a, absv (f a) = absv a) -> keep st (upd_attr st f).
  Proof. intros H n. unfold upd_attr. cbn. destruct (n =? cur st)%nat; [rewrite H|]; apply qeql_refl. Qed.

  Lemma keep_reset st : keep st (resetExtrusionValue relative volumetric st).
  Proof.
    unfold resetExtrusionValue. set (st1 := if relative then st else emit st ZeroE).
    eapply (keep_trans _ st1); [apply keep_attrs; unfold st1; by destruct relative|].
    intros n. cbn. destruct (n =? cur st1)%nat; [|apply qeql_refl].
    unfold absv. cbn. rewrite map_map. induction (vols (attrs st1 n)) as [|v l IH]; cbn; constructor; [ring|done].
  Qed.
  Lemma keep_fxyze st sp x y z e am : keep st (writeFXYZE relative st sp x y z e am).
  Proof.
    unfold writeFXYZE. cbv zeta. set (st1 := if Qne_dec_bool (speed st) sp then set_speed st sp else st).
    eapply (keep_trans _ st1); [apply keep_attrs; unfold st1; by destruct (Qne_dec_bool _ _)|].
    destruct am as [am|].
    - destruct (has_retraction am); [|by apply keep_attrs]. intros n. cbn.
      destruct (n =? cur st1)%nat; apply qeql_refl.
    - destruct (Qne_dec_bool (e + e_off st1) (cur_e st1)); by apply keep_attrs.
  Qed.
  Lemma keep_travel st x y z sp d : keep st (writeTravelXYZ relative volumetric st x y z sp d).
  Proof. unfold writeTravelXYZ. destruct (_ && _); [apply keep_refl|apply keep_fxyze]. Qed.
  Lemma keep_zhop st sp h d : keep st (writeZhop relative volumetric speed_z_hop st sp h d).
  Proof. unfold writeZhop. eapply (keep_trans _ (set_hop st h)); [by apply keep_attrs|apply keep_fxyze]. Qed.
  Lemma keep_zhopstart st h sp d r : keep st (writeZhopStart relative volumetric speed_z_hop st h sp d r).
  Proof.
    assert (H : forall st h, keep st (zhop_up relative volumetric speed_z_hop st h sp d)).
    { intros st' h'. unfold zhop_up. destruct (0 <? h')%Z; [apply keep_zhop|apply keep_refl]. }
    unfold writeZhopStart. destruct (_ && _ && _); [eapply keep_trans; apply H|apply H].
  Qed.
  Lemma keep_down st sp h d : keep st (zhop_down relative volumetric speed_z_hop st sp h d).
  Proof. unfold zhop_down. destruct (_ =? _)%Z; [apply keep_refl|]. eapply keep_trans; [apply keep_zhop|by apply keep_attrs]. Qed.
  Lemma keep_split st sp h d r : keep st (zhop_down_split relative volumetric speed_z_hop st sp h d r).
  Proof.
    unfold zhop_down_split. destruct (_ =? _)%Z; [apply keep_refl|].
    destruct (_ && _ && _); [eapply keep_trans; apply keep_down|apply keep_down].
  Qed.
  Lemma keep_zhopend st sp h d r : keep st (writeZhopEnd relative volumetric speed_z_hop st sp h d r).
  Proof.
    unfold writeZhopEnd. eapply keep_trans; [|apply keep_split].
    destruct (leftover st); [|apply keep_refl].
    eapply (keep_trans _ (set_leftover st None)); [by apply keep_attrs|apply keep_split].
  Qed.
  Lemma keep_unret st : keep st (writeUnretractionAndPrime relative volumetric st).
  Proof.
    unfold writeUnretractionAndPrime. cbv zeta. set (st2 := if Qne_dec_bool (retr _) 0 then _ else _).
    assert (H2 : keep st st2).
    { apply keep_attrs. unfold st2. destruct (Qne_dec_bool (retr (me st)) 0), (Qne_dec_bool (prime (me st)) 0), (firmware (me st)); done. }
    eapply keep_trans; [exact H2|]. clearbody st2.
    eapply keep_trans; [|by apply keep_upd]. eapply (keep_trans _ (upd_attr st2 (a_prime 0))); [by apply keep_upd|].
    destruct (Qltb _ _); [apply keep_reset|apply keep_refl].
  Qed.
  Lemma keep_extrude st p sp v u : keep st (writeExtrusion relative volumetric vlen speed_z_hop st p sp v u).
  Proof.
    unfold writeExtrusion. destruct (_ && _ && _); [apply keep_refl|]. cbv zeta.
    eapply keep_trans; [|apply keep_fxyze]. set (st1 := if (0 <? hop st)%Z then _ else st).
    eapply (keep_trans _ st1); [unfold st1; destruct (0 <? hop st)%Z; [apply keep_zhopend|apply keep_refl]|].
    eapply keep_trans; [apply keep_unret|]. destruct (u && _); [by apply keep_attrs|apply keep_refl].
  Qed.
  Lemma keep_start st n : keep st (startExtruder relative volumetric st n).
  Proof.
    unfold startExtruder. cbv zeta. set (st2 := set_cur _ n).
    eapply (keep_trans _ st2); [apply keep_attrs; unfold st2; by destruct (n =? cur st)%nat|].
    eapply keep_trans; [apply keep_reset|by apply keep_attrs].
  Qed.
  Lemma keep_wipe_moves n : forall i st dist sp, keep st (wipe_moves relative volumetric n i st dist sp).
  Proof. induction n as [|n IH]; intros; cbn [wipe_moves]; [apply keep_refl|]. eapply keep_trans; [apply keep_travel|apply IH]. Qed.

  (** *** retractions *)
  Variables (N : nat) (n0 : nat).
  Definition remembers (st : gst) (log : list revent) : Prop :=
    exists m, (N <= m)%nat /\ qeql (absv (attrs st n0)) (take m (map rv_volume log)).
  Lemma remembers_keep st st' log : keep st st' -> remembers st log -> remembers st' log.
  Proof. intros Hk (m & Hm & H). exists m. split; [done|]. eapply qeql_trans; [apply Hk|done]. Qed.

  Lemma total_cur st : getTotalFilamentUsed volumetric st (cur st) == getCurrentExtrudedVolume volumetric st + filament (me st).
  Proof. unfold getTotalFilamentUsed. rewrite Nat.eqb_refl. unfold me. ring. Qed.

  (** whatever happens after the list has been updated, it is the list that counts *)
  Lemma retraction_absv st cfg force sw d :
    let r := writeRetraction relative volumetric st cfg force sw d in
    (forall n, n <> cur st -> attrs r.2 n = attrs st n) /\ cur r.2 = cur st /\
    match limit_retractions cfg force (area (me st)) (getCurrentExtrudedVolume volumetric st) (vols (me st)) with
    | Some l => r.1 = true /\ absv (me r.2) = map (fun v => v + filament (me st)) l
    | None => r.1 = false /\ absv (me r.2) = map (fun v => v + filament (me st)) (take (rcount_max cfg) (vols (me st)))
    end.
  Proof.
    assert (Hme : forall s f, me (upd_attr s f) = f (me s)).
    { intros. unfold me, upd_attr. cbn. by rewrite Nat.eqb_refl. }
    assert (Hot : forall s f n, n <> cur s -> attrs (upd_attr s f) n = attrs s n).
    { intros s f n Hn. unfold upd_attr. cbn. by rewrite (proj2 (Nat.eqb_neq _ _) Hn). }
    cbv zeta. unfold writeRetraction. destruct (limit_retractions _ _ _ _ _) as [l|].
    2:{ cbn [fst snd]. rewrite Hme. split; [intros n Hn; by apply Hot|]. done. }
    cbv zeta. set (st1 := upd_attr st (a_vols l)).
    assert (H1 : (forall n, n <> cur st -> attrs st1 n = attrs st n) /\ cur st1 = cur st /\ absv (me st1) = map (fun v => v + filament (me st)) l).
    { split; [intros n Hn; by apply Hot|]. split; [done|]. unfold st1. by rewrite Hme. }
    clearbody st1. destruct H1 as (A1 & A2 & A3).
    set (am := computeRetractionAmounts _ _ _).
    destruct (negb (has_retraction am)); [done|].
    destruct (firmware (me st1)).
    - destruct (sw && _); [done|]. cbn [fst snd]. rewrite !Hme. split; [|done]. intros n Hn.
      rewrite !Hot by (cbn; congruence). by apply A1.
    - cbn [writeRawRetract fst snd]. cbv zeta. cbn [fst snd]. rewrite !Hme. split; [|split; [done|split; [done|]]].
      + intros n Hn. rewrite !Hot by (cbn; congruence). cbn [set_speed emit attrs]. rewrite Hot by (cbn; congruence). by apply A1.
      + change (me (set_speed ?s ?x)) with (me s). change (me (emit ?s ?x)) with (me s). rewrite Hme. exact A3.
  Qed.

  Lemma limit_some cfg force ar vol l l' :
    limit_retractions cfg force ar vol l = Some l' -> exists k, l' = take k (vol :: take (rcount_max cfg) l) /\ (rcount_max cfg <= k)%nat.
  Proof.
    unfold limit_retractions. cbv zeta. destruct (negb force && _); [done|]. destruct (negb force && _ && _); [done|].
    set (l2 := vol :: take (rcount_max cfg) l). intros HE. apply (inj Some) in HE. subst l'. subst l2. destruct (Nat.eqb_spec (length (vol :: take (rcount_max cfg) l)) (rcount_max cfg + 1)) as [E|E].
    - exists (rcount_max cfg). split; [done|lia].
    - exists (S (rcount_max cfg)). split; [|lia]. rewrite (take_ge (vol :: _)); [done|]. cbn [length]. rewrite take_length. lia.
  Qed.
  Lemma limit_window cfg ar vol l l' b :
    limit_retractions cfg false ar vol l = Some l' -> (0 < rcount_max cfg)%nat -> l !! (rcount_max cfg - 1)%nat = Some b ->
    b + rwindow cfg * ar <= vol.
  Proof.
    intros H HN Hb. unfold limit_retractions in H. cbn [negb andb] in H.
    destruct (Nat.eqb_spec (rcount_max cfg) 0); [lia|].
    assert (Hlen : length (take (rcount_max cfg) l) = rcount_max cfg).
    { rewrite take_length. apply lookup_lt_Some in Hb. lia. }
    rewrite Hlen, Nat.eqb_refl in H. cbn [andb] in H.
    assert (HL : last (take (rcount_max cfg) l) = Some b).
    { rewrite last_lookup, Hlen. rewrite lookup_take by lia. by replace (pred (rcount_max cfg)) with (rcount_max cfg - 1)%nat by lia. }
    rewrite HL in H. unfold Qltb in H. destruct (Qlt_le_dec vol (b + rwindow cfg * ar)); done.
  Qed.

  Lemma qeql_take k a b : qeql a b -> qeql (take k a) (take k b).
  Proof. apply Forall2_take. Qed.

  Definition well_spaced (log : list revent) (ar : Q) : Prop :=
    forall i ev ev', log !! i = Some ev -> rv_forced ev = false -> rcount_max (rv_config ev) = N ->
      log !! (i + N)%nat = Some ev' -> (0 < N)%nat /\ rv_volume ev' + rwindow (rv_config ev) * ar <= rv_volume ev.

  Lemma well_spaced_cons log ar ev :
    well_spaced log ar ->
    (rv_forced ev = false -> rcount_max (rv_config ev) = N -> forall ev', (ev :: log) !! N = Some ev' ->
       (0 < N)%nat /\ rv_volume ev' + rwindow (rv_config ev) * ar <= rv_volume ev) ->
    well_spaced (ev :: log) ar.
  Proof.
    intros H He [|i] e e' Hi; cbn in Hi; [|by apply H]. injection Hi as <-. intros Hf Hc Hl. by apply He.
  Qed.

  Definition rev_ok (st : gst) (log : list revent) : Prop := remembers st log /\ well_spaced log (area (attrs st n0)).

  Lemma rev_retraction st log cfg force sw d :
    rev_ok st log -> (N <= rcount_max cfg)%nat ->
    let r := writeRetraction relative volumetric st cfg force sw d in
    rev_ok r.2 (if r.1 && (n0 =? cur st)%nat then REvent (getTotalFilamentUsed volumetric st (cur st)) force cfg :: log else log)
    /\ (force = true -> r.1 = true).
  Proof.
    intros [Hrem Hws] HN. cbv zeta.
    destruct (retraction_absv st cfg force sw d) as (A1 & A2 & A3).
    assert (Hst : forall n, area (attrs (writeRetraction relative volumetric st cfg force sw d).2 n) = area (attrs st n)).
    { intros n. pose proof (quiet_retraction relative volumetric (fun q => q) st cfg force sw d) as [[HS _ _] _ _ _].
      pose proof (sb_stat _ _ HS n) as E. unfold stat in E. congruence. }
    set (r := writeRetraction relative volumetric st cfg force sw d) in *. clearbody r.
    assert (Hforce : force = true -> r.1 = true).
    { intros ->. destruct (limit_retractions _ _ _ _ _) eqn:E; [by destruct A3|]. exfalso.
      unfold limit_retractions in E. done. }
    split; [|done]. unfold rev_ok. rewrite Hst.
    destruct (Nat.eqb_spec n0 (cur st)) as [Hn|Hn].
    2:{ rewrite andb_false_r. split; [|done]. destruct Hrem as (m & Hm & H). exists m. split; [done|]. by rewrite A1. }
    rewrite andb_true_r. destruct Hrem as (m & Hm & H). rewrite Hn in H. fold (me st) in H.
    pose proof (total_cur st) as HT.
    destruct (limit_retractions _ _ _ _ _) as [l|] eqn:EL.
    - destruct A3 as [-> A3]. split.
      + destruct (limit_some _ _ _ _ _ _ EL) as (k & -> & Hk).
        exists (Nat.min k (S (Nat.min (rcount_max cfg) m))). split; [lia|].
        replace (attrs r.2 n0) with (me r.2) by (unfold me; by rewrite A2, Hn). rewrite A3. rewrite <- firstn_map, <- take_take.
        apply qeql_take. cbn. constructor; [by rewrite HT|].
        rewrite <- firstn_map, <- take_take. apply qeql_take. exact H.
      + apply well_spaced_cons; [done|]. cbn [rv_forced rv_config rv_volume]. intros -> HcN ev' Hev.
        assert (HN0 : (0 < N)%nat).
        { unfold limit_retractions in EL. cbn [negb andb] in EL. rewrite HcN in EL. destruct (Nat.eqb_spec N 0); [done|lia]. }
        split; [done|]. rewrite lookup_cons_ne_0 in Hev by lia.
        assert (Hl : exists b, vols (me st) !! (rcount_max cfg - 1)%nat = Some b /\ b + filament (me st) == rv_volume ev').
        { assert (Hm' : take m (map rv_volume log) !! (N - 1)%nat = Some (rv_volume ev')).
          { rewrite lookup_take by lia. rewrite list_lookup_fmap. replace (N - 1)%nat with (pred N) by lia. by rewrite Hev. }
          destruct (Forall2_lookup_r _ _ _ _ _ H Hm') as (x & Hx & Hx2). unfold absv in Hx.
          rewrite list_lookup_fmap in Hx. rewrite HcN. destruct (vols (me st) !! (N - 1)%nat) as [b|]; [|done]. cbn in Hx.
          injection Hx as <-. by exists b. }
        destruct Hl as (b & Hb & Hb2). pose proof (limit_window _ _ _ _ _ _ EL ltac:(lia) Hb) as HW.
        rewrite <- Hb2, HT, Hn. fold (me st). lra.
    - destruct A3 as [-> A3]. split; [|done]. exists (Nat.min (rcount_max cfg) m). split; [lia|].
      replace (attrs r.2 n0) with (me r.2) by (unfold me; by rewrite A2, Hn). rewrite A3, <- firstn_map, <- take_take.
      by apply qeql_take.
  Qed.

  Lemma rev_keep st st' log : keep st st' -> stable st st' -> rev_ok st log -> rev_ok st' log.
  Proof.
    intros Hk HS [H1 H2]. split; [by eapply remembers_keep|].
    pose proof (sb_stat _ _ HS n0) as E. unfold stat in E. by replace (area (attrs st' n0)) with (area (attrs st n0)) by congruence.
  Qed.

  Definition counts_ok (o : op) : Prop :=
    match o with
    | ORetract cfg _ _ _ | OSwitch _ cfg _ => (N <= rcount_max cfg)%nat
    | OWipe w => forall c, w_retraction w = Some c -> (N <= rcount_max c)%nat
    | _ => True
    end.
  Notation apply_op := (apply_op relative volumetric vlen speed_z_hop retraction_enable).
  Notation retraction_of := (retraction_of relative volumetric retraction_enable).
  Notation o0 := (fun _ : nat => (0, 0)%Z).
  Notation p0 := (Pr 0 0 0 0 0 (fun _ => 0) (fun _ => 0) (fun _ => false)).

  Lemma start_stable st n : stable st (startExtruder relative volumetric st n).
  Proof.
    unfold startExtruder. cbv zeta. set (st2 := set_cur _ n).
    assert (H : stable st st2) by (unfold st2; destruct (n =? cur st)%nat; by constructor).
    eapply stable_trans; [exact H|]. pose proof (quiet_reset relative volumetric (fun q => q) st2) as [[HS _ _] _ _ _].
    destruct HS. by constructor.
  Qed.
  Lemma reset_stable st : stable st (resetExtrusionValue relative volumetric st).
  Proof. apply (quiet_reset relative volumetric (fun q => q)). Qed.
  Lemma zhopstart_stable st h sp d r : stable st (writeZhopStart relative volumetric speed_z_hop st h sp d r).
  Proof. apply (zhopstart_facts _ _ _ (fun q => q) p0 o0 0). Qed.
  Lemma zhopend_stable st h sp d r : stable st (writeZhopEnd relative volumetric speed_z_hop st sp h d r).
  Proof. apply (zhopend_same _ _ _ (fun q => q) p0 o0). Qed.

  Lemma rev_op st o log :
    rev_ok st log -> counts_ok o ->
    rev_ok (apply_op st o) (match retraction_of st o with Some ev => if (n0 =? cur st)%nat then ev :: log else log | None => log end).
  Proof.
    intros H Hok.
    destruct o as [z|p sp d|p sp v u|cfg force sw d| |h sp d r|sp|a r|n cfg h| |v|m f|w]; cbn [GCode_Spec.retraction_of GCode_Model.apply_op counts_ok] in *.
    - by destruct H.
    - eapply rev_keep; [apply keep_travel|apply travelxyz_same|done].
    - eapply rev_keep; [apply keep_extrude|apply (extrude_same _ _ _ _ (fun q => q) p0 o0)|done].
    - destruct (rev_retraction st log cfg force sw d H Hok) as [HR _]. cbv zeta in HR.
      destruct (writeRetraction relative volumetric st cfg force sw d).1; cbn [andb] in HR; by destruct (n0 =? cur st)%nat.
    - eapply rev_keep; [apply keep_unret|apply (quiet_unretract _ _ (fun q => q))|done].
    - eapply rev_keep; [apply keep_zhopstart|apply (zhopstart_facts _ _ _ (fun q => q) p0 o0 0)|done].
    - eapply rev_keep; [apply keep_zhopend|apply (zhopend_same _ _ _ (fun q => q) p0 o0)|done].
    - by destruct H.
    - unfold switchExtruder. destruct (Nat.eqb_spec (cur st) n) as [Hn|Hn]; cbn [negb andb]; [done|].
      set (st1 := if retraction_enable (cur st) then _ else st).
      assert (H1 : rev_ok st1 (if retraction_enable (cur st) then if (n0 =? cur st)%nat then REvent (getTotalFilamentUsed volumetric st (cur st)) true cfg :: log else log else log)).
      { unfold st1. destruct (retraction_enable (cur st)); [|done].
        destruct (rev_retraction st log cfg true true None H Hok) as [HR HF]. cbv zeta in HR. rewrite HF in HR by done. exact HR. }
      destruct (retraction_enable (cur st)).
      all: clearbody st1; eapply (rev_keep st1); [| |exact H1].
      1, 3: eapply keep_trans; [|apply keep_start]; eapply keep_trans; [|apply keep_reset];
        destruct (0 <? h)%Z; [apply keep_zhopstart|apply keep_refl].
      all: eapply stable_trans; [|apply start_stable]; eapply stable_trans; [|apply reset_stable];
        destruct (0 <? h)%Z; [apply zhopstart_stable|apply stable_refl].
    - eapply rev_keep; [apply keep_reset|apply (quiet_reset _ _ (fun q => q))|done].
    - eapply rev_keep; [by apply keep_upd|by apply (quiet_upd relative (fun q => q))|done].
    - by destruct H.
    - unfold insertWipeScript. cbv zeta.
      set (st1 := match w_retraction w with Some c => _ | None => st end).
      set (log1 := match match w_retraction w with Some c => _ | None => None end with Some ev => _ | None => log end).
      assert (H1 : rev_ok st1 log1).
      { unfold st1, log1. destruct (w_retraction w) as [c|]; [|done].
        destruct (rev_retraction st log c false false None H (Hok c eq_refl)) as [HR _]. cbv zeta in HR.
        destruct (writeRetraction relative volumetric st c false false None).1; cbn [andb] in HR; by destruct (n0 =? cur st)%nat. }
      clearbody st1 log1.
      set (st2 := match w_hop w with Some _ => _ | None => st1 end).
      assert (H2 : rev_ok st2 log1).
      { unfold st2. destruct (w_hop w) as [[hh hs]|]; [|done]. eapply rev_keep; [apply keep_zhopstart|apply zhopstart_stable|done]. }
      clearbody st2. set (st3 := writeTravel2 _ _ _ _ _).
      assert (H3 : rev_ok st3 log1) by (eapply rev_keep; [apply keep_travel|apply travelxyz_same|done]).
      clearbody st3. set (st4 := wipe_moves _ _ _ _ _ _ _).
      assert (H4 : rev_ok st4 log1) by (eapply rev_keep; [apply keep_wipe_moves|apply (wipe_moves_facts _ _ (fun q => q) p0 o0 0)|done]).
      clearbody st4. set (st5 := writeTravel relative volumetric st4 _ _ _).
      assert (H5 : rev_ok st5 log1) by (eapply rev_keep; [apply keep_travel|apply travelxyz_same|done]).
      clearbody st5. set (st6 := match w_hop w with Some _ => _ | None => st5 end).
      assert (H6 : rev_ok st6 log1).
      { unfold st6. destruct (w_hop w) as [[hh hs]|]; [|done]. eapply rev_keep; [apply keep_zhopend|apply zhopend_stable|done]. }
      clearbody st6. set (st7 := match w_retraction w with Some _ => _ | None => st6 end).
      assert (H7 : rev_ok st7 log1).
      { unfold st7. destruct (w_retraction w); [|done].
        eapply rev_keep; [apply keep_unret|apply (quiet_unretract _ _ (fun q => q))|done]. }
      by destruct (Qltb _ _).
  Qed.

  Lemma rev_ops l : forall st log, rev_ok st log -> Forall counts_ok l ->
    rev_ok (apply_ops relative volumetric vlen speed_z_hop retraction_enable st l)
           (retraction_log relative volumetric vlen speed_z_hop retraction_enable st l n0 log).
  Proof.
    induction l as [|o l IH]; intros st log H Hok; cbn [retraction_log apply_ops fold_left]; [done|].
    apply Forall_cons in Hok as [Ho Hl]. apply IH; [|done]. by apply rev_op.
  Qed.
End window.
