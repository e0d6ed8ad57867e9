(** C56: moves are made at the requested speed although the F word is left out when it repeats. *)
From Coq Require Import ZArith QArith Qabs Lqa.
From stdpp Require Import list.
From Verif Require Import Common GCode_Model GCode_Spec.
Local Open Scope Q_scope.

(** The feed rate (mm/min) in force on the printer after the commands: the last F word. *)
Fixpoint feed (f : Q) (l : list cmd) : Q :=
  match l with
  | [] => f
  | Move (Some f') _ _ _ :: l => feed f' l
  | _ :: l => feed f l
  end.

Section speed.
  Variables (relative volumetric : bool) (vlen : pt3 -> Q) (speed_z_hop : nat -> Q) (retraction_enable : nat -> bool) (f0 : Q).
  Notation apply_op := (apply_op relative volumetric vlen speed_z_hop retraction_enable).
  Notation apply_ops := (apply_ops relative volumetric vlen speed_z_hop retraction_enable).

  Definition FI (st : gst) : Prop := feed f0 (out st) == speed st * 60.

  Lemma feed_app f l1 l2 : feed f (l1 ++ l2) = feed (feed f l1) l2.
  Proof. revert f. induction l1 as [|[[?|] ? ? ?| | | | | ] l1 IH]; intros f; cbn; auto. Qed.
  Lemma FI_ext st st' : FI st -> out st' = out st -> speed st' = speed st -> FI st'.
  Proof. unfold FI. by intros H -> ->. Qed.
  Lemma FI_emit st c : FI st -> match c with Move _ _ _ _ => False | _ => True end -> FI (emit st c).
  Proof. unfold FI. intros H Hc. cbn. rewrite feed_app. by destruct c. Qed.
  Lemma FI_move st sp xy z e : FI (set_speed (emit st (Move (Some (sp * 60)) xy z e)) sp).
  Proof. unfold FI. cbn. rewrite feed_app. reflexivity. Qed.

  Lemma fxyze_speed st sp x y z e am :
    FI st -> let st' := writeFXYZE relative st sp x y z e am in FI st' /\ speed st' == sp /\ (length (out st) < length (out st'))%nat.
  Proof.
    intros H. cbv zeta. unfold writeFXYZE.
    remember (Qne_dec_bool (speed st) sp) as b eqn:Eb.
    set (st1 := if b then set_speed st sp else st).
    assert (S1 : speed st1 == sp /\ out st1 = out st).
    { unfold st1. rewrite Eb. unfold Qne_dec_bool. destruct (Qeq_bool (speed st) sp) eqn:E; cbn; [|done]. apply Qeq_bool_iff in E. done. }
    set (r := match am with Some am0 => _ | None => _ end).
    assert (S2 : speed r.2 = speed st1 /\ out r.2 = out st1).
    { unfold r. destruct am as [am|].
      - by destruct (has_retraction am).
      - by destruct (Qne_dec_bool (e + e_off st1) (cur_e st1)). }
    clearbody r. destruct r as [ee st2]. cbn [snd] in S2. destruct S1 as [S1 O1], S2 as [S2 O2].
    cbn [speed out set_pos emit]. unfold FI. cbn [speed out set_pos emit]. rewrite S2, O2, O1. split; [|split; [done|rewrite app_length; cbn; lia]].
    rewrite feed_app, Eb. unfold Qne_dec_bool. destruct (Qeq_bool (speed st) sp) eqn:E; cbn [negb].
    - apply Qeq_bool_iff in E. cbn. rewrite S1, <- E. exact H.
    - cbn. by rewrite S1.
  Qed.
  Lemma travelxyz_speed st x y z sp d :
    FI st -> let st' := writeTravelXYZ relative volumetric st x y z sp d in FI st' /\ (st' = st \/ speed st' == sp).
  Proof.
    intros H. cbv zeta. unfold writeTravelXYZ. destruct (_ && _); [by split; [|left]|].
    split; [|right]; by apply fxyze_speed.
  Qed.
  Lemma FI_zhop st sp h d : FI st -> FI (writeZhop relative volumetric speed_z_hop st sp h d).
  Proof. intros H. unfold writeZhop. apply fxyze_speed. done. Qed.
  Lemma FI_up st h sp d : FI st -> FI (zhop_up relative volumetric speed_z_hop st h sp d).
  Proof. intros H. unfold zhop_up. destruct (0 <? h)%Z; [by apply FI_zhop|done]. Qed.
  Lemma FI_zhopstart st h sp d r : FI st -> FI (writeZhopStart relative volumetric speed_z_hop st h sp d r).
  Proof. intros H. unfold writeZhopStart. destruct (_ && _ && _); [by do 2 apply FI_up|by apply FI_up]. Qed.
  Lemma FI_down st sp h d : FI st -> FI (zhop_down relative volumetric speed_z_hop st sp h d).
  Proof. intros H. unfold zhop_down. destruct (_ =? _)%Z; [done|]. by eapply FI_ext; [apply (FI_zhop st sp h d H)|..]. Qed.
  Lemma FI_split st sp h d r : FI st -> FI (zhop_down_split relative volumetric speed_z_hop st sp h d r).
  Proof. intros H. unfold zhop_down_split. destruct (_ =? _)%Z; [done|]. destruct (_ && _ && _); [by do 2 apply FI_down|by apply FI_down]. Qed.
  Lemma FI_zhopend st sp h d r : FI st -> FI (writeZhopEnd relative volumetric speed_z_hop st sp h d r).
  Proof. intros H. unfold writeZhopEnd. apply FI_split. destruct (leftover st); [|done]. by apply FI_split. Qed.
  Lemma FI_reset st : FI st -> FI (resetExtrusionValue relative volumetric st).
  Proof.
    intros H. unfold resetExtrusionValue. cbv zeta. set (st1 := if relative then st else emit st ZeroE).
    assert (FI st1) by (unfold st1; destruct relative; [done|by apply FI_emit]). by eapply FI_ext.
  Qed.
  Lemma FI_unret st : FI st -> FI (writeUnretractionAndPrime relative volumetric st).
  Proof.
    intros H. unfold writeUnretractionAndPrime. cbv zeta. set (st2 := if Qne_dec_bool (retr _) 0 then _ else _).
    assert (H2 : FI st2).
    { unfold st2. destruct (Qne_dec_bool (retr (me st)) 0), (Qne_dec_bool (prime (me st)) 0), (firmware (me st));
        try apply FI_move; try (apply FI_emit; [|done]); try (by eapply FI_ext; [exact H|..]). }
    eapply (FI_ext (if Qltb 10000 (getCurrentExtrudedVolume volumetric (upd_attr st2 (a_prime 0))) then _ else _)); [|done|done].
    assert (FI (upd_attr st2 (a_prime 0))) by (by eapply FI_ext).
    destruct (Qltb _ _); [by apply FI_reset|done].
  Qed.
  Lemma FI_retraction st cfg force sw d : FI st -> FI (writeRetraction relative volumetric st cfg force sw d).2.
  Proof.
    intros H. unfold writeRetraction. destruct (limit_retractions _ _ _ _ _) as [l|]; [|by eapply FI_ext].
    cbv zeta. set (st1 := upd_attr st (a_vols l)). assert (H1 : FI st1) by (by eapply FI_ext). clearbody st1.
    destruct (negb _); [done|]. destruct (firmware (me st1)).
    - destruct (sw && _); [done|]. cbn [snd]. eapply FI_ext; [apply (FI_emit st1 FwRetract H1); done|done|done].
    - destruct (writeRawRetract relative st1 _) as [e st2]. cbn [snd]. eapply FI_ext; [apply FI_move|reflexivity|reflexivity].
  Qed.
  Lemma FI_start st n : FI st -> FI (startExtruder relative volumetric st n).
  Proof.
    intros H. unfold startExtruder. cbv zeta. set (st1 := if (n =? cur st)%nat then st else emit st (Tool n)).
    assert (H1 : FI st1) by (unfold st1; destruct (n =? cur st)%nat; [done|by apply FI_emit]). clearbody st1.
    match goal with |- FI (set_pos ?r _) => assert (HR : FI r) by (apply FI_reset; by eapply (FI_ext st1)); exact (FI_ext r _ HR eq_refl eq_refl) end.
  Qed.
  Lemma FI_wipe_moves n : forall i st dist sp, FI st -> FI (wipe_moves relative volumetric n i st dist sp).
  Proof. induction n as [|n IH]; intros; cbn [wipe_moves]; [done|]. apply IH. by apply travelxyz_speed. Qed.

  Lemma extrude_speed st p sp v u :
    FI st -> let st' := writeExtrusion relative volumetric vlen speed_z_hop st p sp v u in FI st' /\ (pos st = p \/ speed st' == sp).
  Proof.
    intros H. cbv zeta. unfold writeExtrusion. destruct (_ && _ && _) eqn:E.
    { split; [done|]. left. repeat (apply andb_prop in E; destruct E as [E ?]).
      repeat match goal with H : (_ =? _)%Z = true |- _ => apply Z.eqb_eq in H end. destruct (pos st), p; cbn in *; congruence. }
    cbv zeta. set (st1 := if (0 <? hop st)%Z then _ else st).
    assert (H1 : FI st1) by (unfold st1; destruct (0 <? hop st)%Z; [by apply FI_zhopend|done]). clearbody st1.
    set (st2 := writeUnretractionAndPrime relative volumetric st1). assert (H2 : FI st2) by (by apply FI_unret). clearbody st2.
    set (st3 := if u && _ then _ else st2). assert (H3 : FI st3) by (unfold st3; destruct (u && _); [by eapply FI_ext|done]). clearbody st3.
    split; [|right]; by apply fxyze_speed.
  Qed.

  Lemma FI_op st o : FI st -> FI (apply_op st o).
  Proof.
    intros H. destruct o as [z|p sp d|p sp v u|cfg force sw d| |h sp d r|sp|a r|n cfg h| |v|m f|w]; cbn [GCode_Model.apply_op]; try done.
    - by apply travelxyz_speed.
    - by apply extrude_speed.
    - by apply FI_retraction.
    - by apply FI_unret.
    - by apply FI_zhopstart.
    - by apply FI_zhopend.
    - unfold switchExtruder. destruct (cur st =? n)%nat; [done|]. cbv zeta. apply FI_start, FI_reset.
      assert (H1 : FI (if retraction_enable (cur st) then (writeRetraction relative volumetric st cfg true true None).2 else st)).
      { destruct (retraction_enable _); [by apply FI_retraction|done]. }
      destruct (0 <? h)%Z; [by apply FI_zhopstart|done].
    - by apply FI_reset.
    - unfold insertWipeScript. cbv zeta.
      set (st1 := match w_retraction w with Some c => _ | None => st end).
      assert (H1 : FI st1) by (unfold st1; destruct (w_retraction w); [by apply FI_retraction|done]). clearbody st1.
      set (st2 := match w_hop w with Some _ => _ | None => st1 end).
      assert (H2 : FI st2) by (unfold st2; destruct (w_hop w) as [[]|]; [by apply FI_zhopstart|done]). clearbody st2.
      set (st3 := writeTravel2 _ _ st2 _ _). assert (H3 : FI st3) by (by apply travelxyz_speed). clearbody st3.
      set (st4 := wipe_moves _ _ _ _ st3 _ _). assert (H4 : FI st4) by (by apply FI_wipe_moves). clearbody st4.
      set (st5 := writeTravel _ _ st4 _ _ _). assert (H5 : FI st5) by (by apply travelxyz_speed). clearbody st5.
      set (st6 := match w_hop w with Some _ => _ | None => st5 end).
      assert (H6 : FI st6) by (unfold st6; destruct (w_hop w) as [[]|]; [by apply FI_zhopend|done]). clearbody st6.
      set (st7 := match w_retraction w with Some _ => _ | None => st6 end).
      assert (H7 : FI st7) by (unfold st7; destruct (w_retraction w); [by apply FI_unret|done]). clearbody st7.
      destruct (Qltb 0 (w_pause w)); [by apply FI_emit|done].
  Qed.
  Lemma FI_ops l : forall st, FI st -> FI (apply_ops st l).
  Proof. induction l as [|o l IH]; intros st H; [done|]. apply (IH (apply_op st o)). by apply FI_op. Qed.

  (** After any calls, a travel or printing move that is made leaves the printer at the feed rate that belongs to
      the requested speed: its last command, the move itself, runs at that feed rate. *)
  Theorem C56_speed_in_force st0 l o sp :
    out st0 = [] -> f0 == speed st0 * 60 ->
    let before := apply_ops st0 l in let after := apply_op before o in
    match o with
    | OTravel _ s _ => s = sp /\ after <> before
    | OExtrude p s _ _ => s = sp /\ pos before <> p
    | _ => False
    end ->
    feed f0 (out after) == sp * 60.
  Proof.
    intros Ho Hf before after H.
    assert (HB : FI before) by (apply FI_ops; unfold FI; by rewrite Ho).
    assert (HA : FI after) by (by apply FI_op). unfold FI in HA. rewrite HA.
    destruct o; try done; destruct H as [-> H].
    - destruct (travelxyz_speed before (x3 p) (y3 p) (z3 p + hop before) sp d HB) as [_ [E|E]]; [|unfold after; cbn; unfold writeTravel; by rewrite E].
      destruct H. exact E.
    - destruct (extrude_speed before p sp mm3_per_mm update_offset HB) as [_ [E|E]]; [done|]. unfold after; cbn. by rewrite E.
  Qed.
End speed.

(** The exporter starts with the speed 1 mm/s although it has not told the printer: a first move at 1 mm/s has no F word. *)
Definition speed_st : gst := G (P3 0 0 0) 0 0 0 1 0 0%nat (fun _ => Attr 2 (0, 0)%Z false 0 0 0 0 [] 0) None 0 0 [].
Theorem C56_first_move_refuted f0 :
  feed f0 (out (apply_op false false (fun _ => 1) (fun _ => 10) (fun _ => true) speed_st (OTravel (P3 1000 0 0) 1 None))) = f0.
Proof. reflexivity. Qed.
Example C56_example :
  feed 60 (out (apply_ops false false (fun _ => 1) (fun _ => 10) (fun _ => true) speed_st
     [OTravel (P3 1000 0 0) 120 None; OExtrude (P3 2000 0 0) 50 1 false; ORetract (RConfig 5 40 30 0 0 3) false false None;
      OTravel (P3 3000 0 0) 120 None; OExtrude (P3 4000 0 0) 50 1 false])) == 50 * 60.
Proof. vm_compute. done. Qed.
Print Assumptions C56_speed_in_force.
