(** C26, C27, C28: the emitted commands, run on a printer, do what was asked for. *)
From Coq Require Import ZArith QArith Qabs Qminmax Lqa.
From stdpp Require Import list.
From Verif Require Import Common GCode_Model GCode_Spec GCode_Pos GCode_Ext GCode_Window.
Local Open Scope Q_scope.

(** ** Vocabulary of the statements *)
(** no prime that is split over a z hop is left over from a travel move (see the refutation below) *)
Definition no_split (o : op) : Prop := match o with OLeftover _ r => ~ (0 < r /\ r < 1) | _ => True end.
Definition is_switch (o : op) : bool := match o with OSwitch _ _ _ => true | _ => false end.
Definition switches (l : list op) : Z := Z.of_nat (length (List.filter is_switch l)).

(** a new exporter: nothing written, extruded or retracted yet *)
Record fresh (st : gst) : Prop := {
  f_out : out st = []; f_e : cur_e st = 0; f_off : e_off st = 0; f_max : max_off st == 0; f_fac : 0 <= off_factor st;
  f_left : leftover st = None;
  f_attr : forall n, let a := attrs st n in retr a = 0 /\ retr_start a = 0 /\ prime a = 0 /\ vols a = [] /\ filament a = 0 /\ 0 < area a }.
(** a printer that has just been started, with its nozzle where the exporter thinks it is *)
Record ready (st : gst) (p : printer) : Prop := {
  r_tool : tool p = cur st; r_pe : pe p = 0; r_fil : forall n, fil p n = 0; r_peak : forall n, peak p n = 0; r_fw : forall n, fw p n = false;
  r_pos : nozzle (fun n => noffset (attrs st n)) p = pos st }.

(** no extruder has firmware retraction *)
Definition fw_free (st : gst) : Prop := forall n, firmware (attrs st n) = false.
(** The calls considered: speeds and flows are not negative; flow-dependent compensation is off (maximum 0);
    retraction distances that go with a travel are used only without firmware retraction, and with firmware
    retraction every retraction has a positive distance. *)
Definition usual (fwfree : Prop) (o : op) : Prop :=
  match o with
  | OTravel _ _ (Some _) | OZhopStart _ _ (Some _) _ | OLeftover _ _ => fwfree
  | OExtrude _ sp v _ => 0 <= sp /\ 0 <= v
  | ORetract cfg _ _ d => fwfree \/ 0 < default (rdistance cfg) d
  | OSwitch _ cfg _ => fwfree \/ 0 < rdistance cfg
  | OWipe w => forall c, w_retraction w = Some c -> fwfree \/ 0 < rdistance c
  | OFlow m f => m == 0 /\ 0 <= f
  | _ => True
  end.
(** distances and prime volumes are not negative *)
Definition nonneg (o : op) : Prop :=
  match o with
  | OTravel _ _ (Some d) | OZhopStart _ _ (Some d) _ | OLeftover d _ => 0 <= d
  | ORetract cfg _ _ d => 0 <= default (rdistance cfg) d /\ 0 <= rprime_volume cfg
  | OSwitch _ cfg _ => 0 <= rdistance cfg /\ 0 <= rprime_volume cfg
  | OWipe w => forall c, w_retraction w = Some c -> 0 <= rdistance c /\ 0 <= rprime_volume c
  | OAddPrime v => 0 <= v
  | _ => True
  end.

Section props.
  Variables (relative volumetric : bool) (vlen : pt3 -> Q) (speed_z_hop : nat -> Q) (retraction_enable : nat -> bool).
  Notation apply_op := (apply_op relative volumetric vlen speed_z_hop retraction_enable).
  Notation apply_ops := (apply_ops relative volumetric vlen speed_z_hop retraction_enable).
  Notation requested := (requested relative volumetric vlen speed_z_hop retraction_enable).
  Notation retraction_log := (retraction_log relative volumetric vlen speed_z_hop retraction_enable).
  Notation whole := whole_ratio.

  (** *** C26 *)
  Section position.
    Variables (rnd : Q -> Q) (pr0 : printer) (off0 : nat -> pt2).
    Notation IP := (IP relative rnd pr0 off0).
    Lemma pos_step k st o :
      IP k st -> whole (leftover st) -> no_split o ->
      IP (k + switches [o]) (apply_op st o) /\ whole (leftover (apply_op st o)).
    Proof.
      intros H Hw Ho. unfold switches.
      destruct o as [z|p sp d|p sp v u|cfg force sw d| |h sp d r|sp|a r|n cfg h| |v|m f|w]; cbn [GCode_Model.apply_op List.filter is_switch length no_split] in *;
        try change (Z.of_nat 0) with 0%Z; rewrite ?Z.add_0_r.
      - split; [|done]. by destruct H; constructor.
      - split; [by apply travelxyz_IP|]. unfold writeTravel. by rewrite (sm_left _ _ (travelxyz_same _ _ _ _ _ _ _ _)).
      - split; [by apply extrude_IP|]. destruct (extrude_same relative volumetric vlen speed_z_hop rnd pr0 off0 st p sp v u) as (_ & _ & [-> | -> ] & _); done.
      - pose proof (quiet_retraction relative volumetric rnd st cfg force sw d) as Q. split; [by eapply quiet_IP|].
        by rewrite (sm_left _ _ (q_same _ _ _ _ Q)).
      - pose proof (quiet_unretract relative volumetric rnd st) as Q. split; [by eapply quiet_IP|].
        by rewrite (sm_left _ _ (q_same _ _ _ _ Q)).
      - destruct (zhopstart_facts relative volumetric speed_z_hop rnd pr0 off0 k st h sp d r) as (A1 & _ & _ & A2 & _).
        split; [auto|]. by rewrite (sm_left _ _ A1).
      - destruct (zhopend_facts relative volumetric speed_z_hop rnd pr0 off0 k st sp Hw) as (_ & _ & A). split; [auto|].
        destruct (zhopend_same relative volumetric speed_z_hop rnd pr0 off0 st sp 0 None 0) as (_ & _ & ->). done.
      - split; [by destruct H; constructor|done].
      - destruct (switch_facts relative volumetric speed_z_hop retraction_enable rnd pr0 off0 k st n cfg h) as (A1 & _ & _ & A2).
        split; [|by rewrite A1]. specialize (A2 H). destruct A2 as [B1 B2 B3 B4 B5]. constructor; try done.
        destruct (cur st =? n)%nat; lia.
      - pose proof (quiet_reset relative volumetric rnd st) as Q. split; [by eapply quiet_IP|].
        by rewrite (sm_left _ _ (q_same _ _ _ _ Q)).
      - split; [|done]. eapply quiet_IP; [by apply quiet_upd|done].
      - split; [|done]. by destruct H; constructor.
      - destruct (wipe_facts relative volumetric speed_z_hop rnd pr0 off0 k st w) as (_ & _ & A1 & A2).
        split; [by apply A2|]. by destruct A1 as [-> | -> ].
    Qed.
    Lemma pos_steps l : forall k st,
      IP k st -> whole (leftover st) -> Forall no_split l ->
      IP (k + switches l) (apply_ops st l) /\ whole (leftover (apply_ops st l)).
    Proof.
      induction l as [|o l IH]; intros k st H Hw Ho.
      - unfold switches. cbn. by rewrite Z.add_0_r.
      - apply Forall_cons in Ho as [Ho Hl]. destruct (pos_step k st o H Hw Ho) as [H1 H2].
        destruct (IH _ _ H1 H2 Hl) as [H3 H4]. split; [|done].
        replace (k + switches (o :: l))%Z with (k + switches [o] + switches l)%Z; [done|].
        unfold switches. cbn. destruct (is_switch o); cbn [length]; lia.
    Qed.
  End position.

  Lemma ready_IP rnd st p : fresh st -> ready st p -> IP relative rnd p (fun n => noffset (attrs st n)) 0 st.
  Proof.
    intros Hf [R1 R2 R3 R4 R5 R6]. unfold nozzle in R6. rewrite R1 in R6. constructor; rewrite ?(f_out _ Hf); cbn; try done.
    - rewrite <- R6. cbn. lia.
    - rewrite <- R6. cbn. lia.
    - rewrite <- R6. cbn. lia.
  Qed.
  Lemma fresh_whole st : fresh st -> whole (leftover st).
  Proof. intros H. by rewrite (f_left _ H). Qed.

  (** C26.  After any calls the nozzle is where the exporter thinks it is: exactly in x and y, and in z up to
      1 µm for every tool change (the exporter adds 1 µm on a tool change so that z is written again). *)
  Theorem C26_nozzle_follows rnd st0 p0 l :
    fresh st0 -> ready st0 p0 -> Forall no_split l ->
    let st := apply_ops st0 l in
    let nz := nozzle (fun n => noffset (attrs st0 n)) (prun relative rnd p0 (out st)) in
    x3 nz = x3 (pos st) /\ y3 nz = y3 (pos st) /\ (0 <= z3 (pos st) - z3 nz <= switches l)%Z.
  Proof.
    intros Hf Hr Hl. cbv zeta.
    destruct (pos_steps rnd p0 _ l 0 st0 (ready_IP rnd _ _ Hf Hr) (fresh_whole _ Hf) Hl) as [[H1 H2 H3 H4 H5] _].
    unfold nozzle. cbn [x3 y3 z3]. rewrite H2, H3, H4. split; [lia|]. split; [lia|]. rewrite Z.add_0_l in H5. done.
  Qed.

  (** A travel brings the nozzle to the requested point (raised by the z hop that is in force), a printing move
      brings it to the requested point, whatever was called before. *)
  Theorem C26_moves_arrive rnd st0 p0 l o target :
    fresh st0 -> ready st0 p0 -> Forall no_split l ->
    let before := apply_ops st0 l in
    match o with
    | OTravel p _ _ => target = P3 (x3 p) (y3 p) (z3 p + hop before)
    | OExtrude p _ _ _ => target = p
    | _ => False
    end ->
    let nz := nozzle (fun n => noffset (attrs st0 n)) (prun relative rnd p0 (out (apply_ops st0 (l ++ [o])))) in
    x3 nz = x3 target /\ y3 nz = y3 target /\ (0 <= z3 target - z3 nz <= switches l)%Z.
  Proof.
    intros Hf Hr Hl before Ho. cbv zeta.
    assert (Hpos : pos (apply_ops st0 (l ++ [o])) = target).
    { unfold GCode_Model.apply_ops. rewrite fold_left_app. fold (GCode_Model.apply_ops relative volumetric vlen speed_z_hop retraction_enable st0 l).
      fold before. cbn [fold_left].
      destruct o; try done; cbn [GCode_Model.apply_op].
      - rewrite Ho. apply travelxyz_pos.
      - rewrite Ho. apply (extrude_same relative volumetric vlen speed_z_hop rnd p0 (fun _ => (0, 0)%Z)). }
    assert (Hns : no_split o /\ is_switch o = false) by (by destruct o).
    destruct (C26_nozzle_follows rnd st0 p0 (l ++ [o]) Hf Hr) as (A1 & A2 & A3).
    { apply Forall_app. split; [done|]. apply Forall_singleton. apply Hns. }
    rewrite Hpos in *. split; [done|]. split; [done|].
    replace (switches l) with (switches (l ++ [o])); [done|]. unfold switches. rewrite List.filter_app. cbn. destruct Hns as [_ ->].
    by rewrite app_nil_r.
  Qed.

  (** After a tool change too, z is exact again as soon as a move is made to a z that the exporter does not
      already take for granted. *)
  Theorem C26_z_rewritten rnd st0 p0 l p sp d :
    fresh st0 -> ready st0 p0 -> Forall no_split l ->
    let before := apply_ops st0 l in
    (z3 p + hop before)%Z <> z3 (pos before) ->
    z3 (nozzle (fun n => noffset (attrs st0 n)) (prun relative rnd p0 (out (apply_op before (OTravel p sp d))))) = (z3 p + hop before)%Z.
  Proof.
    intros Hf Hr Hl before Hz. cbn [GCode_Model.apply_op]. unfold writeTravel, writeTravelXYZ.
    rewrite (proj2 (Z.eqb_neq (z3 (pos before)) _)) by congruence. rewrite andb_false_r. cbn [andb].
    set (am := match d with Some _ => _ | None => _ end).
    destruct (fxyze relative before sp (x3 p) (y3 p) (z3 p + hop before) (cur_e before) am) as (_ & _ & _ & f & xy & ee & Ho & _).
    rewrite Ho. rewrite (proj2 (Z.eqb_neq (z3 p + hop before) _)) by congruence. unfold nozzle. cbn [z3]. rewrite (prun_app relative rnd).
    apply move_pos.
  Qed.

  (** A wipe script that starts on the layer brings the nozzle back to where it was (in z: to where the exporter
      thinks that it was). *)
  Theorem C26_wipe_returns (rnd : Q -> Q) st0 p0 l w :
    fresh st0 -> ready st0 p0 -> Forall no_split l ->
    let before := apply_ops st0 l in let after := apply_op before (OWipe w) in
    let at_ st := nozzle (fun n => noffset (attrs st0 n)) (prun relative rnd p0 (out st)) in
    hop before = 0%Z -> z3 (pos before) = layer_z before ->
    pos after = pos before /\ x3 (at_ after) = x3 (at_ before) /\ y3 (at_ after) = y3 (at_ before)
    /\ (0 <= z3 (pos before) - z3 (at_ after) <= switches l)%Z.
  Proof.
    intros Hf Hr Hl before after at_ Hh Hz.
    destruct (pos_steps rnd p0 _ l 0 st0 (ready_IP rnd _ _ Hf Hr) (fresh_whole _ Hf) Hl) as [_ Hw].
    assert (E : pos after = pos before).
    { destruct (wipe_facts relative volumetric speed_z_hop rnd p0 (fun _ => (0, 0)%Z) 0 before w) as (_ & _ & _ & A). by apply A. }
    split; [done|].
    destruct (C26_nozzle_follows rnd st0 p0 l Hf Hr Hl) as (A1 & A2 & A3).
    destruct (C26_nozzle_follows rnd st0 p0 (l ++ [OWipe w]) Hf Hr) as (B1 & B2 & B3).
    { apply Forall_app. split; [done|]. by apply Forall_singleton. }
    unfold GCode_Model.apply_ops in B1, B2, B3. rewrite fold_left_app in B1, B2, B3. fold (GCode_Model.apply_ops relative volumetric vlen speed_z_hop retraction_enable st0 l) in B1, B2, B3.
    cbn [fold_left] in B1, B2, B3. fold before in A1, A2, A3, B1, B2, B3. fold after in B1, B2, B3. rewrite E in *.
    unfold at_. split; [congruence|]. split; [congruence|].
    replace (switches l) with (switches (l ++ [OWipe w])); [done|]. unfold switches. rewrite List.filter_app. cbn. by rewrite app_nil_r.
  Qed.

  (** *** C27 *)
  Hypothesis vlen_nonneg : forall p, 0 <= vlen p.

  Lemma fresh_J (nn nofw : Prop) st p : fresh st -> ready st p -> (nofw -> fw_free st) -> J relative volumetric p nn nofw st (fun _ => 0).
  Proof.
    intros [F1 F2 F3 F4 F5 F6 F7] [R1 R2 R3 R4 R5 R6] Hn.
    constructor; [|done|by rewrite F6|done|done].
    constructor; rewrite ?F1; cbn; [done|intros _; by rewrite R2, F2|by rewrite F3|].
    intros n. specialize (F7 n). cbv zeta in F7. destruct F7 as (A1 & A2 & A3 & A4 & A5 & A6).
    rewrite R3, R4, R5. constructor; unfold bel, amount; rewrite ?A1, ?A2, ?A3, ?A5, ?F2; try done.
    - destruct (firmware _); ring.
    - destruct (n =? cur st)%nat, (firmware (attrs st n)); ring.
    - intros _. split; [|split; lra]. destruct (firmware _); reflexivity.
  Qed.

  Lemma usual_ok (nn : Prop) st o : usual (fw_free st) o -> (nn -> nonneg o) -> op_ok nn (fw_free st) o.
  Proof.
    destruct o as [z|p sp d|p sp v u|cfg force sw d| |h sp d r|sp|a r|n cfg h| |v|m f|w];
      cbn [usual nonneg op_ok]; unfold cfg_ok, dok, flowing; intros H1 H2; try done.
    all: first [ split; [intros N; by apply H2|done] | (destruct d; [by split|done]) | idtac].
    intros c Hc. split; [intros N; by apply H2|]. by apply H1.
  Qed.

  Lemma final_J (nn : Prop) st0 p0 l :
    fresh st0 -> ready st0 p0 -> Forall (usual (fw_free st0)) l -> (nn -> Forall nonneg l) ->
    J relative volumetric p0 nn (fw_free st0) (apply_ops st0 l) (fun n => 0 + requested st0 l n).
  Proof.
    intros Hf Hr Hu Hn. apply J_ops; [done|by apply fresh_J|].
    apply Forall_forall. intros o Ho. rewrite Forall_forall in Hu. apply usual_ok; [by apply Hu|].
    intros N. specialize (Hn N). rewrite Forall_forall in Hn. by apply Hn.
  Qed.

  (** C27.  The filament that a printer has pushed forward, plus what is retracted now, is the requested volume
      converted to filament length (or volume for volumetric printers), less what is still waiting to be primed. *)
  Theorem C27_filament_advanced st0 p0 l n :
    fresh st0 -> ready st0 p0 -> Forall (usual (fw_free st0)) l ->
    let st := apply_ops st0 l in let a := attrs st n in
    fil (prun relative (fun q => q) p0 (out st)) n + (if firmware a then 0 else retr a)
      == mm3ToE volumetric a (requested st0 l n - prime a).
  Proof.
    intros Hf Hr Hu. cbv zeta. pose proof (final_J False st0 p0 l Hf Hr Hu ltac:(done)) as [[_ _ _ H] _ _ _ _].
    destruct (H n) as [_ A _ _ _ _]. rewrite mm3_cc. unfold bel in A.
    assert (Hx : forall q, (requested st0 l n - q) * cc volumetric (attrs (apply_ops st0 l) n) == (0 + requested st0 l n) * cc volumetric (attrs (apply_ops st0 l) n) - q * cc volumetric (attrs (apply_ops st0 l) n)) by (intros; ring).
    rewrite Hx, <- A. ring.
  Qed.

  (** The filament usage that is reported is the requested volume, less what is still waiting to be primed. *)
  Theorem C27_usage_reported st0 p0 l n :
    fresh st0 -> ready st0 p0 -> Forall (usual (fw_free st0)) l ->
    let st := apply_ops st0 l in
    getTotalFilamentUsed volumetric st n == requested st0 l n - prime (attrs st n).
  Proof.
    intros Hf Hr Hu. cbv zeta. pose proof (final_J False st0 p0 l Hf Hr Hu ltac:(done)) as [[_ _ _ H] _ _ _ _].
    set (st := apply_ops st0 l) in *. destruct (H n) as [A0 A B _ _ _].
    assert (T : getTotalFilamentUsed volumetric st n == (fil (prun relative (fun q => q) p0 (out st)) n + bel (attrs st n)) * kk volumetric (attrs st n)).
    { unfold getTotalFilamentUsed. destruct (Nat.eqb_spec n (cur st)) as [->|Hn].
      - rewrite vol_amount. unfold me. rewrite B. ring.
      - rewrite B. ring. }
    assert (K : cc volumetric (attrs st n) * kk volumetric (attrs st n) == 1).
    { unfold cc, kk. destruct volumetric; [reflexivity|]. field. intros Hx. rewrite Hx in A0. by apply (Qlt_irrefl 0). }
    set (F := fil (prun relative (fun q => q) p0 (out st)) n) in *.
    assert (E : F + bel (attrs st n) == (requested st0 l n - prime (attrs st n)) * cc volumetric (attrs st n)).
    { assert (Hy : (requested st0 l n - prime (attrs st n)) * cc volumetric (attrs st n) == (0 + requested st0 l n) * cc volumetric (attrs st n) - prime (attrs st n) * cc volumetric (attrs st n)) by ring.
      rewrite Hy, <- A. ring. }
    rewrite T, E, <- Qmult_assoc, K. ring.
  Qed.

  (** *** C28 *)
  (** How far the filament is pulled back on the printer is what the exporter keeps track of; with firmware
      retraction the printer is retracted just when the exporter thinks so. *)
  Theorem C28_retraction_known st0 p0 l n :
    fresh st0 -> ready st0 p0 -> Forall (usual (fw_free st0)) l -> Forall nonneg l ->
    let st := apply_ops st0 l in let p := prun relative (fun q => q) p0 (out st) in
    if firmware (attrs st n) then fw p n = true <-> ~ retr (attrs st n) == 0
    else peak p n - fil p n == retr (attrs st n).
  Proof.
    intros Hf Hr Hu Hn. cbv zeta. pose proof (final_J True st0 p0 l Hf Hr Hu ltac:(done)) as [[_ _ _ H] _ _ _ _].
    destruct (H n) as [_ _ _ _ A B]. destruct (firmware _) eqn:EF; [auto|].
    destruct (A I) as (K1 & _). rewrite K1. unfold bel. rewrite EF. ring.
  Qed.

  (** Before the last command of a printing move, which is the move itself, the filament is fully unretracted. *)
  Theorem C28_printing_starts_unretracted st0 p0 l p sp v u :
    fresh st0 -> ready st0 p0 -> Forall (usual (fw_free st0)) l -> Forall nonneg l -> 0 <= sp -> 0 <= v ->
    let before := apply_ops st0 l in
    pos before <> p ->
    exists pre move, out (apply_op before (OExtrude p sp v u)) = out before ++ pre ++ [move]
      /\ let q := prun relative (fun q => q) p0 (out before ++ pre) in
         tool q = cur before
         /\ if firmware (attrs before (cur before)) then fw q (tool q) = false else peak q (tool q) == fil q (tool q).
  Proof.
    intros Hf Hr Hu Hn Hsp Hv before Hp. pose proof (final_J True st0 p0 l Hf Hr Hu ltac:(done)) as HJ. fold before in HJ.
    destruct (J_extrude relative volumetric vlen speed_z_hop p0 True (fw_free st0) vlen_nonneg before p sp v u _ HJ (conj Hsp Hv)) as [_ HE].
    destruct (HE Hp) as (pre & last & stm & E1 & E2 & HI & Hc & R0 & P0' & Hst).
    exists pre, last. rewrite app_assoc, <- E2. split; [exact E1|]. cbv zeta. rewrite (ie_tool _ _ _ _ _ _ HI), Hc. split; [done|].
    pose proof (ie_ai _ _ _ _ _ _ HI (cur stm)) as [_ _ _ _ A B]. fold (me stm) in A, B. rewrite R0 in *.
    assert (HF : firmware (me stm) = firmware (attrs before (cur before))).
    { unfold me. rewrite Hc. by apply stable_fw. }
    rewrite <- HF, <- Hc. destruct (firmware (me stm)) eqn:EF.
    - apply not_true_iff_false. intros Hw. apply (B eq_refl) in Hw. by destruct Hw.
    - destruct (A I) as (K1 & _). rewrite K1. unfold bel. rewrite EF, R0. ring.
  Qed.

  (** *** The limit on the number of retractions *)
  Lemma stat_op st o n : stat (attrs (apply_op st o) n) = stat (attrs st n).
  Proof.
    pose (pp := Pr 0 0 0 0 0%nat (fun _ => 0) (fun _ => 0) (fun _ => false)). pose (o0 := fun _ : nat => (0, 0)%Z).
    destruct o as [z|p sp d|p sp v u|cfg force sw d| |h sp d r|sp|a r|m cfg h| |v|m f|w]; cbn [GCode_Model.apply_op]; try done.
    - apply (sb_stat _ _ (sm_stable _ _ (travelxyz_same relative volumetric st _ _ _ _ _))).
    - apply (sb_stat _ _ (proj1 (proj2 (extrude_same relative volumetric vlen speed_z_hop (fun q => q) pp o0 st p sp v u)))).
    - apply (sb_stat _ _ (sm_stable _ _ (q_same _ _ _ _ (quiet_retraction relative volumetric (fun q => q) st cfg force sw d)))).
    - apply (sb_stat _ _ (sm_stable _ _ (q_same _ _ _ _ (quiet_unretract relative volumetric (fun q => q) st)))).
    - apply (sb_stat _ _ (sm_stable _ _ (proj1 (zhopstart_facts relative volumetric speed_z_hop (fun q => q) pp o0 0 st h sp d r)))).
    - apply (sb_stat _ _ (proj1 (proj2 (zhopend_same relative volumetric speed_z_hop (fun q => q) pp o0 st sp 0 None 0)))).
    - apply (sb_stat _ _ (proj1 (proj2 (switch_facts relative volumetric speed_z_hop retraction_enable (fun q => q) pp o0 0 st m cfg h)))).
    - apply (sb_stat _ _ (sm_stable _ _ (q_same _ _ _ _ (quiet_reset relative volumetric (fun q => q) st)))).
    - apply (sb_stat _ _ (sm_stable _ _ (q_same _ _ _ _ (quiet_upd relative (fun q => q) st (fun a => a_prime (prime a + v) a) (fun _ => eq_refl))))).
    - apply (sb_stat _ _ (proj1 (proj2 (wipe_facts relative volumetric speed_z_hop (fun q => q) pp o0 0 st w)))).
  Qed.
  Lemma stat_ops l : forall st n, stat (attrs (apply_ops st l) n) = stat (attrs st n).
  Proof. induction l as [|o l IH]; intros st n; [done|]. etransitivity; [exact (IH (apply_op st o) n)|apply stat_op]. Qed.

  (** A travel with a retraction distance, also one that goes nowhere, and a forced retraction leave the filament
      retracted by that distance (to within the millionth below which no retraction is made). *)
  Theorem C28_retracts_as_far st0 p0 l o d :
    fresh st0 -> ready st0 p0 -> Forall (usual (fw_free st0)) (l ++ [o]) -> Forall nonneg (l ++ [o]) -> fw_free st0 ->
    match o with
    | OTravel _ _ od => od = Some d
    | ORetract cfg force _ od => force = true /\ default (rdistance cfg) od = d
    | _ => False end ->
    let n := cur (apply_ops st0 l) in let p := prun relative (fun q => q) p0 (out (apply_ops st0 (l ++ [o]))) in
    Qabs (peak p n - fil p n - d * (if volumetric then area (attrs st0 n) else 1)) < 1 # 1000000.
  Proof.
    intros Hf Hr Hu Hn Hw Ho n p. pose proof (C28_retraction_known st0 p0 (l ++ [o]) n Hf Hr Hu Hn) as HK. cbv zeta in HK.
    pose proof (stat_ops (l ++ [o]) st0 n) as S1. pose proof (stat_ops l st0 n) as S0. unfold stat in S1, S0. injection S1 as _ S1 _. injection S0 as _ S0' S0.
    rewrite S1, (Hw n) in HK. fold p in HK. rewrite HK. clear HK S1 Hf Hr Hu Hn p.
    assert (E : apply_ops st0 (l ++ [o]) = apply_op (apply_ops st0 l) o) by (unfold GCode_Model.apply_ops; by rewrite fold_left_app).
    rewrite E, <- S0. set (st := apply_ops st0 l) in *. rewrite (Hw n) in S0'.
    assert (HM : mmToE volumetric (attrs st n) d == d * (if volumetric then area (attrs st n) else 1)) by (unfold mmToE; destruct volumetric; ring).
    rewrite <- HM.
    assert (HR : forall am, am = computeRetractionAmounts volumetric (attrs st n) d -> has_retraction am = false -> Qabs (retr (attrs st n) - mmToE volumetric (attrs st n) d) < 1 # 1000000).
    { intros am -> H. unfold has_retraction, computeRetractionAmounts in H. cbn [snd] in H. apply negb_false_iff in H. unfold Qltb in H. by destruct (Qlt_le_dec _ _). }
    assert (HZ : Qabs (mmToE volumetric (attrs st n) d - mmToE volumetric (attrs st n) d) < 1 # 1000000).
    { setoid_replace (mmToE volumetric (attrs st n) d - mmToE volumetric (attrs st n) d) with 0 by ring. reflexivity. }
    destruct o as [z|p sp od|p sp v u|cfg force sw od| |h sp od r|sp|a r|m cfg h| |v|m f|w]; try done; cbn [GCode_Model.apply_op].
    - subst od. unfold writeTravel, writeTravelXYZ. fold n. unfold me. fold n.
      set (am := computeRetractionAmounts volumetric (attrs st n) d).
      destruct (has_retraction am) eqn:EH.
      + rewrite andb_false_r. unfold writeFXYZE. rewrite EH. cbn -[Qabs Qminus].
        unfold n. destruct (Qne_dec_bool (speed st) sp); cbn -[Qabs Qminus]; rewrite Nat.eqb_refl; cbn -[Qabs Qminus]; apply HZ.
      + pose proof (HR am eq_refl EH). destruct (_ && _); [done|]. unfold writeFXYZE. rewrite EH. cbn -[Qabs Qminus].
        by destruct (Qne_dec_bool (speed st) sp).
    - destruct Ho as [-> Ho]. unfold writeRetraction.
      destruct (limit_retractions _ _ _ _ _) as [lv|] eqn:EL; [|discriminate EL]. cbv zeta. rewrite Ho.
      set (st1 := upd_attr st (a_vols lv)).
      assert (E1 : me st1 = a_vols lv (attrs st n)) by (unfold me, st1; cbn [upd_attr set_attrs attrs cur]; by rewrite Nat.eqb_refl).
      assert (EA : computeRetractionAmounts volumetric (me st1) d = computeRetractionAmounts volumetric (attrs st n) d) by (by rewrite E1).
      rewrite EA. set (am := computeRetractionAmounts volumetric (attrs st n) d).
      assert (Hst1 : retr (attrs st1 n) = retr (attrs st n)) by (unfold me in E1; change (cur st1) with n in E1; by rewrite E1).
      destruct (has_retraction am) eqn:EH; cbn [negb].
      + assert (EF : firmware (me st1) = false) by (by rewrite E1). rewrite EF.
        unfold writeRawRetract. cbn [snd]. cbn [upd_attr set_attrs attrs cur set_speed emit set_e]. change (cur st1) with n.
        rewrite !Nat.eqb_refl. apply HZ.
      + cbn [snd]. rewrite Hst1. by apply (HR am).
  Qed.

  (** If every retraction setting in use allows at least [N] retractions per window, then an unforced retraction
      whose setting allows just [N] has at least its window of extruded filament between it and the [N]th
      retraction before it (forced or not). *)
  Theorem C28_retraction_limit st0 l n N i ev ev' :
    fresh st0 ->
    Forall (fun o => match o with
                     | ORetract cfg _ _ _ | OSwitch _ cfg _ => (N <= rcount_max cfg)%nat
                     | OWipe w => forall c, w_retraction w = Some c -> (N <= rcount_max c)%nat
                     | _ => True end) l ->
    let log := retraction_log st0 l n [] in
    log !! i = Some ev -> rv_forced ev = false -> rcount_max (rv_config ev) = N ->
    log !! (i + N)%nat = Some ev' ->
    (0 < N)%nat /\ rv_volume ev' + rwindow (rv_config ev) * area (attrs st0 n) <= rv_volume ev.
  Proof.
    intros Hf Hl log H1 H2 H3 H4.
    assert (H0 : rev_ok N n st0 []).
    { split; [|by intros ? ? ? ?]. exists N. split; [lia|]. unfold absv.
      destruct (f_attr _ Hf n) as (_ & _ & _ & -> & _). cbn. rewrite take_nil. constructor. }
    destruct (rev_ops relative volumetric vlen speed_z_hop retraction_enable N n l st0 [] H0 Hl) as [_ HW].
    pose proof (stat_ops l st0 n) as E. unfold stat in E.
    replace (area (attrs st0 n)) with (area (attrs (apply_ops st0 l) n)) by congruence.
    by apply (HW i ev ev').
  Qed.

End props.

(** *** The rounding of E values *)
Section rounding.
  Variables (rnd : Q -> Q) (eps : Q).
  Hypothesis rnd_close : forall q, Qabs (rnd q - q) <= eps.

  (** With absolute E values the error does not build up along a print: at most one rounding error for every
      reset of E and every tool change, and one more.  With relative E values every E word can add one. *)
  Definition resets (l : list cmd) : Z := Z.of_nat (length (List.filter (fun c => match c with ZeroE | Tool _ => true | _ => false end) l)).
  Definition e_words (l : list cmd) : Z := Z.of_nat (length (List.filter (fun c => match c with Move _ _ _ (Some _) => true | _ => false end) l)).

  Lemma eps_nonneg : 0 <= eps.
  Proof. eapply Qle_trans; [|apply (rnd_close 0)]. apply Qabs_nonneg. Qed.
  Lemma abs_le x y : Qabs x <= y -> - y <= x /\ x <= y.
  Proof. apply Qabs_Qle_condition. Qed.
  Lemma le_abs x y : - y <= x -> x <= y -> Qabs x <= y.
  Proof. intros. by apply Qabs_Qle_condition. Qed.
  Ltac qab := repeat match goal with H : Qabs _ <= _ |- _ => apply abs_le in H; destruct H end; try (apply le_abs); nra.

  Record near (k : Q) (p q : printer) : Prop := {
    nr_tool : tool p = tool q; nr_d : Qabs (pe p - pe q) <= eps;
    nr_cur : Qabs (fil p (tool q) - fil q (tool q) - (pe p - pe q)) <= eps * k;
    nr_other : forall n, n <> tool q -> Qabs (fil p n - fil q n) <= eps * k }.

  Lemma near_step k p q c : near k p q ->
    near (k + match c with ZeroE | Tool _ => 1 | _ => 0 end) (pstep false rnd p c) (pstep false (fun x => x) q c).
  Proof.
    intros [H1 H2 H3 H4]. pose proof eps_nonneg as He.
    destruct c as [f xy z e| | | |m|t].
    - assert (Hm : forall p', tool p' = tool p -> pe p' = pe p -> fil p' = fil p -> forall q', tool q' = tool q -> pe q' = pe q -> fil q' = fil q ->
        near (k + 0) (match e with Some v => push p' (rnd v - pe p') (rnd v) | None => p' end) (match e with Some v => push q' (v - pe q') v | None => q' end)).
      { intros p' P1 P2 P3 q' Q1 Q2 Q3. destruct e as [v|].
        - unfold push. constructor; cbn [tool pe fil]; rewrite ?P1, ?P2, ?P3, ?Q1, ?Q2, ?Q3; try done.
          + unfold at_tool. rewrite H1, Nat.eqb_refl. qab.
          + intros n Hn. unfold at_tool. rewrite H1, (proj2 (Nat.eqb_neq _ _) Hn). specialize (H4 n Hn). qab.
        - constructor; rewrite ?P1, ?P2, ?P3, ?Q1, ?Q2, ?Q3; try done; [qab|]. intros n Hn. specialize (H4 n Hn). qab. }
      destruct xy, z; cbn [pstep]; by apply Hm.
    - constructor; cbn [pstep tool pe fil]; try done.
      + qab.
      + intros n Hn. specialize (H4 n Hn). qab.
    - constructor; cbn [pstep tool pe fil]; try done; [qab|]. intros n Hn. specialize (H4 n Hn). qab.
    - constructor; cbn [pstep tool pe fil]; try done; [qab|]. intros n Hn. specialize (H4 n Hn). qab.
    - constructor; cbn [pstep tool pe fil]; try done.
      + destruct (decide (m = tool q)) as [->|Hn]; [qab|]. specialize (H4 m Hn). qab.
      + intros n Hn. destruct (decide (n = tool q)) as [->|Hq]; [qab|]. specialize (H4 n Hq). qab.
    - constructor; cbn [pstep tool pe fil]; try done; [qab|]. intros n Hn. specialize (H4 n Hn). qab.
  Qed.
  Lemma near_eq k k' p q : k == k' -> near k p q -> near k' p q.
  Proof. intros E [H1 H2 H3 H4]. constructor; try done; [by rewrite <- E|]. intros n Hn. rewrite <- E. auto. Qed.
  Lemma near_run l : forall k p q, near k p q -> near (k + inject_Z (resets l)) (prun false rnd p l) (prun false (fun x => x) q l).
  Proof.
    induction l as [|c l IH]; intros k p q H.
    - eapply near_eq; [|exact H]. change (inject_Z (resets [])) with 0. ring.
    - cbn [prun fold_left]. eapply near_eq; [|apply IH; by apply (near_step k p q c)]. unfold resets.
      destruct c; cbn [List.filter length]; rewrite ?Nat2Z.inj_succ; unfold Z.succ; rewrite ?inject_Z_plus; try ring.
  Qed.

  Theorem C27_rounding_absolute p l n :
    Qabs (fil (prun false rnd p l) n - fil (prun false (fun q => q) p l) n) <= eps * inject_Z (resets l + 1).
  Proof.
    pose proof eps_nonneg as He.
    assert (H0 : near 0 p p).
    { assert (Z0 : forall x y, x == 0 -> y == 0 -> Qabs x <= y) by (intros x y -> ->; done).
      constructor; [done| |apply Z0; ring|intros; apply Z0; ring]. eapply Qle_trans; [apply (Z0 _ 0); [ring|reflexivity]|done]. }
    destruct (near_run l 0 p p H0) as [H1 H2 H3 H4]. rewrite inject_Z_plus.
    set (K := inject_Z (resets l)) in *. clearbody K.
    destruct (decide (n = tool (prun false (fun x => x) p l))) as [->|Hn].
    - change (inject_Z 1) with 1. qab.
    - change (inject_Z 1) with 1. specialize (H4 n Hn). qab.
  Qed.

  Theorem C27_rounding_relative p l n :
    Qabs (fil (prun true rnd p l) n - fil (prun true (fun q => q) p l) n) <= eps * inject_Z (e_words l).
  Proof.
    pose proof eps_nonneg as He.
    enough (G : forall l k p q, tool p = tool q -> (forall n, Qabs (fil p n - fil q n) <= eps * k) ->
       forall n, Qabs (fil (prun true rnd p l) n - fil (prun true (fun x => x) q l) n) <= eps * (k + inject_Z (e_words l))).
    { specialize (G l 0 p p eq_refl). rewrite <- (Qplus_0_l (inject_Z (e_words l))). apply G.
      intros m. assert (fil p m - fil p m == 0) as -> by ring. rewrite Qmult_0_r. done. }
    clear p l n. induction l as [|c l IH]; intros k p q Ht H n.
    - change (e_words []) with 0%Z. change (inject_Z 0) with 0. cbn [prun fold_left]. specialize (H n). qab.
    - cbn [prun fold_left]. 
      destruct c as [f xy z [v|]| | | |m|t].
      + assert (E : inject_Z (e_words (Move f xy z (Some v) :: l)) == 1 + inject_Z (e_words l)).
        { unfold e_words. cbn [List.filter length]. rewrite Nat2Z.inj_succ. unfold Z.succ. rewrite inject_Z_plus. ring. }
        rewrite E, Qplus_assoc. apply IH.
        * destruct xy, z; done.
        * intros m. pose proof (rnd_close v) as Hv. pose proof (H m) as Hm. pose proof (H (tool q)) as Hq.
          destruct xy, z; cbn [pstep push fil tool]; unfold at_tool; rewrite Ht; destruct (m =? tool q)%nat; qab.
      + apply (IH k); [destruct xy, z; done|]. intros m. specialize (H m). destruct xy, z; done.
      + apply (IH k); done.
      + apply (IH k); done.
      + apply (IH k); done.
      + apply (IH k); done.
      + apply (IH k); done.
  Qed.
End rounding.

(** ** The hypotheses are met, and where the claims stop *)
Definition demo_len (p : pt3) : Q := inject_Z (Z.abs (x3 p) + Z.abs (y3 p) + Z.abs (z3 p)) / 1000.
Lemma demo_len_nonneg p : 0 <= demo_len p.
Proof.
  unfold demo_len. apply Qle_shift_div_l; [done|]. rewrite Qmult_0_l. change 0 with (inject_Z 0). rewrite <- Zle_Qle. lia.
Qed.
Definition demo_attr (f : bool) (n : nat) : attr := Attr 2 (if (n =? 1)%nat then (18000, 0)%Z else (0, 0)%Z) f 0 0 0 0 [] 0.
Definition demo_st (f : bool) : gst := G (P3 0 0 0) 0 0 0 0 0 0%nat (demo_attr f) None 0 0 [].
Definition demo_pr : printer := Pr 0 0 0 0 0%nat (fun _ => 0) (fun _ => 0) (fun _ => false).
Definition demo_cfg : retraction_config := RConfig 5 40 30 (1 # 10) 3 2.
Definition demo_calls : list op :=
  [ OSetZ 200; OTravel (P3 1000 0 200) 120 None; OExtrude (P3 11000 0 200) 50 (4 # 100) false;
    ORetract demo_cfg false false None; OZhopStart 1000 0 None 0; OTravel (P3 20000 5000 200) 120 None;
    OExtrude (P3 20000 15000 200) 50 (4 # 100) false; OSwitch 1 demo_cfg 0; OTravel (P3 30000 5000 200) 120 None;
    OExtrude (P3 30000 15000 200) 50 (4 # 100) true; ORetract demo_cfg false false None ].
Notation demo_run r v l := (apply_ops r v demo_len (fun _ => 10) (fun _ => true) (demo_st false) l).

Example demo_fresh f : fresh (demo_st f) /\ ready (demo_st f) demo_pr.
Proof. split; constructor; cbn; try done; intros n; by repeat split. Qed.
Example demo_calls_ok : Forall no_split demo_calls /\ Forall (usual (fw_free (demo_st false))) demo_calls /\ Forall nonneg demo_calls.
Proof. split; [|split]; unfold demo_calls; repeat constructor; try lra; try (cbn; lra); done. Qed.
(** the calls move, retract and change tools, and end retracted with filament pushed out by both extruders *)
Example demo_result :
  let st := demo_run false false demo_calls in let p := prun false (fun q => q) demo_pr (out st) in
  nozzle (fun n => noffset (demo_attr false n)) p = P3 30000 15000 200 /\ switches demo_calls = 1%Z
  /\ retr (attrs st 1) == 5 /\ peak p 1%nat - fil p 1%nat == 5
  /\ requested false false demo_len (fun _ => 10) (fun _ => true) (demo_st false) demo_calls 0 == 10 # 10
  /\ fil p 0%nat + 5 == (9 # 10) / 2 /\ 0 < requested false false demo_len (fun _ => 10) (fun _ => true) (demo_st false) demo_calls 1.
Proof. vm_compute. repeat split; try congruence. Qed.
(** the limit bites: the third retraction within the window is not made, the fourth after enough filament is *)
Definition demo_window : list op :=
  let e x := OExtrude (P3 x 0 0) 50 1 false in let r := ORetract demo_cfg false false None in
  [e 1000; r; e 2000; r; e 3000; r; e 9000; r]%Z.
Example demo_limit :
  map (fun ev => Qred (rv_volume ev)) (retraction_log false false demo_len (fun _ => 10) (fun _ => true) (demo_st false) demo_window 0 [])
    = [46 # 5; 21 # 10; 1].
Proof. vm_compute. done. Qed.

(** With a prime that is split over the end of a z hop, the printing move is written at the z of the split point:
    the first call of zhop_down records that the nozzle is at the layer, and clears nothing of the rest of the hop. *)
Theorem C26_split_hop_refuted :
  exists l p, let st := demo_run false false (l ++ [OExtrude p 50 (4 # 100) false]) in
    pos st = p /\ z3 (nozzle (fun n => noffset (demo_attr false n)) (prun false (fun q => q) demo_pr (out st))) <> z3 p.
Proof.
  exists [ OSetZ 200; OTravel (P3 1000 0 200) 120 None; ORetract demo_cfg false false None; OZhopStart 1000 0 None 0;
           OTravel (P3 9000 0 200) 120 None; OLeftover 2 (1 # 2) ], (P3 12000 0 200).
  vm_compute. split; congruence.
Qed.
(** The 1 µm that is added on a tool change is never corrected if the next move goes to just that z. *)
Theorem C26_z_after_tool_change_refuted :
  exists l p, let st := demo_run false false (l ++ [OTravel p 120 None]) in
    pos st = p /\ z3 (nozzle (fun n => noffset (demo_attr false n)) (prun false (fun q => q) demo_pr (out st))) <> z3 p.
Proof.
  exists [OSetZ 200; OTravel (P3 0 0 200) 120 None; OSwitch 1 demo_cfg 0], (P3 20000 0 201). vm_compute. split; congruence.
Qed.
(** A wipe that starts while the nozzle is raised by a z hop does not return to where it started. *)
Theorem C26_wipe_when_hopped_refuted :
  exists l w, let st := demo_run false false l in
    pos (apply_op false false demo_len (fun _ => 10) (fun _ => true) st (OWipe w)) <> pos st.
Proof.
  exists [OSetZ 200; OTravel (P3 1000 0 200) 120 None; OZhopStart 1000 0 None 0], (WConfig None None (-5000) 4000 2 50 0).
  vm_compute. congruence.
Qed.
(** Flow compensation with relative E values: the offset is added anew with every move, so more is pushed out than requested. *)
Theorem C27_flow_compensation_relative_refuted :
  exists l n, let st := demo_run true false l in
    ~ fil (prun true (fun q => q) demo_pr (out st)) n + retr (attrs st n)
      <= mm3ToE false (attrs st n) (requested true false demo_len (fun _ => 10) (fun _ => true) (demo_st false) l n) + max_off st.
Proof.
  exists [ OFlow (1 # 10) 1; OExtrude (P3 1000 0 0) 50 (4 # 100) true; OExtrude (P3 2000 0 0) 50 (4 # 100) true ], 0%nat.
  vm_compute. congruence.
Qed.
(** A retraction whose setting allows fewer retractions shortens the memory of all. *)
Theorem C28_mixed_limits_refuted :
  exists l ev ev', let log := retraction_log false false demo_len (fun _ => 10) (fun _ => true) (demo_st false) l 0 [] in
    log !! 0%nat = Some ev /\ rv_forced ev = false /\ log !! (0 + rcount_max (rv_config ev))%nat = Some ev'
    /\ ~ rv_volume ev' + rwindow (rv_config ev) * 2 <= rv_volume ev.
Proof.
  set (e := fun x => OExtrude (P3 x 0 0) 50 1 false). set (r := ORetract demo_cfg false false None).
  set (r1 := ORetract (RConfig 5 40 30 (1 # 10) 0 1) false false None).
  pose (l := [e 1000; r; e 2000; r1; e 3000; r]%Z).
  pose (log := retraction_log false false demo_len (fun _ => 10) (fun _ => true) (demo_st false) l 0 []).
  exists l, (default (REvent 0 true demo_cfg) (log !! 0%nat)), (default (REvent 0 true demo_cfg) (log !! 2%nat)).
  split; [vm_compute; reflexivity|]. split; [vm_compute; reflexivity|]. split; [vm_compute; reflexivity|].
  vm_compute. congruence.
Qed.

Print Assumptions C26_nozzle_follows.
Print Assumptions C26_moves_arrive.
Print Assumptions C26_z_rewritten.
Print Assumptions C26_wipe_returns.
Print Assumptions C27_filament_advanced.
Print Assumptions C27_usage_reported.
Print Assumptions C27_rounding_absolute.
Print Assumptions C27_rounding_relative.
Print Assumptions C28_retraction_known.
Print Assumptions C28_retracts_as_far.
Print Assumptions C28_printing_starts_unretracted.
Print Assumptions C28_retraction_limit.
Print Assumptions C26_split_hop_refuted.
Print Assumptions C27_flow_compensation_relative_refuted.
Print Assumptions C28_mixed_limits_refuted.
