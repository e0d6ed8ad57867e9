(** C26: the nozzle follows the requested positions.  Invariant for the position part of the exporter. *)
From Coq Require Import ZArith QArith.
From stdpp Require Import list.
From Verif Require Import Common GCode_Model GCode_Spec.
Local Open Scope Z_scope.

Local Arguments prun : simpl never.

Section pos.
  Variables (relative volumetric : bool) (vlen : pt3 -> Q) (speed_z_hop : nat -> Q) (retraction_enable : nat -> bool).
  Variables (rnd : Q -> Q) (pr0 : printer) (off0 : nat -> pt2).
  Notation P st := (prun relative rnd pr0 (out st)).

  Record IP (k : Z) (st : gst) : Prop := {
    ip_off : forall n, noffset (attrs st n) = off0 n;
    ip_tool : tool (P st) = cur st;
    ip_x : px (P st) = x3 (pos st) - (off0 (cur st)).1;
    ip_y : py (P st) = y3 (pos st) - (off0 (cur st)).2;
    ip_z : 0 <= z3 (pos st) - pz (P st) <= k }.

  (** what is not touched by the functions that write moves *)
  Definition stat (a : attr) := (noffset a, firmware a, area a).
  Record stable (st st' : gst) : Prop := {
    sb_stat : forall n, stat (attrs st' n) = stat (attrs st n);
    sb_lz : layer_z st' = layer_z st;
    sb_max : max_off st' = max_off st;
    sb_fac : off_factor st' = off_factor st }.
  Record same (st st' : gst) : Prop := {
    sm_stable : stable st st';
    sm_cur : cur st' = cur st;
    sm_left : leftover st' = leftover st }.
  Lemma stable_refl st : stable st st.
  Proof. by constructor. Qed.
  Lemma stable_trans a b c : stable a b -> stable b c -> stable a c.
  Proof. intros [] []. constructor; congruence. Qed.
  Lemma stable_off st st' n : stable st st' -> noffset (attrs st' n) = noffset (attrs st n).
  Proof. intros [H _ _ _]. specialize (H n). unfold stat in H. congruence. Qed.
  Lemma sm_lz st st' : same st st' -> layer_z st' = layer_z st.
  Proof. intros [[] _ _]. done. Qed.
  Lemma sm_off st st' : same st st' -> forall n, noffset (attrs st' n) = noffset (attrs st n).
  Proof. intros [H _ _] n. by apply stable_off. Qed.

  Lemma same_refl st : same st st.
  Proof. split; [apply stable_refl|done|done]. Qed.
  Lemma same_trans a b c : same a b -> same b c -> same a c.
  Proof. intros [] []. constructor; [by eapply stable_trans|congruence|congruence]. Qed.
  Lemma prun_app p l1 l2 : prun relative rnd p (l1 ++ l2) = prun relative rnd (prun relative rnd p l1) l2.
  Proof. unfold prun. by rewrite fold_left_app. Qed.

  Lemma upd_attr_off st f n : (forall a, stat (f a) = stat a) -> stat (attrs (upd_attr st f) n) = stat (attrs st n).
  Proof. intros H. unfold upd_attr; cbn. by destruct (n =? cur st)%nat. Qed.

  Lemma move_pos p f xy z e :
    let p' := pstep relative rnd p (Move f xy z e) in
    tool p' = tool p /\ px p' = match xy with Some v => v.1 | None => px p end
    /\ py p' = match xy with Some v => v.2 | None => py p end /\ pz p' = match z with Some v => v | None => pz p end.
  Proof. destruct xy, z, e, relative; done. Qed.

  Lemma fxyze st sp x y z e am :
    let st' := writeFXYZE relative st sp x y z e am in
    same st st' /\ hop st' = hop st /\ pos st' = P3 x y z
    /\ exists f xy ee, out st' = out st ++ [Move f xy (if z =? z3 (pos st) then None else Some z) ee]
       /\ (xy = Some (getGcodePos st x y) \/ (xy = None /\ x = x3 (pos st) /\ y = y3 (pos st))).
  Proof.
    intros st'. unfold st', writeFXYZE.
    set (b := Qne_dec_bool (speed st) sp).
    set (st1 := if b then set_speed st sp else st).
    assert (Hs : same st st1 /\ hop st1 = hop st /\ out st1 = out st /\ getGcodePos st1 x y = getGcodePos st x y).
    { unfold st1. destruct b; (split; [constructor; [constructor; intros; reflexivity|reflexivity..]|done]). }
    destruct Hs as (Hs & Hh & Ho & Hg).
    set (r := match am with Some am0 => _ | None => _ end).
    assert (Hr : same st1 r.2 /\ hop r.2 = hop st1 /\ out r.2 = out st1).
    { unfold r. destruct am as [am|].
      - destruct (has_retraction am); cbn; [|done].
        split; [|done]. constructor; cbn; try done. constructor; cbn; try done. intros n. by destruct (n =? cur st1)%nat.
      - destruct (Qne_dec_bool (e + e_off st1) (cur_e st1)); (split; [constructor; [constructor; intros; reflexivity|reflexivity..]|split; reflexivity]). }
    destruct Hr as (Hr & Hh' & Ho').
    destruct r as [ee st2]. cbn in Hr, Hh', Ho'.
    split; [by eapply same_trans; [eapply same_trans; [exact Hs|exact Hr]|constructor; [constructor; intros; reflexivity|reflexivity..]]|]. split; [cbn; congruence|]. split; [done|].
    cbn [emit set_pos out]. rewrite Ho', Ho, Hg.
    destruct (z =? z3 (pos st)); cbn -[getGcodePos]; eexists _, _, ee; (split; [reflexivity|]);
      destruct (Z.eqb_spec x (x3 (pos st))) as [Hx|Hx], (Z.eqb_spec y (y3 (pos st))) as [Hy|Hy]; cbn -[getGcodePos];
      destruct b, ee; auto.
  Qed.

  Lemma fxyze_IP k st sp x y z e am : IP k st -> IP k (writeFXYZE relative st sp x y z e am).
  Proof.
    intros [H1 H2 H3 H4 H5].
    destruct (fxyze st sp x y z e am) as (Hs & Hh & Hp & f & xy & ee & Ho & Hxy).
    set (st' := writeFXYZE relative st sp x y z e am) in *.
    pose proof (move_pos (P st) f xy (if z =? z3 (pos st) then None else Some z) ee) as Hm.
    cbv zeta in Hm. destruct Hm as (M1 & M2 & M3 & M4).
    assert (HP : P st' = pstep relative rnd (P st) (Move f xy (if z =? z3 (pos st) then None else Some z) ee)) by (rewrite Ho; apply prun_app).
    rewrite <- HP in M1, M2, M3, M4.
    pose proof (sm_off _ _ Hs) as S1. destruct Hs as [_ S2 S4].
    unfold getGcodePos, me in Hxy. rewrite H1 in Hxy.
    constructor.
    - intros n. by rewrite S1.
    - congruence.
    - rewrite M2, Hp, S2. destruct Hxy as [->|(-> & Hx & Hy)]; cbn; [done|lia].
    - rewrite M3, Hp, S2. destruct Hxy as [->|(-> & Hx & Hy)]; cbn; [done|lia].
    - rewrite M4, Hp. cbn. destruct (Z.eqb_spec z (z3 (pos st))); lia.
  Qed.

  (** anything that leaves the position and the tool alone *)
  Record quiet (st st' : gst) : Prop := {
    q_same : same st st'; q_hop : hop st' = hop st; q_pos : pos st' = pos st;
    q_pr : forall p, let p' := prun relative rnd p (out st') in let p0 := prun relative rnd p (out st) in
           tool p' = tool p0 /\ px p' = px p0 /\ py p' = py p0 /\ pz p' = pz p0 }.
  Lemma quiet_refl st : quiet st st.
  Proof. by constructor. Qed.
  Lemma quiet_trans a b c : quiet a b -> quiet b c -> quiet a c.
  Proof.
    intros [A1 A2 A3 A4] [B1 B2 B3 B4]. constructor; [by eapply same_trans|congruence..|].
    intros p. specialize (A4 p). specialize (B4 p). cbv zeta in *. intuition congruence.
  Qed.
  Lemma quiet_IP k st st' : quiet st st' -> IP k st -> IP k st'.
  Proof.
    intros [QS Q2 Q3 Q4] [H1 H2 H3 H4 H5]. pose proof (sm_off _ _ QS) as QO. destruct QS as [_ sm_cur0 _]. specialize (Q4 pr0). cbv zeta in Q4. destruct Q4 as (T1 & T2 & T3 & T4).
    constructor; [intros n; by rewrite QO|congruence|..]; rewrite ?T2, ?T3, ?T4, Q3, ?sm_cur0; done.
  Qed.
  Lemma quiet_emit st c : match c with Move _ None None _ | ZeroE | FwRetract | FwUnretract | Dwell _ => True | _ => False end -> quiet st (emit st c).
  Proof.
    intros Hc. constructor; try done. intros p. cbn [emit out]. cbv zeta. rewrite prun_app.
    destruct c as [? [|] [|] [|]| | | | |]; try done; destruct relative; done.
  Qed.
  Lemma quiet_upd st f : (forall a, stat (f a) = stat a) -> quiet st (upd_attr st f).
  Proof. intros Hf. constructor; try done. constructor; try done. constructor; try done. intros n. by apply upd_attr_off. Qed.
  Lemma quiet_set_e st e : quiet st (set_e st e).
  Proof. by constructor. Qed.
  Lemma quiet_set_speed st e : quiet st (set_speed st e).
  Proof. by constructor. Qed.

  Lemma quiet_reset st : quiet st (resetExtrusionValue relative volumetric st).
  Proof.
    unfold resetExtrusionValue. eapply quiet_trans; [|apply quiet_set_e].
    eapply quiet_trans; [|by apply quiet_upd].
    destruct relative; [apply quiet_refl|by apply quiet_emit].
  Qed.
  Lemma quiet_raw st am : quiet st (writeRawRetract relative st am).2.
  Proof. unfold writeRawRetract. cbn. eapply quiet_trans; [apply quiet_set_e|by apply quiet_upd]. Qed.

  Lemma quiet_unretract st : quiet st (writeUnretractionAndPrime relative volumetric st).
  Proof.
    unfold writeUnretractionAndPrime.
    eapply quiet_trans; [|by apply quiet_upd].
    set (st2 := if Qne_dec_bool (retr (me st)) 0 then _ else _).
    assert (H : quiet st st2).
    { unfold st2. destruct (Qne_dec_bool _ _).
      - destruct (firmware _).
        + destruct (Qne_dec_bool _ _).
          * eapply quiet_trans; [|apply quiet_set_speed]. eapply quiet_trans; [|by apply quiet_emit].
            eapply quiet_trans; [|by apply quiet_emit]. apply quiet_set_e.
          * eapply quiet_trans; [|by apply quiet_emit]. apply quiet_set_e.
        + eapply quiet_trans; [|apply quiet_set_speed]. eapply quiet_trans; [|by apply quiet_emit].
          eapply quiet_trans; apply quiet_set_e.
      - destruct (Qne_dec_bool _ _).
        + eapply quiet_trans; [|apply quiet_set_speed]. eapply quiet_trans; [|by apply quiet_emit]. apply quiet_set_e.
        + apply quiet_set_e. }
    destruct (Qltb _ _).
    - eapply quiet_trans; [|apply quiet_reset]. eapply quiet_trans; [exact H|by apply quiet_upd].
    - eapply quiet_trans; [exact H|by apply quiet_upd].
  Qed.

  Lemma quiet_retraction st cfg force sw d : quiet st (writeRetraction relative volumetric st cfg force sw d).2.
  Proof.
    unfold writeRetraction. destruct (limit_retractions _ _ _ _ _) as [l|]; [|by apply quiet_upd].
    cbv zeta. set (st1 := upd_attr st (a_vols l)).
    assert (H1 : quiet st st1) by (by apply quiet_upd).
    destruct (negb (has_retraction _)); [exact H1|].
    destruct (firmware _).
    - destruct (sw && _); [exact H1|]. cbn [snd].
      eapply quiet_trans; [|by apply quiet_upd]. eapply quiet_trans; [|by apply quiet_upd].
      eapply quiet_trans; [exact H1|by apply quiet_emit].
    - set (am := computeRetractionAmounts _ _ _).
      pose proof (quiet_raw st1 am) as Hq. destruct (writeRawRetract relative st1 am) as [e st2]. cbn [snd] in *.
      eapply quiet_trans; [|by apply quiet_upd]. eapply quiet_trans; [|by apply quiet_upd].
      eapply quiet_trans; [|apply quiet_set_speed]. eapply quiet_trans; [|by apply quiet_emit].
      eapply quiet_trans; [exact H1|exact Hq].
  Qed.

  (** *** moves *)
  Lemma travelxyz_same st x y z sp d : same st (writeTravelXYZ relative volumetric st x y z sp d).
  Proof. unfold writeTravelXYZ. destruct (_ && _); [apply same_refl|]. apply fxyze. Qed.
  Lemma travelxyz_hop st x y z sp d : hop (writeTravelXYZ relative volumetric st x y z sp d) = hop st.
  Proof. unfold writeTravelXYZ. destruct (_ && _); [done|]. apply fxyze. Qed.
  Lemma travelxyz_pos st x y z sp d : pos (writeTravelXYZ relative volumetric st x y z sp d) = P3 x y z.
  Proof.
    unfold writeTravelXYZ. destruct (_ && _) eqn:E; [|apply fxyze].
    repeat (apply andb_prop in E; destruct E as [E ?]).
    repeat match goal with H : (_ =? _) = true |- _ => apply Z.eqb_eq in H end.
    destruct (pos st); cbn in *; congruence.
  Qed.
  Lemma travelxyz_IP k st x y z sp d : IP k st -> IP k (writeTravelXYZ relative volumetric st x y z sp d).
  Proof. intros H. unfold writeTravelXYZ. destruct (_ && _); [done|]. by apply fxyze_IP. Qed.

  Lemma zhop_facts k st sp h d :
    let st' := writeZhop relative volumetric speed_z_hop st sp h d in
    same st st' /\ hop st' = h /\ pos st' = P3 (x3 (pos st)) (y3 (pos st)) (layer_z st + h) /\ (IP k st -> IP k st').
  Proof.
    intros st'. unfold st', writeZhop.
    set (sp' := if Qeq_bool sp 0 then _ else _). set (am := match d with Some _ => _ | None => _ end).
    pose proof (fxyze (set_hop st h) sp' (x3 (pos (set_hop st h))) (y3 (pos (set_hop st h))) (layer_z (set_hop st h) + h) (cur_e (set_hop st h)) (Some am)) as (F1 & F2 & F3 & _).
    split; [by eapply same_trans; [|exact F1]|]. split; [exact F2|]. split; [exact F3|].
    intros H. apply fxyze_IP. by destruct H as [H1 H2 H3 H4 H5]; constructor.
  Qed.

  Lemma zhopstart_facts k st h sp d ratio :
    let st' := writeZhopStart relative volumetric speed_z_hop st h sp d ratio in
    same st st' /\ x3 (pos st') = x3 (pos st) /\ y3 (pos st') = y3 (pos st) /\ (IP k st -> IP k st')
    /\ (ratio = 0%Q \/ d = None -> h <= 0 -> st' = st) /\ (0 < h -> hop st' = h /\ z3 (pos st') = layer_z st + h).
  Proof.
    assert (Hup : forall st h, let st' := zhop_up relative volumetric speed_z_hop st h sp d in
              same st st' /\ x3 (pos st') = x3 (pos st) /\ y3 (pos st') = y3 (pos st) /\ (IP k st -> IP k st')
              /\ (h <= 0 -> st' = st) /\ (0 < h -> hop st' = h /\ z3 (pos st') = layer_z st + h)).
    { intros st1 h1. unfold zhop_up. cbv zeta. destruct (Z.ltb_spec 0 h1).
      - destruct (zhop_facts k st1 sp h1 d) as (Z1 & Z2 & Z3 & Z4). rewrite Z3. cbn. split; [done|]. split; [done|]. split; [done|].
        split; [done|]. split; [lia|done].
      - split; [apply same_refl|]. split; [done|]. split; [done|]. split; [done|]. split; [done|lia]. }
    intros st'. unfold st', writeZhopStart. destruct (_ && _ && _) eqn:E.
    - set (h1 := Qtrunc _). pose proof (Hup st h1) as (A1 & A2 & A3 & A4 & A5 & A6).
      pose proof (Hup (zhop_up relative volumetric speed_z_hop st h1 sp d) h) as (B1 & B2 & B3 & B4 & B5 & B6).
      set (s1 := zhop_up relative volumetric speed_z_hop st h1 sp d) in *.
      split; [by eapply same_trans|]. split; [congruence|]. split; [congruence|]. split; [auto|]. split.
      + intros Hd Hh. exfalso. apply andb_prop in E as [E1 E2]. apply andb_prop in E1 as [E1 E3].
        destruct Hd as [-> | -> ]; [|done]. vm_compute in E3. done.
      + intros Hh. destruct (B6 Hh) as [-> ->]. split; [done|]. by rewrite (sm_lz _ _ A1).
    - destruct (Hup st h) as (A1 & A2 & A3 & A4 & A5 & A6). split; [done|]. split; [done|]. split; [done|]. split; [done|].
      split; [intros _; exact A5|exact A6].
  Qed.

  (** going down to height 0 *)
  Definition whole_ratio (l : option (Q * Q)) : Prop := match l with Some l => ~ (0 < l.2 /\ l.2 < 1)%Q | None => True end.

  Lemma zhopdown_facts k st sp d :
    let st' := zhop_down relative volumetric speed_z_hop st sp 0 d in
    same st st' /\ hop st' = 0
    /\ pos st' = (if hop st =? 0 then pos st else P3 (x3 (pos st)) (y3 (pos st)) (layer_z st)) /\ (IP k st -> IP k st').
  Proof.
    cbv zeta. unfold zhop_down. destruct (Z.eqb_spec (hop st) 0) as [Hh|Hh].
    - split; [apply same_refl|]. done.
    - destruct (zhop_facts k st sp 0 d) as (Z1 & Z2 & Z3 & Z4).
      set (st1 := writeZhop relative volumetric speed_z_hop st sp 0 d) in *.
      rewrite Z3 in *. cbn [x3 y3 z3].
      assert (HE : set_pos st1 (P3 (x3 (pos st)) (y3 (pos st)) (layer_z st1)) = st1).
      { pose proof (sm_lz _ _ Z1) as HL. clearbody st1. destruct st1; cbn in *. subst. by rewrite Z.add_0_r. }
      rewrite HE. split; [done|]. split; [done|]. split; [|done]. rewrite Z3. f_equal. lia.
  Qed.
  Lemma down_whole st sp h d ratio :
    ~ (0 < ratio /\ ratio < 1)%Q -> zhop_down_split relative volumetric speed_z_hop st sp h d ratio = zhop_down relative volumetric speed_z_hop st sp h d.
  Proof.
    intros Hr. unfold zhop_down_split. destruct (hop st =? 0) eqn:E; [by unfold zhop_down; rewrite E|].
    destruct (_ && _ && _) eqn:E2; [|done].
    exfalso. apply andb_prop in E2 as [E2 E3]. apply andb_prop in E2 as [_ E2]. unfold Qltb in E2, E3.
    destruct (Qlt_le_dec 0 ratio), (Qlt_le_dec ratio 1); try done. by apply Hr.
  Qed.
  Lemma down_same st sp h d : same st (zhop_down relative volumetric speed_z_hop st sp h d).
  Proof.
    unfold zhop_down. destruct (hop st =? 0); [apply same_refl|].
    destruct (zhop_facts 0 st sp h d) as (Z1 & _). destruct Z1 as [[] ? ?]. constructor; [by constructor|done|done].
  Qed.
  Lemma split_same st sp h d ratio : same st (zhop_down_split relative volumetric speed_z_hop st sp h d ratio).
  Proof.
    unfold zhop_down_split. destruct (hop st =? 0); [apply same_refl|]. destruct (_ && _ && _); [|apply down_same].
    eapply same_trans; apply down_same.
  Qed.
  Lemma zhopend_same st sp h d ratio :
    let st' := writeZhopEnd relative volumetric speed_z_hop st sp h d ratio in
    cur st' = cur st /\ stable st st' /\ leftover st' = None.
  Proof.
    cbv zeta. unfold writeZhopEnd. destruct (leftover st) as [[am ra]|] eqn:EL.
    - pose proof (split_same (set_leftover st None) sp h (Some am) ra) as A. cbn [fst snd].
      set (s1 := zhop_down_split _ _ _ _ _ _ (Some am) _) in *.
      pose proof (split_same s1 sp h d ratio) as B. destruct (same_trans _ _ _ A B) as [HS HC HL].
      split; [by rewrite HC|]. split; [|by rewrite HL]. destruct HS. by constructor.
    - pose proof (split_same st sp h d ratio) as B. destruct B as [HS HC HL]. split; [done|]. split; [done|]. congruence.
  Qed.
  Lemma zhopend_facts k st sp :
    whole_ratio (leftover st) ->
    let st' := writeZhopEnd relative volumetric speed_z_hop st sp 0 None 0 in
    hop st' = 0
    /\ pos st' = (if hop st =? 0 then pos st else P3 (x3 (pos st)) (y3 (pos st)) (layer_z st)) /\ (IP k st -> IP k st').
  Proof.
    intros Hw. cbv zeta. unfold writeZhopEnd. rewrite (down_whole _ _ _ _ 0) by (intros [? _]; by apply (Qlt_irrefl 0)).
    destruct (leftover st) as [[am ra]|] eqn:EL.
    - cbn [fst snd]. rewrite down_whole by exact Hw.
      set (s0 := set_leftover st None).
      destruct (zhopdown_facts k s0 sp (Some am)) as (A1 & A2 & A3 & A4).
      set (s1 := zhop_down relative volumetric speed_z_hop s0 sp 0 (Some am)) in *.
      destruct (zhopdown_facts k s1 sp None) as (B1 & B2 & B3 & B4).
      rewrite A2 in B3. cbn in B3.
      split; [done|]. split; [rewrite B3, A3; done|].
      intros H. apply B4, A4. by destruct H; constructor.
    - by destruct (zhopdown_facts k st sp None) as (B1 & B2 & B3 & B4).
  Qed.

  Lemma extrude_same st p sp v u :
    let st' := writeExtrusion relative volumetric vlen speed_z_hop st p sp v u in
    cur st' = cur st /\ stable st st' /\ (leftover st' = leftover st \/ leftover st' = None) /\ pos st' = p.
  Proof.
    cbv zeta. unfold writeExtrusion. destruct (_ && _ && _) eqn:E.
    { split; [done|]. split; [apply stable_refl|]. split; [auto|].
      repeat (apply andb_prop in E; destruct E as [E ?]).
      repeat match goal with H : (_ =? _) = true |- _ => apply Z.eqb_eq in H end.
      destruct (pos st), p; cbn in *; congruence. }
    set (st1 := if 0 <? hop st then _ else st).
    assert (H1 : cur st1 = cur st /\ stable st st1 /\ (leftover st1 = leftover st \/ leftover st1 = None)).
    { unfold st1. destruct (0 <? hop st); [|by split; [|split; [apply stable_refl|auto]]].
      destruct (zhopend_same st 0 0 None 0) as (A1 & A2 & A3). auto. }
    destruct H1 as (C1 & C2 & C3). clearbody st1.
    pose proof (quiet_unretract st1) as HU. set (st2 := writeUnretractionAndPrime relative volumetric st1) in *. clearbody st2.
    destruct HU as [[U0 U1 U2] _ _ _].
    cbv zeta. set (offset := if Qne_dec_bool _ 0 then _ else _).
    set (st3 := if u && _ then _ else st2).
    assert (H3 : same st2 st3).
    { unfold st3. destruct (u && _); [|apply same_refl]. by constructor. }
    destruct H3 as [D1 D2 D3]. clearbody st3.
    pose proof (fxyze st3 sp (x3 p) (y3 p) (z3 p) (cur_e st3 + mm3ToE volumetric (me st) v * vlen (P3 (x3 p - x3 (pos st1)) (y3 p - y3 (pos st1)) (z3 p - z3 (pos st1))))%Q None) as (F1 & F2 & F3 & _).
    set (st4 := writeFXYZE _ _ _ _ _ _ _ _) in *. destruct F1 as [F4 F5 F6].
    split; [congruence|]. split; [by repeat (eapply stable_trans; [eassumption|])|]. split; [rewrite F6, D3, U2; done|].
    rewrite F3. by destruct p.
  Qed.
  Lemma extrude_IP k st p sp v u :
    whole_ratio (leftover st) -> IP k st -> IP k (writeExtrusion relative volumetric vlen speed_z_hop st p sp v u).
  Proof.
    intros Hw H. unfold writeExtrusion. destruct (_ && _ && _); [done|]. cbv zeta.
    apply fxyze_IP. set (st1 := if 0 <? hop st then _ else st).
    assert (H1 : IP k st1). { unfold st1. destruct (0 <? hop st); [|done]. by apply zhopend_facts. }
    pose proof (quiet_IP k _ _ (quiet_unretract st1) H1) as H2.
    destruct (u && _); [|done]. by destruct H2; constructor.
  Qed.

  Lemma switch_facts k st n cfg h :
    let st' := switchExtruder relative volumetric speed_z_hop retraction_enable st n cfg h in
    leftover st' = leftover st /\ stable st st' /\ cur st' = n /\ (IP k st -> IP (k + (if (cur st =? n)%nat then 0 else 1)) st').
  Proof.
    cbv zeta. unfold switchExtruder. destruct (Nat.eqb_spec (cur st) n) as [Hn|Hn].
    { split; [done|]. split; [apply stable_refl|]. split; [done|]. by rewrite Z.add_0_r. }
    set (st1 := if retraction_enable (cur st) then _ else st).
    assert (H1 : quiet st st1).
    { unfold st1. destruct (retraction_enable _); [apply quiet_retraction|apply quiet_refl]. }
    set (st2 := if 0 <? h then _ else st1).
    assert (H2 : same st1 st2 /\ (IP k st1 -> IP k st2)).
    { unfold st2. destruct (0 <? h); [|by split; [apply same_refl|]].
      destruct (zhopstart_facts k st1 h 0 None 0) as (A1 & _ & _ & A4 & _). done. }
    set (st3 := resetExtrusionValue relative volumetric st2).
    assert (H3 : quiet st2 st3) by apply quiet_reset.
    assert (H03 : same st st3 /\ (IP k st -> IP k st3)).
    { split.
      - eapply same_trans; [apply (q_same _ _ H1)|]. eapply same_trans; [apply H2|apply (q_same _ _ H3)].
      - intros H. eapply quiet_IP; [exact H3|]. apply H2. by eapply quiet_IP. }
    clearbody st3. clear H1 H2 H3 st1 st2. destruct H03 as [[S1 S2 S4] HI].
    unfold startExtruder. destruct (Nat.eqb_spec n (cur st3)) as [Hc|Hc]; [congruence|].
    set (st4 := set_cur _ n).
    pose proof (quiet_reset st4) as [[R1 R2 R4] Rh Rp Rr].
    set (st5 := resetExtrusionValue relative volumetric st4) in *.
    clearbody st5. split; [cbn; rewrite R4; done|]. split.
    { eapply stable_trans; [exact S1|]. destruct R1. by constructor. }
    split; [cbn; rewrite R2; done|].
    intros H. specialize (HI H). destruct HI as [I1 I2 I3 I4 I5].
    specialize (Rr pr0). cbv zeta in Rr. destruct Rr as (T1 & T2 & T3 & T4).
    assert (E4 : P st4 = pstep relative rnd (P st3) (Tool n)) by (unfold st4; cbn [set_cur set_pos emit out]; rewrite prun_app; reflexivity).
    constructor.
    - intros m. cbn. rewrite (stable_off _ _ m R1). apply I1.
    - cbn. rewrite T1, E4, R2. done.
    - cbn. rewrite T2, E4, Rp, R2. cbn. unfold me. cbn. rewrite !I1. rewrite I3. lia.
    - cbn. rewrite T3, E4, Rp, R2. cbn. unfold me. cbn. rewrite !I1. rewrite I4. lia.
    - cbn. rewrite T4, E4, Rp. cbn. lia.
  Qed.

  Lemma wipe_moves_facts k n : forall i st dist sp,
    let st' := wipe_moves relative volumetric n i st dist sp in
    same st st' /\ hop st' = hop st /\ (IP k st -> IP k st').
  Proof.
    induction n as [|n IH]; intros i st dist sp; cbn [wipe_moves]; [by split; [apply same_refl|]|].
    set (s1 := writeTravel2 _ _ _ _ _).
    destruct (IH (S i) s1 dist sp) as (A1 & A2 & A3).
    split; [eapply same_trans; [|exact A1]; apply travelxyz_same|]. split; [rewrite A2; apply travelxyz_hop|].
    intros H. apply A3, travelxyz_IP, H.
  Qed.

  Lemma wipe_facts k st w :
    let st' := insertWipeScript relative volumetric speed_z_hop st w in
    cur st' = cur st /\ stable st st' /\ (leftover st' = leftover st \/ leftover st' = None)
    /\ (whole_ratio (leftover st) -> (IP k st -> IP k st') /\ (hop st = 0 -> z3 (pos st) = layer_z st -> pos st' = pos st)).
  Proof.
    cbv zeta. unfold insertWipeScript.
    set (st1 := match w_retraction w with Some c => _ | None => st end).
    assert (H1 : quiet st st1) by (unfold st1; destruct (w_retraction w); [apply quiet_retraction|apply quiet_refl]).
    set (st2 := match w_hop w with Some _ => _ | None => st1 end).
    assert (H2 : same st1 st2 /\ (IP k st1 -> IP k st2) /\ (w_hop w = None -> hop st2 = hop st1)).
    { unfold st2. destruct (w_hop w) as [[h hs]|]; [|by split; [apply same_refl|]].
      destruct (zhopstart_facts k st1 h hs None 0) as (A1 & _ & _ & A4 & _). by split. }
    set (st3 := writeTravel2 _ _ _ _ _).
    assert (H3 : same st2 st3 /\ (IP k st2 -> IP k st3) /\ hop st3 = hop st2)
      by (split; [apply travelxyz_same|]; split; [apply travelxyz_IP|apply travelxyz_hop]).
    set (st4 := wipe_moves _ _ _ _ _ _ _).
    destruct (wipe_moves_facts k (w_repeat w) 0 st3 (w_distance w) (w_speed w)) as (W1 & W2 & W3). fold st4 in W1, W2, W3.
    set (st5 := writeTravel relative volumetric st4 _ _ _).
    assert (H5 : same st4 st5 /\ (IP k st4 -> IP k st5) /\ hop st5 = hop st4
                 /\ pos st5 = P3 (x3 (pos st)) (y3 (pos st)) (z3 (pos st) + hop st4))
      by (split; [apply travelxyz_same|]; split; [apply travelxyz_IP|]; split; [apply travelxyz_hop|apply travelxyz_pos]).
    assert (S5 : same st st5 /\ (IP k st -> IP k st5)).
    { split.
      - eapply same_trans; [apply (q_same _ _ H1)|]. eapply same_trans; [apply H2|]. eapply same_trans; [apply H3|].
        eapply same_trans; [exact W1|apply H5].
      - intros H. apply H5, W3, H3, H2. by eapply quiet_IP. }
    destruct S5 as [[S1 S2 S4] SI].
    set (st6 := match w_hop w with Some _ => _ | None => st5 end).
    assert (H6 : cur st6 = cur st5 /\ stable st5 st6 /\ (leftover st6 = leftover st5 \/ leftover st6 = None)).
    { unfold st6. destruct (w_hop w) as [[h hs]|] eqn:EW; [|split; [done|]; split; [apply stable_refl|auto]].
      destruct (zhopend_same st5 hs 0 None 0) as (A1 & A2 & A3). auto. }
    assert (H6b : whole_ratio (leftover st) -> (IP k st5 -> IP k st6)
                 /\ (hop st = 0 -> z3 (pos st) = layer_z st -> pos st6 = pos st)).
    { intros Hw. unfold st6. destruct (w_hop w) as [[h hs]|] eqn:EW.
      - destruct (zhopend_facts k st5 hs) as (A4 & A5 & A6); [by rewrite S4|].
        split; [done|]. intros Hh Hz.
        rewrite A5. destruct H5 as (_ & _ & Hhop & Hpos). rewrite Hpos.
        destruct (Z.eqb_spec (hop st5) 0) as [E0|E0]; cbn.
        + rewrite <- Hhop, E0. destruct (pos st); cbn; f_equal; lia.
        + rewrite (sb_lz _ _ S1), <- Hz. by destruct (pos st).
      - split; [done|]. intros Hh Hz.
        destruct H5 as (_ & _ & Hhop & Hpos). rewrite Hpos, W2. destruct H3 as (_ & _ & ->). destruct H2 as (_ & _ & ->); [|done].
        rewrite (q_hop _ _ H1), Hh. destruct (pos st); cbn; f_equal; lia. }
    set (st7 := match w_retraction w with Some _ => _ | None => st6 end).
    assert (H7 : quiet st6 st7) by (unfold st7; destruct (w_retraction w); [apply quiet_unretract|apply quiet_refl]).
    assert (H8 : quiet st6 (if Qltb 0 (w_pause w) then emit st7 (Dwell (w_pause w)) else st7)).
    { destruct (Qltb _ _); [|done]. eapply quiet_trans; [exact H7|by apply quiet_emit]. }
    set (st8 := if Qltb 0 (w_pause w) then _ else _) in *.
    destruct H6 as (B1 & B2 & B3). pose proof (quiet_IP k _ _ H8) as HI8. destruct H8 as [[Q0 Q01 Q02] Q2 Q3 Q4].
    split; [congruence|]. split; [eapply stable_trans; [exact S1|]; by eapply stable_trans|].
    split; [rewrite Q02, <- S4; done|]. intros Hw. destruct (H6b Hw) as [B4 B5]. split; [auto|]. rewrite Q3. exact B5.
  Qed.
End pos.
