(** C27 and C28: invariant for the extruded and retracted amounts. *)
From Coq Require Import ZArith QArith Qabs Qminmax Lqa.
From stdpp Require Import list.
From Verif Require Import Common GCode_Model GCode_Spec GCode_Pos.

Local Arguments prun : simpl never.
Local Open Scope Q_scope.

Section ext.
  Variables (relative volumetric : bool) (vlen : pt3 -> Q) (speed_z_hop : nat -> Q) (retraction_enable : nat -> bool).
  Variable pr0 : printer.
  (** [nn]: do we track the non-negativity needed to read off the retraction from the printer *)
  Variable nn : Prop.
  (** [nofw]: no extruder uses firmware retraction *)
  Variable nofw : Prop.
  Notation P st := (prun relative (fun q => q) pr0 (out st)).

  Definition bel (a : attr) : Q := if firmware a then 0 else retr a.
  Definition kk (a : attr) : Q := if volumetric then 1 else area a.
  Definition cc (a : attr) : Q := if volumetric then 1 else / area a.
  Definition amount (a : attr) (e : Q) : Q := if firmware a then e else e - retr_start a + retr a.

  Record AI (c : bool) (a : attr) (e f pk : Q) (w : bool) (r : Q) : Prop := {
    ai_area : 0 < area a;
    ai_fil : f + bel a + prime a * cc a == r * cc a;
    ai_tot : filament a == (f + bel a - (if c then amount a e else 0)) * kk a;
    ai_start : c = false -> firmware a = false -> retr_start a == retr a;
    ai_peak : nn -> pk == f + bel a /\ 0 <= retr a /\ 0 <= prime a;
    ai_fw : firmware a = true -> (w = true <-> ~ retr a == 0) }.

  Record IE (st : gst) (req : nat -> Q) : Prop := {
    ie_tool : tool (P st) = cur st;
    ie_sync : relative = false -> pe (P st) == cur_e st;
    ie_off : e_off st == 0;
    ie_ai : forall n, AI (n =? cur st)%nat (attrs st n) (cur_e st) (fil (P st) n) (peak (P st) n) (fw (P st) n) (req n) }.

  Lemma prun_snoc p l c : prun relative (fun q => q) p (l ++ [c]) = pstep relative (fun q => q) (prun relative (fun q => q) p l) c.
  Proof. unfold prun. by rewrite fold_left_app. Qed.

  Lemma mm3_cc a v : mm3ToE volumetric a v == v * cc a.
  Proof. unfold mm3ToE, cc. destruct volumetric; [ring|]. reflexivity. Qed.
  Lemma cc_pos a : 0 < area a -> 0 < cc a.
  Proof. intros H. unfold cc. destruct volumetric; [lra|]. by apply Qinv_lt_0_compat. Qed.
  Lemma mm_pos a d : 0 < area a -> 0 <= d -> 0 <= mmToE volumetric a d.
  Proof. intros H Hd. unfold mmToE. destruct volumetric; [|done]. apply Qmult_le_0_compat; lra. Qed.
  Lemma mm_spos a d : 0 < area a -> 0 < d -> 0 < mmToE volumetric a d.
  Proof. intros H Hd. unfold mmToE. destruct volumetric; [|done]. by apply Qmult_lt_0_compat. Qed.

  (** the state seen by the printer: nothing changed *)
  Lemma IE_ext st st' req :
    IE st req -> cur st' = cur st -> cur_e st' = cur_e st -> e_off st' == 0 -> (forall n, attrs st' n = attrs st n) ->
    tool (P st') = tool (P st) -> pe (P st') = pe (P st) -> (forall n, fil (P st') n = fil (P st) n)
    -> (forall n, peak (P st') n = peak (P st) n) -> (forall n, fw (P st') n = fw (P st) n) -> IE st' req.
  Proof.
    intros [H1 H2 H3 H4] E1 E2 E3 E4 E5 E6 E7 E8 E9. constructor; [congruence|rewrite E6, E2; done|done|].
    intros n. rewrite E1, E2, E4, E7, E8, E9. apply H4.
  Qed.

  (** a transition that only concerns the current extruder *)
  Lemma IE_cur st st' req req' :
    IE st req -> cur st' = cur st -> e_off st' == 0 -> tool (P st') = tool (P st) ->
    (relative = false -> pe (P st') == cur_e st') ->
    (forall n, n <> cur st -> attrs st' n = attrs st n /\ fil (P st') n = fil (P st) n /\ peak (P st') n = peak (P st) n
                              /\ fw (P st') n = fw (P st) n /\ req' n = req n) ->
    (AI true (me st) (cur_e st) (fil (P st) (cur st)) (peak (P st) (cur st)) (fw (P st) (cur st)) (req (cur st)) ->
     AI true (me st') (cur_e st') (fil (P st') (cur st)) (peak (P st') (cur st)) (fw (P st') (cur st)) (req' (cur st))) ->
    IE st' req'.
  Proof.
    intros [H1 H2 H3 H4] E1 E2 E3 E4 E5 E6. constructor; [congruence|done|done|].
    intros n. rewrite E1. destruct (Nat.eqb_spec n (cur st)) as [->|Hn].
    - specialize (H4 (cur st)). rewrite Nat.eqb_refl in H4. apply E6 in H4. unfold me in H4. by rewrite E1 in H4.
    - destruct (E5 n Hn) as (F1 & F2 & F3 & F4 & F5). specialize (H4 n). rewrite (proj2 (Nat.eqb_neq _ _) Hn) in H4.
      rewrite F1, F2, F3, F4, F5. destruct H4. by constructor.
  Qed.

  Lemma upd_me st f : me (upd_attr st f) = f (me st).
  Proof. unfold me, upd_attr. cbn. by rewrite Nat.eqb_refl. Qed.
  Lemma upd_other st f n : n <> cur st -> attrs (upd_attr st f) n = attrs st n.
  Proof. intros H. unfold upd_attr. cbn. by rewrite (proj2 (Nat.eqb_neq _ _) H). Qed.

  (** *** printer steps *)
  Lemma move_none p f xy z :
    let p' := pstep relative (fun q => q) p (Move f xy z None) in
    tool p' = tool p /\ pe p' = pe p /\ fil p' = fil p /\ peak p' = peak p /\ fw p' = fw p.
  Proof. destruct xy, z; done. Qed.
  Lemma move_some p f xy z v d e :
    (relative = false -> pe p == e) -> (if relative then v == d else v == e + d) ->
    let p' := pstep relative (fun q => q) p (Move f xy z (Some v)) in
    tool p' = tool p /\ (relative = false -> pe p' == e + d) /\ fw p' = fw p
    /\ (forall n, n <> tool p -> fil p' n = fil p n /\ peak p' n = peak p n)
    /\ fil p' (tool p) == fil p (tool p) + d /\ peak p' (tool p) == Qmax (peak p (tool p)) (fil p (tool p) + d).
  Proof.
    intros Hs Hv p'.
    set (p2 := pstep relative (fun q => q) p (Move f xy z None)).
    destruct (move_none p f xy z) as (A1 & A2 & A3 & A4 & A5). fold p2 in A1, A2, A3, A4, A5.
    assert (E : p' = if relative then push p2 v (pe p2) else push p2 (v - pe p2) v) by (unfold p', p2; by destruct xy, z, relative).
    set (g := if relative then v else v - pe p2).
    assert (Hg : g == d). { unfold g. destruct relative; [done|]. rewrite A2, Hs, Hv by done. ring. }
    assert (E' : p' = push p2 g (if relative then pe p2 else v)) by (rewrite E; unfold g; by destruct relative).
    rewrite E'. clearbody g p2 p'. unfold push. cbn. rewrite A1, A3, A4, A5. split; [done|]. split.
    { intros Hr. rewrite Hr in *. done. }
    split; [done|]. unfold at_tool. rewrite Nat.eqb_refl. split.
    { intros n Hn. by rewrite (proj2 (Nat.eqb_neq _ _) Hn). }
    split; [by rewrite Hg|]. by rewrite Hg.
  Qed.

  (** *** arithmetic of the transitions on the current extruder *)
  Lemma max_keep a b : b <= a -> Qmax a b == a.
  Proof. intros H. by apply Q.max_l. Qed.
  Lemma max_new a b : a <= b -> Qmax a b == b.
  Proof. intros H. by apply Q.max_r. Qed.

  Lemma AI_raw a e f pk w r new f' pk' :
    firmware a = false -> (nn -> 0 <= new) -> f' == f + (retr a - new) -> pk' == Qmax pk (f + (retr a - new)) ->
    AI true a e f pk w r -> AI true (a_retr new a) (e + (retr a - new)) f' pk' w r.
  Proof.
    intros Hf Hn Ef Ep [H1 H2 H3 H4 H5 H6]. unfold bel, amount, cc, kk in *. cbn in *. rewrite Hf in *.
    constructor; cbn; unfold bel, amount, cc, kk; cbn; rewrite ?Hf; try done.
    - rewrite Ef. rewrite <- H2. ring.
    - rewrite Ef, H3. ring.
    - intros N. destruct (H5 N) as (K1 & K2 & K3). split; [|split; auto].
      rewrite Ep, K1. rewrite max_keep; [rewrite Ef; ring|]. specialize (Hn N). lra.
  Qed.

  Lemma AI_extrude a e f pk w r q v e' f' pk' :
    retr a == 0 -> prime a == 0 -> q == v * cc a -> (nn -> 0 <= v) -> e' == e + q -> f' == f + q -> (nn -> pk' == Qmax pk (f + q)) ->
    AI true a e f pk w r -> AI true a e' f' pk' w (r + v).
  Proof.
    intros R0 P0 Hq Hv He Hf Hp [H1 H2 H3 H4 H5 H6]. pose proof (cc_pos a H1) as Hc.
    constructor; try done.
    - rewrite Hf. transitivity (f + bel a + prime a * cc a + q); [ring|]. rewrite H2, Hq. ring.
    - rewrite H3. unfold amount. destruct (firmware a); rewrite Hf, He; ring.
    - intros N. destruct (H5 N) as (K1 & K2 & K3). split; [|done].
      assert (0 <= q). { rewrite Hq. apply Qmult_le_0_compat; [auto|lra]. }
      assert (bel a == 0) as Hb by (unfold bel; destruct (firmware a); [reflexivity|done]).
      rewrite Hp, K1, Hb by done. rewrite max_new; [rewrite Hf; ring|lra].
  Qed.

  Lemma IE_none st st' req f xy z :
    IE st req -> out st' = out st ++ [Move f xy z None] -> cur st' = cur st -> cur_e st' = cur_e st -> e_off st' == 0 ->
    (forall n, attrs st' n = attrs st n) -> IE st' req.
  Proof.
    intros H Ho. destruct (move_none (P st) f xy z) as (A1 & A2 & A3 & A4 & A5). intros E1 E2 E3 E4.
    rewrite <- prun_snoc, <- Ho in *. eapply IE_ext; try eassumption; intros; congruence.
  Qed.

  (** the description of writeFXYZE *)
  Lemma fxyze_raw st sp x y z e am req :
    IE st req -> firmware (me st) = false -> (nn -> 0 <= am.1) -> am.2 = (retr (me st) - am.1) ->
    IE (writeFXYZE relative st sp x y z e (Some am)) req.
  Proof.
    intros H Hf Hn Ham. unfold writeFXYZE.
    set (b := Qne_dec_bool (speed st) sp). set (st1 := if b then set_speed st sp else st).
    assert (Hs : IE st1 req /\ me st1 = me st /\ cur st1 = cur st).
    { unfold st1. destruct b; [|done]. split; [|done]. by eapply IE_ext; [exact H|..]; try done; apply H. }
    destruct Hs as (Hs & Hm & Hc). clearbody st1. cbv zeta.
    set (f := if b then _ else _). set (xy := if _ || _ then _ else _). set (zz := if negb _ then _ else _).
    destruct (has_retraction am).
    - unfold writeRawRetract. cbn [fst snd]. set (xy' := match f with Some _ => _ | None => _ end). clearbody f xy' zz.
      cbn [cur_e set_e].
      set (v := if relative then am.2 else cur_e st1 + am.2).
      set (st2 := set_pos _ _).
      assert (Ho : out st2 = out st1 ++ [Move f xy' zz (Some v)]) by done.
      pose proof (move_some (P st1) f xy' zz v (am.2) (cur_e st1) (ie_sync _ _ Hs)) as M.
      destruct M as (M1 & M2 & M3 & M4 & M5 & M6).
      { unfold v. destruct relative; reflexivity. }
      rewrite <- prun_snoc, <- Ho in M1, M2, M3, M4, M5, M6. rewrite (ie_tool _ _ Hs) in M4, M5, M6.
      eapply IE_cur; [exact Hs|done|apply Hs|done|exact M2| |].
      + intros n Hn'. destruct (M4 n Hn') as [M41 M42]. split; [apply (upd_other (set_e st1 (cur_e st1 + am.2))); done|].
        rewrite M3. done.
      + intros HA. rewrite M3.
        change (me st2) with (me (upd_attr (set_e st1 (cur_e st1 + am.2)) (a_retr am.1))). rewrite upd_me.
        change (me (set_e st1 (cur_e st1 + am.2))) with (me st1). cbn [cur_e st2].
        change (cur_e st2) with (cur_e st1 + am.2). rewrite Ham, <- Hm in *.
        eapply AI_raw; [done|done|rewrite M5; done|rewrite M6; done|done].
    - eapply IE_none; [exact Hs|reflexivity|done|done|apply Hs|done].
  Qed.

  (** with no amounts and the E value of now *)
  Lemma fxyze_keep st sp x y z req :
    IE st req -> IE (writeFXYZE relative st sp x y z (cur_e st) None) req.
  Proof.
    intros H. unfold writeFXYZE.
    set (b := Qne_dec_bool (speed st) sp). set (st1 := if b then set_speed st sp else st).
    assert (Hs : IE st1 req /\ cur_e st1 = cur_e st).
    { unfold st1. destruct b; [|done]. split; [|done]. by eapply IE_ext; [exact H|..]; try done; apply H. }
    destruct Hs as (Hs & Hc). clearbody st1. cbv zeta.
    set (f := if b then _ else _). set (xy := if _ || _ then _ else _). set (zz := if negb _ then _ else _).
    assert (E : Qne_dec_bool (cur_e st + e_off st1) (cur_e st1) = false).
    { unfold Qne_dec_bool. apply negb_false_iff, Qeq_bool_iff. rewrite Hc, (ie_off _ _ Hs). ring. }
    rewrite E. eapply IE_none; [exact Hs|reflexivity|done|done|apply Hs|done].
  Qed.

  (** an extrusion *)
  Lemma fxyze_extrude st sp x y z q v req :
    IE st req -> retr (me st) == 0 -> prime (me st) == 0 -> q == v * cc (me st) -> (nn -> 0 <= v) ->
    IE (writeFXYZE relative st sp x y z (cur_e st + q) None) (fun n => if (n =? cur st)%nat then req n + v else req n).
  Proof.
    intros H R0 P0 Hq Hv. unfold writeFXYZE.
    set (b := Qne_dec_bool (speed st) sp). set (st1 := if b then set_speed st sp else st).
    assert (Hs : IE st1 req /\ cur_e st1 = cur_e st /\ me st1 = me st /\ cur st1 = cur st).
    { unfold st1. destruct b; [|done]. split; [|done]. by eapply IE_ext; [exact H|..]; try done; apply H. }
    destruct Hs as (Hs & Hc & Hm & Hcu). clearbody st1. cbv zeta.
    set (f := if b then _ else _). set (xy := if _ || _ then _ else _). set (zz := if negb _ then _ else _).
    rewrite <- Hc. rewrite <- Hm in *. rewrite <- Hcu. clear Hc.
    set (dd := Qne_dec_bool (cur_e st1 + q + e_off st1) (cur_e st1)).
    set (v0 := if relative then _ else _).
    pose proof (ie_off _ _ Hs) as Ho0.
    destruct dd eqn:Ed; subst dd.
    - set (st2 := set_pos _ _).
      assert (exists xy2, out st2 = out st1 ++ [Move f xy2 zz (Some v0)]) as [xy2 Ho] by (eexists; reflexivity).
      pose proof (move_some (P st1) f xy2 zz v0 q (cur_e st1) (ie_sync _ _ Hs)) as M.
      destruct M as (M1 & M2 & M3 & M4 & M5 & M6).
      { unfold v0. destruct relative; rewrite Ho0; ring. }
      rewrite <- prun_snoc, <- Ho in M1, M2, M3, M4, M5, M6. rewrite (ie_tool _ _ Hs) in M4, M5, M6.
      eapply IE_cur; [exact Hs|done|apply Hs|done|exact M2| |].
      + intros n Hn'. destruct (M4 n Hn') as [M41 M42]. rewrite M3, (proj2 (Nat.eqb_neq _ _) Hn'). done.
      + intros HA. rewrite M3, Nat.eqb_refl. change (me st2) with (me st1). change (cur_e st2) with (cur_e st1 + q).
        by eapply AI_extrude.
    - unfold Qne_dec_bool in Ed. apply negb_false_iff, Qeq_bool_iff in Ed.
      assert (Q0 : q == 0) by (rewrite Ho0 in Ed; lra).
      set (st2 := set_pos _ _).
      assert (H2 : IE st2 req) by (eapply IE_none; [exact Hs|reflexivity|done|done|apply Hs|done]).
      change (cur st1) with (cur st2). change (me st1) with (me st2) in *.
      eapply IE_cur; [exact H2|done|apply H2|done|apply H2| |].
      + intros n Hn'. by rewrite (proj2 (Nat.eqb_neq _ _) Hn').
      + intros HA. rewrite Nat.eqb_refl.
        eapply (AI_extrude _ _ _ _ _ _ q v); try done; try (rewrite Q0; ring).
        intros N. destruct HA as [H1' H2' H3' H4' H5' H6']. destruct (H5' N) as (K1 & K2 & K3).
        assert (Hb : bel (me st2) == 0) by (unfold bel; destruct (firmware (me st2)); [reflexivity|done]).
        rewrite K1, Hb, Q0. rewrite max_keep; [reflexivity|lra].
  Qed.

  (** *** reset *)
  Lemma vol_amount st : getCurrentExtrudedVolume volumetric st == amount (me st) (cur_e st) * kk (me st).
  Proof. unfold getCurrentExtrudedVolume, amount, kk. destruct volumetric; [ring|reflexivity]. Qed.

  Lemma reset_pr st :
    let st' := resetExtrusionValue relative volumetric st in
    cur st' = cur st /\ cur_e st' = 0 /\ e_off st' = e_off st /\ tool (P st') = tool (P st) /\ (relative = false -> pe (P st') = 0)
    /\ fil (P st') = fil (P st) /\ peak (P st') = peak (P st) /\ fw (P st') = fw (P st)
    /\ (forall n, n <> cur st -> attrs st' n = attrs st n)
    /\ me st' = a_reset (getCurrentExtrudedVolume volumetric st) (me st).
  Proof.
    unfold resetExtrusionValue. set (st1 := if relative then st else emit st ZeroE).
    assert (H : cur st1 = cur st /\ e_off st1 = e_off st /\ attrs st1 = attrs st /\ tool (P st1) = tool (P st) /\ (relative = false -> pe (P st1) = 0)
                /\ fil (P st1) = fil (P st) /\ peak (P st1) = peak (P st) /\ fw (P st1) = fw (P st)
                /\ getCurrentExtrudedVolume volumetric st1 = getCurrentExtrudedVolume volumetric st).
    { unfold st1. destruct relative eqn:Er; [done|]. cbn [emit out]. rewrite <- Er, prun_snoc, Er. done. }
    clearbody st1. destruct H as (H1 & H2 & H3 & H4 & H5 & H6 & H7 & H8 & H9). cbv zeta.
    change (out (set_e (upd_attr st1 (a_reset (getCurrentExtrudedVolume volumetric st1))) 0)) with (out st1).
    split; [done|]. split; [done|]. split; [done|]. split; [done|]. split; [done|]. split; [done|]. split; [done|]. split; [done|]. split.
    - intros n Hn. cbn. rewrite H1, (proj2 (Nat.eqb_neq _ _) Hn). by rewrite H3.
    - rewrite <- H9. change (me (set_e ?s 0)) with (me s). rewrite upd_me. unfold me. by rewrite H1, H3.
  Qed.

  Lemma IE_reset st req : IE st req -> IE (resetExtrusionValue relative volumetric st) req.
  Proof.
    intros H. destruct (reset_pr st) as (R1 & R2 & R3 & R4 & R5 & R6 & R7 & R8 & R9 & R10).
    eapply IE_cur; [exact H|done|rewrite R3; apply H|done| | |].
    - intros Hr. rewrite R2, R5 by done. reflexivity.
    - intros n Hn. rewrite R6, R7, R8. auto.
    - rewrite R2, R6, R7, R8, R10. pose proof (vol_amount st) as HV. set (vol := getCurrentExtrudedVolume volumetric st) in *.
      intros [H1 H2 H3 H4 H5 H6]. constructor; try done. cbn [filament a_reset].
      change (bel (a_reset vol (me st))) with (bel (me st)). change (kk (a_reset vol (me st))) with (kk (me st)).
      unfold amount in *. cbn [firmware retr_start retr a_reset]. rewrite HV, H3. destruct (firmware (me st)); ring.
  Qed.

  (** *** unretraction *)
  Definition unret_stage (st : gst) : gst :=
    let pv := prime (me st) in
    let pe := mm3ToE volumetric (me st) pv in
    let st1 := set_e st (cur_e st + pe)%Q in
    let f := Some (prime_speed (me st) * 60)%Q in
    if Qne_dec_bool (retr (me st)) 0 then
      if firmware (me st) then
        let st2 := emit st1 FwUnretract in
        if Qne_dec_bool pv 0
        then set_speed (emit st2 (Move f None None (Some (if relative then pe else cur_e st2)))) (prime_speed (me st))
        else st2
      else
        let st2 := set_e st1 (cur_e st1 + retr (me st))%Q in
        set_speed (emit st2 (Move f None None (Some (if relative then retr (me st) + pe else cur_e st2)%Q))) (prime_speed (me st))
    else if Qne_dec_bool pv 0
    then set_speed (emit st1 (Move f None None (Some (if relative then pe else cur_e st1)))) (prime_speed (me st))
    else st1.

  Lemma Qne_true a b : Qne_dec_bool a b = true <-> ~ a == b.
  Proof. unfold Qne_dec_bool. rewrite negb_true_iff, <- not_true_iff_false, Qeq_bool_iff. done. Qed.
  Lemma Qne_false a b : Qne_dec_bool a b = false <-> a == b.
  Proof. unfold Qne_dec_bool. rewrite negb_false_iff. apply Qeq_bool_iff. Qed.

  Lemma emit_push st e' f v d req :
    IE st req -> (if relative then v == d else v == e') -> e' == cur_e st + d ->
    let p' := pstep relative (fun q => q) (P st) (Move f None None (Some v)) in
    tool p' = tool (P st) /\ (relative = false -> pe p' == e') /\ fw p' = fw (P st)
    /\ (forall n, n <> cur st -> fil p' n = fil (P st) n /\ peak p' n = peak (P st) n)
    /\ fil p' (cur st) == fil (P st) (cur st) + d /\ peak p' (cur st) == Qmax (peak (P st) (cur st)) (fil (P st) (cur st) + d).
  Proof.
    intros H Hv He. pose proof (move_some (P st) f None None v d (cur_e st) (ie_sync _ _ H)) as M.
    destruct M as (M1 & M2 & M3 & M4 & M5 & M6).
    { destruct relative; [done|]. by rewrite Hv. }
    rewrite (ie_tool _ _ H) in M4, M5, M6.
    split; [done|]. split; [intros Hr; rewrite M2, He by done; reflexivity|]. done.
  Qed.

  Lemma unret_stage_pr st req :
    IE st req ->
    let st2 := unret_stage st in let d := prime (me st) * cc (me st) + bel (me st) in
    attrs st2 = attrs st /\ cur st2 = cur st /\ e_off st2 = e_off st /\ cur_e st2 == cur_e st + d
    /\ tool (P st2) = tool (P st) /\ (relative = false -> pe (P st2) == cur_e st2)
    /\ (forall n, n <> cur st -> fil (P st2) n = fil (P st) n /\ peak (P st2) n = peak (P st) n /\ fw (P st2) n = fw (P st) n)
    /\ fil (P st2) (cur st) == fil (P st) (cur st) + d
    /\ (nn -> peak (P st2) (cur st) == Qmax (peak (P st) (cur st)) (fil (P st) (cur st) + d))
    /\ (firmware (me st) = true -> fw (P st2) (cur st) = false).
  Proof.
    intros H. cbv zeta. unfold unret_stage.
    assert (HA := ie_ai _ _ H (cur st)). rewrite Nat.eqb_refl in HA. fold (me st) in HA.
    pose proof (mm3_cc (me st) (prime (me st))) as Hpe. set (pe1 := mm3ToE volumetric (me st) (prime (me st))) in *.
    assert (Hmax : nn -> forall d, d == 0 -> peak (P st) (cur st) == Qmax (peak (P st) (cur st)) (fil (P st) (cur st) + d)).
    { intros N d Hd. destruct (ai_peak _ _ _ _ _ _ _ HA N) as (K1 & K2 & K3). rewrite Hd, max_keep; [reflexivity|].
      rewrite K1. unfold bel. destruct (firmware (me st)); lra. }
    destruct (Qne_dec_bool (retr (me st)) 0) eqn:ER.
    - destruct (firmware (me st)) eqn:EF.
      + assert (Hb : bel (me st) == 0) by (unfold bel; rewrite EF; reflexivity).
        destruct (Qne_dec_bool (prime (me st)) 0) eqn:EP.
        * set (v := if relative then pe1 else _).
          destruct (emit_push st (cur_e st + pe1) (Some (prime_speed (me st) * 60)) v pe1 req H) as (M1 & M2 & M3 & M4 & M5 & M6);
            [unfold v; destruct relative; reflexivity|reflexivity|].
          set (st2 := set_speed _ _).
          set (p1 := pstep relative (fun q => q) (P st) (Move (Some (prime_speed (me st) * 60)) None None (Some v))) in *.
          assert (EP2 : P st2 = Pr (px p1) (py p1) (pz p1) (pe p1) (tool p1) (fil p1) (peak p1) (at_tool (tool (P st)) false (fw (P st)))).
          { unfold st2, p1. cbn [set_speed emit out set_e]. rewrite !prun_snoc. cbn. destruct relative; reflexivity. }
          rewrite EP2. cbn [tool fil peak fw GCode_Spec.pe]. rewrite (ie_tool _ _ H) in *. unfold at_tool.
          split; [done|]. split; [done|]. split; [done|]. split; [cbn; rewrite Hpe, Hb; ring|]. split; [done|]. split; [exact M2|].
          split. { intros n Hn. destruct (M4 n Hn). by rewrite (proj2 (Nat.eqb_neq _ _) Hn). }
          split; [rewrite M5, Hpe, Hb; ring|]. split; [intros _; rewrite M6, Hpe, Hb; by rewrite Qplus_0_r|].
          intros _. by rewrite Nat.eqb_refl.
        * apply Qne_false in EP. set (st2 := emit _ _).
          assert (EP2 : P st2 = Pr (px (P st)) (py (P st)) (pz (P st)) (pe (P st)) (tool (P st)) (fil (P st)) (peak (P st)) (at_tool (tool (P st)) false (fw (P st)))).
          { unfold st2. cbn [emit out set_e]. by rewrite !prun_snoc. }
          assert (Hd : prime (me st) * cc (me st) + bel (me st) == 0) by (rewrite EP, Hb; ring).
          rewrite EP2. cbn [tool fil peak fw GCode_Spec.pe]. rewrite (ie_tool _ _ H) in *. unfold at_tool.
          split; [done|]. split; [done|]. split; [done|]. split; [cbn; rewrite Hpe, Hb; ring|]. split; [done|].
          split; [intros Hr; rewrite (ie_sync _ _ H) by done; cbn; rewrite Hpe, EP; ring|].
          split. { intros n Hn. by rewrite (proj2 (Nat.eqb_neq _ _) Hn). }
          split; [rewrite Hd; ring|]. split; [auto|].
          intros _. by rewrite Nat.eqb_refl.
      + assert (Hb : bel (me st) = retr (me st)) by (unfold bel; by rewrite EF).
        set (v := if relative then _ else _).
        destruct (emit_push st (cur_e st + pe1 + retr (me st)) (Some (prime_speed (me st) * 60)) v (pe1 + retr (me st)) req H) as (M1 & M2 & M3 & M4 & M5 & M6);
          [unfold v; destruct relative; [ring|reflexivity]|ring|].
        set (st2 := set_speed _ _).
        assert (EP2 : P st2 = pstep relative (fun q => q) (P st) (Move (Some (prime_speed (me st) * 60)) None None (Some v))).
        { unfold st2. cbn [set_speed emit out set_e]. by rewrite !prun_snoc. }
        rewrite EP2. 
        split; [done|]. split; [done|]. split; [done|]. split; [cbn; rewrite Hpe, Hb; ring|]. split; [done|]. split; [exact M2|].
        split. { intros n Hn. destruct (M4 n Hn). rewrite M3. done. }
        split; [rewrite M5, Hpe, Hb; ring|]. split; [|done]. intros _. rewrite M6, Hpe, Hb. reflexivity.
    - apply Qne_false in ER. assert (Hb : bel (me st) == 0) by (unfold bel; destruct (firmware (me st)); [reflexivity|done]).
      assert (Hfw : firmware (me st) = true -> fw (P st) (cur st) = false).
      { intros EF. apply not_true_iff_false. intros Hw. by apply (ai_fw _ _ _ _ _ _ _ HA EF) in Hw. }
      destruct (Qne_dec_bool (prime (me st)) 0) eqn:EP.
      + set (v := if relative then pe1 else _).
        destruct (emit_push st (cur_e st + pe1) (Some (prime_speed (me st) * 60)) v pe1 req H) as (M1 & M2 & M3 & M4 & M5 & M6);
          [unfold v; destruct relative; reflexivity|reflexivity|].
        set (st2 := set_speed _ _).
        assert (EP2 : P st2 = pstep relative (fun q => q) (P st) (Move (Some (prime_speed (me st) * 60)) None None (Some v))).
        { unfold st2. cbn [set_speed emit out set_e]. by rewrite !prun_snoc. }
        rewrite EP2. 
        split; [done|]. split; [done|]. split; [done|]. split; [cbn; rewrite Hpe, Hb; ring|]. split; [done|]. split; [exact M2|].
        split. { intros n Hn. destruct (M4 n Hn). rewrite M3. done. }
        split; [rewrite M5, Hpe, Hb; ring|]. split; [intros _; rewrite M6, Hpe, Hb; by rewrite Qplus_0_r|].
        intros EF. rewrite M3. auto.
      + apply Qne_false in EP.
        assert (Hd : prime (me st) * cc (me st) + bel (me st) == 0) by (rewrite EP, Hb; ring).
        split; [done|]. split; [done|]. split; [done|]. split; [cbn; rewrite Hpe, Hb; ring|]. split; [done|].
        split; [intros Hr; cbn; rewrite (ie_sync _ _ H) by done; rewrite Hpe, EP; ring|].
        split; [done|]. split; [cbn; rewrite Hd; ring|]. split; [cbn; auto|]. done.
  Qed.

  Lemma AI_unret a e f pk w r e' f' pk' w' :
    e' == e + (prime a * cc a + bel a) -> f' == f + (prime a * cc a + bel a) ->
    (nn -> pk' == Qmax pk (f + (prime a * cc a + bel a))) -> (firmware a = true -> w' = false) ->
    AI true a e f pk w r ->
    AI true (a_retr 0 (a_prime 0 a)) e' f' pk' w' r
    /\ (forall vol, vol == amount a e' * kk a -> AI true (a_retr 0 (a_reset vol (a_prime 0 a))) 0 f' pk' w' r).
  Proof.
    intros He Hf Hp Hw [H1 H2 H3 H4 H5 H6]. pose proof (cc_pos a H1) as Hc.
    assert (B0 : f' == r * cc a) by (rewrite Hf, <- H2; ring).
    assert (Hpk : nn -> pk' == f').
    { intros N. destruct (H5 N) as (K1 & K2 & K3). rewrite Hp, Hf by done. rewrite max_new; [reflexivity|]. rewrite K1.
      assert (0 <= prime a * cc a) by (apply Qmult_le_0_compat; lra). lra. }
    assert (Hfw : firmware a = true -> w' = true <-> ~ 0 == 0).
    { intros EF. rewrite (Hw EF). split; [done|]. intros Hx. by destruct Hx. }
    split.
    - constructor; cbn; try done; unfold bel, amount, kk, cc in *; cbn in *.
      + destruct (firmware a); rewrite B0; ring.
      + rewrite H3. destruct (firmware a); rewrite Hf, He; ring.
      + intros N. split; [|lra]. rewrite (Hpk N). destruct (firmware a); ring.
    - intros vol Hvol. constructor; cbn; try done; unfold bel, amount, kk, cc in *; cbn in *.
      + destruct (firmware a); rewrite B0; ring.
      + rewrite H3, Hvol. destruct (firmware a); rewrite Hf, He; ring.
      + intros N. split; [|lra]. rewrite (Hpk N). destruct (firmware a); ring.
  Qed.

  Lemma IE_unretract st req :
    IE st req -> let st' := writeUnretractionAndPrime relative volumetric st in
    IE st' req /\ cur st' = cur st /\ retr (me st') = 0 /\ prime (me st') = 0 /\ area (me st') = area (me st).
  Proof.
    intros H. cbv zeta. unfold writeUnretractionAndPrime. fold (unret_stage st).
    destruct (unret_stage_pr st req H) as (U1 & U2 & U3 & U4 & U5 & U6 & U7 & U8 & U9 & U10).
    set (st2 := unret_stage st) in *. clearbody st2.
    set (st3 := upd_attr st2 (a_prime 0)).
    assert (Hm2 : me st2 = me st) by (unfold me; by rewrite U1, U2).
    assert (Hm3 : me st3 = a_prime 0 (me st)) by (unfold st3; by rewrite upd_me, Hm2).
    destruct (Qltb 10000 (getCurrentExtrudedVolume volumetric st3)).
    - destruct (reset_pr st3) as (R1 & R2 & R3 & R4 & R5 & R6 & R7 & R8 & R9 & R10).
      pose proof (vol_amount st3) as HV. set (vol := getCurrentExtrudedVolume volumetric st3) in *.
      set (st4 := resetExtrusionValue relative volumetric st3) in *. clearbody st4.
      change (out st3) with (out st2) in *. change (cur st3) with (cur st2) in *.
      assert (Hc4 : cur st4 = cur st) by congruence.
      rewrite upd_me. rewrite R10, Hm3. cbn [retr prime area a_retr a_reset a_prime].
      split; [|done].
      eapply IE_cur; [exact H|done| | | | |].
      + cbn. rewrite R3. change (e_off st3) with (e_off st2). rewrite U3. apply H.
      + change (out (upd_attr st4 (a_retr 0))) with (out st4). congruence.
      + change (out (upd_attr st4 (a_retr 0))) with (out st4). intros Hr. cbn. rewrite R5, R2 by done. reflexivity.
      + intros n Hn. change (out (upd_attr st4 (a_retr 0))) with (out st4). rewrite R6, R7, R8.
        destruct (U7 n Hn) as (V1 & V2 & V3). rewrite upd_other by congruence. rewrite R9 by congruence.
        unfold st3. rewrite upd_other, U1 by congruence. done.
      + change (out (upd_attr st4 (a_retr 0))) with (out st4). rewrite R6, R7, R8, upd_me, R10, Hm3.
        change (cur_e (upd_attr st4 (a_retr 0))) with (cur_e st4). rewrite R2.
        intros HA. eapply (AI_unret _ _ _ _ _ _ (cur_e st2)) in HA; [|exact U4|exact U8|exact U9|exact U10].
        apply HA. rewrite HV, Hm3. reflexivity.
    - rewrite upd_me, Hm3. change (cur (upd_attr st3 (a_retr 0))) with (cur st2). split; [|done].
      eapply IE_cur; [exact H|done| | | | |].
      + cbn. rewrite U3. apply H.
      + done.
      + done.
      + intros n Hn. destruct (U7 n Hn) as (V1 & V2 & V3). rewrite upd_other by (cbn; congruence).
        unfold st3. rewrite upd_other, U1 by congruence. done.
      + rewrite upd_me, Hm3. change (cur_e (upd_attr st3 (a_retr 0))) with (cur_e st2).
        change (out (upd_attr st3 (a_retr 0))) with (out st2).
        intros HA. eapply (AI_unret _ _ _ _ _ _ (cur_e st2)) in HA; [|exact U4|exact U8|exact U9|exact U10]. apply HA.
  Qed.

  (** *** retraction *)
  Definition addreq (n0 : nat) (v : Q) (req : nat -> Q) : nat -> Q := fun n => if (n =? n0)%nat then req n + v else req n.

  Lemma IE_vols st l req : IE st req -> IE (upd_attr st (a_vols l)) req.
  Proof.
    intros H. eapply IE_cur; [exact H|done|apply H|done|apply H| |].
    - intros n Hn. by rewrite upd_other.
    - rewrite upd_me. intros []. by constructor.
  Qed.
  Lemma IE_req_eq st req req' : (forall n, req n == req' n) -> IE st req -> IE st req'.
  Proof.
    intros Hr [H1 H2 H3 H4]. constructor; try done. intros n. destruct (H4 n). constructor; try done. by rewrite <- Hr.
  Qed.
  Lemma emitted_refl st st' : out st' = out st -> emitted st st' = false.
  Proof. intros E. unfold emitted. by rewrite E, Nat.eqb_refl. Qed.
  Lemma emitted_snoc st st' c : out st' = out st ++ [c] -> emitted st st' = true.
  Proof. intros E. unfold emitted. rewrite E, app_length. cbn. apply negb_true_iff, Nat.eqb_neq. lia. Qed.
  Lemma addreq_0 n0 req n : req n == addreq n0 0 req n.
  Proof. unfold addreq. destruct (n =? n0)%nat; [ring|reflexivity]. Qed.

  Lemma IE_prime st req v : (nn -> 0 <= v) -> IE st req -> IE (upd_attr st (fun a => a_prime (prime a + v) a)) (addreq (cur st) v req).
  Proof.
    intros Hv H. eapply IE_cur; [exact H|done|apply H|done|apply H| |].
    - intros n Hn. rewrite upd_other by done. unfold addreq. by rewrite (proj2 (Nat.eqb_neq _ _) Hn).
    - rewrite upd_me. unfold addreq. rewrite Nat.eqb_refl. intros [H1 H2 H3 H4 H5 H6]. constructor; try done.
      + cbn. change (bel (a_prime ?p ?a)) with (bel a). change (cc (a_prime ?p ?a)) with (cc a).
        transitivity (fil (P st) (cur st) + bel (me st) + prime (me st) * cc (me st) + v * cc (me st)); [ring|]. rewrite H2. ring.
      + intros N. destruct (H5 N) as (K1 & K2 & K3). split; [done|]. split; [done|]. cbn. specialize (Hv N). lra.
  Qed.

  Definition cfg_ok (cfg : retraction_config) (d : option Q) : Prop :=
    (nn -> 0 <= default (rdistance cfg) d /\ 0 <= rprime_volume cfg) /\ (nofw \/ 0 < default (rdistance cfg) d).

  Lemma IE_retraction st cfg force sw d req :
    IE st req -> (nofw -> forall n, firmware (attrs st n) = false) -> cfg_ok cfg d ->
    let st' := (writeRetraction relative volumetric st cfg force sw d).2 in
    IE st' (addreq (cur st) (if emitted st st' then rprime_volume cfg else 0) req).
  Proof.
    intros H Hnf [Hok1 Hok2]. cbv zeta. unfold writeRetraction.
    destruct (limit_retractions _ _ _ _ _) as [l|].
    2:{ rewrite emitted_refl by done. eapply IE_req_eq; [apply addreq_0|]. by apply IE_vols. }
    assert (H1 := IE_vols st l req H). set (st1 := upd_attr st (a_vols l)) in *. cbv zeta.
    assert (Hc : cur st1 = cur st) by done. assert (Ho : out st1 = out st) by done.
    assert (Hf1 : forall n, firmware (attrs st1 n) = firmware (attrs st n)).
    { intros n. unfold st1, upd_attr. cbn. by destruct (n =? cur st)%nat. }
    clearbody st1. unfold emitted. rewrite <- Ho, <- Hc. fold (emitted st1).
    change (negb (length (out ?s) =? length (out st1))%nat) with (emitted st1 s).
    set (am := computeRetractionAmounts _ _ _).
    assert (HA := ie_ai _ _ H1 (cur st1)). rewrite Nat.eqb_refl in HA. fold (me st1) in HA.
    assert (Ham1 : nn -> 0 <= am.1). { intros N. apply mm_pos; [apply HA|by apply Hok1]. }
    destruct (has_retraction am) eqn:EH; cbn [negb].
    2:{ rewrite emitted_refl by done. by eapply IE_req_eq; [apply addreq_0|]. }
    destruct (firmware (me st1)) eqn:EF.
    - assert (Hsp : 0 < am.1).
      { apply mm_spos; [apply HA|]. destruct Hok2 as [Hx|Hx]; [|done].
        specialize (Hnf Hx (cur st1)). unfold me in EF. rewrite Hf1 in EF. congruence. }
      destruct (sw && _) eqn:ES; cbn [snd].
      { rewrite emitted_refl by done. by eapply IE_req_eq; [apply addreq_0|]. }
      rewrite (emitted_snoc _ _ FwRetract) by reflexivity.
      set (st2 := upd_attr (emit st1 FwRetract) (a_retr am.1)).
      assert (H2 : IE st2 req).
      { eapply IE_cur; [exact H1|done|apply H1| | | |];
          change (out st2) with (out st1 ++ [FwRetract]); rewrite ?prun_snoc; cbn [pstep tool pe fil peak fw].
        - done.
        - apply H1.
        - intros n Hn. unfold at_tool. rewrite (ie_tool _ _ H1), (proj2 (Nat.eqb_neq _ _) Hn). unfold st2. by rewrite (upd_other (emit st1 FwRetract)).
        - unfold st2. rewrite upd_me. change (me (emit st1 FwRetract)) with (me st1). unfold at_tool.
          rewrite (ie_tool _ _ H1), Nat.eqb_refl. intros [J1 J2 J3 J4 J5 J6].
          constructor; try done; unfold bel, amount, cc, kk in *; cbn in *; rewrite EF in *; try done.
          + intros N. destruct (J5 N) as (K1 & K2 & K3). auto.
          + intros _. split; [|done]. intros _ Hx. rewrite Hx in Hsp. by apply (Qlt_irrefl 0). }
      change (cur st1) with (cur st2). apply IE_prime; [|done]. intros N. by apply Hok1.
    - cbn [writeRawRetract fst snd]. cbv zeta.
      set (e := if relative then am.2 else _). cbn [snd]. set (sp := if Qltb _ _ then _ else _).
      set (st3 := set_speed _ sp). set (st4 := upd_attr st3 (a_prime_speed _)).
      assert (Hout : out st4 = out st1 ++ [Move (Some (sp * 60)) None None (Some e)]) by done.
      assert (Hcur4 : cur st4 = cur st1) by done.
      assert (H4 : IE st4 req).
      { pose proof (move_some (P st1) (Some (sp * 60)) None None e am.2 (cur_e st1) (ie_sync _ _ H1)) as M.
        destruct M as (M1 & M2 & M3 & M4 & M5 & M6).
        { unfold e. destruct relative; reflexivity. }
        rewrite <- prun_snoc, <- Hout in M1, M2, M3, M4, M5, M6. rewrite (ie_tool _ _ H1) in M4, M5, M6.
        eapply IE_cur; [exact H1|done|apply H1|done|exact M2| |].
        - intros n Hn. destruct (M4 n Hn). rewrite M3. split; [|done]. unfold st4. rewrite upd_other by done. unfold st3. cbn [set_speed attrs emit].
          by rewrite (upd_other (set_e st1 (cur_e st1 + am.2))).
        - unfold st4 at 1. rewrite upd_me. unfold st3. change (me (set_speed (emit ?s ?c) sp)) with (me s). rewrite upd_me.
          change (me (set_e st1 (cur_e st1 + am.2))) with (me st1). change (cur_e st4) with (cur_e st1 + am.2). rewrite M3.
          intros HA'. eapply (AI_raw (me st1) _ _ _ _ _ am.1) in HA'; [|done|done|exact M5|exact M6].
          destruct HA'. by constructor. }
      rewrite (emitted_snoc st1 _ (Move (Some (sp * 60)) None None (Some e))) by exact Hout.
      rewrite <- Hcur4. apply IE_prime; [|done]. intros N. by apply Hok1.
  Qed.

  (** *** travels and z hops *)
  Definition dok (d : option Q) : Prop := match d with Some d => nofw /\ (nn -> 0 <= d) | None => True end.

  Lemma fxyze_noretr st sp x y z e am req : IE st req -> has_retraction am = false -> IE (writeFXYZE relative st sp x y z e (Some am)) req.
  Proof.
    intros H Ham. unfold writeFXYZE. rewrite Ham.
    set (b := Qne_dec_bool (speed st) sp). set (st1 := if b then set_speed st sp else st).
    assert (Hs : IE st1 req).
    { unfold st1. destruct b; [|done]. by eapply IE_ext; [exact H|..]; try done; apply H. }
    clearbody st1. cbv zeta.
    set (f := if b then _ else _). set (xy := if _ || _ then _ else _). set (zz := if negb _ then _ else _).
    eapply IE_none; [exact Hs|reflexivity|done|done|apply Hs|done].
  Qed.

  Lemma IE_area st req n : IE st req -> 0 < area (attrs st n).
  Proof. intros H. apply (ie_ai _ _ H n). Qed.

  Lemma IE_travelxyz st x y z sp d req :
    IE st req -> (nofw -> forall n, firmware (attrs st n) = false) -> dok d -> IE (writeTravelXYZ relative volumetric st x y z sp d) req.
  Proof.
    intros H Hnf Hd. unfold writeTravelXYZ. destruct (_ && _); [done|].
    destruct d as [d|]; [|by apply fxyze_keep]. destruct Hd as [Hd1 Hd2].
    apply fxyze_raw; [done|by apply Hnf| |done]. intros N. apply mm_pos; [by eapply IE_area|auto].
  Qed.

  Lemma IE_set_hop st h req : IE st req -> IE (set_hop st h) req.
  Proof. intros H. by eapply IE_ext; [exact H|..]; try done; apply H. Qed.
  Lemma IE_set_pos st h req : IE st req -> IE (set_pos st h) req.
  Proof. intros H. by eapply IE_ext; [exact H|..]; try done; apply H. Qed.
  Lemma IE_set_left st h req : IE st req -> IE (set_leftover st h) req.
  Proof. intros H. by eapply IE_ext; [exact H|..]; try done; apply H. Qed.

  Lemma IE_zhop st sp h d req :
    IE st req -> (nofw -> forall n, firmware (attrs st n) = false) -> dok d -> IE (writeZhop relative volumetric speed_z_hop st sp h d) req.
  Proof.
    intros H0 Hnf Hd. unfold writeZhop. pose proof (IE_set_hop _ h _ H0) as H.
    destruct d as [d|].
    - destruct Hd as [Hd1 Hd2]. apply fxyze_raw; [done|by apply Hnf| |done]. intros N. apply mm_pos; [by eapply IE_area|auto].
    - apply fxyze_noretr; done.
  Qed.

  Lemma stable_fw st st' : stable st st' -> forall n, firmware (attrs st' n) = firmware (attrs st n).
  Proof. intros [H _ _ _] n. specialize (H n). unfold stat in H. congruence. Qed.

  Lemma IE_zhop_up st h sp d req :
    IE st req -> (nofw -> forall n, firmware (attrs st n) = false) -> dok d -> IE (zhop_up relative volumetric speed_z_hop st h sp d) req.
  Proof. intros H Hnf Hd. unfold zhop_up. destruct (0 <? h)%Z; [|done]. by apply IE_zhop. Qed.
  Lemma IE_zhopstart st h sp d ratio req :
    IE st req -> (nofw -> forall n, firmware (attrs st n) = false) -> dok d -> IE (writeZhopStart relative volumetric speed_z_hop st h sp d ratio) req.
  Proof.
    intros H Hnf Hd. unfold writeZhopStart. destruct (_ && _ && _); [|by apply IE_zhop_up].
    apply IE_zhop_up; [by apply IE_zhop_up| |done].
    intros N n. rewrite <- (Hnf N n). apply stable_fw. unfold zhop_up. destruct (0 <? _)%Z; [|apply stable_refl].
    apply (zhop_facts relative volumetric speed_z_hop (fun q => q) pr0 (fun _ => (0, 0)%Z) 0).
  Qed.

  Lemma IE_down st sp h d req :
    IE st req -> (nofw -> forall n, firmware (attrs st n) = false) -> dok d -> IE (zhop_down relative volumetric speed_z_hop st sp h d) req.
  Proof. intros H Hnf Hd. unfold zhop_down. destruct (hop st =? 0)%Z; [done|]. apply IE_set_pos. by apply IE_zhop. Qed.
  Lemma down_fw st sp h d : stable st (zhop_down relative volumetric speed_z_hop st sp h d).
  Proof. apply (down_same relative volumetric speed_z_hop (fun q => q) pr0 (fun _ => (0, 0)%Z)). Qed.
  Lemma split_fw st sp h d r : stable st (zhop_down_split relative volumetric speed_z_hop st sp h d r).
  Proof. apply (split_same relative volumetric speed_z_hop (fun q => q) pr0 (fun _ => (0, 0)%Z)). Qed.
  Lemma IE_split st sp h d ratio req :
    IE st req -> (nofw -> forall n, firmware (attrs st n) = false) -> dok d -> IE (zhop_down_split relative volumetric speed_z_hop st sp h d ratio) req.
  Proof.
    intros H Hnf Hd. unfold zhop_down_split. destruct (hop st =? 0)%Z; [done|].
    destruct (_ && _ && _) eqn:E; [|by apply IE_down]. destruct d as [d|]; [|done].
    apply IE_down; [|intros N n; rewrite <- (Hnf N n); apply stable_fw, down_fw|done].
    apply IE_down; [done|done|]. destruct Hd as [Hd1 Hd2]. split; [done|]. intros N. by apply (ie_ai _ _ H (cur st)).
  Qed.
  Lemma IE_zhopend st sp h d ratio req :
    IE st req -> (nofw -> forall n, firmware (attrs st n) = false) -> dok d -> dok (match leftover st with Some l => Some l.1 | None => None end) ->
    IE (writeZhopEnd relative volumetric speed_z_hop st sp h d ratio) req.
  Proof.
    intros H Hnf Hd Hl. unfold writeZhopEnd. destruct (leftover st) as [l|].
    - apply IE_split; [|intros N n; rewrite <- (Hnf N n); apply (stable_fw (set_leftover st None)), split_fw|done].
      apply IE_split; [by apply IE_set_left|done|done].
    - by apply IE_split.
  Qed.

  (** *** all calls *)
  Hypothesis vlen_nonneg : forall p, 0 <= vlen p.

  Record J (st : gst) (req : nat -> Q) : Prop := {
    j_ie : IE st req;
    j_fw : nofw -> forall n, firmware (attrs st n) = false;
    j_left : dok (match leftover st with Some l => Some l.1 | None => None end);
    j_max : max_off st == 0;
    j_fac : 0 <= off_factor st }.

  Lemma J_stable st st' req req' :
    J st req -> stable st st' -> (leftover st' = leftover st \/ leftover st' = None) -> IE st' req' -> J st' req'.
  Proof.
    intros [H1 H2 H3 H4 H5] HS HL HI. constructor; [done| | |rewrite (sb_max _ _ HS); done|rewrite (sb_fac _ _ HS); done].
    - intros N n. rewrite (stable_fw _ _ HS). auto.
    - destruct HL as [->| -> ]; done.
  Qed.

  Lemma zhop_xy st sp h d :
    let st' := writeZhop relative volumetric speed_z_hop st sp h d in
    hop st' = h /\ pos st' = P3 (x3 (pos st)) (y3 (pos st)) (layer_z st + h) /\ same st st'.
  Proof.
    destruct (zhop_facts relative volumetric speed_z_hop (fun q => q) pr0 (fun _ => (0, 0)%Z) 0 st sp h d) as (A1 & A2 & A3 & _). done.
  Qed.
  Lemma down_pos st sp h d :
    let st' := zhop_down relative volumetric speed_z_hop st sp h d in
    pos st' = if (hop st =? 0)%Z then pos st else P3 (x3 (pos st)) (y3 (pos st)) (layer_z st).
  Proof.
    cbv zeta. unfold zhop_down. destruct (hop st =? 0)%Z; [done|].
    destruct (zhop_xy st sp h d) as (A1 & A2 & A3). set (st' := writeZhop relative volumetric speed_z_hop st sp h d) in *. clearbody st'. cbn.
    rewrite A2. cbn. by rewrite (sm_lz _ _ A3).
  Qed.
  Lemma split_pos st sp h d r :
    let st' := zhop_down_split relative volumetric speed_z_hop st sp h d r in
    pos st' = if (hop st =? 0)%Z then pos st else P3 (x3 (pos st)) (y3 (pos st)) (layer_z st).
  Proof.
    cbv zeta. unfold zhop_down_split. destruct (hop st =? 0)%Z eqn:E0; [done|].
    destruct (_ && _ && _); rewrite down_pos; [|by rewrite E0].
    set (s1 := zhop_down _ _ _ st _ _ _).
    assert (Hp : pos s1 = P3 (x3 (pos st)) (y3 (pos st)) (layer_z st)) by (unfold s1; by rewrite down_pos, E0).
    assert (Hl : layer_z s1 = layer_z st) by (apply sb_lz, down_fw).
    clearbody s1. destruct (hop s1 =? 0)%Z; [done|]. by rewrite Hp, Hl.
  Qed.
  Lemma zhopend_pos st sp h d r :
    (hop st =? 0)%Z = false -> pos (writeZhopEnd relative volumetric speed_z_hop st sp h d r) = P3 (x3 (pos st)) (y3 (pos st)) (layer_z st).
  Proof.
    intros E0. unfold writeZhopEnd. rewrite split_pos. destruct (leftover st) as [l|].
    - set (s1 := zhop_down_split _ _ _ _ _ _ (Some l.1) _).
      assert (Hp : pos s1 = P3 (x3 (pos st)) (y3 (pos st)) (layer_z st)) by (unfold s1; rewrite split_pos; cbn; by rewrite E0).
      assert (Hl : layer_z s1 = layer_z (set_leftover st None)) by (apply sb_lz, split_fw).
      clearbody s1. destruct (hop s1 =? 0)%Z; [done|]. by rewrite Hp, Hl.
    - by rewrite E0.
  Qed.

  (** output is only appended *)
  Lemma pre_fxyze st sp x y z e am : out st `prefix_of` out (writeFXYZE relative st sp x y z e am).
  Proof.
    destruct (fxyze relative st sp x y z e am) as (_ & _ & _ & f & xy & ee & -> & _). by eexists.
  Qed.
  Lemma pre_zhop st sp h d : out st `prefix_of` out (writeZhop relative volumetric speed_z_hop st sp h d).
  Proof. unfold writeZhop. change (out st) with (out (set_hop st h)). apply pre_fxyze. Qed.
  Lemma pre_down st sp h d : out st `prefix_of` out (zhop_down relative volumetric speed_z_hop st sp h d).
  Proof. unfold zhop_down. destruct (_ =? _)%Z; [done|]. apply (pre_zhop st sp h d). Qed.
  Lemma pre_split st sp h d r : out st `prefix_of` out (zhop_down_split relative volumetric speed_z_hop st sp h d r).
  Proof.
    unfold zhop_down_split. destruct (_ =? _)%Z; [done|]. destruct (_ && _ && _); [|apply pre_down].
    etrans; apply pre_down.
  Qed.
  Lemma pre_zhopend st sp h d r : out st `prefix_of` out (writeZhopEnd relative volumetric speed_z_hop st sp h d r).
  Proof.
    unfold writeZhopEnd. destruct (leftover st); [|apply pre_split].
    etrans; [|apply pre_split]. change (out st) with (out (set_leftover st None)). apply pre_split.
  Qed.
  Lemma pre_emit st c : out st `prefix_of` out (emit st c).
  Proof. by exists [c]. Qed.
  Lemma pre_unret st : out st `prefix_of` out (writeUnretractionAndPrime relative volumetric st).
  Proof.
    unfold writeUnretractionAndPrime. fold (unret_stage st). cbn [upd_attr set_attrs out].
    assert (H : out st `prefix_of` out (unret_stage st)).
    { unfold unret_stage. destruct (Qne_dec_bool (retr _) 0).
      - destruct (firmware _); [|(eexists; cbn [emit set_e set_speed upd_attr set_attrs out]; rewrite <- ?app_assoc; reflexivity)]. destruct (Qne_dec_bool (prime _) _); [|(eexists; cbn [emit set_e set_speed upd_attr set_attrs out]; rewrite <- ?app_assoc; reflexivity)].
        (eexists; cbn [emit set_e set_speed upd_attr set_attrs out]; rewrite <- ?app_assoc; reflexivity).
      - destruct (Qne_dec_bool (prime _) _); [|done]; (eexists; cbn [emit set_e set_speed upd_attr set_attrs out]; rewrite <- ?app_assoc; reflexivity). }
    destruct (Qltb _ _); [|exact H]. unfold resetExtrusionValue. destruct relative; [exact H|].
    etrans; [exact H|]. (eexists; cbn [emit set_e set_speed upd_attr set_attrs out]; rewrite <- ?app_assoc; reflexivity).
  Qed.

  Definition flowing (sp v : Q) : Prop := 0 <= sp /\ 0 <= v.

  Lemma J_extrude st p sp v u req :
    J st req -> flowing sp v ->
    let st' := writeExtrusion relative volumetric vlen speed_z_hop st p sp v u in
    J st' (addreq (cur st) (if bool_decide (pos st = p) then 0 else v * vlen (diff3 p (start st))) req)
    /\ (pos st <> p -> exists pre last stm, out st' = out stm ++ [last] /\ out stm = out st ++ pre
        /\ IE stm req /\ cur stm = cur st /\ retr (me stm) = 0 /\ prime (me stm) = 0 /\ stable st stm).
  Proof.
    intros HJ [Hsp Hv]. cbv zeta.
    pose proof (extrude_same relative volumetric vlen speed_z_hop (fun q => q) pr0 (fun _ => (0, 0)%Z) st p sp v u) as (X1 & X2 & X3 & X4).
    set (st' := writeExtrusion relative volumetric vlen speed_z_hop st p sp v u) in *.
    enough (HH : IE st' (addreq (cur st) (if bool_decide (pos st = p) then 0 else v * vlen (diff3 p (start st))) req)
      /\ (pos st <> p -> exists pre last stm, out st' = out stm ++ [last] /\ out stm = out st ++ pre
        /\ IE stm req /\ cur stm = cur st /\ retr (me stm) = 0 /\ prime (me stm) = 0 /\ stable st stm)).
    { split; [|apply HH]. eapply J_stable; [exact HJ|done|done|apply HH]. }
    unfold st', writeExtrusion. clear X1 X2 X3 X4 st'. destruct (_ && _ && _) eqn:E.
    { assert (pos st = p).
      { repeat (apply andb_prop in E; destruct E as [E ?]).
        repeat match goal with H : (_ =? _)%Z = true |- _ => apply Z.eqb_eq in H end.
        destruct (pos st), p; cbn in *; congruence. }
      rewrite bool_decide_eq_true_2 by done. split; [|done]. eapply IE_req_eq; [apply addreq_0|apply HJ]. }
    assert (Hne : pos st <> p).
    { intros <-. by rewrite !Z.eqb_refl in E. }
    rewrite bool_decide_eq_false_2 by done. cbv zeta.
    set (st1 := if (0 <? hop st)%Z then _ else st).
    assert (H1 : IE st1 req /\ cur st1 = cur st /\ stable st st1 /\ pos st1 = start st /\ exists pre, out st1 = out st ++ pre).
    { unfold st1, start. destruct (Z.ltb_spec 0 (hop st)) as [Hh|Hh].
      - destruct (zhopend_same relative volumetric speed_z_hop (fun q => q) pr0 (fun _ => (0, 0)%Z) st 0 0 None 0) as (Z1 & Z2 & Z3).
        split; [apply IE_zhopend; [apply HJ|apply HJ|done|apply HJ]|]. split; [done|]. split; [done|].
        split; [apply zhopend_pos; apply Z.eqb_neq; lia|]. apply pre_zhopend.
      - split; [apply HJ|]. split; [done|]. split; [apply stable_refl|]. split; [done|]. exists []. by rewrite app_nil_r. }
    destruct H1 as (I1 & C1 & S1 & P1 & pre1 & O1). clearbody st1.
    destruct (IE_unretract st1 req I1) as (I2 & C2 & R2 & P2 & A2).
    pose proof (quiet_unretract relative volumetric (fun q => q) st1) as Hq.
    destruct (pre_unret st1) as [pre2 O2].
    set (st2 := writeUnretractionAndPrime relative volumetric st1) in *. clearbody st2.
    destruct Hq as [[S2 _ _] _ _ _].
    set (len := vlen _). set (offset := if Qne_dec_bool len 0 then _ else _).
    assert (Hoff : offset == 0).
    { unfold offset. destruct (Qne_dec_bool len 0); [|reflexivity].
      assert (M0 : max_off st2 == 0) by (rewrite (sb_max _ _ S2), (sb_max _ _ S1); apply HJ).
      assert (0 <= sp * v * off_factor st2).
      { apply Qmult_le_0_compat; [by apply Qmult_le_0_compat|]. rewrite (sb_fac _ _ S2), (sb_fac _ _ S1). apply HJ. }
      cbv zeta. unfold Qltb. destruct (Qlt_le_dec _ _); [done|]. apply Qle_antisym; [|done]. by rewrite <- M0. }
    assert (E3 : u && Qne_dec_bool offset (e_off st2) = false).
    { apply andb_false_iff. right. apply Qne_false. rewrite Hoff. symmetry. apply I2. }
    rewrite E3.
    assert (Hlen : len = vlen (diff3 p (start st))) by (unfold len, diff3; by rewrite P1).
    assert (Hcc : forall m, stat (attrs st2 m) = stat (attrs st m)).
    { intros m. by rewrite (sb_stat _ _ S2), (sb_stat _ _ S1). }
    assert (Hq : mm3ToE volumetric (me st) v * len == v * len * cc (me st2)).
    { rewrite mm3_cc. assert (cc (me st2) = cc (me st)) as ->; [|ring]. unfold cc, me. specialize (Hcc (cur st)).
      rewrite C2, C1. unfold stat in Hcc. by replace (area (attrs st2 (cur st))) with (area (attrs st (cur st))) by congruence. }
    split.
    - rewrite <- Hlen, <- C1, <- C2. apply fxyze_extrude; [done|by rewrite R2|by rewrite P2|exact Hq|].
      intros N. apply Qmult_le_0_compat; [done|]. apply vlen_nonneg.
    - intros _. destruct (fxyze relative st2 sp (x3 p) (y3 p) (z3 p) (cur_e st2 + mm3ToE volumetric (me st) v * len) None) as (_ & _ & _ & f & xy & ee & Ho & _).
      exists (pre1 ++ pre2), (Move f xy (if (z3 p =? z3 (pos st2))%Z then None else Some (z3 p)) ee), st2.
      split; [exact Ho|]. split; [rewrite O2, O1, app_assoc; done|]. split; [done|]. split; [congruence|]. split; [done|]. split; [done|].
      by eapply stable_trans.
  Qed.

  (** *** tool changes *)
  Lemma IE_start st n req :
    IE st req -> cur_e st == 0 -> retr_start (me st) == retr (me st) -> n <> cur st -> pe (P st) == 0 \/ relative = true ->
    IE (startExtruder relative volumetric st n) req.
  Proof.
    intros H He Hr Hn Hp. unfold startExtruder. destruct (Nat.eqb_spec n (cur st)) as [|_]; [done|].
    apply IE_set_pos. set (st2 := set_cur _ n). apply IE_reset.
    assert (EP : P st2 = pstep relative (fun q => q) (P st) (Tool n)) by (unfold st2; cbn [set_cur set_pos emit out]; by rewrite prun_snoc).
    constructor.
    - by rewrite EP.
    - intros Hrel. rewrite EP. cbn. rewrite (ie_sync _ _ H Hrel). reflexivity.
    - apply H.
    - intros m. rewrite EP. cbn [pstep fil peak fw]. change (attrs st2 m) with (attrs st m). change (cur_e st2) with (cur_e st). change (cur st2) with n.
      pose proof (ie_ai _ _ H m) as [A1 A2 A3 A4 A5 A6]. constructor; try done.
      + rewrite A3. clear A3 EP. destruct (Nat.eqb_spec m (cur st)) as [Em|Hm], (Nat.eqb_spec m n) as [En|Hmn]; try subst m; try done.
        * unfold amount. fold (me st). destruct (firmware (me st)); rewrite ?He, ?Hr; ring.
        * unfold amount. destruct (firmware (attrs st n)) eqn:EF; [rewrite He; ring|]. rewrite He, (A4 eq_refl eq_refl). ring.
      + intros Hmn HF. destruct (Nat.eqb_spec m (cur st)) as [->|Hm]; [done|]. by apply A4.
  Qed.

  Lemma IE_switch st n cfg h req :
    J st req -> cfg_ok cfg None ->
    let st1 := (writeRetraction relative volumetric st cfg true true None).2 in
    IE (switchExtruder relative volumetric speed_z_hop retraction_enable st n cfg h)
       (addreq (cur st) (if negb (cur st =? n)%nat && retraction_enable (cur st) && emitted st st1 then rprime_volume cfg else 0) req).
  Proof.
    intros HJ Hok. cbv zeta. unfold switchExtruder.
    destruct (Nat.eqb_spec (cur st) n) as [Hn|Hn]; cbn [negb andb].
    { eapply IE_req_eq; [apply addreq_0|apply HJ]. }
    pose proof (IE_retraction st cfg true true None req (j_ie _ _ HJ) (j_fw _ _ HJ) Hok) as HR. cbv zeta in HR.
    pose proof (quiet_retraction relative volumetric (fun q => q) st cfg true true None) as HQ.
    set (stR := (writeRetraction relative volumetric st cfg true true None).2) in *. clearbody stR.
    set (st1 := if retraction_enable (cur st) then stR else st).
    set (req' := addreq _ _ req) at 1.
    assert (H1 : IE st1 req' /\ same st st1).
    { unfold st1, req'. destruct (retraction_enable (cur st)); cbn [andb]; [by split; [|apply HQ]|].
      split; [|apply same_refl]. eapply IE_req_eq; [apply addreq_0|apply HJ]. }
    destruct H1 as [H1 S1]. clearbody st1 req'.
    assert (F1 : nofw -> forall n, firmware (attrs st1 n) = false).
    { intros N m. rewrite (stable_fw _ _ (sm_stable _ _ S1)). by apply (j_fw _ _ HJ). }
    set (st2 := if (0 <? h)%Z then _ else st1).
    assert (H2 : IE st2 req' /\ same st1 st2).
    { unfold st2. destruct (0 <? h)%Z; [|split; [done|apply same_refl]]. split; [by apply IE_zhopstart|].
      apply (zhopstart_facts relative volumetric speed_z_hop (fun q => q) pr0 (fun _ => (0, 0)%Z) 0). }
    destruct H2 as [H2 S2]. clearbody st2.
    destruct (reset_pr st2) as (R1 & R2 & R3 & R4 & R5 & R6 & R7 & R8 & R9 & R10).
    apply IE_start; [by apply IE_reset|by rewrite R2|rewrite R10; done| |].
    - rewrite R1. destruct S1, S2. congruence.
    - destruct relative; [auto|]. left. by rewrite R5.
  Qed.

  (** *** the wipe script *)
  Lemma IE_wipe_moves n : forall i st dist sp req,
    IE st req -> (nofw -> forall n, firmware (attrs st n) = false) -> IE (wipe_moves relative volumetric n i st dist sp) req.
  Proof.
    induction n as [|n IH]; intros i st dist sp req H Hnf; cbn [wipe_moves]; [done|].
    apply IH; [by apply IE_travelxyz|].
    intros N m. rewrite <- (Hnf N m). apply stable_fw, travelxyz_same.
  Qed.

  Lemma IE_wipe st w req :
    J st req -> (forall c, w_retraction w = Some c -> cfg_ok c None) ->
    IE (insertWipeScript relative volumetric speed_z_hop st w)
       (addreq (cur st) (match w_retraction w with
                         | Some c => if emitted st (writeRetraction relative volumetric st c false false None).2 then rprime_volume c else 0
                         | None => 0 end) req).
  Proof.
    intros HJ Hc. unfold insertWipeScript. set (req' := addreq _ _ _).
    set (st1 := match w_retraction w with Some c => _ | None => st end).
    assert (H1 : IE st1 req' /\ same st st1).
    { unfold st1, req'. destruct (w_retraction w) as [c|].
      - split; [apply IE_retraction; [apply HJ|apply HJ|by apply Hc]|]. apply (quiet_retraction relative volumetric (fun q => q)).
      - split; [|apply same_refl]. eapply IE_req_eq; [apply addreq_0|apply HJ]. }
    destruct H1 as [H1 S1]. clearbody st1 req'.
    assert (F : forall s, same st s -> nofw -> forall n, firmware (attrs s n) = false).
    { intros s S N m. rewrite (stable_fw _ _ (sm_stable _ _ S)). by apply (j_fw _ _ HJ). }
    set (st2 := match w_hop w with Some _ => _ | None => st1 end).
    assert (H2 : IE st2 req' /\ same st st2).
    { unfold st2. destruct (w_hop w) as [[h hs]|]; [|done]. split; [by apply IE_zhopstart; [|by apply F|]|].
      eapply same_trans; [exact S1|]. apply (zhopstart_facts relative volumetric speed_z_hop (fun q => q) pr0 (fun _ => (0, 0)%Z) 0). }
    destruct H2 as [H2 S2]. clearbody st2.
    set (st3 := writeTravel2 _ _ _ _ _).
    assert (H3 : IE st3 req' /\ same st st3).
    { split; [by apply IE_travelxyz; [|by apply F|]|]. eapply same_trans; [exact S2|apply travelxyz_same]. }
    destruct H3 as [H3 S3]. clearbody st3.
    set (st4 := wipe_moves _ _ _ _ _ _ _).
    assert (H4 : IE st4 req' /\ same st st4).
    { split; [by apply IE_wipe_moves; [|by apply F]|]. eapply same_trans; [exact S3|].
      apply (wipe_moves_facts relative volumetric (fun q => q) pr0 (fun _ => (0, 0)%Z) 0). }
    destruct H4 as [H4 S4]. clearbody st4.
    set (st5 := writeTravel relative volumetric st4 _ _ _).
    assert (H5 : IE st5 req' /\ same st st5).
    { split; [by apply IE_travelxyz; [|by apply F|]|]. eapply same_trans; [exact S4|apply travelxyz_same]. }
    destruct H5 as [H5 S5]. clearbody st5.
    set (st6 := match w_hop w with Some _ => _ | None => st5 end).
    assert (H6 : IE st6 req').
    { unfold st6. destruct (w_hop w) as [[h hs]|]; [|done]. apply IE_zhopend; [done|by apply F|done|].
      rewrite (sm_left _ _ S5). apply HJ. }
    clearbody st6.
    set (st7 := match w_retraction w with Some _ => _ | None => st6 end).
    assert (H7 : IE st7 req').
    { unfold st7. destruct (w_retraction w); [|done]. by apply IE_unretract. }
    clearbody st7. destruct (Qltb _ _); [|done].
    eapply IE_ext; [exact H7|done|done|apply H7|done|..]; cbn [emit out]; rewrite prun_snoc; done.
  Qed.

  (** *** any call *)
  Notation apply_op := (apply_op relative volumetric vlen speed_z_hop retraction_enable).
  Definition op_ok (o : op) : Prop :=
    match o with
    | OTravel _ _ d => dok d
    | OExtrude _ sp v _ => flowing sp v
    | ORetract cfg _ _ d => cfg_ok cfg d
    | OZhopStart _ _ d _ => dok d
    | OLeftover a _ => dok (Some a)
    | OSwitch _ cfg _ => cfg_ok cfg None
    | OAddPrime v => nn -> 0 <= v
    | OFlow m f => m == 0 /\ 0 <= f
    | OWipe w => forall c, w_retraction w = Some c -> cfg_ok c None
    | _ => True
    end.
  Notation asked := (asked relative volumetric vlen speed_z_hop retraction_enable).
  Notation requested := (requested relative volumetric vlen speed_z_hop retraction_enable).
  Lemma J_op st o req : J st req -> op_ok o -> J (apply_op st o) (addreq (cur st) (asked st o) req).
  Proof.
    intros HJ Hok. pose proof HJ as [H1 H2 H3 H4 H5].
    destruct o as [z|p sp d|p sp v u|cfg force sw d| |h sp d r|sp|a r|n cfg h| |v|m f|w]; cbn [GCode_Spec.asked GCode_Model.apply_op op_ok] in *.
    - assert (HI : IE (set_layer_z st z) (addreq (cur st) 0 req)).
      { eapply IE_req_eq; [apply addreq_0|]. by eapply IE_ext; [exact H1|..]; try done; apply H1. }
      by constructor.
    - eapply J_stable; [exact HJ|apply travelxyz_same|left; apply travelxyz_same|].
      eapply IE_req_eq; [apply addreq_0|]. by apply IE_travelxyz.
    - by apply J_extrude.
    - eapply J_stable; [exact HJ|apply (quiet_retraction relative volumetric (fun q => q))|left; apply (quiet_retraction relative volumetric (fun q => q))|].
      by apply IE_retraction.
    - eapply J_stable; [exact HJ|apply (quiet_unretract relative volumetric (fun q => q))|left; apply (quiet_unretract relative volumetric (fun q => q))|].
      eapply IE_req_eq; [apply addreq_0|]. by apply IE_unretract.
    - destruct (zhopstart_facts relative volumetric speed_z_hop (fun q => q) pr0 (fun _ => (0, 0)%Z) 0 st h sp d r) as (Z1 & _).
      eapply J_stable; [exact HJ|apply Z1|left; apply Z1|].
      eapply IE_req_eq; [apply addreq_0|]. by apply IE_zhopstart.
    - destruct (zhopend_same relative volumetric speed_z_hop (fun q => q) pr0 (fun _ => (0, 0)%Z) st sp 0 None 0) as (Z1 & Z2 & Z3).
      eapply J_stable; [exact HJ|exact Z2|by right|].
      eapply IE_req_eq; [apply addreq_0|]. by apply IE_zhopend.
    - constructor; try done. eapply IE_req_eq; [apply addreq_0|]. by apply IE_set_left.
    - destruct (switch_facts relative volumetric speed_z_hop retraction_enable (fun q => q) pr0 (fun _ => (0, 0)%Z) 0 st n cfg h) as (Z1 & Z2 & _).
      eapply J_stable; [exact HJ|exact Z2|by left|]. by apply IE_switch.
    - eapply J_stable; [exact HJ|apply (quiet_reset relative volumetric (fun q => q))|left; apply (quiet_reset relative volumetric (fun q => q))|].
      eapply IE_req_eq; [apply addreq_0|]. by apply IE_reset.
    - eapply J_stable; [exact HJ|by apply (quiet_upd relative (fun q => q))|by left|]. by apply IE_prime.
    - destruct Hok. constructor; try done. eapply IE_req_eq; [apply addreq_0|]. by eapply IE_ext; [exact H1|..]; try done; apply H1.
    - destruct (wipe_facts relative volumetric speed_z_hop (fun q => q) pr0 (fun _ => (0, 0)%Z) 0 st w) as (Z1 & Z2 & Z3 & _).
      eapply J_stable; [exact HJ|exact Z2|done|]. by apply IE_wipe.
  Qed.

  Lemma J_ops l : forall st req, J st req -> Forall op_ok l ->
    J (apply_ops relative volumetric vlen speed_z_hop retraction_enable st l) (fun n => req n + requested st l n).
  Proof.
    induction l as [|o l IH]; intros st req HJ Hok; cbn.
    - destruct HJ as [H1 H2 H3 H4 H5]. constructor; try done. eapply IE_req_eq; [|exact H1]. intros n. cbn. ring.
    - apply Forall_cons in Hok as [Ho Hl]. specialize (IH _ _ (J_op _ _ _ HJ Ho) Hl).
      destruct IH as [H1 H2 H3 H4 H5]. constructor; try done. eapply IE_req_eq; [|exact H1]. intros n. cbn. unfold addreq.
      destruct (n =? cur st)%nat; ring.
  Qed.
End ext.
