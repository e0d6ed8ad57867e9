(** C29: leaving out repeated temperature, fan, acceleration and jerk lines is safe. *)
From Coq Require Import ZArith QArith Qabs Qminmax Qround Lqa Ascii.
From stdpp Require Import list.
From Verif Require Import Common TextNum_Model TextNum_Spec TextNum_Props Heat_Model Heat_Spec.
Local Open Scope Q_scope.
Local Arguments printed : simpl never.
Local Arguments Qmin : simpl never.
Local Arguments Qabs : simpl never.
Local Arguments Qminus : simpl never.
Local Arguments Qltb : simpl never.
Local Arguments Qeq_bool : simpl never.
Local Arguments wouldWriteZero : simpl never.
Local Arguments same_text : simpl never.
Local Arguments fan_value : simpl never.

Lemma Qltb_true a b : Qltb a b = true <-> a < b.
Proof. unfold Qltb. destruct (Qlt_le_dec a b); split; try done. intros; lra. Qed.
Lemma Qltb_false a b : Qltb a b = false <-> b <= a.
Proof. unfold Qltb. destruct (Qlt_le_dec a b); split; try done. intros; lra. Qed.
Lemma close1 t : Qabs (printed 1 t - t) <= 1 # 20.
Proof. pose proof (C30_printed_close 1 t ltac:(lia)) as H. exact H. Qed.
Lemma close0 t : Qabs (printed 0 t - t) <= 1 # 2.
Proof. pose proof (C30_printed_close 0 t ltac:(lia)) as H. exact H. Qed.
Lemma close2 t : Qabs (printed 2 t - t) <= 1 # 200.
Proof. pose proof (C30_printed_close 2 t ltac:(lia)) as H. exact H. Qed.
Lemma abs_le a b : Qabs a <= b <-> - b <= a /\ a <= b.
Proof. rewrite Qabs_Qle_condition. tauto. Qed.
Lemma write_zero p v : v == 0 -> writeDoubleToStream p v = writeDoubleToStream p 0.
Proof.
  intros E. assert (H : print_fixed p v = print_fixed p 0); [|unfold writeDoubleToStream; by rewrite H].
  unfold print_fixed. assert (EQ : Qabs v * inject_Z (10 ^ Z.of_nat p) == 0) by (rewrite E; change (Qabs 0) with 0; ring).
  assert (EZ : Qabs 0 * inject_Z (10 ^ Z.of_nat p) == 0) by (change (Qabs 0) with 0; ring).
  assert (HR : forall q, q == 0 -> round_even q = 0%Z).
  { intros q Hq. unfold round_even. rewrite (Qfloor_comp q 0 Hq). change (Qfloor 0) with 0%Z.
    destruct (Qcompare_spec (q - inject_Z 0) (1 # 2)) as [H|H|H]; [done|done|]. rewrite Hq in H. change (inject_Z 0) with 0 in H. lra. }
  rewrite (HR _ EQ), (HR _ EZ). destruct (Qlt_le_dec v 0) as [H|H]; [lra|]. by destruct (Qlt_le_dec 0 0).
Qed.
Lemma upd_eq {A} (f : nat -> A) n x : upd f n x n = x.
Proof. unfold upd. by rewrite Nat.eqb_refl. Qed.
Lemma upd_ne {A} (f : nat -> A) n x k : k <> n -> upd f n x k = f k.
Proof. unfold upd. intros H. by destruct (Nat.eqb_spec k n). Qed.

Section props.
  Variables (fl : flavor) (zero_to_one shared : bool) (enabled : nat -> bool) (write_active : bool) (count : nat).
  (** firmwares that change tools at any T are handled if the exporter is told so *)
  Variable (switches : bool).
  Notation apply_hop := (apply_hop fl zero_to_one shared enabled write_active count).
  Notation apply_hops := (apply_hops fl zero_to_one shared enabled write_active count).
  Notation hrun := (hrun shared switches).
  Notation hstep := (hstep shared switches).
  Variable m0 : machine.
  Notation mach st := (hrun m0 (out st)).

  Lemma hrun_snoc l c : hrun m0 (l ++ [c]) = hstep (hrun m0 l) c.
  Proof. unfold Heat_Spec.hrun. by rewrite fold_left_app. Qed.

  Hypothesis switch_handled : switches = true -> write_active = true.

  (** *** nozzle temperatures *)
  Record IT (st : hst) (A : nat -> Q) : Prop := {
    it_tool : tool (mach st) = cur st;
    it_temp : forall n, (n < count)%nat -> temp st n == A (heater shared n);
    it_target : forall n, (n < count)%nat -> Qabs (target (mach st) (heater shared n) - A (heater shared n)) <= 1 # 20;
    it_low : forall n, (n < count)%nat -> waited st n = true -> A (heater shared n) - (1 # 20) <= low (mach st) (heater shared n) }.

  Lemma IT_frame st st' A :
    IT st A -> cur st' = cur st -> temp st' = temp st -> waited st' = waited st ->
    tool (mach st') = tool (mach st) -> target (mach st') = target (mach st) -> low (mach st') = low (mach st) -> IT st' A.
  Proof. intros [] E1 E2 E3 E4 E5 E6. split; rewrite ?E1, ?E2, ?E3, ?E4, ?E5, ?E6; auto. Qed.

  (** the part of writeTemperatureCommand that writes *)
  Definition wt2 (st1 : hst) (n : nat) (t : Q) (wait : bool) : hst :=
    let tool := if Nat.eqb n (cur st1) then None else Some n in
    if wait && negb match fl with Makerbot => true | _ => false end then
      set_waited (emit (match fl with Marlin => emit st1 Report | _ => st1 end) (WaitTemp tool (printed 1 t))) (upd (waited st1) n true)
    else set_waited (emit st1 (SetTemp tool (printed 1 t))) (upd (waited st1) n false).
  Definition wt3 (st2 : hst) (n : nat) : hst := if negb (Nat.eqb n (cur st2)) && write_active then emit st2 (Tool (cur st2)) else st2.
  Definition wt4 (st3 : hst) (wait : bool) : hst := if wait && match fl with Makerbot => true | _ => false end then emit st3 WaitAll else st3.
  Definition write_temp (st1 : hst) (n : nat) (t : Q) (wait : bool) : hst :=
    let st4 := wt4 (wt3 (wt2 st1 n t wait) n) wait in set_temp st4 (upd (temp st4) n t).
  Lemma written st n t wait :
    tool (mach st) = cur st ->
    let st' := write_temp st n t wait in
    cur st' = cur st /\ temp st' = upd (temp st) n t /\ (forall k, k <> n -> waited st' k = waited st k) /\ (wait = false -> waited st' n = false)
    /\ tool (mach st') = cur st /\ target (mach st') = upd (target (mach st)) (heater shared n) (printed 1 t)
    /\ low (mach st') (heater shared n) = (if wait then printed 1 t else Qmin (low (mach st) (heater shared n)) (printed 1 t))
    /\ forall h, h <> heater shared n -> low (mach st') h = low (mach st) h \/ low (mach st') h = target (mach st) h.
  Proof.
    intros T1. cbv zeta. unfold write_temp. cbv zeta.
    set (tl := if (n =? cur st)%nat then None else Some n).
    assert (Htl : default (cur st) tl = n) by (unfold tl; by destruct (Nat.eqb_spec n (cur st))).
    set (st2 := wt2 st n t wait). set (st3 := wt3 st2 n). set (st4 := wt4 st3 wait).
    assert (G2 : cur st2 = cur st /\ temp st2 = temp st /\ (forall k, k <> n -> waited st2 k = waited st k)
                 /\ (wait = false -> waited st2 n = false)
                 /\ tool (mach st2) = (if switches then n else cur st) /\ target (mach st2) = upd (target (mach st)) (heater shared n) (printed 1 t)
                 /\ (forall k, k <> heater shared n -> low (mach st2) k = low (mach st) k)
                 /\ (wait = true -> fl <> Makerbot -> low (mach st2) (heater shared n) = printed 1 t)
                 /\ (wait = false -> low (mach st2) (heater shared n) = Qmin (low (mach st) (heater shared n)) (printed 1 t))).
    { unfold st2, wt2. fold tl. destruct wait, fl; cbn [negb andb set_waited emit out cur temp waited]; rewrite ?hrun_snoc; cbn [Heat_Spec.hstep]; rewrite ?T1, ?Htl;
        (destruct switches; cbn [m_heat m_tool tool target low]; rewrite ?T1); repeat split; try done; try (intros k Hk; by rewrite upd_ne); intros; by rewrite upd_eq. }
    destruct G2 as (C2 & P2 & W2 & W2' & L2 & R2 & O2 & O2' & O2'').
    assert (G3 : cur st3 = cur st /\ temp st3 = temp st /\ waited st3 = waited st2 /\ tool (mach st3) = cur st
                 /\ target (mach st3) = target (mach st2) /\ low (mach st3) = low (mach st2)).
    { unfold st3, wt3. rewrite C2. destruct (Nat.eqb_spec n (cur st)) as [E|E]; cbn [negb andb].
      - repeat split; try done. rewrite L2. by destruct switches.
      - destruct write_active eqn:Ew.
        + cbn [emit out cur temp waited]. rewrite hrun_snoc. cbn. repeat split; done.
        + repeat split; try done. rewrite L2. destruct switches; [|done]. discriminate (switch_handled eq_refl). }
    destruct G3 as (C3 & P3 & W3 & L3 & R3 & O3).
    assert (G4 : cur st4 = cur st /\ temp st4 = temp st /\ waited st4 = waited st2 /\ tool (mach st4) = cur st
                 /\ target (mach st4) = target (mach st2)
                 /\ low (mach st4) (heater shared n) = (if wait then printed 1 t else Qmin (low (mach st) (heater shared n)) (printed 1 t))
                 /\ (forall k, k <> heater shared n -> low (mach st4) k = low (mach st2) k \/ low (mach st4) k = target (mach st) k)).
    { unfold st4, wt4. destruct wait; cbn [andb].
      - destruct (match fl with Makerbot => true | _ => false end) eqn:Ef.
        + cbn [emit out cur temp waited]. rewrite hrun_snoc. cbn. rewrite R3, R2. repeat split; try done.
          * by rewrite upd_eq.
          * intros k Hk. right. by rewrite upd_ne.
        + rewrite R3, O3. repeat split; try done; [|by left]. apply O2'; [done|]. by destruct fl.
      - rewrite R3, O3. repeat split; try done; [by apply O2''|by left]. }
    destruct G4 as (C4 & P4 & W4 & L4 & R4 & O4 & O4').
    change (out (set_temp st4 (upd (temp st4) n t))) with (out st4). cbn [set_temp cur temp waited]. rewrite C4, P4, W4, L4, R4, R2, O4.
    repeat split; try done. intros h Hh. destruct (O4' h Hh) as [-> | ->]; [left; by apply O2|by right].
  Qed.

  Definition reaches (st' : hst) (n : nat) (t : Q) : Prop := t - (1 # 20) <= low (mach st') (heater shared n).
  Lemma IT_temp st A n t wait force :
    IT st A -> (n < count)%nat ->
    let st' := writeTemperatureCommand fl shared enabled write_active count st n t wait force in
    IT st' (fun h => asked_temp shared enabled (cur st) (A h) h [HTemp n t wait force])
    /\ (wait = true -> counts shared enabled (cur st) n = true -> reaches st' n t).
  Proof.
    intros HI Hn. cbn [asked_temp]. cbv zeta. unfold writeTemperatureCommand, counts.
    destruct (enabled n); cbn [negb andb]; [|by split].
    destruct (Bool.bool_dec shared true) as [Es|Es]; [|apply not_true_is_false in Es].
    - (* one heater *)
      assert (HH : forall k, heater shared k = 0%nat) by (intros; unfold heater; by rewrite Es).
      replace shared with true by done. cbn [negb andb orb]. destruct (Nat.eqb_spec n (cur st)) as [Ec|Ec]; cbn [negb]; [|by split].
      set (A' := fun h => if (heater true n =? h)%nat then t else A h).
      assert (HA' : A' 0%nat = t) by done.
      set (others := fun k => negb (k =? n)%nat && (k <? count)%nat).
      set (w := fun k => if others k && (wait || Qltb (temp st k) t) then wait else waited st k).
      set (tt := fun k => if others k then t else temp st k).
      assert (Hothers : forall k, (k < count)%nat -> k <> n -> others k = true).
      { intros k Hk Hkn. unfold others. apply andb_true_intro. split; [by destruct (Nat.eqb_spec k n)|by apply Nat.ltb_lt]. }
      assert (Hwn : w n = waited st n) by (unfold w, others; by rewrite Nat.eqb_refl).
      assert (Htn : tt n = temp st n) by (unfold tt, others; by rewrite Nat.eqb_refl).
      destruct HI as [T1 T2 T3 T4]. setoid_rewrite HH in T2. setoid_rewrite HH in T3. setoid_rewrite HH in T4.
      set (st1 := set_temp (set_waited st _) _).
      change (waited st1 n) with (w n). change (temp st1 n) with (tt n). change (cur st1) with (cur st).
      rewrite Hwn, Htn.
      pose proof (close1 t) as HC. rewrite abs_le in HC.
      destruct ((negb wait || waited st n) && negb force && Qeq_bool (temp st n) t) eqn:EE.
      + (* nothing written *)
        apply andb_prop in EE as [EE E3]. apply andb_prop in EE as [E1 E2]. apply Qeq_bool_iff in E3.
        assert (E4 : A 0%nat == t) by (rewrite <- (T2 n Hn); exact E3).
        split.
        * split.
          -- exact T1.
          -- intros k Hk. rewrite HH. change (tt k == t). unfold tt. destruct (others k) eqn:Eo; [done|].
             destruct (Nat.eq_dec k n) as [->|]; [by rewrite E3|]. by rewrite Hothers in Eo.
          -- intros k Hk. rewrite HH. change (Qabs (target (mach st) 0%nat - t) <= 1 # 20). rewrite <- E4. by apply (T3 n).
          -- intros k Hk Hw. rewrite HH. change (w k = true) in Hw. change (t - (1 # 20) <= low (mach st) 0%nat).
             rewrite <- E4. unfold w in Hw. destruct (others k && _) eqn:Eo; [|by apply (T4 k)].
             subst wait. cbn in E1. by apply (T4 n).
        * intros -> _. unfold reaches. rewrite HH, <- E4. cbn in E1. by apply (T4 n).
      + (* written *)
        clear EE.
        assert (HW : forall k, (k < count)%nat -> k <> n -> w k = true -> wait = true \/ t <= temp st k).
        { intros k Hk Hkn. unfold w. rewrite Hothers by done. cbn [andb]. destruct wait; [by left|]. cbn [orb].
          destruct (Qltb (temp st k) t) eqn:E; [done|]. right. by apply Qltb_false. }
        assert (HW' : forall k, (k < count)%nat -> k <> n -> w k = true -> wait = false -> waited st k = true).
        { intros k Hk Hkn. unfold w. rewrite Hothers by done. cbn [andb]. intros H ->. cbn [orb] in H. by destruct (Qltb (temp st k) t). }
        match goal with |- IT ?x _ /\ _ => change (IT (write_temp st1 n t wait) A' /\ (wait = true -> true = true -> reaches (write_temp st1 n t wait) n t)) end.
        destruct (written st1 n t wait ltac:(exact T1)) as (G1 & G2 & G3 & G4 & G5 & G6 & G7 & _).
        set (st' := write_temp st1 n t wait) in *. clearbody st'. change (cur st1) with (cur st) in *. change (out st1) with (out st) in *.
        rewrite HH in G6, G7.
        assert (L : wait = true -> low (mach st') 0%nat = printed 1 t) by (intros Hw; rewrite G7; by rewrite Hw).
        split.
        * split.
          -- by rewrite G1.
          -- intros k Hk. rewrite HH. rewrite HA'. rewrite G2. unfold upd. destruct (Nat.eqb_spec k n) as [->|Hkn]; [done|].
             change (temp st1 k) with (tt k). unfold tt. by rewrite Hothers.
          -- intros k Hk. rewrite HH. rewrite HA'. rewrite G6, upd_eq, abs_le. lra.
          -- intros k Hk Hw. rewrite HH. rewrite HA'. destruct (Bool.bool_dec wait true) as [Ew|Ew]; [rewrite L by done; lra|].
             apply not_true_is_false in Ew. destruct (Nat.eq_dec k n) as [->|Hkn]; [by rewrite G4 in Hw|].
             rewrite G3 in Hw by done. change (waited st1 k) with (w k) in Hw. rewrite G7, Ew.
             apply Q.min_glb; [|lra]. destruct (HW k Hk Hkn Hw) as [?|HW1]; [congruence|].
             pose proof (T4 k Hk (HW' k Hk Hkn Hw Ew)) as L'. rewrite (T2 k Hk) in HW1. lra.
        * intros Hw _. unfold reaches. rewrite HH, L by done. lra.
    - (* a heater each *)
      assert (HH : forall k, heater shared k = k) by (intros; unfold heater; by rewrite Es).
      rewrite Es. cbn [negb andb orb]. set (A' := fun h => if (n =? h)%nat then t else A h).
      change (fun h => if (heater false n =? h)%nat then t else A h) with A'.
      destruct HI as [T1 T2 T3 T4]. setoid_rewrite HH in T2. setoid_rewrite HH in T3. setoid_rewrite HH in T4.
      pose proof (close1 t) as HC. rewrite abs_le in HC.
      destruct ((negb wait || waited st n) && negb force && Qeq_bool (temp st n) t) eqn:EE.
      + apply andb_prop in EE as [EE E3]. apply andb_prop in EE as [E1 E2]. apply Qeq_bool_iff in E3.
        assert (E4 : A n == t) by (rewrite <- (T2 n Hn); exact E3).
        split.
        * split; repeat setoid_rewrite HH; unfold A'.
          -- exact T1.
          -- intros k Hk. destruct (Nat.eqb_spec n k) as [->|]; [exact E3|by apply T2].
          -- intros k Hk. destruct (Nat.eqb_spec n k) as [->|]; [rewrite <- E4|]; by apply T3.
          -- intros k Hk Hw. destruct (Nat.eqb_spec n k) as [->|]; [rewrite <- E4|]; by apply T4.
        * intros -> _. unfold reaches. rewrite HH, <- E4. by apply T4.
      + clear EE.
        change (IT (write_temp st n t wait) A' /\ (wait = true -> true = true -> reaches (write_temp st n t wait) n t)).
        destruct (written st n t wait T1) as (G1 & G2 & G3 & G4 & G5 & G6 & G7 & G8).
        set (st' := write_temp st n t wait) in *. clearbody st'. rewrite HH in G6, G7, G8.
        assert (L : wait = true -> low (mach st') n = printed 1 t) by (intros Hw; rewrite G7; by rewrite Hw).
        split.
        * split; unfold A'.
          -- by rewrite G1.
          -- intros k Hk. rewrite HH, G2. unfold upd. rewrite Nat.eqb_sym. destruct (Nat.eqb_spec n k); [done|]. by apply T2.
          -- intros k Hk. rewrite HH, G6. unfold upd. rewrite Nat.eqb_sym. destruct (Nat.eqb_spec n k); [rewrite abs_le; lra|by apply T3].
          -- intros k Hk Hw. rewrite HH. destruct (Nat.eqb_spec n k) as [<-|Hne].
             ++ destruct (Bool.bool_dec wait true) as [Ew|Ew]; [rewrite L by done; lra|]. apply not_true_is_false in Ew. by rewrite G4 in Hw.
             ++ rewrite G3 in Hw by done. pose proof (T4 k Hk Hw). pose proof (T3 k Hk) as T. rewrite abs_le in T.
                destruct (G8 k ltac:(done)) as [-> | ->]; [done|lra].
        * intros Hw _. unfold reaches. rewrite HH, L by done. lra.
  Qed.

  (** ** What each call leaves alone *)
  Ltac blast := repeat (case_match; cbn [emit emits fold_left out cur temp waited bed fans acc_print acc_travel jerk set_cur set_temp set_waited set_bed set_fans set_acc_print set_acc_travel set_jerk]);
    rewrite ?hrun_snoc; cbn; try done.
  Lemma mach_temp st n t w f :
    let st' := writeTemperatureCommand fl shared enabled write_active count st n t w f in
    bed st' = bed st /\ fans st' = fans st /\ acc_print st' = acc_print st /\ acc_travel st' = acc_travel st /\ jerk st' = jerk st /\
    mbed (mach st') = mbed (mach st) /\ mfan (mach st') = mfan (mach st) /\ mswitch (mach st') = mswitch (mach st)
    /\ m_print (mach st') = m_print (mach st) /\ m_travel (mach st') = m_travel (mach st) /\ m_jerk (mach st') = m_jerk (mach st).
  Proof.
    cbv zeta. unfold writeTemperatureCommand. destruct (negb (enabled n)); [done|]. destruct (shared && _); [done|].
    set (st1 := if shared then _ else st).
    assert (H1 : out st1 = out st /\ bed st1 = bed st /\ fans st1 = fans st /\ acc_print st1 = acc_print st /\ acc_travel st1 = acc_travel st /\ jerk st1 = jerk st)
      by (unfold st1; by destruct shared).
    clearbody st1. destruct H1 as (E1 & E2 & E3 & E4 & E5 & E6).
    destruct (_ && _ && _); [by rewrite E1, E2, E3, E4, E5, E6|].
    match goal with |- context [set_temp ?y _] => change y with (wt4 (wt3 (wt2 st1 n t w) n) w) end.
    assert (K : forall s c, match c with SetTemp _ _ | WaitTemp _ _ | WaitAll | Tool _ | Report => True | _ => False end ->
      mbed (mach (emit s c)) = mbed (mach s) /\ mfan (mach (emit s c)) = mfan (mach s) /\ mswitch (mach (emit s c)) = mswitch (mach s)
      /\ m_print (mach (emit s c)) = m_print (mach s) /\ m_travel (mach (emit s c)) = m_travel (mach s) /\ m_jerk (mach (emit s c)) = m_jerk (mach s)).
    { intros s c Hc. cbn [emit out]. rewrite hrun_snoc. destruct c; try done; cbn; destruct switches; done. }
    assert (F2 : bed (wt2 st1 n t w) = bed st1 /\ fans (wt2 st1 n t w) = fans st1 /\ acc_print (wt2 st1 n t w) = acc_print st1 /\ acc_travel (wt2 st1 n t w) = acc_travel st1
       /\ jerk (wt2 st1 n t w) = jerk st1) by (unfold wt2; destruct w, fl; done).
    set (tl := if Nat.eqb n (cur st1) then None else Some n).
    assert (M2 : mbed (mach (wt2 st1 n t w)) = mbed (mach st1) /\ mfan (mach (wt2 st1 n t w)) = mfan (mach st1) /\ mswitch (mach (wt2 st1 n t w)) = mswitch (mach st1)
       /\ m_print (mach (wt2 st1 n t w)) = m_print (mach st1) /\ m_travel (mach (wt2 st1 n t w)) = m_travel (mach st1) /\ m_jerk (mach (wt2 st1 n t w)) = m_jerk (mach st1)).
    { unfold wt2. fold tl. destruct (w && _); [|apply (K st1 (SetTemp tl (printed 1 t)) I)].
      destruct (K st1 Report I) as (A1 & A2 & A3 & A4 & A5 & A6).
      destruct (K (emit st1 Report) (WaitTemp tl (printed 1 t)) I) as (B1 & B2 & B3 & B4 & B5 & B6).
      destruct fl; try apply (K st1 (WaitTemp tl (printed 1 t)) I).
      change (out (set_waited (emit (emit st1 Report) (WaitTemp tl (printed 1 t))) (upd (waited st1) n true))) with (out (emit (emit st1 Report) (WaitTemp tl (printed 1 t)))).
      by rewrite B1, B2, B3, B4, B5, B6, A1, A2, A3, A4, A5, A6. }
    set (s2 := wt2 st1 n t w) in *. clearbody s2.
    destruct (K s2 (Tool (cur s2)) I) as (B1 & B2 & B3 & B4 & B5 & B6).
    destruct (K s2 WaitAll I) as (C1 & C2 & C3 & C4 & C5 & C6).
    destruct (K (emit s2 (Tool (cur s2))) WaitAll I) as (D1 & D2 & D3 & D4 & D5 & D6).
    rewrite <- E1, <- E2, <- E3, <- E4, <- E5, <- E6.
    destruct F2 as (F2 & F3 & F4 & F5 & F6), M2 as (M1 & M2 & M3 & M4 & M5 & M6).
    rewrite <- M1, <- M2, <- M3, <- M4, <- M5, <- M6, <- F2, <- F3, <- F4, <- F5, <- F6.
    unfold wt4, wt3. destruct (negb (n =? cur s2)%nat && write_active), (w && _);
      repeat match goal with |- context [out (set_temp ?x _)] => change (out (set_temp x _)) with (out x) end;
      (split; [done|]; split; [done|]; split; [done|]; split; [done|]; split; [done|]);
      rewrite ?D1, ?D2, ?D3, ?D4, ?D5, ?D6, ?B1, ?B2, ?B3, ?B4, ?B5, ?B6, ?C1, ?C2, ?C3, ?C4, ?C5, ?C6; done.
  Qed.

  Lemma IT_other st A o :
    IT st A -> match o with HTemp _ _ _ _ => False | _ => True end ->
    IT (apply_hop st o) A /\ cur (apply_hop st o) = tool_of (cur st) [o].
  Proof.
    intros HI Ho. destruct o as [n|n t w f|t w|t w|sp f|a|a|j]; try done; cbn [Heat_Model.apply_hop tool_of].
    - destruct (Nat.eqb_spec n (cur st)) as [->|]; [done|]. split; [|done]. destruct HI as [T1 T2 T3 T4].
      split; cbn [set_cur emit out cur temp waited]; rewrite ?hrun_snoc; cbn; done.
    - split; [apply (IT_frame st); [done|..]|]; unfold writeBedTemperatureCommand; blast.
    - split; [apply (IT_frame st); [done|..]|]; unfold writeBuildVolumeTemperatureCommand; blast.
    - split; [apply (IT_frame st); [done|..]|]; unfold writeSpecificFanCommand; blast.
    - split; [apply (IT_frame st); [done|..]|]; unfold writePrintAcceleration; blast.
    - split; [apply (IT_frame st); [done|..]|]; unfold writeTravelAcceleration, writePrintAcceleration; blast.
    - split; [apply (IT_frame st); [done|..]|]; unfold writeJerk; blast.
  Qed.

  Lemma IT_op st A o :
    IT st A -> match o with HTemp n _ _ _ => (n < count)%nat | _ => True end ->
    IT (apply_hop st o) (fun h => asked_temp shared enabled (cur st) (A h) h [o]) /\ cur (apply_hop st o) = tool_of (cur st) [o].
  Proof.
    intros HI Ho. destruct o as [n|n t w f|t w|t w|sp f|a|a|j];
      try (match goal with |- context [apply_hop st ?o] => apply (IT_other st A o HI I) end).
    split; [by apply IT_temp|]. cbn [Heat_Model.apply_hop tool_of]. unfold writeTemperatureCommand.
    destruct (negb _); [done|]. destruct (shared && _); [done|].
    set (st1 := if shared then _ else st). assert (E : cur st1 = cur st) by (unfold st1; by destruct shared). clearbody st1.
    destruct (_ && _ && _); [done|]. rewrite <- E. destruct w, fl; cbn [andb negb]; case_match; done.
  Qed.
  Lemma IT_ops l : forall st A,
    IT st A -> Forall (fun o => match o with HTemp n _ _ _ => (n < count)%nat | _ => True end) l ->
    IT (apply_hops st l) (fun h => asked_temp shared enabled (cur st) (A h) h l) /\ cur (apply_hops st l) = tool_of (cur st) l.
  Proof.
    induction l as [|o l IH]; intros st A HI HF; [done|]. apply Forall_cons in HF as [Ho HF].
    destruct (IT_op st A o HI Ho) as [H1 H2]. destruct (IH _ _ H1 HF) as [[U1 U2 U3 U4] V2].
    assert (E : forall h, asked_temp shared enabled (cur st) (A h) h (o :: l)
                = asked_temp shared enabled (cur (apply_hop st o)) (asked_temp shared enabled (cur st) (A h) h [o]) h l)
      by (intros h; rewrite H2; by destruct o).
    split.
    - split; cbn [Heat_Model.apply_hops fold_left].
      + exact U1.
      + intros n Hn. rewrite E. by apply U2.
      + intros n Hn. rewrite E. by apply U3.
      + intros n Hn. rewrite E. by apply U4.
    - change (apply_hops st (o :: l)) with (apply_hops (apply_hop st o) l). rewrite V2, H2. by destruct o.
  Qed.

  (** *** the other settings: what is cached, what the printer has, and what was asked *)
  Record IO (st : hst) (B : Q) (F : nat -> option Q) (P T J : option Q) : Prop := {
    io_bed : bed st == B /\ Qabs (mbed (mach st) - B) <= 1 # 20;
    io_fan : forall f, fans st f = F f;
    io_fan_m : fl <> Makerbot -> forall f s, F f = Some s ->
      (mfan (mach st) f = printed (fan_precision zero_to_one) (fan_value zero_to_one s)
       \/ mfan (mach st) f = 0 /\ exists s', wouldWriteZero (fan_precision zero_to_one) (fan_value zero_to_one s') = true /\ 0 <= s' <= 100
            /\ same_text (fan_precision zero_to_one) (fan_value zero_to_one s) (fan_value zero_to_one s') = true) /\ 0 <= s <= 100;
    io_switch : fl = Makerbot -> forall s, F 0%nat = Some s -> mswitch (mach st) = negb (Qltb s 50);
    io_print : match P with Some a => acc_print st == a /\ Qabs (m_print (mach st) - a) <= 1 # 2 | None => acc_print st < 0 end;
    io_travel : match T with
                | Some a => (if two_accelerations fl then acc_travel st == a else True) /\ Qabs (m_travel (mach st) - a) <= 1 # 2
                | None => acc_travel st < 0 end;
    io_both : two_accelerations fl = false -> P = T;
    io_jerk : match J with Some a => jerk st == a /\ Qabs (m_jerk (mach st) - a * jerk_scale fl) <= 1 # 200 | None => jerk st < 0 end }.

  Definition sensible (o : hop) : Prop :=
    match o with
    | HTemp n _ _ _ => (n < count)%nat
    | HFan s f => 0 <= s <= 100 /\ (fl = Makerbot -> f = 0%nat)
    | HPrintAcc a | HTravelAcc a | HJerk a => 0 <= a
    | _ => True
    end.
  Definition asked_bed' B l := match fl with Ultigcode => B | _ => asked_bed B l end.

  Lemma IO_frame st st' B F P T J :
    IO st B F P T J -> bed st' = bed st -> fans st' = fans st -> acc_print st' = acc_print st -> acc_travel st' = acc_travel st -> jerk st' = jerk st ->
    mbed (mach st') = mbed (mach st) -> mfan (mach st') = mfan (mach st) -> mswitch (mach st') = mswitch (mach st) ->
    m_print (mach st') = m_print (mach st) -> m_travel (mach st') = m_travel (mach st) -> m_jerk (mach st') = m_jerk (mach st) -> IO st' B F P T J.
  Proof. intros [] E1 E2 E3 E4 E5 E6 E7 E8 E9 E10 E11. split; rewrite ?E1, ?E2, ?E3, ?E4, ?E5, ?E6, ?E7, ?E8, ?E9, ?E10, ?E11; auto. Qed.

  Definition rest_same st st' : Prop :=
    mfan (mach st') = mfan (mach st) /\ mswitch (mach st') = mswitch (mach st) /\ fans st' = fans st.
  Lemma bed_facts st t w :
    let st' := writeBedTemperatureCommand fl st t w in
    fans st' = fans st /\ acc_print st' = acc_print st /\ acc_travel st' = acc_travel st /\ jerk st' = jerk st /\
    mfan (mach st') = mfan (mach st) /\ mswitch (mach st') = mswitch (mach st) /\
    m_print (mach st') = m_print (mach st) /\ m_travel (mach st') = m_travel (mach st) /\ m_jerk (mach st') = m_jerk (mach st) /\
    (fl = Ultigcode -> st' = st) /\ (fl <> Ultigcode -> st' = st /\ bed st == t \/ bed st' = t /\ mbed (mach st') = printed 1 t).
  Proof.
    cbv zeta. unfold writeBedTemperatureCommand. destruct (Qeq_bool (bed st) t) eqn:E.
    - apply Qeq_bool_iff in E. destruct fl; repeat split; try done; by left.
    - destruct fl, w; cbn [emit emits fold_left out bed fans acc_print acc_travel jerk set_bed]; rewrite ?hrun_snoc; cbn; repeat split; try done; by right.
  Qed.
  Lemma fan_facts st sp f :
    let st' := writeSpecificFanCommand fl zero_to_one st sp f in
    bed st' = bed st /\ acc_print st' = acc_print st /\ acc_travel st' = acc_travel st /\ jerk st' = jerk st /\ mbed (mach st') = mbed (mach st) /\
    m_print (mach st') = m_print (mach st) /\ m_travel (mach st') = m_travel (mach st) /\ m_jerk (mach st') = m_jerk (mach st) /\
    fans st' = upd (fans st) f (Some sp) /\
    (fl <> Makerbot ->
       let p := fan_precision zero_to_one in let v := fan_value zero_to_one sp in
       (mfan (mach st') = upd (mfan (mach st)) f (if wouldWriteZero p v then 0 else printed p v))
       \/ (mfan (mach st') = mfan (mach st) /\ exists old, fans st f = Some old /\ same_text p v (fan_value zero_to_one old) = true)) /\
    (fl = Makerbot -> mswitch (mach st') = negb (Qltb sp 50)
       \/ (mswitch (mach st') = mswitch (mach st) /\ exists old, fans st f = Some old /\ Qltb old 50 = Qltb sp 50)).
  Proof.
    cbv zeta. unfold writeSpecificFanCommand.
    assert (HN : fl <> Makerbot -> forall A (x y : A), match fl with Makerbot => x | _ => y end = y) by (destruct fl; done).
    destruct (Bool.bool_dec (match fl with Makerbot => true | _ => false end) true) as [Em|Em].
    - assert (Ef : fl = Makerbot) by (by destruct fl). rewrite Ef. cbv iota.
      set (b := match fans st f with Some _ => _ | None => true end).
      destruct b eqn:Eb; cbn [set_fans emit out bed fans acc_print acc_travel jerk]; rewrite ?hrun_snoc; cbn; repeat split; try done; intros _.
      + by left.
      + right. split; [done|]. unfold b in Eb. destruct (fans st f) as [old|]; [|done]. exists old. split; [done|].
        by destruct (Qltb sp 50), (Qltb old 50).
    - assert (Ef : fl <> Makerbot) by (by destruct fl). rewrite (HN Ef).
      set (p := fan_precision zero_to_one). set (v := fan_value zero_to_one sp).
      set (b := match fans st f with Some _ => _ | None => true end).
      destruct b eqn:Eb.
      + destruct (wouldWriteZero p v); cbn [set_fans emit out bed fans acc_print acc_travel jerk]; rewrite ?hrun_snoc; cbn; repeat split; try done; intros _; by left.
      + cbn [set_fans out bed fans acc_print acc_travel jerk]; repeat split; try done. intros _. right. split; [done|].
        unfold b in Eb. destruct (fans st f) as [old|]; [|done]. exists old. split; [done|]. by apply negb_false_iff in Eb.
  Qed.

  Lemma same_text_spec p a b : same_text p a b = true -> exists s, writeDoubleToStream p a = Ok s /\ writeDoubleToStream p b = Ok s.
  Proof.
    unfold same_text. destruct (writeDoubleToStream p a) as [s| |], (writeDoubleToStream p b) as [t| |]; try done.
    destruct (List.list_eq_dec ascii_dec s t) as [->|]; [|done]. intros _. by exists t.
  Qed.
  Lemma same_text_trans p a b c : same_text p a b = true -> same_text p b c = true -> same_text p a c = true.
  Proof.
    intros (s & A & B)%same_text_spec (t & C & D)%same_text_spec. unfold same_text. rewrite A, D. rewrite B in C. injection C as ->.
    by destruct (List.list_eq_dec ascii_dec t t).
  Qed.
  Lemma percent_small s : 0 <= s <= 100 -> Qabs (fan_value zero_to_one s) < inject_Z (10 ^ 300).
  Proof.
    intros [H1 H2]. assert (H3 : Qabs (fan_value zero_to_one s) <= 255).
    { apply abs_le. unfold fan_value. assert (E : forall x, x / 100 == x * (1 # 100)) by (intros; field). destruct zero_to_one; rewrite E; lra. }
    eapply Qle_lt_trans; [exact H3|]. reflexivity.
  Qed.
  Lemma printed_text p v s : Qabs v < inject_Z (10 ^ 300) -> writeDoubleToStream p v = Ok s -> printed p v = default v (read_number s).
  Proof. intros H1 H2. unfold printed. destruct (Qlt_le_dec _ _); [by rewrite H2|lra]. Qed.
  Lemma same_printed s s' : 0 <= s <= 100 -> 0 <= s' <= 100 ->
    same_text (fan_precision zero_to_one) (fan_value zero_to_one s) (fan_value zero_to_one s') = true ->
    printed (fan_precision zero_to_one) (fan_value zero_to_one s) = printed (fan_precision zero_to_one) (fan_value zero_to_one s').
  Proof.
    intros H1 H2 (t & A & B)%same_text_spec.
    assert (Hp : (fan_precision zero_to_one <= 9)%nat) by (unfold fan_precision; destruct zero_to_one; lia).
    destruct (C30_double_rounded _ _ Hp (percent_small s H1)) as (t' & q & A' & R & _). rewrite A in A'. injection A' as <-.
    by rewrite (printed_text _ _ t (percent_small s H1) A), (printed_text _ _ t (percent_small s' H2) B), R.
  Qed.

  Lemma IO_op st B F P T J o :
    IO st B F P T J -> sensible o ->
    IO (apply_hop st o) (asked_bed' B [o]) (fun f => asked_fan (F f) f [o]) (asked_print fl P [o]) (asked_travel fl T [o]) (asked_jerk J [o]).
  Proof.
    intros HI Ho. destruct o as [n|n t w f|t w|t w|sp f|a|a|j]; cbn [Heat_Model.apply_hop asked_fan asked_print asked_travel asked_jerk sensible] in *.
    - replace (asked_bed' B [HTool n]) with B by (unfold asked_bed'; by destruct fl).
      apply (IO_frame st); [done|..]; blast.
    - replace (asked_bed' B [HTemp n t w f]) with B by (unfold asked_bed'; by destruct fl).
      destruct (mach_temp st n t w f) as (A1 & A2 & A3 & A4 & A5 & A6 & A7 & A8 & A9 & A10 & A11). by apply (IO_frame st).
    - pose proof (close1 t) as HC. destruct (bed_facts st t w) as (E2 & E3 & E4 & E5 & E7 & E8 & E9 & E10 & E11 & H1 & H2).
      set (st' := writeBedTemperatureCommand fl st t w) in *. clearbody st'.
      assert (EU : {fl = Ultigcode} + {fl <> Ultigcode}) by (destruct fl; by (left + right)). destruct EU as [EU|EU].
      + rewrite (H1 EU). by replace (asked_bed' B [HBed t w]) with B by (unfold asked_bed'; by rewrite EU).
      + replace (asked_bed' B [HBed t w]) with t by (unfold asked_bed'; by destruct fl).
        destruct HI as [[X1 X2] X3 X4 X5 X6 X7 X8 X9]. split; rewrite ?E2, ?E3, ?E4, ?E5, ?E7, ?E8, ?E9, ?E10, ?E11; auto.
        destruct (H2 EU) as [[-> Hb]|[-> ->]]; [|done]. rewrite <- Hb. split; [done|]. by rewrite X1.
    - replace (asked_bed' B [HVolume t w]) with B by (unfold asked_bed'; by destruct fl).
      apply (IO_frame st); [done|..]; unfold writeBuildVolumeTemperatureCommand; blast.
    - replace (asked_bed' B [HFan sp f]) with B by (unfold asked_bed'; by destruct fl).
      destruct (fan_facts st sp f) as (E2 & E3 & E4 & E5 & E7 & E9 & E10 & E11 & EF & H1 & H2).
      set (st' := writeSpecificFanCommand fl zero_to_one st sp f) in *. clearbody st'. destruct Ho as [Ho Ho'].
      destruct HI as [[X1 X2] X3 X4 X5 X6 X7 X8 X9]. split; rewrite ?E2, ?E3, ?E4, ?E5, ?E7, ?E9, ?E10, ?E11; auto.
      + intros f'. rewrite EF. unfold upd. rewrite Nat.eqb_sym. destruct (Nat.eqb_spec f f'); [done|apply X3].
      + intros Hf f' s. destruct (H1 Hf) as [->|[-> (old & Eo & Es)]].
        * unfold upd. rewrite (Nat.eqb_sym f' f). destruct (Nat.eqb_spec f f') as [<-|]; [|by apply X4].
          intros [= <-]. split; [|done]. destruct (wouldWriteZero _ _) eqn:EW; [|by left]. right. split; [done|]. exists sp.
          split; [done|]. split; [done|]. unfold same_text.
          assert (Hp : (fan_precision zero_to_one <= 9)%nat) by (unfold fan_precision; destruct zero_to_one; lia).
          destruct (C30_double_rounded _ _ Hp (percent_small sp Ho)) as (t' & q & A' & _). rewrite A'. by destruct (List.list_eq_dec ascii_dec t' t').
        * destruct (Nat.eqb_spec f f') as [<-|]; [|by apply X4]. intros [= <-]. split; [|done].
          rewrite X3 in Eo. destruct (X4 Hf f old Eo) as [[X|(X & s' & Y1 & Y2 & Y3)] Hold].
          -- left. rewrite X. symmetry. by apply same_printed.
          -- right. split; [done|]. exists s'. split; [done|]. split; [done|]. by eapply same_text_trans.
      + intros Hf s. rewrite (Ho' Hf) in *. cbn [Nat.eqb]. intros [= <-]. destruct (H2 Hf) as [->|[-> (old & Eo & Es)]]; [done|].
        rewrite X3 in Eo. by rewrite (X5 Hf old Eo), Es.
    - replace (asked_bed' B [HPrintAcc a]) with B by (unfold asked_bed'; by destruct fl).
      assert (HC : Qabs (printed 0 a - a) <= 1 # 2) by apply close0.
      unfold writePrintAcceleration. destruct (Qeq_bool (acc_print st) a) eqn:E.
      + apply Qeq_bool_iff in E. destruct HI as [X1 X3 X4 X5 X6 X7 X8 X9]. destruct P as [a0|]; [|lra]. destruct X6 as [X6 X6'].
        assert (Ea : a0 == a) by (rewrite <- E; by rewrite X6).
        split; auto.
        * change (m_print (mach (set_acc_print st a))) with (m_print (mach st)). split; [done|]. by rewrite <- Ea.
        * change (m_travel (mach (set_acc_print st a))) with (m_travel (mach st)). change (acc_travel (set_acc_print st a)) with (acc_travel st).
          destruct (two_accelerations fl) eqn:E2; [done|]. rewrite <- (X8 eq_refl) in X7. split; [done|]. rewrite <- Ea. apply X7.
        * intros E2. by rewrite E2.
      + destruct (Bool.bool_dec (two_accelerations fl) true) as [E2|E2]; [|apply not_true_is_false in E2].
        * assert (G : forall A (x y : A), match fl with Repetier | RepRap => x | _ => y end = x) by (intros; by destruct fl).
          rewrite G, E2. destruct HI as [X1 X3 X4 X5 X6 X7 X8 X9].
          split; cbn [set_acc_print emit out bed fans acc_print acc_travel jerk]; rewrite ?hrun_snoc; cbn; auto.
          all: try (rewrite E2 in * ); try done.
        * assert (G : forall A (x y : A), match fl with Repetier | RepRap => x | _ => y end = y) by (intros; by destruct fl).
          rewrite G, E2. destruct HI as [X1 X3 X4 X5 X6 X7 X8 X9].
          split; cbn [set_acc_print emit out bed fans acc_print acc_travel jerk]; rewrite ?hrun_snoc; cbn; auto.
          all: try (rewrite E2 in * ); try done.
    - replace (asked_bed' B [HTravelAcc a]) with B by (unfold asked_bed'; by destruct fl).
      assert (HC : Qabs (printed 0 a - a) <= 1 # 2) by apply close0.
      unfold writeTravelAcceleration.
      destruct (Bool.bool_dec (two_accelerations fl) true) as [E2|E2]; [|apply not_true_is_false in E2].
      + assert (G : forall A (x y : A), match fl with Repetier | RepRap => x | _ => y end = x) by (intros; by destruct fl).
        rewrite G, E2. destruct HI as [X1 X3 X4 X5 X6 X7 X8 X9]. rewrite E2 in X7.
        destruct (Qeq_bool (acc_travel st) a) eqn:E.
        * apply Qeq_bool_iff in E. destruct T as [a0|]; [|lra]. destruct X7 as [X7 X7'].
          assert (Ea : a0 == a) by (rewrite <- E; by rewrite X7).
          split; auto.
          -- rewrite E2. change (m_travel (mach (set_acc_travel st a))) with (m_travel (mach st)). split; [done|]. by rewrite <- Ea.
          -- rewrite E2. done.
        * split; cbn [set_acc_travel emit out bed fans acc_print acc_travel jerk]; rewrite ?hrun_snoc; cbn; auto; try (rewrite E2 in * ); done.
      + assert (G : forall A (x y : A), match fl with Repetier | RepRap => x | _ => y end = y) by (intros; by destruct fl).
        rewrite G, E2. destruct HI as [X1 X3 X4 X5 X6 X7 X8 X9]. unfold writePrintAcceleration. rewrite G.
        destruct (Qeq_bool (acc_print st) a) eqn:E.
        * apply Qeq_bool_iff in E. destruct P as [a0|]; [|lra]. destruct X6 as [X6 X6'].
          assert (Ea : a0 == a) by (rewrite <- E; by rewrite X6).
          split; auto.
          -- change (m_print (mach (set_acc_travel (set_acc_print st a) a))) with (m_print (mach st)). split; [done|]. by rewrite <- Ea.
          -- change (m_travel (mach (set_acc_travel (set_acc_print st a) a))) with (m_travel (mach st)). rewrite E2.
             rewrite <- (X8 E2) in X7. split; [done|]. rewrite <- Ea. apply X7.
        * split; cbn [set_acc_travel set_acc_print emit out bed fans acc_print acc_travel jerk]; rewrite ?hrun_snoc; cbn; auto.
          all: try (rewrite E2 in * ); try done.
    - replace (asked_bed' B [HJerk j]) with B by (unfold asked_bed'; by destruct fl).
      pose proof (close2 (j * jerk_scale fl)) as HC. unfold writeJerk. destruct HI as [X1 X3 X4 X5 X6 X7 X8 X9].
      destruct (Qeq_bool (jerk st) j) eqn:E.
      + apply Qeq_bool_iff in E. destruct J as [j0|]; [|lra]. destruct X9 as [X9 X9']. assert (Ea : j0 == j) by (rewrite <- E; by rewrite X9).
        split; auto. split; [done|]. by rewrite <- Ea.
      + split; cbn [set_jerk emit out bed fans acc_print acc_travel jerk]; rewrite ?hrun_snoc; cbn; auto. done.
  Qed.

  Lemma IO_ops l : forall st B F P T J,
    IO st B F P T J -> Forall sensible l ->
    IO (apply_hops st l) (asked_bed' B l) (fun f => asked_fan (F f) f l) (asked_print fl P l) (asked_travel fl T l) (asked_jerk J l).
  Proof.
    induction l as [|o l IH]; intros st B F P T J HI HF.
    { assert (E : asked_bed' B [] = B) by (unfold asked_bed'; by destruct fl). rewrite E. exact HI. }
    apply Forall_cons in HF as [Ho HF]. specialize (IH _ _ _ _ _ _ (IO_op st B F P T J o HI Ho) HF).
    assert (E1 : asked_bed' (asked_bed' B [o]) l = asked_bed' B (o :: l)) by (unfold asked_bed'; destruct fl; try done; by destruct o).
    assert (E2 : asked_print fl (asked_print fl P [o]) l = asked_print fl P (o :: l)) by (by destruct o).
    assert (E3 : asked_travel fl (asked_travel fl T [o]) l = asked_travel fl T (o :: l)) by (by destruct o).
    assert (E4 : asked_jerk (asked_jerk J [o]) l = asked_jerk J (o :: l)) by (by destruct o).
    rewrite E1, E2, E3, E4 in IH.
    assert (E5 : forall f, asked_fan (asked_fan (F f) f [o]) f l = asked_fan (F f) f (o :: l)) by (intros f; by destruct o).
    change (apply_hops st (o :: l)) with (apply_hops (apply_hop st o) l).
    destruct IH as [Y1 Y2 Y3 Y4 Y5 Y6 Y7 Y8]. split; auto.
    - intros f. rewrite <- E5. apply Y2.
    - intros Hf f s. rewrite <- E5. by apply Y3.
    - intros Hf s. rewrite <- E5. by apply Y4.
  Qed.

  (** an exporter that has written nothing (gcodeExport.cpp:60-75, gcodeExport.h:105-120), and a printer with everything off *)
  Record cold (st : hst) : Prop := {
    cold_out : out st = []; cold_temp : forall n, temp st n = 0; cold_waited : forall n, waited st n = false; cold_bed : bed st = 0;
    cold_fans : forall f, fans st f = None; cold_print : acc_print st = -1; cold_travel : acc_travel st = -1; cold_jerk : jerk st = -1;
    cold_tool : tool m0 = cur st; cold_target : forall h, target m0 h = 0; cold_mbed : mbed m0 = 0 }.
  Lemma cold_IT st : cold st -> IT st (fun _ => 0).
  Proof.
    intros []. split; rewrite ?cold_out0; cbn; try done.
    - intros n _. by rewrite cold_temp0.
    - intros n _. rewrite cold_target0. rewrite abs_le. lra.
    - intros n _. by rewrite cold_waited0.
  Qed.
  Lemma cold_IO st : cold st -> IO st 0 (fun _ => None) None None None.
  Proof.
    intros []. split; rewrite ?cold_out0, ?cold_print0, ?cold_travel0, ?cold_jerk0, ?cold_bed0; cbn; try done. rewrite cold_mbed0. split; [done|]. rewrite abs_le. lra.
  Qed.
  Lemma sensible_temp l : Forall sensible l -> Forall (fun o => match o with HTemp n _ _ _ => (n < count)%nat | _ => True end) l.
  Proof. intros H. eapply Forall_impl; [exact H|]. by intros []. Qed.

  (** ** The theorems *)
  (** The target temperature of every heater is the one asked for last, up to the printed precision. *)
  Theorem C29_temperatures st0 l n :
    cold st0 -> Forall sensible l -> (n < count)%nat ->
    Qabs (target (mach (apply_hops st0 l)) (heater shared n) - asked_temp shared enabled (cur st0) 0 (heater shared n) l) <= 1 # 20.
  Proof. intros H1 H2 Hn. destruct (IT_ops l st0 _ (cold_IT st0 H1) (sensible_temp l H2)) as [[_ _ H _] _]. by apply H. Qed.
  (** The printer's active tool is the one selected last, whatever its firmware does with a T in an M104 line. *)
  Theorem C29_active_tool st0 l : cold st0 -> Forall sensible l -> tool (mach (apply_hops st0 l)) = tool_of (cur st0) l.
  Proof. intros H1 H2. destruct (IT_ops l st0 _ (cold_IT st0 H1) (sensible_temp l H2)) as [[H _ _ _] E]. by rewrite H, E. Qed.
  (** After a call that asks to wait, the nozzle is at least as hot as asked, even if nothing was written. *)
  Theorem C29_waits st0 l n t force :
    cold st0 -> Forall sensible (l ++ [HTemp n t true force]) -> counts shared enabled (tool_of (cur st0) l) n = true ->
    t - (1 # 20) <= low (mach (apply_hops st0 (l ++ [HTemp n t true force]))) (heater shared n).
  Proof.
    intros H1 H2 H3. apply Forall_app in H2 as [H2 H2']. rewrite Forall_singleton in H2'. cbn in H2'.
    destruct (IT_ops l st0 _ (cold_IT st0 H1) (sensible_temp l H2)) as [HI E].
    assert (EA : apply_hops st0 (l ++ [HTemp n t true force]) = apply_hop (apply_hops st0 l) (HTemp n t true force)) by (unfold Heat_Model.apply_hops; by rewrite fold_left_app).
    rewrite EA. destruct (IT_temp (apply_hops st0 l) _ n t true force HI H2') as [_ H]. apply H; [done|]. by rewrite E.
  Qed.
  Theorem C29_bed st0 l :
    cold st0 -> Forall sensible l -> fl <> Ultigcode ->
    Qabs (mbed (mach (apply_hops st0 l)) - asked_bed 0 l) <= 1 # 20.
  Proof.
    intros H1 H2 H3. destruct (IO_ops l st0 _ _ _ _ _ (cold_IO st0 H1) H2) as [[_ H] _ _ _ _ _ _ _].
    replace (asked_bed' 0 l) with (asked_bed 0 l) in H by (unfold asked_bed'; by destruct fl). done.
  Qed.
  (** The number a fan was set to is less than two of its last printed digits away from the speed asked for last,
      and it is off if that was zero. *)
  Theorem C29_fans st0 l f s :
    cold st0 -> Forall sensible l -> fl <> Makerbot -> asked_fan None f l = Some s ->
    let v := mfan (mach (apply_hops st0 l)) f in
    Qabs (v - fan_number zero_to_one s) <= 2 / inject_Z (10 ^ Z.of_nat (fan_precision zero_to_one)) /\ (s == 0 -> v == 0).
  Proof.
    assert (FN : fan_number zero_to_one s == fan_value zero_to_one s) by (unfold fan_number, fan_value; destruct zero_to_one; field).
    cbv zeta. rewrite FN. clear FN.
    intros H1 H2 H3 H4. destruct (IO_ops l st0 _ _ _ _ _ (cold_IO st0 H1) H2) as [_ _ H _ _ _ _ _].
    specialize (H H3 f s H4) as [H Hs]. cbv zeta. set (v := mfan _ f) in *. clearbody v.
    set (p := fan_precision zero_to_one) in *.
    assert (Hp : (p <= 9)%nat) by (unfold p, fan_precision; destruct zero_to_one; lia).
    assert (Hm : 0 < inject_Z (10 ^ Z.of_nat p)) by (change 0 with (inject_Z 0); rewrite <- Zlt_Qlt; apply Z.pow_pos_nonneg; lia).
    pose proof (C30_printed_close p (fan_value zero_to_one s) Hp) as C1.
    set (m := inject_Z (10 ^ Z.of_nat p)) in *.
    assert (Em : (1 # 2) / m == (1 # 2) * / m) by (field; lra). assert (Em2 : 2 / m == 2 * / m) by (field; lra).
    assert (Hi : 0 < / m) by (by apply Qinv_lt_0_compat).
    rewrite Em in C1. rewrite Em2. rewrite abs_le in C1.
    destruct H as [->|(-> & s' & W & Hs' & ST)].
    - split; [rewrite abs_le; lra|]. intros E.
      assert (E0 : fan_value zero_to_one s == 0) by (unfold fan_value; destruct zero_to_one; rewrite E; reflexivity).
      destruct (C30_double_rounded p _ Hp (percent_small s Hs)) as (t & q & A' & R & _).
      rewrite (printed_text p _ t (percent_small s Hs) A'), R. cbn [default]. unfold id.
      rewrite (write_zero p _ E0) in A'. assert (HZ : writeDoubleToStream p 0 = Ok ["0"%char]) by (unfold p, fan_precision; destruct zero_to_one; vm_compute; done).
      rewrite HZ in A'. injection A' as <-. vm_compute in R. injection R as <-. reflexivity.
    - split; [|done]. pose proof (C30_printed_close p (fan_value zero_to_one s') Hp) as C2. fold m in C2. rewrite Em, abs_le in C2.
      unfold p in C1, C2. rewrite (same_printed s s' Hs Hs' ST) in C1. fold p in C1, C2.
      unfold wouldWriteZero in W. destruct (Qlt_le_dec _ _) as [W'|]; [|done]. fold m in W'.
      assert (W2 : Qabs (fan_value zero_to_one s') <= / m).
      { assert (Qabs (fan_value zero_to_one s') * m * / m <= 1 * / m) by (apply Qmult_le_compat_r; lra).
        setoid_replace (Qabs (fan_value zero_to_one s') * m * / m) with (Qabs (fan_value zero_to_one s')) in H by (field; lra). lra. }
      rewrite abs_le in W2. rewrite abs_le. lra.
  Qed.
  (** A fan that can only be switched is on just if the speed asked for last was at least half. *)
  Theorem C29_fan_switch st0 l s :
    cold st0 -> Forall sensible l -> fl = Makerbot -> asked_fan None 0 l = Some s -> mswitch (mach (apply_hops st0 l)) = true <-> 50 <= s.
  Proof.
    intros H1 H2 H3 H4. destruct (IO_ops l st0 _ _ _ _ _ (cold_IO st0 H1) H2) as [_ _ _ H _ _ _ _]. rewrite (H H3 s H4).
    unfold Qltb. destruct (Qlt_le_dec s 50); cbn; split; try done. intros; lra.
  Qed.
  Theorem C29_accelerations st0 l :
    cold st0 -> Forall sensible l ->
    (forall a, asked_print fl None l = Some a -> Qabs (m_print (mach (apply_hops st0 l)) - a) <= 1 # 2) /\
    (forall a, asked_travel fl None l = Some a -> Qabs (m_travel (mach (apply_hops st0 l)) - a) <= 1 # 2).
  Proof.
    intros H1 H2. destruct (IO_ops l st0 _ _ _ _ _ (cold_IO st0 H1) H2) as [_ _ _ _ HP HT _ _].
    split; intros a Ha; rewrite Ha in *; tauto.
  Qed.
  Theorem C29_jerk st0 l j :
    cold st0 -> Forall sensible l -> asked_jerk None l = Some j -> Qabs (m_jerk (mach (apply_hops st0 l)) - jerk_number fl j) <= 1 # 200.
  Proof.
    assert (JN : jerk_number fl j == j * jerk_scale fl) by (unfold jerk_number, jerk_scale; destruct fl; ring). rewrite JN. clear JN.
    intros H1 H2 Hj. destruct (IO_ops l st0 _ _ _ _ _ (cold_IO st0 H1) H2) as [_ _ _ _ _ _ _ HJ]. rewrite Hj in HJ. apply HJ.
  Qed.

  (** Asking for the same again writes nothing (unless told to, and except for the build volume and for waiting in
      Makerbot's flavor). *)
  Theorem C29_repeats_silent st o :
    match o with
    | HVolume _ _ => False
    | HTemp _ _ wait force => force = false /\ (wait = true -> fl <> Makerbot)
    | HFan s _ => 0 <= s <= 100
    | _ => True
    end -> out (apply_hop (apply_hop st o) o) = out (apply_hop st o).
  Proof.
    intros Ho. destruct o as [n|n t w f|t w|t w|sp f|a|a|j]; cbn [Heat_Model.apply_hop]; try done.
    - destruct (Nat.eqb_spec n (cur st)) as [E|E].
      + by destruct (Nat.eqb_spec n (cur st)).
      + cbn [set_cur cur]. by rewrite Nat.eqb_refl.
    - destruct Ho as [-> Hw].
      destruct (shared && negb (n =? cur st)%nat) eqn:EI.
      { assert (E : writeTemperatureCommand fl shared enabled write_active count st n t w false = st).
        { unfold writeTemperatureCommand. rewrite EI. by destruct (enabled n). }
        by rewrite !E. }
      set (st' := writeTemperatureCommand _ _ _ _ _ st _ _ _ _).
      assert (HS : enabled n = true -> (shared = true -> n = cur st) -> temp st' n == t /\ (w = true -> waited st' n = true) /\ cur st' = cur st).
      { intros He Hs. unfold st', writeTemperatureCommand. rewrite He. cbn [negb].
        assert (E0 : shared && negb (n =? cur st)%nat = false) by (destruct shared; [rewrite (Hs eq_refl), Nat.eqb_refl|]; done). rewrite E0.
        set (st1 := if shared then _ else st).
        assert (E1 : cur st1 = cur st) by (unfold st1; by destruct shared). clearbody st1.
        destruct (_ && _ && _) eqn:E.
        - apply andb_prop in E as [E E3]. apply andb_prop in E as [E E2]. apply Qeq_bool_iff in E3. split; [done|]. split; [|done]. intros ->. done.
        - match goal with |- context [set_temp ?y _] => change y with (wt4 (wt3 (wt2 st1 n t w) n) w) end.
          cbn [set_temp temp waited cur]. rewrite upd_eq. split; [done|].
          assert (E4 : cur (wt2 st1 n t w) = cur st1) by (unfold wt2; destruct w, fl; done).
          assert (E5 : forall s, waited (wt3 s n) = waited s /\ cur (wt3 s n) = cur s) by (intros s; unfold wt3; by destruct (negb (n =? cur s)%nat && write_active)).
          assert (E6 : forall s, waited (wt4 s w) = waited s /\ cur (wt4 s w) = cur s) by (intros s; unfold wt4; destruct w, fl; done).
          destruct (E6 (wt3 (wt2 st1 n t w) n)) as [-> ->], (E5 (wt2 st1 n t w)) as [-> ->]. split; [|congruence].
          intros ->. specialize (Hw eq_refl). unfold wt2. destruct fl; try done; cbn; by rewrite upd_eq. }
      clearbody st'. unfold writeTemperatureCommand. destruct (enabled n) eqn:He; [|done]. cbn [negb].
      destruct (shared && negb (n =? cur st')%nat) eqn:E0; [done|].
      set (st1 := if shared then _ else st').
      assert (EO : out st1 = out st') by (unfold st1; by destruct shared).
      assert (HT : temp st1 n = temp st' n /\ waited st1 n = waited st' n).
      { unfold st1. destruct shared; [|done]. cbn. by rewrite Nat.eqb_refl. }
      clearbody st1. destruct HT as [-> ->].
      destruct (HS eq_refl) as (K1 & K2 & K3).
      { intros Hsh. rewrite Hsh in EI. cbn in EI. apply negb_false_iff in EI. by apply Nat.eqb_eq. }
      + assert (EQ : (negb w || waited st' n) && true && Qeq_bool (temp st' n) t = true).
        { apply andb_true_intro. split; [|by apply Qeq_bool_iff]. rewrite andb_true_r. destruct w; [by apply K2|done]. }
        by rewrite EQ.
    - set (st' := writeBedTemperatureCommand fl st t w).
      assert (H : fl <> Ultigcode -> Qeq_bool (bed st') t = true).
      { intros Hu. destruct (bed_facts st t w) as (_ & _ & _ & _ & _ & _ & _ & _ & _ & _ & H). destruct (H Hu) as [[E H0]|[H0 _]]; apply Qeq_bool_iff.
        - unfold st'. by rewrite E.
        - unfold st'. by rewrite H0. }
      unfold writeBedTemperatureCommand at 1. destruct fl; try (rewrite H by done); done.
    - set (st' := writeSpecificFanCommand fl zero_to_one st sp f).
      assert (EF : fans st' f = Some sp).
      { destruct (fan_facts st sp f) as (_ & _ & _ & _ & _ & _ & _ & _ & E & _). unfold st'. rewrite E. apply upd_eq. }
      assert (ES : same_text (fan_precision zero_to_one) (fan_value zero_to_one sp) (fan_value zero_to_one sp) = true).
      { assert (Hp : (fan_precision zero_to_one <= 9)%nat) by (unfold fan_precision; destruct zero_to_one; lia).
        destruct (C30_double_rounded _ _ Hp (percent_small sp Ho)) as (t' & q & A' & _). unfold same_text. rewrite A'. by destruct (List.list_eq_dec ascii_dec t' t'). }
      unfold writeSpecificFanCommand at 1. rewrite EF, ES. cbn [negb]. rewrite eqb_reflx. by destruct fl.
    - assert (H : forall s, acc_print (writePrintAcceleration fl s a) = a) by done.
      unfold writePrintAcceleration at 1. rewrite H. assert (E : Qeq_bool a a = true) by (by apply Qeq_bool_iff). by rewrite E.
    - assert (E : Qeq_bool a a = true) by (by apply Qeq_bool_iff).
      assert (H1 : forall s, acc_print s = a -> out (writePrintAcceleration fl s a) = out s) by (intros s Hs; unfold writePrintAcceleration; by rewrite Hs, E).
      assert (H2 : forall s, two_accelerations fl = false -> acc_print (writeTravelAcceleration fl s a) = a) by (intros s Hs; unfold writeTravelAcceleration; by destruct fl).
      unfold writeTravelAcceleration at 1. cbn [set_acc_travel out acc_travel].
      destruct (two_accelerations fl) eqn:E2.
      + assert (G : forall A (x y : A), match fl with Repetier | RepRap => x | _ => y end = x) by (intros; by destruct fl).
        rewrite G. change (acc_travel (writeTravelAcceleration fl st a)) with a. by rewrite E.
      + assert (G : forall A (x y : A), match fl with Repetier | RepRap => x | _ => y end = y) by (intros; by destruct fl).
        rewrite G. apply H1. by apply H2.
    - assert (E : Qeq_bool (jerk (writeJerk fl st j)) j = true).
      { unfold writeJerk. destruct (Qeq_bool (jerk st) j) eqn:E; [done|]. by apply Qeq_bool_iff. }
      unfold writeJerk at 1. by rewrite E.
  Qed.
End props.

(** ** Examples and refutations *)
Definition cold_st : hst := H 0 (fun _ => 0) (fun _ => false) 0 (fun _ => None) (-1) (-1) (-1) [].
Definition cold_m : machine := M 0 (fun _ => 0) (fun _ => 20) 0 20 (fun _ => 0) false 500 500 10.
Example C29_cold : cold cold_m cold_st.
Proof. by split. Qed.
Definition demo_hops : list hop :=
  [HBed 60 true; HTemp 0 210 false false; HTemp 1 (1755 # 10) false false; HTemp 0 210 true false; HTemp 0 210 true false; HFan 0 0; HPrintAcc 3000; HTravelAcc 5000; HJerk 20;
   HFan 50 0; HFan (5001 # 100) 0; HTool 1; HTemp 0 175 false false; HTemp 1 200 true false; HPrintAcc 3000; HJerk 20; HFan 100 1].
Example C29_demo_sensible : Forall (sensible OtherFlavor 2) demo_hops.
Proof. unfold demo_hops. repeat (apply Forall_cons_2; [cbn; try done; try lia; try (split; [lra|done])|]); done. Qed.
Example C29_demo_result :
  let st := apply_hops OtherFlavor false false (fun _ => true) true 2 cold_st demo_hops in let m := hrun false true cold_m (out st) in
  length (out st) = 16%nat /\ tool m = 1%nat /\ target m 0%nat == 175 /\ target m 1%nat == 200 /\ low m 1%nat == 200 /\ mbed m == 60 /\ mfan m 0%nat == 1275 # 10
  /\ mfan m 1%nat == 255 /\ m_print m == 3000.
Proof. vm_compute. repeat split. Qed.

(** A call that asks to wait for the bed writes nothing if that temperature was set before without waiting. *)
Theorem C29_bed_wait_refuted :
  exists l t, let st := apply_hops OtherFlavor false false (fun _ => true) true 1 cold_st (l ++ [HBed t true]) in
    bed_low (hrun false false cold_m (out st)) < t - 10.
Proof. exists [HBed 60 false], 60. vm_compute. done. Qed.
(** A fan can be left off although its speed prints as something else than zero: the value was turned off before at
    a speed that prints the same. *)
Theorem C29_fan_exact_refuted :
  exists l s, Forall (sensible OtherFlavor 1) l /\ asked_fan None 0 l = Some s /\
    let st := apply_hops OtherFlavor false false (fun _ => true) true 1 cold_st l in
    mfan (hrun false false cold_m (out st)) 0%nat == 0 /\ printed 1 (fan_value false s) == 1 # 10.
Proof.
  exists [HFan (3 # 100) 0; HFan (4 # 100) 0], (4 # 100). split; [|split; [done|vm_compute; done]].
  repeat (apply Forall_cons_2; [cbn; split; [lra|done]|]); done.
Qed.
(** With Makerbot's flavor two fans are switched by the same command, but remembered apart. *)
Theorem C29_makerbot_two_fans_refuted :
  exists l s, asked_fan None 0 l = Some s /\ 50 <= s /\ last l = Some (HFan s 0) /\
    mswitch (hrun false false cold_m (out (apply_hops Makerbot false false (fun _ => true) true 1 cold_st l))) = false.
Proof. exists [HFan 100 0; HFan 0 1; HFan 100 0], 100. repeat split; try done. Qed.
(** A firmware that changes tools at every T ends up on another tool if the exporter is not told to switch back. *)
Theorem C29_tool_switch_refuted :
  exists l, tool (hrun false true cold_m (out (apply_hops OtherFlavor false false (fun _ => true) false 2 cold_st l))) <> tool_of 0 l.
Proof. exists [HTemp 1 200 false false]. vm_compute. done. Qed.

Print Assumptions C29_temperatures.
Print Assumptions C29_active_tool.
Print Assumptions C29_waits.
Print Assumptions C29_bed.
Print Assumptions C29_fans.
Print Assumptions C29_fan_switch.
Print Assumptions C29_accelerations.
Print Assumptions C29_jerk.
Print Assumptions C29_repeats_silent.
Print Assumptions C29_bed_wait_refuted.
Print Assumptions C29_fan_exact_refuted.
Print Assumptions C29_makerbot_two_fans_refuted.
Print Assumptions C29_tool_switch_refuted.
