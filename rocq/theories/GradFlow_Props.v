(** C38: gradual flow keeps the toolpath and limits the changes of flow. *)
From Coq Require Import ZArith QArith Qabs Qround Qminmax Lia Lqa.
From stdpp Require Import list relations.
From Verif Require Import Common GCode_Model Wall_Model GradFlow_Model GradFlow_Spec GradFlow_Proofs.
Open Scope Q_scope.

(** *** separate line strings and back *)
Definition flatten (ps : list (list pt3)) : list pt3 :=
  match ps with [] => [] | p :: ps' => p ++ concat (map tail ps') end.
Lemma linked_head ps r : linked ps r -> exists p ps', ps = p :: ps' /\ head p = head r.
Proof. destruct 1 as [p Hp|p x ps r Hx L]; eexists _, _; (split; [done|]); [done|]. by destruct p. Qed.
Lemma linked_flatten ps r : linked ps r -> r = flatten ps.
Proof.
  induction 1 as [p Hp|p x ps r Hx L IH]; simpl; [by rewrite app_nil_r|]. f_equal.
  destruct (linked_head _ _ L) as (q & ps' & -> & Hq). simpl in *. destruct q as [|y q]; simpl in *; [done|]. by injection IH as _ ->.
Qed.
Lemma linked_take ps r i : linked ps r -> (0 < i)%nat -> exists r', linked (take i ps) r'.
Proof.
  intros L. revert i. induction L as [p Hp|p x ps r Hx L IH]; intros i Hi; (destruct i as [|i]; [lia|]); simpl.
  - exists p. rewrite take_nil. by constructor.
  - destruct i as [|i]. { exists p. simpl. constructor. by intros ->. }
    destruct (IH (S i)) as [r' L']; [lia|]. 
    destruct (linked_head _ _ L) as (q & ps' & Ep & Hq). 
    assert (Hr' : exists r'', r' = x :: r'').
    { destruct (linked_head _ _ L') as (q' & ps'' & Ep' & Hq'). subst ps. simpl in Ep'. injection Ep' as <- _. rewrite Hq in Hq'.
      destruct r' as [|y r'']; [done|]. simpl in Hq'. injection Hq' as ->. eauto. }
    destruct Hr' as [r'' ->]. exists (p ++ r''). by eapply linked_cons.
Qed.

Definition start_ok (g : gpath) : Prop := 0 <= g_volume g /\ 0 < g_speed g /\ 0 < g_factor g.
Lemma targetSpeed_pos g : start_ok g -> 0 < targetSpeed g.
Proof. intros (_ & H1 & H2). unfold targetSpeed. nra. Qed.

Lemma convert_some paths : forall prev b, last prev = Some b ->
  exists fs, convert (Some prev) paths = Ok fs /\
    Forall2 (fun g f => f = make g (points f) (targetSpeed g) /\ tail (points f) = g_points g) paths fs /\
    forall p0, last p0 = Some b -> linked (p0 :: map points fs) (p0 ++ all_points paths).
Proof.
  induction paths as [|g paths IH]; intros prev b Hb.
  - exists []. split; [done|]. split; [constructor|]. intros p0 H0. unfold all_points. simpl. rewrite app_nil_r. constructor. by intros ->.
  - simpl. rewrite Hb. cbn [of_opt rbind]. 
    destruct (last (b :: g_points g)) as [c|] eqn:Ec; [|by apply last_None in Ec].
    destruct (IH (b :: g_points g) c Ec) as (fs & Hr & Hf & Hl). rewrite Hr. cbn [rbind]. eexists. split; [done|].
    split; [by constructor|]. intros p0 H0. cbn [map points make]. eapply linked_cons; [done|].
    unfold all_points. simpl. apply (Hl (b :: g_points g)). done.
Qed.
Lemma convert_ok paths : match paths with [] => True | g :: _ => g_points g <> [] end ->
  exists fs, convert None paths = Ok fs /\
    Forall2 (fun g f => f = make g (points f) (targetSpeed g)) paths fs /\
    (paths <> [] -> linked (map points fs) (all_points paths)) /\
    match paths, fs with g :: paths', f :: fs' => points f = g_points g /\ Forall2 (fun g f => tail (points f) = g_points g) paths' fs'
    | _, _ => True end.
Proof.
  destruct paths as [|g paths]; intros H.
  - exists []. split; [done|]. split; [constructor|]. done.
  - cbn [convert rbind]. destruct (last (g_points g)) as [c|] eqn:Ec; [|by apply last_None in Ec].
    destruct (convert_some paths (g_points g) c Ec) as (fs & Hr & Hf & Hl). rewrite Hr. cbn [rbind]. eexists. split; [done|].
    split. { constructor; [done|]. eapply Forall2_impl; [exact Hf|]. by intros ? ? []. }
    split. { intros _. cbn [map points make]. unfold all_points. simpl. by apply Hl. }
    split; [done|]. eapply Forall2_impl; [exact Hf|]. by intros ? ? [].
Qed.

(** converting the result again *)
Definition same (p q : fpath) : Prop :=
  points q = points p /\ speed q == speed p /\ flow q == flow p /\ g_retract (orig q) = g_retract (orig p).
Definition factor_ok (p : fpath) : Prop := 0 < g_factor (orig p) /\ flow p == g_volume (orig p) * speed p.
Lemma targetSpeed_classic i p : 0 < g_factor (orig p) -> targetSpeed (toClassicPath i p) == speed p.
Proof. intros H. unfold targetSpeed, toClassicPath. cbn [g_speed g_factor]. field. lra. Qed.
Lemma reconvert_some ks : forall prev b r, last prev = Some b -> linked (prev :: map points ks) r -> Forall factor_ok ks ->
  exists fs, convert (Some prev) (map (toClassicPath false) ks) = Ok fs /\ Forall2 same ks fs.
Proof.
  induction ks as [|k ks IH]; intros prev b r Hb L Hk.
  - exists []. split; [done|constructor].
  - apply Forall_cons in Hk as [[Hkf Hkv] Hk]. cbn [map] in L. 
    inversion L as [|p x ps r' Hx L' E1 E2]; subst. simpl in Hb. rewrite Hb in Hx. injection Hx as <-.
    destruct (linked_head _ _ L') as (q & ps' & Eq & Hq). injection Eq as <- <-.
    destruct (points k) as [|y pk] eqn:Ek; [done|]. simpl in Hq. injection Hq as ->.
    assert (Hlast : exists c, last (b :: pk) = Some c). { destruct (last (b :: pk)) eqn:E; [eauto|]. by apply last_None in E. }
    destruct Hlast as [c Hc]. destruct (IH (b :: pk) c _ Hc L' Hk) as (fs & Hr & Hf).
    cbn [map convert]. rewrite Hb. cbn [of_opt rbind]. unfold toClassicPath at 1. rewrite Ek. cbn [g_points tail].
    rewrite Hr. cbn [rbind]. eexists. split; [done|]. constructor; [|done].
    unfold same, make. cbn [points speed flow orig]. rewrite Ek. unfold toClassicPath at 1. cbn [g_points tail]. rewrite Ek. split; [done|].
    rewrite targetSpeed_classic by done. split; [done|]. split; [|done]. unfold toClassicPath. cbn [g_volume]. by rewrite Hkv.
Qed.
Lemma reconvert k ks r : linked (map points (k :: ks)) r -> Forall factor_ok (k :: ks) ->
  exists fs, convert None (toClassicPath true k :: map (toClassicPath false) ks) = Ok fs /\ Forall2 same (k :: ks) fs.
Proof.
  intros L Hk. apply Forall_cons in Hk as [[Hkf Hkv] Hk]. cbn [map] in L.
  assert (Hne : points k <> []) by (apply linked_parts_nonnil in L; by apply Forall_cons in L as [L _]).
  destruct (last (points k)) as [b|] eqn:Eb; [|by apply last_None in Eb].
  destruct (reconvert_some ks (points k) b r Eb L Hk) as (fs & Hr & Hf).
  cbn [convert rbind]. unfold toClassicPath at 1. cbn [g_points]. rewrite Hr. cbn [rbind]. eexists. split; [done|]. constructor; [|done].
  unfold same, make. cbn [points speed flow orig]. split; [done|]. rewrite targetSpeed_classic by done. split; [done|].
  split; [|done]. unfold toClassicPath. cbn [g_volume]. by rewrite Hkv.
Qed.

Section limits.
  Variable hypot : Z -> Z -> Q.
  Lemma same_extrudes p q : same p q -> extrudes q = extrudes p.
  Proof.
    intros (_ & _ & Hf & _). destruct (extrudes p) eqn:E.
    - apply extrudes_true in E. apply extrudes_true. lra.
    - apply extrudes_false in E. apply extrudes_false. lra.
  Qed.
  Lemma same_resets reset p q : same p q -> resets hypot reset q = resets hypot reset p.
  Proof.
    intros (Hp & Hs & _ & Hr). unfold resets. rewrite Hp, Hr. f_equal.
    assert (E : totalLength hypot (points p) / speed q == totalLength hypot (points p) / speed p) by (by rewrite Hs).
    destruct (Qlt_le_dec reset (_ / speed q)), (Qlt_le_dec reset (_ / speed p)); try done; lra.
  Qed.
  Lemma same_rises reset d ps qs : Forall2 same ps qs -> forall b, rises_at_most hypot reset d b ps -> rises_at_most hypot reset d b qs.
  Proof.
    induction 1 as [|p q ps qs Hpq H IH]; intros b; [done|]. rewrite !rises_cons, (same_extrudes p q Hpq), (same_resets reset p q Hpq).
    destruct (extrudes p); [|apply IH]. destruct Hpq as (_ & _ & Hf & _). intros [H1 H2]. split.
    - destruct b; [by rewrite Hf|done].
    - apply IH. eapply rises_weaken; [|done]. simpl. lra.
  Qed.
  Lemma same_falls d ps qs : Forall2 same ps qs -> forall b, falls_at_most d b ps -> falls_at_most d b qs.
  Proof.
    induction 1 as [|p q ps qs Hpq H IH]; intros b; [done|]. rewrite !falls_cons, (same_extrudes p q Hpq).
    destruct (extrudes p); [|apply IH]. destruct Hpq as (_ & _ & Hf & _). intros [H1 H2]. split.
    - destruct b; [by rewrite Hf|done].
    - apply IH. eapply falls_weaken; [|done]. simpl. lra.
  Qed.
  Lemma same_flows ps qs : Forall2 same ps qs -> Forall2 Qeq (flows ps) (flows qs).
  Proof.
    unfold flows. induction 1 as [|p q ps qs Hpq H IH]; [constructor|]. rewrite !filter_cons, (same_extrudes p q Hpq).
    destruct Hpq as (_ & _ & Hf & _). destruct (decide _); [|done]. simpl. by constructor.
  Qed.
End limits.

Lemma first_flow_spec ps : Forall valid ps -> first_flow ps = default 0 (head (flows ps)).
Proof.
  induction 1 as [|p ps (_ & Hv & Hs & Hf & _) H IH]; [done|]. unfold flows in *. rewrite filter_cons. cbn [first_flow].
  destruct (decide _) as [E|E].
  - apply extrudes_true in E. destruct (Qeq_bool (flow p) 0) eqn:E2; [|done]. apply Qeq_bool_iff in E2. lra.
  - assert (Hfp : flow p == 0). { destruct (extrudes p) eqn:E'; [done|]. apply extrudes_false in E'. rewrite Hf in *. nra. }
    by rewrite (proj2 (Qeq_bool_iff _ _) Hfp).
Qed.
Lemma flows_last ps : last (flows ps) = last_flow ps.
Proof. unfold flows, last_flow. by rewrite fmap_last. Qed.

Section main.
  Variables (hypot : Z -> Z -> Q) (acceleration step reset : Q).
  Hypothesis Hhyp : forall x y, 0 <= hypot x y.
  Hypothesis Heven : forall x y, hypot (- x) (- y) == hypot x y.
  Hypothesis Hacc : 0 < acceleration.
  Hypothesis Hstep : 0 < step.
  Let d := acceleration * 1000000000 * step.

  Lemma process_core paths : Forall start_ok paths -> match paths with [] => True | g :: _ => g_points g <> [] end ->
    exists fs kss, convert None paths = Ok fs /\ Forall valid fs /\ Forall2 group fs kss /\
      Forall2 (fun g f => f = make g (points f) (targetSpeed g)) paths fs /\
      (paths <> [] -> linked (map points fs) (all_points paths)) /\
      (match paths, fs with g :: paths', f :: fs' => points f = g_points g /\ Forall2 (fun g f => tail (points f) = g_points g) paths' fs'
       | _, _ => True end) /\
      process hypot acceleration step reset paths =
        Ok (match concat kss with [] => [] | p :: out' => toClassicPath true p :: map (toClassicPath false) out' end) /\
      rises_at_most hypot reset d None (concat kss) /\ falls_at_most d None (concat kss) /\
      match last_flow (concat kss) with Some f => f <= first_flow fs + d | None => True end.
  Proof.
    intros Hok Hne. destruct (convert_ok paths Hne) as (fs & Hc & Hmk & Hlk & Hpts).
    assert (Hval : Forall valid fs /\ Forall (fun p => flow p <= targetFlow (orig p)) fs).
    { assert (Hp : Forall (fun f => points f <> []) fs).
      { destruct paths as [|g paths]; [by apply Forall2_nil_inv_l in Hmk as ->|]. specialize (Hlk ltac:(done)). apply linked_parts_nonnil in Hlk.
        by rewrite Forall_map in Hlk. }
      clear -Hok Hmk Hp. induction Hmk as [|g f gs fs -> Hmk IH]; [done|]. apply Forall_cons in Hok as [Hg Hok]. apply Forall_cons in Hp as [Hpf Hp].
      destruct (IH Hok Hp) as [IH1 IH2]. pose proof (targetSpeed_pos g Hg) as Ht. split; constructor; try done.
      - unfold valid, make. cbn [points orig speed flow]. split; [done|]. split; [apply Hg|]. done.
      - unfold make, targetFlow. cbn [orig flow]. lra. }
    destruct Hval as [Hval Hfl].
    set (P := Params (acceleration * 1000000000) (acceleration * 1000000000) step (first_flow fs) reset).
    assert (H0 : 0 <= first_flow fs).
    { rewrite first_flow_spec by done. unfold flows. clear. induction fs as [|f fs IH]; [simpl; lra|]. rewrite filter_cons. destruct (decide _) as [E|E]; [|done].
      apply extrudes_true in E. simpl. lra. }
    destruct (processGcodePaths_ok hypot Hhyp Heven P) with (ps := fs) (st := GState (first_flow fs) 0 UNDEFINED) as (kss & Hr & Hg & Hri & Hfa & Hla); try done.
    { intros forward. unfold delta, P. cbn. destruct forward; nra. }
    { unfold delta, P. cbn. lra. }
    exists fs, kss. split; [done|]. split; [done|]. split; [done|]. split; [done|]. split; [done|]. split; [done|].
    split. { unfold process. rewrite Hc. cbn [rbind]. fold P. rewrite Hr. done. }
    done.
  Qed.

  (** The paths come out in the same order, each as one or more parts with the same attributes that are not faster, travels
      as they are; and the points are the same, with more points on segments. *)
  Theorem C38_toolpath paths :
    Forall (fun g => 0 <= g_volume g /\ 0 < g_speed g /\ 0 < g_factor g) paths ->
    match paths with [] => True | g :: _ => g_points g <> [] end ->
    exists groups, process hypot acceleration step reset paths = Ok (concat groups) /\ Forall2 slowed paths groups /\
      forall i, refined (all_points (take i paths)) (all_points (concat (take i groups))).
  Proof.
    intros Hok Hne. destruct (process_core paths Hok Hne) as (fs & kss & Hc & Hval & Hg & Hmk & Hlk & Hpts & Hr & _).
    destruct paths as [|g paths].
    { apply Forall2_nil_inv_l in Hmk as ->. apply Forall2_nil_inv_l in Hg as ->. exists []. rewrite Hr. split; [done|]. split; [constructor|].
      intros i. rewrite !take_nil. apply rtc_refl. }
    destruct fs as [|f fs]; [by apply Forall2_cons_nil_inv in Hmk|]. destruct kss as [|ks kss]; [by apply Forall2_cons_nil_inv in Hg|].
    apply Forall2_cons in Hg as [Hg1 Hg]. apply Forall2_cons in Hmk as [Hmk1 Hmk]. apply Forall_cons in Hok as [Hok1 Hok].
    apply Forall_cons in Hval as [Hval1 Hval]. destruct Hpts as [Hp1 Hpts]. specialize (Hlk ltac:(done)).
    destruct ks as [|k ks]; [by apply group_nonnil in Hg1|].
    exists ((toClassicPath true k :: map (toClassicPath false) ks) :: map (map (toClassicPath false)) kss).
    split. { rewrite Hr. simpl. by rewrite map_app, concat_map. }
    assert (Hsp : forall b g f k, start_ok g -> f = make g (points f) (targetSpeed g) -> piece f k -> 
      let g' := toClassicPath b k in g_volume g' = g_volume g /\ g_factor g' = g_factor g /\ g_retract g' = g_retract g /\ g_other g' = g_other g /\ 0 < g_speed g' <= g_speed g).
    { intros b g0 f0 k0 (Hv & Hs & Hf) Ef (Ho & Hk1 & Hk2 & Hk3). rewrite Ef in Ho, Hk2. cbn [make orig speed] in *. unfold toClassicPath. cbn. rewrite Ho.
      split; [done|]. split; [done|]. split; [done|]. split; [done|]. unfold targetSpeed in Hk2. split.
      - apply Qdiv_pos; [done|]. apply Qdiv_pos; [lra|done].
      - apply Qle_shift_div_r; [done|]. apply Qle_shift_div_r; [lra|]. lra. }
    assert (Htr : forall b g f, start_ok g -> f = make g (points f) (targetSpeed g) -> g_speed (toClassicPath b f) == g_speed g).
    { intros b g0 f0 (Hv & Hs & Hf) Ef. rewrite Ef. unfold toClassicPath. cbn. unfold targetSpeed. field. lra. }
    assert (Hex : forall g f, start_ok g -> f = make g (points f) (targetSpeed g) -> g_volume g == 0 -> extrudes f = false).
    { intros g0 f0 (Hv & Hs & Hf) Ef E. apply extrudes_false. rewrite Ef. cbn [make flow]. rewrite E. lra. }
    split.
    - constructor.
      + split; [done|]. destruct Hg1 as (Hpc & Htv & _). split.
        * apply Forall_cons in Hpc as [Hk Hpc]. constructor; [by eapply Hsp|]. apply Forall_map. eapply Forall_impl; [exact Hpc|]. intros x Hx. by eapply Hsp.
        * intros E. specialize (Htv (Hex _ _ Hok1 Hmk1 E)). injection Htv as -> ->. eexists. split; [done|]. split; [done|]. by apply Htr.
      + clear -Hg Hmk Hok Hpts Hsp Htr Hex. revert kss paths Hg Hmk Hok Hpts. induction fs as [|f fs IH]; intros kss paths Hg Hmk Hok Hpts.
        { apply Forall2_nil_inv_l in Hg as ->. apply Forall2_nil_inv_r in Hmk as ->. constructor. }
        apply Forall2_cons_inv_l in Hg as (gs & gss & Hg1 & Hg & ->). apply Forall2_cons_inv_r in Hmk as (g & gs' & Hmk1 & Hmk & ->).
        apply Forall2_cons in Hpts as [Hp1 Hpts]. apply Forall_cons in Hok as [Hok1 Hok]. cbn [map]. constructor; [|by apply IH].
        pose proof (group_nonnil _ _ Hg1) as Hnn. destruct Hg1 as (Hpc & Htv & _). split; [by destruct gs|]. split.
        * apply Forall_map. eapply Forall_impl; [exact Hpc|]. intros x Hx. by eapply Hsp.
        * intros E. specialize (Htv (Hex _ _ Hok1 Hmk1 E)). subst gs. eexists. split; [done|]. split; [done|]. by apply Htr.
    - intros i. destruct i as [|i]; [apply rtc_refl|]. simpl take.
      destruct (linked_take _ _ (S i) Hlk) as [r1 L1]; [lia|]. rewrite <- fmap_take in L1.
      assert (HG : Forall2 cuts (map points (take (S i) (f :: fs))) (map (map points) (take (S i) ((k :: ks) :: kss)))).
      { simpl. constructor; [apply Hg1|]. clear -Hg. revert i. induction Hg as [|f gs fs kss Hf Hg IH]; intros i; [rewrite !take_nil; constructor|].
        destruct i as [|i]; [constructor|]. simpl. constructor; [apply Hf|apply IH]. }
      destruct (cuts_trans _ _ _ L1 HG) as (r2 & L2 & R). rewrite <- concat_map in L2.
      apply linked_flatten in L1. apply linked_flatten in L2. subst r1 r2.
      replace (all_points (g :: take i paths)) with (flatten (map points (take (S i) (f :: fs)))).
      2:{ simpl. unfold all_points. simpl. rewrite Hp1. f_equal. clear -Hpts. revert i. induction Hpts as [|g f gs fs Hf H IH]; intros i; [by rewrite !take_nil|].
          destruct i as [|i]; [done|]. simpl. by rewrite Hf, IH. }
      match goal with |- refined _ ?R => replace R with (flatten (map points (concat (take (S i) ((k :: ks) :: kss))))) end; [done|].
      cbn [take concat app]. rewrite firstn_map, <- concat_map, <- map_app. unfold all_points. cbn [map concat flatten]. f_equal. by rewrite !map_map.
  Qed.

  (** Read back, the flow of the new paths rises by at most d = acceleration * step from one extruding path to the next, unless it was
      reset in between, falls by at most d, and ends at most d above the first flow of the original paths. *)
  Theorem C38_flow_limits paths :
    Forall (fun g => 0 <= g_volume g /\ 0 < g_speed g /\ 0 < g_factor g) paths ->
    match paths with [] => True | g :: _ => g_points g <> [] end ->
    exists old out new, convert None paths = Ok old /\ process hypot acceleration step reset paths = Ok out /\ convert None out = Ok new /\
      rises_at_most hypot reset d None new /\ falls_at_most d None new /\
      (forall first last_, head (flows old) = Some first -> last (flows new) = Some last_ -> last_ <= first + d).
  Proof.
    intros Hok Hne. destruct (process_core paths Hok Hne) as (fs & kss & Hc & Hval & Hg & Hmk & Hlk & Hpts & Hr & Hri & Hfa & Hla).
    rewrite first_flow_spec in Hla by done.
    destruct paths as [|g paths].
    { apply Forall2_nil_inv_l in Hmk as ->. apply Forall2_nil_inv_l in Hg as ->. exists [], [], []. rewrite Hr. done. }
    specialize (Hlk ltac:(done)).
    assert (HG : Forall2 cuts (map points fs) (map (map points) kss)).
    { clear -Hg. induction Hg as [|f gs fs kss Hf Hg IH]; [constructor|]. simpl. constructor; [apply Hf|apply IH]. }
    destruct (cuts_trans _ _ _ Hlk HG) as (r2 & L2 & R). rewrite <- concat_map in L2.
    assert (Hfac : Forall factor_ok (concat kss)).
    { apply Forall_concat. clear -Hg Hmk Hok. revert kss Hg. induction Hmk as [|g0 f gs fs Ef Hmk IH]; intros kss Hg; [by apply Forall2_nil_inv_l in Hg as ->|].
      apply Forall_cons in Hok as [Hok1 Hok]. apply Forall2_cons_inv_l in Hg as (ks & kss' & (Hpc & _) & Hg & ->).
      constructor; [|by apply IH]. eapply Forall_impl; [exact Hpc|]. intros k (Ho & _ & _ & Hf). unfold factor_ok. rewrite Ho. split; [|done].
      rewrite Ef. apply Hok1. }
    destruct (concat kss) as [|k ks] eqn:Ek. { by apply linked_nonnil in L2 as [_ L2]. }
    destruct (reconvert k ks r2 L2 Hfac) as (new & Hnew & Hsame).
    exists fs. eexists. exists new. split; [done|]. split; [exact Hr|]. split; [exact Hnew|].
    split; [by eapply same_rises|]. split; [by eapply same_falls|].
    intros f0 l0 H0 Hl. rewrite H0 in Hla. simpl in Hla. pose proof (same_flows _ _ Hsame) as Hfl. rewrite <- flows_last in Hla.
    assert (Hll : exists l1, last (flows (k :: ks)) = Some l1 /\ l1 == l0).
    { destruct (flows new) as [|? ?] eqn:En using rev_ind; [done|]. clear IHl. rewrite last_snoc in Hl. injection Hl as ->.
      apply Forall2_app_inv_r in Hfl as (u & v & _ & Hv & Eu). apply Forall2_cons_inv_r in Hv as (w & v' & Hw & Hv' & ->).
      apply Forall2_nil_inv_r in Hv' as ->. rewrite Eu, last_snoc. eauto. }
    destruct Hll as (l1 & El & Hl1). rewrite El in Hla. rewrite <- Hl1. done.
  Qed.
End main.

(** *** A concrete case *)
Definition ex_hypot (x y : Z) : Q := inject_Z (Z.abs x + Z.abs y).
Lemma ex_hypot_nonneg x y : 0 <= ex_hypot x y.
Proof. unfold ex_hypot. change 0 with (inject_Z 0). rewrite <- Zle_Qle. lia. Qed.
Lemma ex_hypot_even x y : ex_hypot (- x) (- y) == ex_hypot x y.
Proof. unfold ex_hypot. by rewrite !Z.abs_opp. Qed.
(** a slow wall, then three pieces of infill with four times the flow, the first two of them short, a travel, and a wall *)
Definition ex_paths : list gpath := [
  GPath [P3 0 0 200; P3 100000 0 200] 1 10 1 false 1;
  GPath [P3 100500 0 200] 4 10 1 false 2;
  GPath [P3 101000 0 200] 4 10 1 false 3;
  GPath [P3 201000 0 200] 4 10 1 false 4;
  GPath [P3 201000 900 200] 0 150 1 false 5;
  GPath [P3 101000 900 200] 1 10 1 false 6 ].
Definition ex_result := process ex_hypot (1 # 100000) 1 2 ex_paths.

Example C38_example :
  Forall (fun g => 0 <= g_volume g /\ 0 < g_speed g /\ 0 < g_factor g) ex_paths /\
  exists out, ex_result = Ok out /\ 
    map g_other out = [1; 2; 3; 4; 4; 4; 4; 4; 5; 6]%nat /\
    map (fun g => Qred (g_volume g * g_speed g)) out = [10; 20; 20; 20; 30; 40; 30; 20; 0; 10] /\
    all_points out = [P3 0 0 200; P3 100000 0 200; P3 100500 0 200; P3 101000 0 200; P3 101500 0 200; P3 109000 0 200; P3 188500 0 200;
                      P3 196000 0 200; P3 201000 0 200; P3 201000 900 200; P3 101000 900 200].
Proof.
  split. { repeat constructor; cbn; try lra; unfold Qle, Qlt; cbn; lia. }
  eexists. split; [vm_compute; reflexivity|]. split; [done|]. split; [vm_compute; reflexivity|]. vm_compute. reflexivity.
Qed.

(** The limit is one of flow per step, not of flow per time: here the flow rises by d to a level and again by d above it, although the
    paths at that level take less than a third of the step (the time left of the step is computed as the time that was used). *)
Theorem C38_step_time_refuted :
  exists out a b1 b2 b3 c rest, ex_result = Ok out /\ convert None out = Ok (a :: b1 :: b2 :: b3 :: c :: rest) /\
    let d := (1 # 100000) * 1000000000 * 1 in
    flow b1 == flow a + d /\ flow b2 == flow b1 /\ flow b3 == flow b1 /\ flow c == flow b1 + d /\
    totalDuration ex_hypot b1 + totalDuration ex_hypot b2 + totalDuration ex_hypot b3 < 1 # 3.
Proof.
  do 7 eexists. split; [vm_compute; reflexivity|]. split; [vm_compute; reflexivity|]. cbv zeta.
  split; [by vm_compute|]. split; [by vm_compute|]. split; [by vm_compute|]. split; [by vm_compute|]. by vm_compute.
Qed.

(** With a step of no time the loop goes on for ever when the flow should rise, for every number of iterations. *)
Theorem C38_zero_step_refuted :
  let g := GPath [P3 100 0 200] 4 10 1 false 2 in
  let p := make g [P3 0 0 200; P3 100 0 200] (targetSpeed g) in
  forall fuel, ramp ex_hypot (Params 10000 10000 0 10000 2) fuel true (flow p) (g_volume g) p [] (GState 10000 0 STABLE) = NoFuel.
Proof.
  intros g p fuel. generalize (@nil fpath) as done. induction fuel as [|fuel IH]; intros done.
  - reflexivity.
  - cbn [ramp]. 
    replace (Qltb _ _) with true by (vm_compute; reflexivity). cbv zeta. 
    replace (Qmin _ _) with (10000 # 1) by (vm_compute; reflexivity).
    replace (Qeq_bool _ _) with false by (vm_compute; reflexivity).
    match goal with |- context [partition ?h ?a ?b ?c ?e] => 
      replace (partition h a b c e) with (Ok (make g [P3 0 0 200; P3 0 0 200] (10000 / 4), Some p, 0)) by (vm_compute; reflexivity) end.
    cbn [rbind fst snd]. apply IH.
Qed.

Print Assumptions C38_toolpath.
Print Assumptions C38_flow_limits.
Print Assumptions C38_step_time_refuted.
Print Assumptions C38_zero_step_refuted.
Print Assumptions C38_example.
