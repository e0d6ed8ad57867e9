(** Lemmas about adaptive layer heights. *)
From Coq Require Import ZArith QArith Lia Lqa.
From stdpp Require Import list.
From Verif Require Import Common Layers_Model Adaptive_Model.
Open Scope Z_scope.

Lemma allowed_loop_spec low step : 0 < step -> forall fuel h,
  (Z.to_nat (h - low + 1) < fuel)%nat ->
  exists L, allowed_loop fuel h low step = Ok L /\
    forall i x, L !! i = Some x <-> x = h - Z.of_nat i * step /\ 0 < x /\ low <= x.
Proof.
  intros Hs. induction fuel as [|fuel IH]; intros h Hf; [lia|]. simpl.
  destruct (Z.leb_spec low h) as [Hl|Hl].
  - destruct (Z.leb_spec h 0) as [H0|H0].
    + exists []. split; [done|]. intros i x. split; [done|]. intros (-> & ? & ?). exfalso. nia.
    + destruct (IH (h - step)) as (L & -> & HL); [lia|]. simpl. exists (h :: L). split; [done|].
      intros [|i] x; simpl.
      * split; [intros [= <-]; lia|]. intros (-> & ? & ?). f_equal. lia.
      * rewrite HL. split; intros (-> & ? & ?); repeat split; lia.
  - exists []. split; [done|]. intros i x. split; [done|]. intros (-> & ? & ?). exfalso. nia.
Qed.

Lemma fold_min_spec hs : forall h,
  (min_height h hs = h \/ min_height h hs ∈ hs) /\ min_height h hs <= h /\ forall x, x ∈ hs -> min_height h hs <= x.
Proof.
  unfold min_height. induction hs as [|a hs IH]; intros h; simpl.
  - split; [by left|]. split; [lia|]. intros x Hx. by apply elem_of_nil in Hx.
  - destruct (IH (Z.min h a)) as (A & B & C). split; [|split].
    + destruct A as [A|A]; [|right; by right].
      rewrite A. destruct (Z.min_spec h a) as [[_ -> ]|[_ -> ]]; [by left|right; left].
    + lia.
    + intros x Hx. apply elem_of_cons in Hx as [-> |Hx]; [lia|by apply C].
Qed.

Lemma fold_Qmin_spec l : forall a, exists b, b = fold_left Qmin_bool l a /\ (b = a \/ b ∈ l) /\ (b <= a)%Q /\ forall x, x ∈ l -> (b <= x)%Q.
Proof.
  induction l as [|c l IH]; intros a; simpl.
  - exists a. split; [done|]. split; [by left|]. split; [apply Qle_refl|]. intros x Hx. by apply elem_of_nil in Hx.
  - destruct (IH (Qmin_bool a c)) as (b & -> & A & B & C). eexists. split; [done|].
    assert (Hm : (Qmin_bool a c <= a)%Q /\ (Qmin_bool a c <= c)%Q /\ (Qmin_bool a c = a \/ Qmin_bool a c = c)).
    { unfold Qmin_bool. destruct (Qle_bool a c) eqn:E.
      - apply Qle_bool_iff in E. split; [apply Qle_refl|]. auto.
      - assert (~ (a <= c)%Q). { intros ?%Qle_bool_iff. congruence. }
        split; [apply Qlt_le_weak; by apply Qnot_le_lt|]. split; [apply Qle_refl|auto]. }
    destruct Hm as (M1 & M2 & M3). split; [|split].
    + destruct A as [A|A]; [|right; by right]. rewrite A. destruct M3 as [-> | -> ]; [by left|right; left].
    + by eapply Qle_trans.
    + intros x Hx. apply elem_of_cons in Hx as [-> |Hx]; [by eapply Qle_trans|by apply C].
Qed.

Lemma quot2_mono a b : a <= b -> a ÷ 2 <= b ÷ 2.
Proof. intros. apply Z.quot_le_mono; lia. Qed.

Section choose.
  Variable tan : Q -> Q.
  Variable faces : list aface.
  Variable middle : bool.
  Variables (step threshold : Z) (Hstep : 0 < step).
  Variables (L : list Z) (top low : Z).
  Hypothesis HL : forall i x, L !! i = Some x <-> x = top - Z.of_nat i * step /\ 0 < x /\ low <= x.
  Variable mn : Z.
  Hypothesis Hmn : mn ∈ L.
  Hypothesis Hmn_le : forall x, x ∈ L -> mn <= x.

  Definition inrange (z h : Z) (f : aface) : Prop := af_min f <= upper_bound middle z h /\ z <= af_max f.
  Definition exceeded (prev h : Z) : Prop := h < prev /\ step < prev - h.

  Lemma upper_mono z a b : a <= b -> upper_bound middle z a <= upper_bound middle z b.
  Proof. intros. unfold upper_bound. destruct middle; [|lia]. pose proof (quot2_mono a b). lia. Qed.

  Lemma choose_spec z prev : forall hs i toi, hs = drop i L ->
    (forall j x, i = S j -> L !! j = Some x ->
       (forall f, f ∈ toi <-> f ∈ faces /\ inrange z x f) /\ ~ exceeded prev x) ->
    (i < length L)%nat ->
    match choose_height tan faces middle step threshold top mn z prev toi hs with
    | Some h => h ∈ L /\ (h - prev <= step \/ h = mn) /\
        (exceeded prev h -> h = top \/ prev - h <= 2 * step) /\
        (h = mn \/ exceeded prev h \/
         exists f, f ∈ faces /\ inrange z h f /\ slope_allows tan threshold h (af_slope f) = true /\
           forall g, g ∈ faces -> inrange z h g -> (af_slope f <= af_slope g)%Q)
    | None => forall f, f ∈ faces -> ~ inrange z mn f
    end.
  Proof.
    induction hs as [|h hs IH]; intros i toi Hhs Hprev Hi.
    { apply (f_equal length) in Hhs. rewrite drop_length in Hhs. simpl in Hhs. lia. }
    assert (Hh : L !! i = Some h).
    { rewrite <- (Nat.add_0_r i), <- lookup_drop, <- Hhs. done. }
    assert (Hhs' : hs = drop (S i) L).
    { replace (S i) with (i + 1)%nat by lia. by rewrite <- drop_drop, <- Hhs. }
    pose proof (proj1 (HL i h) Hh) as (Eh & Hh0 & Hhl).
    cbn [choose_height].
    set (toi' := if h =? top then _ else _).
    assert (Ht : forall f, f ∈ toi' <-> f ∈ faces /\ inrange z h f).
    { intros f. subst toi'. destruct (Z.eqb_spec h top) as [E|E].
      - rewrite elem_of_list_filter. unfold inrange. tauto.
      - destruct i as [|j]; [exfalso; lia|].
        destruct (L !! j) as [x|] eqn:Ej; [|apply lookup_ge_None in Ej; lia].
        destruct (Hprev j x eq_refl Ej) as [Hin _]. rewrite elem_of_list_filter, Hin.
        pose proof (proj1 (HL j x) Ej) as (Ex & ? & ?). unfold inrange.
        pose proof (upper_mono z h x). split.
        + intros (? & ? & ? & ?). auto.
        + intros (? & ? & ?). repeat split; try done. assert (upper_bound middle z h <= upper_bound middle z x) by (apply upper_mono; lia). lia. }
    clearbody toi'. destruct toi' as [|f fs].
    { intros f Hf Hin. apply (not_elem_of_nil f). apply Ht. split; [done|].
      destruct Hin as [H1 H2]. split; [|done].
      assert (mn <= h) by (apply Hmn_le; by eapply elem_of_list_lookup_2).
      pose proof (upper_mono z mn h). lia. }
    set (slope := fold_left _ _ _).
    assert (Hslope : exists g, g ∈ faces /\ inrange z h g /\ af_slope g = slope /\
       forall g', g' ∈ faces -> inrange z h g' -> (af_slope g <= af_slope g')%Q).
    { destruct (fold_Qmin_spec (map af_slope fs) (af_slope f)) as (b & Eb & Hb & Hbf & Hbl). fold slope in Eb.
      assert (Hg : exists g, g ∈ f :: fs /\ af_slope g = b).
      { destruct Hb as [-> |Hb]; [exists f; split; [left|done]|].
        apply elem_of_list_fmap in Hb as (g & -> & Hg). exists g. split; [by right|done]. }
      destruct Hg as (g & Hg & Eg). exists g. apply Ht in Hg as [Hg1 Hg2].
      do 2 (split; [done|]). split; [congruence|]. intros g' Hg' Hr.
      assert (g' ∈ f :: fs) as Hin by (by apply Ht). rewrite Eg.
      apply elem_of_cons in Hin as [-> |Hin]; [done|]. apply Hbl. apply elem_of_list_fmap. eauto. }
    clearbody slope.
    assert (Hrec : ~ exceeded prev h -> h <> mn ->
      match choose_height tan faces middle step threshold top mn z prev (f :: fs) hs with
      | Some h => h ∈ L /\ (h - prev <= step \/ h = mn) /\ (exceeded prev h -> h = top \/ prev - h <= 2 * step) /\
        (h = mn \/ exceeded prev h \/ exists f, f ∈ faces /\ inrange z h f /\ slope_allows tan threshold h (af_slope f) = true /\
           forall g, g ∈ faces -> inrange z h g -> (af_slope f <= af_slope g)%Q)
      | None => forall f, f ∈ faces -> ~ inrange z mn f end).
    { intros Hne Hm. apply (IH (S i)); [done| |].
      - intros j x [= <-] Hx. rewrite Hh in Hx. injection Hx as <-. split; [apply Ht|done].
      - apply elem_of_list_lookup in Hmn as [j Hj]. pose proof (proj1 (HL j mn) Hj) as (Ej & _ & _).
        pose proof (Hmn_le h ltac:(by eapply elem_of_list_lookup_2)).
        pose proof (lookup_lt_Some _ _ _ Hj). destruct (decide (j = i)) as [->|]; [lia|].
        assert (Z.of_nat i < Z.of_nat j) by nia. lia. }
    assert (Hex : (h <? prev) && (step <? prev - h) = true <-> exceeded prev h).
    { unfold exceeded. rewrite andb_true_iff, !Z.ltb_lt. tauto. }
    destruct ((h <? prev) && (step <? prev - h)) eqn:Ee; simpl.
    - (* exceeded *) rewrite orb_true_r. assert (Hexc : exceeded prev h) by (by apply Hex).
      split; [by eapply elem_of_list_lookup_2|]. unfold exceeded in *. split; [lia|]. split.
      + intros _. destruct i as [|j]; [left; lia|]. right.
        destruct (L !! j) as [x|] eqn:Ej; [|apply lookup_ge_None in Ej; lia].
        destruct (Hprev j x eq_refl Ej) as [_ Hnx]. pose proof (proj1 (HL j x) Ej) as (Ex & ? & ?). lia.
      + right; left. done.
    - assert (Hnex : ~ exceeded prev h) by (rewrite <- Hex; done).
      destruct (Z.ltb_spec step (h - prev)) as [A|A]; destruct (Z.ltb_spec mn h) as [B|B]; simpl.
      + apply Hrec; [done|lia].
      + assert (h = mn) by (pose proof (Hmn_le h ltac:(by eapply elem_of_list_lookup_2)); lia).
        replace (h =? mn) with true by (symmetry; by apply Z.eqb_eq). rewrite orb_true_r. simpl.
        split; [by eapply elem_of_list_lookup_2|]. split; [by right|]. split; [done|]. by left.
      + rewrite orb_false_r. destruct (slope_allows tan threshold h slope) eqn:Es; simpl.
        * split; [by eapply elem_of_list_lookup_2|]. split; [by left|]. split; [done|]. right; right.
          destruct Hslope as (g & ? & ? & <- & ?). exists g. done.
        * destruct (Z.eqb_spec h mn); [lia|]. simpl. by apply Hrec.
      + assert (h = mn) by (pose proof (Hmn_le h ltac:(by eapply elem_of_list_lookup_2)); lia).
        replace (h =? mn) with true by (symmetry; by apply Z.eqb_eq). rewrite orb_true_r. simpl.
        split; [by eapply elem_of_list_lookup_2|]. split; [by right|]. split; [done|]. by left.
  Qed.
End choose.

Section layers.
  Variable tan : Q -> Q.
  Variable faces : list aface.
  Variable middle : bool.
  Variables (step threshold : Z).
  Variables (L : list Z) (top mn mx last_ : Z).
  Notation loop := (layers_loop tan faces middle step threshold L top mn).

  Lemma layers_loop_mono : forall fuel fuel' n z prev ls, (fuel <= fuel')%nat ->
    loop fuel mx last_ n z prev = Ok ls -> loop fuel' mx last_ n z prev = Ok ls.
  Proof.
    induction fuel as [|fuel IH]; intros fuel' n z prev ls Hle; destruct fuel' as [|fuel']; try lia; simpl;
      destruct ((z <=? mx) || (n <? 2)%nat); try done.
    intros (ls' & H1 & H2)%rbind_ok. erewrite IH by (try eassumption; lia). done.
  Qed.

  (** the height chosen for the layer starting at [z] on top of a layer of height [prev] *)
  Definition chosen (z prev : Z) : Z :=
    match choose_height tan faces middle step threshold top mn z prev [] L with Some h => h | None => last_ end.

  Lemma layers_loop_spec : (forall z prev, 0 < chosen z prev) -> forall fuel n z prev, (1 <= n)%nat ->
    (Z.to_nat (mx - z + 1) + (2 - n) < fuel)%nat ->
    exists ls, loop fuel mx last_ n z prev = Ok ls /\
      (n + length ls >= 2)%nat /\
      (forall i h' z', ls !! i = Some (h', z') ->
         exists h z0, ((prev, z) :: ls) !! i = Some (h, z0) /\ h' = chosen z0 h /\ z' = z0 + h') /\
      (exists h z', last ((prev, z) :: ls) = Some (h, z') /\ mx < z') /\
      (forall i h z', ((prev, z) :: ls) !! i = Some (h, z') -> (i < length ls)%nat -> z' <= mx \/ (n + i < 2)%nat).
  Proof.
    intros Hpos. induction fuel as [|fuel IH]; intros n z prev Hn Hf; [lia|].
    simpl. destruct ((z <=? mx) || (n <? 2)%nat) eqn:E.
    - fold (chosen z prev). pose proof (Hpos z prev).
      destruct (IH (S n) (z + chosen z prev) (chosen z prev)) as (ls & -> & Hlen & Hsp & Hlast & Hin); [lia| |].
      { apply orb_true_iff in E as [E|E]; [apply Z.leb_le in E|apply Nat.ltb_lt in E]; lia. }
      simpl. eexists. split; [done|]. split; [simpl; lia|]. split; [|split].
      + intros [|i] h' z'; simpl.
        * intros [= <- <-]. eauto.
        * intros Hi. apply Hsp in Hi. done.
      + done.
      + intros [|i] h z'; simpl.
        * intros [= <- <-] _. apply orb_true_iff in E as [E|E]; [apply Z.leb_le in E|apply Nat.ltb_lt in E]; lia.
        * intros Hi Hlt. destruct (Hin i h z' Hi); lia.
    - apply orb_false_iff in E as [E1 E2]. apply Z.leb_gt in E1. apply Nat.ltb_ge in E2.
      exists []. split; [done|]. split; [simpl; lia|]. split; [done|]. split; [|simpl; lia].
      simpl. eauto.
  Qed.
End layers.

Lemma last_elem (a0 : Z) rest : List.last (a0 :: rest) a0 ∈ a0 :: rest.
Proof.
  revert a0. assert (forall d a0, List.last (a0 :: rest) d ∈ a0 :: rest) as H; [|intros; apply H].
  intros d. induction rest as [|b rest IH]; intros a0; simpl; [left|]. right. apply IH.
Qed.
Lemma last_lookup (l : list Z) d : l <> [] -> l !! (length l - 1)%nat = Some (List.last l d).
Proof.
  induction l as [|a [|b l] IH]; intros H; [done|done|].
  specialize (IH ltac:(done)). simpl length in *. cbn [List.last]. cbn [List.last] in IH. rewrite <- IH. simpl. by rewrite Nat.sub_0_r.
Qed.
