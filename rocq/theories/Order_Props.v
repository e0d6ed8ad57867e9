(** C13 (greedy nearest ordering) and C15 (best element finder). *)
From Coq Require Import ZArith QArith Lia Lqa Permutation.
From stdpp Require Import list.
From Verif Require Import Common Geo_Model Geo_Spec Order_Model.
Open Scope Z_scope.

(** vSize is the distance rounded to the nearest integer: within one half of the square root. *)
Lemma vSize_nearest p : 0 <= vSize p /\
  (0 < vSize p -> (2 * vSize p - 1) * (2 * vSize p - 1) < 4 * vSize2 p) /\ 4 * vSize2 p < (2 * vSize p + 1) * (2 * vSize p + 1).
Proof.
  unfold vSize. assert (Hn : 0 <= vSize2 p) by (unfold vSize2; nia). set (n := vSize2 p) in *.
  pose proof (Z.sqrt_spec n Hn) as [S1 S2]. pose proof (Z.sqrt_nonneg n). set (s := Z.sqrt n) in *. clearbody s n.
  destruct (Z.leb_spec n (s * s + s)); repeat split; intros; nia.
Qed.

(** *** C13 *)
Lemma closest_item_spec items last idxs : forall k best,
  Forall (fun i => (i < length items)%nat) idxs ->
  exists d r, closest_item items last idxs k best = Ok (d, r) /\
    ((d, r) = best \/ exists pos item p, r = Some (item, (k + pos)%nat) /\ idxs !! pos = Some item /\ items !! item = Some p /\
        d = vSize (psub p last) /\ d < best.1 /\
        forall pos' item' p', (pos' < pos)%nat -> idxs !! pos' = Some item' -> items !! item' = Some p' -> d < vSize (psub p' last)) /\
    d <= best.1 /\ forall item' p', item' ∈ idxs -> items !! item' = Some p' -> d <= vSize (psub p' last).
Proof.
  induction idxs as [|i idxs IH]; intros k best HF; simpl.
  - destruct best as [d r]. exists d, r. split; [done|]. split; [by left|]. split; [simpl; lia|]. intros item' p' He. by apply elem_of_nil in He.
  - inversion_clear HF as [|? ? Hi HF']. destruct (lookup_lt_is_Some_2 items i Hi) as [p Hp]. rewrite Hp. cbn [of_opt rbind].
    set (best' := if vSize (psub p last) <? best.1 then (vSize (psub p last), Some (i, k)) else best).
    destruct (IH (S k) best' HF') as (d & r & -> & Hr & Hle & Hall). exists d, r. split; [done|].
    assert (Hb' : best'.1 = Z.min (vSize (psub p last)) best.1).
    { unfold best'. destruct (Z.ltb_spec (vSize (psub p last)) best.1); simpl; lia. }
    split; [|split; [lia|]].
    + destruct Hr as [Hr|(pos & item & q & -> & Hpos & Hq & Hd & Hlt & Hfst)].
      * unfold best' in Hr. destruct (Z.ltb_spec (vSize (psub p last)) best.1) as [Hlt|Hge].
        -- injection Hr as -> ->. right. exists 0%nat, i, p. split; [f_equal; f_equal; lia|]. do 4 (split; [done|]). intros; lia.
        -- by left.
      * right. exists (S pos), item, q. split; [f_equal; f_equal; lia|]. do 3 (split; [done|]). split; [lia|].
        intros [|pos'] item' p' Hp' Hl Hi'; simpl in Hl; [injection Hl as <-; rewrite Hp in Hi'; injection Hi' as <-; lia|].
        eapply Hfst; [|done|done]. lia.
    + intros item' p' He Hi'. apply elem_of_cons in He as [-> |He]; [rewrite Hp in Hi'; injection Hi' as <-; lia|by eapply Hall].
Qed.

(** The position before the k-th visit. *)
Definition position_before (items : list pt) (start : pt) (order : list nat) (k : nat) : option pt :=
  match k with O => Some start | S k' => match order !! k' with Some i => items !! i | None => None end end.

Definition far (items : list pt) (start : pt) : Prop :=
  forall p q, p ∈ start :: items -> q ∈ items -> vSize (psub q p) < POINT_MAX.

(** Every item is visited exactly once; each visit goes to an unvisited item of least (rounded)
    distance to the previous position, the first such in the order of the input. *)
Theorem C13_greedy_nearest (items : list pt) (start : pt) : far items start ->
  exists order, optimize items start = Ok order /\ order ≡ₚ seq 0 (length items) /\
    forall k i, order !! k = Some i -> exists cur pi, position_before items start order k = Some cur /\ items !! i = Some pi /\
      forall j pj, j ∈ drop (S k) order -> items !! j = Some pj ->
        vSize (psub pi cur) < vSize (psub pj cur) \/ (vSize (psub pi cur) = vSize (psub pj cur) /\ (i < j)%nat).
Proof.
  intros Hfar. unfold optimize.
  assert (Hg : forall fuel idxs last, (length idxs <= fuel)%nat -> (last ∈ start :: items) ->
     Forall (fun i => (i < length items)%nat) idxs ->
     (forall a b x y, (a < b)%nat -> idxs !! a = Some x -> idxs !! b = Some y -> (x < y)%nat) ->
     exists order, order_loop fuel items last idxs = Ok order /\ order ≡ₚ idxs /\
      forall k i, order !! k = Some i -> exists cur pi, position_before items last order k = Some cur /\ items !! i = Some pi /\
      forall j pj, j ∈ drop (S k) order -> items !! j = Some pj ->
        vSize (psub pi cur) < vSize (psub pj cur) \/ (vSize (psub pi cur) = vSize (psub pj cur) /\ (i < j)%nat)).
  { induction fuel as [|fuel IH]; intros idxs last Hlen Hlast HF Hsort.
    - destruct idxs; [|simpl in Hlen; lia]. exists []. split; [done|]. split; [done|]. intros k i Hk. by rewrite lookup_nil in Hk.
    - destruct (decide (idxs = [])) as [-> |Hne].
      { exists []. split; [done|]. split; [done|]. intros k i Hk. by rewrite lookup_nil in Hk. }
      destruct (closest_item_spec items last idxs 0 (POINT_MAX, None) HF) as (d & r & Ec & Hr & _ & Hall).
      assert (Hr' : exists pos item p, r = Some (item, pos) /\ idxs !! pos = Some item /\ items !! item = Some p /\ d = vSize (psub p last) /\
         forall pos' item' p', (pos' < pos)%nat -> idxs !! pos' = Some item' -> items !! item' = Some p' -> d < vSize (psub p' last)).
      { destruct Hr as [[= -> ->]|(pos & item & p & -> & Hp & Hi & Hd & Hlt & Hfst)]; [exfalso|exists pos, item, p; done].
        destruct idxs as [|x idxs]; [done|]. inversion_clear HF as [|? ? Hx _].
        destruct (lookup_lt_is_Some_2 items x Hx) as [p Hp]. pose proof (Hall x p ltac:(left) Hp).
        pose proof (Hfar last p Hlast ltac:(by eapply elem_of_list_lookup_2)). lia. }
      clear Hr. destruct Hr' as (pos & item & p & -> & Hpos & Hitem & Hd & Hfst).
      pose proof (delete_Permutation idxs pos item Hpos) as Hperm.
      destruct (IH (delete pos idxs) p) as (order & Eo & Hp' & Hgr).
      + apply Permutation_length in Hperm. simpl in Hperm. lia.
      + right. by eapply elem_of_list_lookup_2.
      + rewrite Hperm in HF. by inversion HF.
      + intros a b x y Hab Hx Hy.
        assert (Hx' : exists a', idxs !! a' = Some x /\ a' = (if decide (a < pos)%nat then a else S a)).
        { destruct (decide (a < pos)%nat); [rewrite lookup_delete_lt in Hx by done|rewrite lookup_delete_ge in Hx by lia]; eauto. }
        assert (Hy' : exists b', idxs !! b' = Some y /\ b' = (if decide (b < pos)%nat then b else S b)).
        { destruct (decide (b < pos)%nat); [rewrite lookup_delete_lt in Hy by done|rewrite lookup_delete_ge in Hy by lia]; eauto. }
        destruct Hx' as (a' & Hx' & Ea), Hy' as (b' & Hy' & Eb). apply (Hsort a' b'); [|done|done].
        destruct (decide (a < pos)%nat), (decide (b < pos)%nat); lia.
      + exists (item :: order). split; [|split].
        * destruct idxs as [|x idxs]; [done|]. cbn [order_loop]. rewrite Ec. cbn [rbind snd]. rewrite Hitem. cbn [of_opt rbind]. by rewrite Eo.
        * by rewrite Hperm, Hp'.
        * intros [|k] i Hk; simpl in Hk.
          -- injection Hk as <-. exists last, p. split; [done|]. split; [done|]. intros j pj Hj Hpj. simpl in Hj. rewrite drop_0 in Hj.
             rewrite Hp' in Hj. apply elem_of_list_lookup in Hj as [b Hb].
             assert (Hb' : exists b', idxs !! b' = Some j /\ b' <> pos).
             { destruct (decide (b < pos)%nat); [rewrite lookup_delete_lt in Hb by done; exists b; split; [done|lia]|
                 rewrite lookup_delete_ge in Hb by lia; exists (S b); split; [done|lia]]. }
             destruct Hb' as (b' & Hb' & Hbp). pose proof (Hall j pj ltac:(by eapply elem_of_list_lookup_2) Hpj).
             destruct (decide (b' < pos)%nat) as [Hlt|Hge]; [left; rewrite <- Hd; by eapply Hfst|].
             destruct (Z.eq_dec d (vSize (psub pj last))) as [He|He]; [right|left; lia]. split; [lia|].
             apply (Hsort pos b'); [lia|done|done].
          -- destruct (Hgr k i Hk) as (cur & pi & Hc & Hpi & Hmin). exists cur, pi. split; [|done].
             destruct k as [|k]; simpl in *; [congruence|done]. }
  apply (Hg (length items) (seq 0 (length items)) start); [by rewrite seq_length|left| |].
  - apply Forall_forall. intros i Hi. apply elem_of_seq in Hi. lia.
  - intros a b x y Hab Hx Hy. apply lookup_seq in Hx, Hy. lia.
Qed.
Print Assumptions C13_greedy_nearest.

Example C13_nonvacuous : optimize [(100, 0); (1, 1); (50, 0); (-3, 0)] (0, 0) = Ok [1; 3; 2; 0]%nat /\ far [(100, 0); (1, 1); (50, 0); (-3, 0)] (0, 0).
Proof.
  split; [reflexivity|]. intros p q Hp Hq.
  repeat (apply elem_of_cons in Hp as [-> |Hp]); [..|by apply elem_of_nil in Hp];
    (repeat (apply elem_of_cons in Hq as [-> |Hq]); [..|by apply elem_of_nil in Hq]); vm_compute; done.
Qed.

(** *** C15 *)
Lemma dbl_epsilon_pos : (0 < dbl_epsilon)%Q. Proof. reflexivity. Qed.
Definition delta (p : pass) : Q := (threshold p + dbl_epsilon)%Q.

(** What the choice [x] among the candidates [S] guarantees.  [slack] multiplies the thresholds. *)
Fixpoint acceptable (slack : Q) (passes : list pass) (S : nat -> Prop) (x : nat) : Prop :=
  S x /\
  match passes with
  | [] => True
  | [p] => forall y, S y -> (pass_score p y <= pass_score p x)%Q
  | p :: passes' =>
      (forall y, S y -> (pass_score p y <= pass_score p x + slack * delta p)%Q) /\
      exists S' : nat -> Prop,
        (forall y, S' y -> S y /\ forall z, S z -> (pass_score p z <= pass_score p y + slack * delta p)%Q) /\
        (forall y, S y -> (forall z, S z -> (pass_score p z <= pass_score p y + delta p)%Q) -> S' y) /\
        ((forall y, S' y <-> y = x) \/ acceptable slack passes' S' x)
  end.

Lemma find_best_spec l : forall k best,
  match find_best l k best with
  | None => best = None /\ l = []
  | Some (b, s) => (forall b' s', best = Some (b', s') -> (s' <= s)%Q) /\ (forall c, c ∈ l -> (c.2 <= s)%Q) /\
      (best = Some (b, s) \/ exists c, (k <= b)%nat /\ l !! (b - k)%nat = Some c /\ c.2 = s /\
         (forall b' s', best = Some (b', s') -> (s' < s)%Q) /\
         (forall j c', (j < b - k)%nat -> l !! j = Some c' -> (c'.2 < s)%Q))
  end.
Proof.
  induction l as [|c l IH]; intros k best; simpl.
  - destruct best as [[b s]|]; [|done]. split; [intros b' s' [= <- <-]; lra|]. split; [intros c Hc; by apply elem_of_nil in Hc|by left].
  - match goal with |- match find_best l (S k) ?bb with _ => _ end => set (best' := bb) end.
    assert (Hb' : exists b0 s0, best' = Some (b0, s0) /\ (c.2 <= s0)%Q /\ (forall b' s', best = Some (b', s') -> (s' <= s0)%Q) /\
       (best = best' \/ (b0 = k /\ s0 = c.2 /\ forall b' s', best = Some (b', s') -> (s' < s0)%Q))).
    { unfold best'. destruct best as [[b0 s0]|].
      - destruct (Qlt_le_dec s0 c.2).
        + exists k, c.2. split; [done|]. split; [lra|]. split; [intros b' s' [= <- <-]; lra|]. right. split; [done|]. split; [done|].
          intros b' s' [= <- <-]; lra.
        + exists b0, s0. split; [done|]. split; [lra|]. split; [intros b' s' [= <- <-]; lra|]. by left.
      - exists k, c.2. split; [done|]. split; [lra|]. split; [done|]. right. done. }
    destruct Hb' as (b0 & s0 & Eb & Hc0 & Hle0 & Hor). clearbody best'. subst best'.
    specialize (IH (S k) (Some (b0, s0))). destruct (find_best l (S k) (Some (b0, s0))) as [[b s]|]; [|by destruct IH].
    destruct IH as (H1 & H2 & H3). specialize (H1 b0 s0 eq_refl).
    split; [intros b' s' E; specialize (Hle0 b' s' E); lra|].
    split; [intros c' Hc'; apply elem_of_cons in Hc' as [-> |Hc']; [lra|by apply H2]|].
    destruct H3 as [[= <- <-]|(c' & Hk & Hl & Hs & Hlt & Hf)].
    + destruct Hor as [->|(-> & -> & Hst)]; [by left|right]. exists c. rewrite Nat.sub_diag. split; [done|]. split; [done|]. split; [done|].
      split; [done|]. intros; lia.
    + right. exists c'. specialize (Hlt b0 s0 eq_refl). split; [lia|]. replace (b - k)%nat with (S (b - S k)) by lia. split; [done|]. split; [done|].
      split; [intros b' s' E; specialize (Hle0 b' s' E); lra|].
      intros [|j] c0 Hj Hl0; simpl in Hl0; [|apply (Hf j); [lia|done]]. injection Hl0 as <-. lra.
Qed.

Lemma remove_if_spec (d : Q) (b : nat) (cb : candidate) (arr0 : list candidate) :
  arr0 !! b = Some cb -> (forall c, c ∈ arr0 -> (c.2 <= cb.2)%Q) -> (0 <= d)%Q ->
  forall n i w arr, (n + i = length arr0)%nat -> (w <= i)%nat -> length arr = length arr0 ->
  drop i arr = drop i arr0 ->
  (forall c, c ∈ take w arr -> c ∈ take i arr0 /\ (cb.2 - c.2 <= 2 * d)%Q) ->
  (forall c, c ∈ take i arr0 -> (cb.2 - c.2 <= d)%Q -> c ∈ take w arr) ->
  ((w <= b)%nat -> arr !! b = Some cb) ->
  (forall c, arr !! b = Some c -> (cb.2 - c.2 <= d)%Q /\ (c.2 <= cb.2)%Q) ->
  exists kept, remove_if_loop n d b i w arr = Ok kept /\
    (forall c, c ∈ kept -> c ∈ arr0 /\ (cb.2 - c.2 <= 2 * d)%Q) /\
    (forall c, c ∈ arr0 -> (cb.2 - c.2 <= d)%Q -> c ∈ kept) .
Proof.
  intros Hb Hmax Hd. induction n as [|n IH]; intros i w arr Hn Hw Hlen Hdrop Hsub Hsup Hbw Hbs.
  - simpl in *. exists (take w arr). split; [done|]. rewrite (take_ge arr0 i) in Hsub, Hsup by lia. done.
  - cbn [remove_if_loop]. destruct (lookup_lt_is_Some_2 arr i ltac:(lia)) as [c Hc].
    assert (Hc0 : arr0 !! i = Some c).
    { rewrite <- (Nat.add_0_r i) in Hc. rewrite <- lookup_drop in Hc. rewrite Hdrop, lookup_drop in Hc. by rewrite Nat.add_0_r in Hc. }
    assert (Hbl : (b < length arr)%nat) by (rewrite Hlen; by eapply lookup_lt_Some).
    destruct (lookup_lt_is_Some_2 arr b Hbl) as [best Hbest]. rewrite Hc, Hbest. cbn [of_opt rbind].
    destruct (Hbs best Hbest) as [Hb1 Hb2].
    assert (Htake : take (S i) arr0 = take i arr0 ++ [c]) by (by apply take_S_r).
    assert (Hdrop' : drop (S i) arr = drop (S i) arr0).
    { replace (S i) with (i + 1)%nat by lia. by rewrite <- !drop_drop, Hdrop. }
    destruct (Qlt_le_dec d (best.2 - c.2)) as [Hrm|Hkeep].
    + apply IH; try done; try lia.
      * intros c' Hc'. destruct (Hsub c' Hc') as [? ?]. rewrite Htake. split; [set_solver|done].
      * intros c' Hc' Hclose. rewrite Htake in Hc'. apply elem_of_app in Hc' as [Hc'|Hc']; [by apply Hsup|].
        apply elem_of_list_singleton in Hc' as ->. exfalso. lra.
    + assert (Htk : take (S w) (<[w:=c]> arr) = take w arr ++ [c]).
      { rewrite (take_S_r _ _ c); [|apply list_lookup_insert; lia]. by rewrite take_insert by lia. }
      assert (Hcbc : w = b -> best = cb). { intros ->. rewrite (Hbw ltac:(lia)) in Hbest. congruence. }
      apply IH; try done; try lia.
      * by rewrite insert_length.
      * rewrite drop_insert_gt by lia. done.
      * rewrite Htk, Htake. intros c' Hc'. apply elem_of_app in Hc' as [Hc'|Hc'].
        -- destruct (Hsub c' Hc') as [? ?]. split; [set_solver|done].
        -- apply elem_of_list_singleton in Hc' as ->. split; [set_solver|]. lra.
      * rewrite Htk, Htake. intros c' Hc' Hclose. apply elem_of_app in Hc' as [Hc'|Hc']; apply elem_of_app; [left; by apply Hsup|by right].
      * intros Hwb. rewrite list_lookup_insert_ne by lia. apply Hbw. lia.
      * intros c' Hc'. destruct (decide (w = b)) as [-> |Hne].
        -- rewrite list_lookup_insert in Hc' by lia. injection Hc' as <-. rewrite (Hcbc eq_refl) in Hkeep.
           split; [done|]. apply Hmax. by eapply elem_of_list_lookup_2.
        -- rewrite list_lookup_insert_ne in Hc' by done. by apply Hbs.
Qed.

(** With at least one candidate, the result is a candidate; the last pass (or only pass) picks a best
    one, and every earlier pass keeps all candidates within its threshold of the best and only
    candidates within twice its threshold. *)
Theorem C15_best_element (passes : list pass) (count : nat) :
  (0 < count)%nat -> Forall (fun p => 0 <= threshold p)%Q passes ->
  exists x, findBestElement passes count = Ok (Some x) /\ acceptable 2 passes (fun y => (y < count)%nat) x.
Proof.
  intros Hc HF. unfold findBestElement.
  assert (Hg : forall cands (S : nat -> Prop), cands <> [] -> (forall y, S y <-> y ∈ cands) ->
     exists x, run_passes passes cands = Ok (Some x) /\ acceptable 2 passes S x).
  { clear Hc. induction passes as [|p passes' IH]; intros cands S Hne HS.
    - destruct cands as [|x cands]; [done|]. exists x. split; [done|]. split; [|done]. apply HS. left.
    - inversion_clear HF as [|? ? Hthr HF']. cbn [run_passes].
      set (scored := map (fun i => (i, pass_score p i)) cands).
      pose proof (find_best_spec scored 0 None) as Hfb.
      destruct (find_best scored 0 None) as [[b s]|]; [|destruct Hfb as [_ Hfb]; by destruct cands].
      destruct Hfb as (_ & Hmax & [?|(c & _ & Hl & Hs & _ & Hfst)]); [done|]. rewrite Nat.sub_0_r in Hl.
      assert (Hsc : forall c, c ∈ scored <-> c.1 ∈ cands /\ c.2 = pass_score p c.1).
      { intros [i q]. unfold scored. rewrite elem_of_list_fmap. simpl. split.
        - by intros (i' & [= -> ->] & Hi').
        - intros [Hi ->]. exists i. done. }
      assert (Hcin : c ∈ scored) by (by eapply elem_of_list_lookup_2). apply Hsc in Hcin as [Hcin Hcs].
      assert (Hmax' : forall y, S y -> (pass_score p y <= pass_score p c.1)%Q).
      { intros y Hy. rewrite <- Hcs, Hs. apply (Hmax (y, pass_score p y)). apply Hsc. simpl. split; [by apply HS|done]. }
      destruct passes' as [|p' passes''].
      + rewrite Hl. cbn [of_opt rbind]. exists c.1. split; [done|]. split; [by apply HS|done].
      + assert (Hd0 : (0 <= delta p)%Q) by (pose proof dbl_epsilon_pos; unfold delta; lra).
        destruct (remove_if_spec (delta p) b c scored Hl) with (n := length scored) (i := 0%nat) (w := 0%nat) (arr := scored) as (kept & Ek & K1 & K2).
        * intros c' Hc'. rewrite Hs. by apply Hmax.
        * done.
        * lia.
        * lia.
        * done.
        * done.
        * intros c' Hc'. by apply elem_of_nil in Hc'.
        * intros c' Hc'. by apply elem_of_nil in Hc'.
        * done.
        * intros c' Hc'. rewrite Hl in Hc'. injection Hc' as <-. split; lra.
        * unfold delta in Ek. rewrite Ek. cbn [rbind].
          assert (HK1 : forall y, y ∈ map fst kept -> S y /\ forall z, S z -> (pass_score p z <= pass_score p y + 2 * delta p)%Q).
          { intros y Hy. apply elem_of_list_fmap in Hy as (c' & -> & Hc'). destruct (K1 c' Hc') as [Hin Hcl]. apply Hsc in Hin as [Hin Hsc'].
            split; [by apply HS|]. intros z Hz. specialize (Hmax' z Hz). rewrite Hcs, Hsc' in Hcl. lra. }
          assert (HK2 : forall y, S y -> (forall z, S z -> (pass_score p z <= pass_score p y + delta p)%Q) -> y ∈ map fst kept).
          { intros y Hy Hz. apply elem_of_list_fmap. exists (y, pass_score p y). split; [done|]. apply K2.
            - apply Hsc. simpl. split; [by apply HS|done].
            - simpl. specialize (Hz c.1 ltac:(by apply HS)). rewrite Hcs. lra. }
          assert (Hkne : c.1 ∈ map fst kept).
          { apply HK2; [by apply HS|]. intros z Hz. specialize (Hmax' z Hz). lra. }
          assert (Hfin : forall x, x ∈ map fst kept -> ((forall y, y ∈ map fst kept <-> y = x) \/ acceptable 2 (p' :: passes'') (fun y => y ∈ map fst kept) x) ->
             acceptable 2 (p :: p' :: passes'') S x).
          { intros x Hx Hor. destruct (HK1 x Hx) as [H1 H2]. split; [done|]. split; [done|].
            exists (fun y => y ∈ map fst kept). split; [done|]. split; [done|]. done. }
          destruct kept as [|k1 [|k2 kept]]; [by apply elem_of_nil in Hkne| |].
          -- exists k1.1. split; [done|]. apply Hfin; [left|]. left. intros y. simpl. rewrite elem_of_list_singleton. done.
          -- destruct (IH HF' (map fst (k1 :: k2 :: kept)) (fun y => y ∈ map fst (k1 :: k2 :: kept))) as (x & Ex & Hx); [done|done|].
             exists x. split; [exact Ex|]. apply Hfin; [|by right]. by destruct Hx. }
  apply Hg; [destruct count; [lia|done]|]. intros y. rewrite elem_of_seq. lia.
Qed.
Print Assumptions C15_best_element.

(** A single pass: the first candidate of maximal score. *)
Theorem C15_single_pass (p : pass) (count x : nat) :
  findBestElement [p] count = Ok (Some x) ->
  (x < count)%nat /\ (forall y, (y < count)%nat -> (pass_score p y <= pass_score p x)%Q) /\
  forall y, (y < x)%nat -> (pass_score p y < pass_score p x)%Q.
Proof.
  unfold findBestElement. cbn [run_passes]. set (scored := map _ _). pose proof (find_best_spec scored 0 None) as Hfb.
  destruct (find_best scored 0 None) as [[b s]|]; [|done].
  destruct Hfb as (_ & Hmax & [?|(c & _ & Hl & Hs & _ & Hfst)]); [done|]. rewrite Nat.sub_0_r in *. rewrite Hl. cbn [of_opt rbind].
  assert (Hlk : forall i c, scored !! i = Some c -> (i < count)%nat /\ c = (i, pass_score p i)).
  { intros i c' Hi. unfold scored in Hi. apply list_lookup_fmap_inv in Hi as (j & -> & Hj). apply lookup_seq in Hj as [-> Hlt]. done. }
  destruct (Hlk b c Hl) as [Hlt ->]. intros [= <-]. simpl in Hs. split; [done|]. split.
  - intros y Hy. simpl. rewrite Hs. apply (Hmax (y, pass_score p y)). apply elem_of_list_fmap. exists y. split; [done|]. apply elem_of_seq. lia.
  - intros y Hy. simpl. rewrite Hs. apply (Hfst y (y, pass_score p y)); [done|].
    unfold scored. rewrite list_lookup_fmap, lookup_seq_lt by lia. done.
Qed.
Print Assumptions C15_single_pass.

(** The full claim (within the threshold itself of the best) fails: std::remove_if overwrites the
    best candidate that its predicate compares with. *)
Definition bad_scores (i : nat) : Q := match i with 0%nat => 0 | 1%nat => 10 | 2%nat => 95 # 10 | _ => 86 # 10 end.
Definition second_scores (i : nat) : Q := match i with 3%nat => 1 | _ => 0 end.
Theorem C15_threshold_refuted :
  exists passes count x y, findBestElement passes count = Ok (Some x) /\ (y < count)%nat /\
    exists p ps, passes = p :: ps /\ (threshold p == 1)%Q /\ (pass_score p x + threshold p + (3 # 10) < pass_score p y)%Q.
Proof.
  exists [Pass [(bad_scores, 1%Q)] 1; Pass [(second_scores, 1%Q)] 0], 4%nat, 3%nat, 1%nat.
  split; [vm_compute; done|]. split; [lia|]. eexists _, _. split; [done|]. split; [done|]. vm_compute. done.
Qed.
Print Assumptions C15_threshold_refuted.

(** No candidates, no result. *)
Theorem C15_no_candidates (passes : list pass) : findBestElement passes 0 = Ok None.
Proof. by destruct passes. Qed.

(** The score of a candidate is the sum of its scores on the criteria, each times the weight of the criterion. *)
Definition weighted_sum (l : list ((nat -> Q) * Q)) (i : nat) : Q := foldr (fun c s => c.2 * c.1 i + s)%Q 0%Q l.
Theorem C15_score_weighted (p : pass) (i : nat) : (pass_score p i == weighted_sum (criteria p) i)%Q.
Proof.
  unfold pass_score. assert (H : forall l a, (fold_left (fun acc c => acc + c.1 i * c.2) l a == a + weighted_sum l i)%Q).
  { induction l as [|c l IH]; intros a; cbn [fold_left weighted_sum foldr]; [ring|]. rewrite IH. unfold weighted_sum. ring. }
  rewrite H. ring.
Qed.
Theorem C15_single_pass_weighted (p : pass) (count x : nat) :
  findBestElement [p] count = Ok (Some x) ->
  (x < count)%nat /\ (forall y, (y < count)%nat -> (weighted_sum (criteria p) y <= weighted_sum (criteria p) x)%Q) /\
  forall y, (y < x)%nat -> (weighted_sum (criteria p) y < weighted_sum (criteria p) x)%Q.
Proof.
  intros H. destruct (C15_single_pass p count x H) as (A & B & C). split; [done|]. setoid_rewrite C15_score_weighted in B.
  setoid_rewrite C15_score_weighted in C. done.
Qed.
Print Assumptions C15_single_pass_weighted.

Example C15_nonvacuous : findBestElement [Pass [(bad_scores, 1%Q)] (6 # 10); Pass [(second_scores, 1%Q); (fun i => if Nat.eqb i 2 then 1 else 0, 2)%Q] 0] 4 = Ok (Some 2%nat).
Proof. vm_compute. done. Qed.
