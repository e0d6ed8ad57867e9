(** C43: every item is produced and consumed once, in order, one at a time, in every schedule. *)
From Coq Require Import ZArith Lia.
From stdpp Require Import list list_numbers.
From Verif Require Import Common Pipe_Model Pipe_Spec.
Local Open Scope Z_scope.

Section pipe.
Context {V : Type} (producer : Z -> V) (first last max_pending : Z).
Hypothesis Hmax : 0 < max_pending.
Hypothesis Hfirst : - max_pending <= first.

Local Notation slot := (slot max_pending).
Local Notation step := (step producer last max_pending).
Local Notation run := (run producer last max_pending).
Local Notation init := (init first last max_pending).
Local Notation consumed_in_order := (consumed_in_order producer first).

Definition sidx (i : Z) : nat := Z.to_nat ((i + max_pending) mod max_pending).

Lemma slot_some i : first <= i -> slot i = Some (sidx i).
Proof.
  intros H. unfold Pipe_Model.slot, sidx. rewrite Z.rem_mod_nonneg by lia.
  destruct (Z.ltb_spec ((i + max_pending) mod max_pending) 0) as [L|L]; [|done].
  pose proof (Z.mod_pos_bound (i + max_pending) max_pending Hmax). lia.
Qed.

Lemma sidx_lt i : (sidx i < Z.to_nat max_pending)%nat.
Proof. unfold sidx. pose proof (Z.mod_pos_bound (i + max_pending) max_pending Hmax). lia. Qed.

Lemma sidx_inj r i j : r <= i < r + max_pending -> r <= j < r + max_pending -> sidx i = sidx j -> i = j.
Proof.
  unfold sidx. intros Hi Hj E.
  pose proof (Z.mod_pos_bound (i + max_pending) max_pending Hmax).
  pose proof (Z.mod_pos_bound (j + max_pending) max_pending Hmax).
  assert (E' : (i + max_pending) mod max_pending = (j + max_pending) mod max_pending) by lia.
  pose proof (Z.div_mod (i + max_pending) max_pending). pose proof (Z.div_mod (j + max_pending) max_pending).
  assert (i - j = max_pending * ((i + max_pending) / max_pending - (j + max_pending) / max_pending)) by lia.
  assert ((i + max_pending) / max_pending - (j + max_pending) / max_pending = 0) by nia. lia.
Qed.

Lemma sidx_wrap r : sidx (r + max_pending) = sidx r.
Proof.
  unfold sidx. f_equal. rewrite <- (Z.mul_1_l max_pending) at 2.
  rewrite (Z.add_comm (r + max_pending)), Z.add_comm.
  replace (r + max_pending + 1 * max_pending) with ((r + max_pending) + 1 * max_pending) by lia.
  by rewrite Z.mod_add by lia.
Qed.

Definition consuming (w : wst) : bool := match w with AtConsume | InConsumer => true | _ => false end.
Definition exited (w : wst) : bool := match w with Exited => true | _ => false end.

Fixpoint live (ws : list wst) : nat := match ws with [] => 0 | w :: ws => (if exited w then 0 else 1) + live ws end%nat.

(** What of a worker's place matters to the ring. *)
Definition view (w : wst) : wst :=
  match w with Producing i => Producing i | AtConsume => AtConsume | InConsumer => InConsumer | _ => AtWait end.
Definition views (s : pst V) : list wst := view <$> workers s.

Record Core (vs : list wst) (q : list (option V)) (wr rd wt : Z) (lg : list (event V)) : Prop := {
  i_window : first <= rd /\ rd <= wr /\ wr <= last /\ wr - rd <= max_pending;
  i_len : length q = Z.to_nat max_pending;
  i_queue : forall i, rd <= i < rd + max_pending -> q !! sidx i =
     Some (if decide (i < wr /\ Producing i ∉ vs) then Some (producer i) else None);
  i_prod : forall t i, vs !! t = Some (Producing i) -> rd <= i < wr;
  i_uniq : forall t t' i, vs !! t = Some (Producing i) -> vs !! t' = Some (Producing i) -> t = t';
  i_one : forall t t' w w', vs !! t = Some w -> vs !! t' = Some w' ->
     consuming w = true -> consuming w' = true -> t = t';
  i_none : (forall t w, vs !! t = Some w -> consuming w = false) ->
     wt = rd /\ (rd < wr -> Producing rd ∈ vs);
  i_some : forall t w, vs !! t = Some w -> consuming w = true -> wt <= rd /\ wt < wr /\ Producing wt ∉ vs;
  i_in : InConsumer ∈ vs -> rd < wr /\ Producing rd ∉ vs;
  i_log : lg = consumed_in_order (rd - first) ++ (if decide (InConsumer ∈ vs) then [CBegin (producer rd)] else []);
}.
Definition core (s : pst V) := Core (views s) (queue s) (write_idx s) (read_idx s) (wait_idx s) (log s).

Record Inv (s : pst V) : Prop := {
  i_core : core s;
  i_count : count s = live (workers s);
  i_exit : Exited ∈ workers s -> write_idx s = last /\ Asleep ∉ workers s;
  i_full : (forall w, w ∈ workers s -> w = Asleep) -> write_idx s - read_idx s >= max_pending;
}.

Lemma views_upd s t w : views (set_workers s (<[t := w]> (workers s))) = <[t := view w]> (views s).
Proof. unfold views. cbn. by rewrite list_fmap_insert. Qed.

Lemma view_same (ws : list wst) t w w' : ws !! t = Some w -> view w = view w' -> view <$> <[t := w']> ws = view <$> ws.
Proof.
  intros H E. rewrite list_fmap_insert, <- E. apply list_insert_id. by rewrite list_lookup_fmap, H.
Qed.

Lemma view_notify_all ws : view <$> notify_all ws = view <$> ws.
Proof. unfold notify_all. induction ws as [|[] ws IH]; cbn; f_equal; done. Qed.

Lemma view_notify_one k ws ws' : notify_one k ws = Some ws' -> view <$> ws' = view <$> ws.
Proof.
  unfold notify_one. destruct (existsb asleep ws); [|naive_solver].
  destruct (ws !! k) as [[]|] eqn:E; intros [=<-]. by eapply view_same.
Qed.

Lemma elem_upd (vs : list wst) t v v' x : vs !! t = Some v -> x <> v -> x <> v' -> x ∈ <[t := v']> vs <-> x ∈ vs.
Proof.
  intros Ht Hx Hx'. rewrite !elem_of_list_lookup. split; intros [k Hk].
  - destruct (decide (k = t)) as [-> |Hn].
    + rewrite list_lookup_insert in Hk by (by eapply lookup_lt_Some). congruence.
    + rewrite list_lookup_insert_ne in Hk by done. eauto.
  - exists k. destruct (decide (k = t)) as [-> |Hn]; [congruence|]. by rewrite list_lookup_insert_ne.
Qed.

Lemma elem_new (vs : list wst) t v v' : vs !! t = Some v -> v' ∈ <[t := v']> vs.
Proof.
  intros Ht. apply elem_of_list_lookup. exists t. apply list_lookup_insert. by eapply lookup_lt_Some.
Qed.

Lemma lookup_upd (vs : list wst) t v v' k x : vs !! t = Some v -> <[t := v']> vs !! k = Some x ->
  (k = t /\ x = v') \/ (k <> t /\ vs !! k = Some x).
Proof.
  intros Ht Hk. destruct (decide (k = t)) as [-> |Hn].
  - rewrite list_lookup_insert in Hk by (by eapply lookup_lt_Some). left. split; congruence.
  - rewrite list_lookup_insert_ne in Hk by done. by right.
Qed.

Lemma not_elem_upd (vs : list wst) t v v' x : vs !! t = Some v -> x <> v' -> (forall k, vs !! k = Some x -> k = t) ->
  x ∉ <[t := v']> vs.
Proof.
  intros Ht Hx Hu [k Hk]%elem_of_list_lookup. destruct (lookup_upd _ _ _ _ _ _ Ht Hk) as [[-> ->]|[Hn Hk']]; [done|].
  by apply Hn, Hu.
Qed.

(** Starting to produce. *)
Lemma core_start vs q wr rd wt lg t : Core vs q wr rd wt lg -> vs !! t = Some AtWait -> wr < last ->
  wr - rd < max_pending -> Core (<[t := Producing wr]> vs) q (wr + 1) rd wt lg.
Proof.
  intros C Ht Hl Hm. destruct C as [W L Q Pr U O No So In Lg].
  assert (Hnp : forall k, vs !! k = Some (Producing wr) -> False).
  { intros k Hk. apply Pr in Hk. lia. }
  assert (Hne : Producing wr ∉ vs) by (intros [k Hk]%elem_of_list_lookup; eauto).
  split; [lia|done|..].
  - intros i Hi. rewrite Q by done. f_equal.
    destruct (decide (i = wr)) as [-> |Hi'].
    + rewrite decide_False by lia. rewrite decide_False; [done|]. intros [_ Hx]. apply Hx. by eapply elem_new.
    + apply decide_ext. rewrite (elem_upd vs t AtWait (Producing wr) (Producing i)) by (done || congruence).
      split; intros [? ?]; split; try done; lia.
  - intros k i Hk. destruct (lookup_upd _ _ _ _ _ _ Ht Hk) as [[-> [= ->]]|[Hn Hk']]; [lia|]. apply Pr in Hk'. lia.
  - intros k k' i Hk Hk'.
    destruct (lookup_upd _ _ _ _ _ _ Ht Hk) as [[-> [= ->]]|[Hn Hk1]],
             (lookup_upd _ _ _ _ _ _ Ht Hk') as [[-> E]|[Hn' Hk1']]; try done; [by apply Hnp in Hk1'| |by eapply U].
    injection E as ->. by apply Hnp in Hk1.
  - intros k k' w w' Hk Hk' Cw Cw'.
    destruct (lookup_upd _ _ _ _ _ _ Ht Hk) as [[-> ->]|[Hn Hk1]]; [done|].
    destruct (lookup_upd _ _ _ _ _ _ Ht Hk') as [[-> ->]|[Hn' Hk1']]; [done|]. by eapply O.
  - intros H. destruct No as [E1 E2].
    { intros k w Hk. destruct (decide (k = t)) as [-> |Hn]; [rewrite Ht in Hk; by injection Hk as <-|].
      apply (H k). by rewrite list_lookup_insert_ne. }
    split; [done|]. intros _. destruct (decide (rd = wr)) as [-> |Hn]; [by eapply elem_new|].
    rewrite (elem_upd vs t AtWait (Producing wr)) by (done || congruence). apply E2. lia.
  - intros k w Hk Cw. destruct (lookup_upd _ _ _ _ _ _ Ht Hk) as [[-> ->]|[Hn Hk1]]; [done|].
    destruct (So _ _ Hk1 Cw) as (E1 & E2 & E3). split_and!; [done|lia|].
    by rewrite (elem_upd vs t AtWait (Producing wr)) by (done || (intros [=]; lia)).
  - rewrite (elem_upd vs t AtWait (Producing wr) InConsumer) by done. intros H. destruct (In H) as [E1 E2].
    split; [lia|]. by rewrite (elem_upd vs t AtWait (Producing wr)) by (done || (intros [=]; lia)).
  - rewrite Lg. f_equal. apply decide_ext. symmetry. by apply (elem_upd vs t AtWait (Producing wr) InConsumer).
Qed.

(** An item is stored. *)
Lemma core_produced vs q wr rd wt lg t i : Core vs q wr rd wt lg -> vs !! t = Some (Producing i) ->
  q !! sidx i = Some None /\
  Core (<[t := if i =? wt then AtConsume else AtWait]> vs) (<[sidx i := Some (producer i)]> q) wr rd wt lg.
Proof.
  intros C Ht. pose proof C as [W L Q Pr U O No So In Lg].
  pose proof (Pr _ _ Ht) as Hi.
  assert (Hin : Producing i ∈ vs) by (apply elem_of_list_lookup; eauto).
  set (w' := if i =? wt then AtConsume else AtWait).
  assert (Hw' : w' = AtConsume \/ w' = AtWait) by (unfold w'; destruct (i =? wt); auto).
  assert (Hout : Producing i ∉ <[t := w']> vs).
  { eapply not_elem_upd; [done|by destruct Hw' as [-> | ->]|]. intros k Hk. by eapply U. }
  assert (Hoth : forall j, j <> i -> Producing j ∈ <[t := w']> vs <-> Producing j ∈ vs).
  { intros j Hj. eapply elem_upd; [done|congruence|by destruct Hw' as [-> | ->]]. }
  assert (HoIn : InConsumer ∈ <[t := w']> vs <-> InConsumer ∈ vs).
  { eapply elem_upd; [done|congruence|by destruct Hw' as [-> | ->]]. }
  assert (Hact : forall k w, vs !! k = Some w -> consuming w = true -> i =? wt = false).
  { intros k w Hk Cw. destruct (So _ _ Hk Cw) as (_ & _ & Hn). apply Z.eqb_neq. intros ->. done. }
  split.
  { rewrite Q by lia. rewrite decide_False; [done|]. intros [_ H]. done. }
  split; [done|by rewrite insert_length|..].
  - intros j Hj. destruct (decide (j = i)) as [-> |Hji].
    + rewrite list_lookup_insert by (rewrite L; apply sidx_lt). rewrite decide_True; [done|]. split; [lia|done].
    + rewrite list_lookup_insert_ne.
      2:{ intros E. apply Hji. symmetry. eapply (sidx_inj rd); eauto. lia. }
      rewrite Q by done. f_equal. apply decide_ext. by rewrite Hoth.
  - intros k j Hk. destruct (lookup_upd _ _ _ _ _ _ Ht Hk) as [[-> E]|[Hn Hk']]; [by destruct Hw' as [E'|E']; rewrite E' in E|].
    by eapply Pr.
  - intros k k' j Hk Hk'.
    destruct (lookup_upd _ _ _ _ _ _ Ht Hk) as [[-> E]|[Hn Hk1]]; [by destruct Hw' as [E'|E']; rewrite E' in E|].
    destruct (lookup_upd _ _ _ _ _ _ Ht Hk') as [[-> E]|[Hn' Hk1']]; [by destruct Hw' as [E'|E']; rewrite E' in E|].
    by eapply U.
  - intros k k' w1 w2 Hk Hk' C1 C2.
    destruct (lookup_upd _ _ _ _ _ _ Ht Hk) as [[-> ->]|[Hn Hk1]],
             (lookup_upd _ _ _ _ _ _ Ht Hk') as [[-> ->]|[Hn' Hk1']]; try done.
    + unfold w' in C1. by rewrite (Hact _ _ Hk1' C2) in C1.
    + unfold w' in C2. by rewrite (Hact _ _ Hk1 C1) in C2.
    + by eapply O.
  - intros H. assert (Hwt : i =? wt = false).
    { specialize (H t w'). unfold w' in H. destruct (i =? wt); [|done].
      rewrite list_lookup_insert in H by (by eapply lookup_lt_Some). by apply H. }
    destruct No as [E1 E2].
    { intros k w Hk. destruct (decide (k = t)) as [-> |Hn]; [rewrite Ht in Hk; by injection Hk as <-|].
      apply (H k). by rewrite list_lookup_insert_ne. }
    split; [done|]. intros Hr. apply Z.eqb_neq in Hwt. rewrite Hoth by lia. by apply E2.
  - intros k w Hk Cw. destruct (lookup_upd _ _ _ _ _ _ Ht Hk) as [[-> ->]|[Hn Hk1]].
    + unfold w' in Cw. destruct (i =? wt) eqn:E; [|done]. apply Z.eqb_eq in E. subst wt.
      split_and!; [|lia|done].
      destruct (decide (Exists (fun w => consuming w = true) vs)) as [Hex|Hex].
      * apply Exists_exists in Hex as (w & [k Hk1]%elem_of_list_lookup & Cw1).
        destruct (So _ _ Hk1 Cw1) as (? & _ & ?). done.
      * destruct No as [E1 _]; [|lia]. intros k w Hk1. apply not_true_is_false. intros Cw1. apply Hex, Exists_exists.
        exists w. split; [|done]. apply elem_of_list_lookup. eauto.
    + destruct (So _ _ Hk1 Cw) as (E1 & E2 & E3). split_and!; [done..|].
      pose proof (Hact _ _ Hk1 Cw) as Hwt. apply Z.eqb_neq in Hwt. rewrite Hoth by congruence. done.
  - rewrite HoIn. intros H. destruct (In H) as [E1 E2]. split; [done|].
    destruct (decide (rd = i)) as [-> |Hri]; [done|]. by rewrite Hoth.
  - rewrite Lg. f_equal. apply decide_ext. by rewrite HoIn.
Qed.

(** The consumer finds the next item, or not. *)
Lemma core_begin vs q wr rd wt lg t v : Core vs q wr rd wt lg -> vs !! t = Some AtConsume ->
  q !! sidx rd = Some (Some v) -> Core (<[t := InConsumer]> vs) q wr rd wt (lg ++ [CBegin v]).
Proof.
  intros C Ht Hq. pose proof C as [W L Q Pr U O No So In Lg].
  rewrite Q in Hq by lia. destruct (decide _) as [[Hr Hp]|]; [|done]. injection Hq as <-.
  assert (Hoth : forall j, Producing j ∈ <[t := InConsumer]> vs <-> Producing j ∈ vs) by (intros j; by eapply elem_upd).
  assert (HnIn : InConsumer ∉ vs).
  { intros [k Hk]%elem_of_list_lookup. assert (k = t) by (by eapply O). subst. congruence. }
  split; [done..| | | | | | | |].
  - intros j Hj. rewrite Q by done. f_equal. apply decide_ext. by rewrite Hoth.
  - intros k j Hk. destruct (lookup_upd _ _ _ _ _ _ Ht Hk) as [[-> E]|[Hn Hk']]; [done|]. by eapply Pr.
  - intros k k' j Hk Hk'.
    destruct (lookup_upd _ _ _ _ _ _ Ht Hk) as [[-> E]|[Hn Hk1]]; [done|].
    destruct (lookup_upd _ _ _ _ _ _ Ht Hk') as [[-> E]|[Hn' Hk1']]; [done|]. by eapply U.
  - intros k k' w1 w2 Hk Hk' C1 C2.
    destruct (lookup_upd _ _ _ _ _ _ Ht Hk) as [[-> ->]|[Hn Hk1]],
             (lookup_upd _ _ _ _ _ _ Ht Hk') as [[-> ->]|[Hn' Hk1']]; try done; by eapply O.
  - intros H. specialize (H t InConsumer). rewrite list_lookup_insert in H by (by eapply lookup_lt_Some). by specialize (H eq_refl).
  - intros k w Hk Cw. rewrite Hoth. by apply (So t AtConsume).
  - intros _. rewrite Hoth. done.
  - rewrite Lg. rewrite decide_False by done. rewrite decide_True by (by eapply elem_new). by rewrite app_nil_r.
Qed.

Lemma core_stop vs q wr rd wt lg t : Core vs q wr rd wt lg -> vs !! t = Some AtConsume ->
  q !! sidx rd = Some None -> Core (<[t := AtWait]> vs) q wr rd rd lg.
Proof.
  intros C Ht Hq. pose proof C as [W L Q Pr U O No So In Lg].
  rewrite Q in Hq by lia. destruct (decide _) as [?|Hd]; [done|].
  assert (Hoth : forall j, Producing j ∈ <[t := AtWait]> vs <-> Producing j ∈ vs) by (intros j; by eapply elem_upd).
  assert (HoIn : InConsumer ∈ <[t := AtWait]> vs <-> InConsumer ∈ vs) by (by eapply elem_upd).
  split; [done..| | | | | | | |].
  - intros j Hj. rewrite Q by done. f_equal. apply decide_ext. by rewrite Hoth.
  - intros k j Hk. destruct (lookup_upd _ _ _ _ _ _ Ht Hk) as [[-> E]|[Hn Hk']]; [done|]. by eapply Pr.
  - intros k k' j Hk Hk'.
    destruct (lookup_upd _ _ _ _ _ _ Ht Hk) as [[-> E]|[Hn Hk1]]; [done|].
    destruct (lookup_upd _ _ _ _ _ _ Ht Hk') as [[-> E]|[Hn' Hk1']]; [done|]. by eapply U.
  - intros k k' w1 w2 Hk Hk' C1 C2.
    destruct (lookup_upd _ _ _ _ _ _ Ht Hk) as [[-> ->]|[Hn Hk1]]; [done|].
    destruct (lookup_upd _ _ _ _ _ _ Ht Hk') as [[-> ->]|[Hn' Hk1']]; try done; by eapply O.
  - intros _. split; [done|]. intros Hr. rewrite Hoth. destruct (decide (Producing rd ∈ vs)); [done|]. exfalso. by apply Hd.
  - intros k w Hk Cw. exfalso. destruct (lookup_upd _ _ _ _ _ _ Ht Hk) as [[-> ->]|[Hn Hk1]]; [done|].
    apply Hn. by eapply O.
  - rewrite HoIn, Hoth. done.
  - rewrite Lg. f_equal. apply decide_ext. by rewrite HoIn.
Qed.

Lemma consumed_snoc n : 0 <= n -> consumed_in_order (n + 1) = consumed_in_order n ++ [CBegin (producer (first + n)); CEnd].
Proof.
  intros Hn. unfold Pipe_Spec.consumed_in_order. rewrite seqZ_app by lia. rewrite flat_map_app. f_equal.
Qed.

(** The consumer has finished an item. *)
Lemma core_end vs q wr rd wt lg t : Core vs q wr rd wt lg -> vs !! t = Some InConsumer ->
  Core (<[t := AtConsume]> vs) (<[sidx rd := None]> q) wr (rd + 1) wt (lg ++ [CEnd]).
Proof.
  intros C Ht. pose proof C as [W L Q Pr U O No So In Lg].
  assert (HIn : InConsumer ∈ vs) by (apply elem_of_list_lookup; eauto).
  destruct (In HIn) as [Hr Hp].
  assert (Hoth : forall j, Producing j ∈ <[t := AtConsume]> vs <-> Producing j ∈ vs) by (intros j; by eapply elem_upd).
  assert (HnIn : InConsumer ∉ <[t := AtConsume]> vs).
  { eapply not_elem_upd; [done..|]. intros k Hk. by eapply O. }
  split; [lia|by rewrite insert_length|..].
  - intros j Hj. destruct (decide (j = rd + max_pending)) as [-> |Hj'].
    + rewrite sidx_wrap, list_lookup_insert by (rewrite L; apply sidx_lt). rewrite decide_False by lia. done.
    + rewrite list_lookup_insert_ne.
      2:{ intros E. assert (rd = j); [|lia]. eapply (sidx_inj rd); eauto; lia. }
      rewrite Q by lia. f_equal. apply decide_ext. by rewrite Hoth.
  - intros k j Hk. destruct (lookup_upd _ _ _ _ _ _ Ht Hk) as [[-> E]|[Hn Hk']]; [done|]. pose proof (Pr _ _ Hk').
    assert (j <> rd); [|lia]. intros ->. apply Hp, elem_of_list_lookup. eauto.
  - intros k k' j Hk Hk'.
    destruct (lookup_upd _ _ _ _ _ _ Ht Hk) as [[-> E]|[Hn Hk1]]; [done|].
    destruct (lookup_upd _ _ _ _ _ _ Ht Hk') as [[-> E]|[Hn' Hk1']]; [done|]. by eapply U.
  - intros k k' w1 w2 Hk Hk' C1 C2.
    destruct (lookup_upd _ _ _ _ _ _ Ht Hk) as [[-> ->]|[Hn Hk1]],
             (lookup_upd _ _ _ _ _ _ Ht Hk') as [[-> ->]|[Hn' Hk1']]; try done; by eapply O.
  - intros H. specialize (H t AtConsume). rewrite list_lookup_insert in H by (by eapply lookup_lt_Some). by specialize (H eq_refl).
  - intros k w Hk Cw. rewrite Hoth. destruct (So _ _ Ht eq_refl) as (? & ? & ?). split_and!; [lia|done..].
  - done.
  - rewrite Lg, decide_True, decide_False by done. rewrite app_nil_r.
    replace (rd + 1 - first) with (rd - first + 1) by lia. rewrite consumed_snoc by lia.
    replace (first + (rd - first)) with rd by lia. by rewrite <- app_assoc.
Qed.

Lemma notify_one_spec k ws ws' : notify_one k ws = Some ws' ->
  ws' = ws \/ (ws !! k = Some Asleep /\ ws' = <[k := AtWait]> ws).
Proof.
  unfold notify_one. destruct (existsb asleep ws); [|naive_solver].
  destruct (ws !! k) as [[]|] eqn:E; intros [=<-]. auto.
Qed.

Lemma live_same ws t w w' : ws !! t = Some w -> exited w = exited w' -> live (<[t := w']> ws) = live ws.
Proof.
  revert t. induction ws as [|x ws IH]; intros [|t] Ht E; try done; cbn in *.
  - injection Ht as ->. by rewrite E.
  - by rewrite IH.
Qed.
Lemma live_exit ws t w : ws !! t = Some w -> exited w = false -> live ws = S (live (<[t := Exited]> ws)).
Proof.
  revert t. induction ws as [|x ws IH]; intros [|t] Ht E; try done; cbn in *.
  - injection Ht as ->. by rewrite E.
  - rewrite (IH t) by done. by destruct (exited x).
Qed.
Lemma live_notify_all ws : live (notify_all ws) = live ws.
Proof. unfold notify_all. induction ws as [|[] ws IH]; cbn; auto. Qed.

Lemma notify_all_not_asleep ws : Asleep ∉ notify_all ws.
Proof. unfold notify_all. intros (w & Hw & _)%elem_of_list_fmap. by destruct w. Qed.

Lemma notify_all_lookup ws t w : ws !! t = Some w -> w <> Asleep -> notify_all ws !! t = Some w.
Proof. intros H Hw. unfold notify_all. rewrite list_lookup_fmap, H. by destruct w. Qed.

(** A change of the workers that the ring does not see. *)
Lemma inv_quiet s ws : Inv s -> view <$> ws = view <$> workers s -> live ws = live (workers s) ->
  (Exited ∈ ws -> Exited ∈ workers s) -> (Exited ∈ workers s -> Asleep ∈ ws -> Asleep ∈ workers s) ->
  ((forall w, w ∈ ws -> w = Asleep) -> write_idx s - read_idx s >= max_pending) ->
  Inv (set_workers s ws).
Proof.
  intros [C Ct Ex Fu] Hv Hl H1 H2 H3. split; cbn.
  - unfold core, views in *. cbn. by rewrite Hv.
  - by rewrite Hl.
  - intros H. destruct (Ex (H1 H)) as [E1 E2]. split; [done|]. intros H'. apply E2. auto.
  - done.
Qed.

Lemma inv_start s t w : Inv s -> workers s !! t = Some w -> w = NotStarted \/ w = Asleep ->
  Inv (set_workers s (<[t := AtWait]> (workers s))).
Proof.
  intros I Ht Hw. apply inv_quiet; [done|..].
  - eapply view_same; [done|]. by destruct Hw as [-> | ->].
  - eapply live_same; [done|]. by destruct Hw as [-> | ->].
  - intros H. eapply elem_upd; [done| | |done]; [by destruct Hw as [-> | ->]|done].
  - intros _ [k Hk]%elem_of_list_lookup. destruct (lookup_upd _ _ _ _ _ _ Ht Hk) as [[-> E]|[Hn Hk']]; [done|].
    apply elem_of_list_lookup; eauto.
  - intros H. specialize (H AtWait). discriminate H. by eapply elem_new.
Qed.

(** Every step from a good state is defined, and leads to a good state. *)
Theorem inv_step s m : Inv s -> step s m <> None -> exists s', step s m = Some (Ok s') /\ Inv s'.
Proof.
  intros I Hm. pose proof I as [C Ct Ex Fu]. unfold core, views in C. destruct m as [t k|t|]; cbn in *.
  - destruct (workers s !! t) as [w|] eqn:Ht; [|done].
    assert (Hv : (view <$> workers s) !! t = Some (view w)) by (by rewrite list_lookup_fmap, Ht).
    pose proof (i_window _ _ _ _ _ _ C) as W.
    assert (Hlt : (t < length (workers s))%nat) by (by eapply lookup_lt_Some).
    destruct w as [| | |i| | |]; try done; cbn in Hv.
    + eexists. split; [done|]. eapply inv_start; eauto.
    + (* wait *) unfold step_wait. destruct (Z.leb_spec last (write_idx s)) as [Hl|Hl].
      { (* exit *) eexists. split; [done|]. split; cbn.
        - unfold core, views. cbn. erewrite view_same, view_notify_all; [done|by apply notify_all_lookup|done].
        - rewrite Ct. rewrite <- (live_notify_all (workers s)).
          rewrite (live_exit (notify_all (workers s)) t AtWait) by (done || by apply notify_all_lookup). done.
        - intros _. split; [lia|]. intros [k' Hk]%elem_of_list_lookup.
          destruct (lookup_upd (notify_all (workers s)) t AtWait Exited k' Asleep) as [[-> E]|[Hn Hk']];
            [by apply notify_all_lookup|done|done|].
          eapply notify_all_not_asleep, elem_of_list_lookup. eauto.
        - intros H. specialize (H Exited). discriminate H. apply (elem_new _ _ AtWait). by apply notify_all_lookup. }
      destruct (Z.ltb_spec (write_idx s - read_idx s) max_pending) as [Hf|Hf].
      { (* start producing *) rewrite slot_some by lia. eexists. split; [done|]. split; cbn.
        - unfold core, views. cbn. rewrite list_fmap_insert. cbn. by apply core_start.
        - rewrite Ct. symmetry. by eapply live_same.
        - intros H. rewrite (elem_upd (workers s) t AtWait (Producing (write_idx s)) Exited) in H by done.
          apply Ex in H. lia.
        - intros H. specialize (H (Producing (write_idx s))). discriminate H. by eapply elem_new. }
      eexists. split; [done|]. apply inv_quiet; [done|..].
      * by eapply view_same.
      * by eapply live_same.
      * intros H. by rewrite (elem_upd (workers s) t AtWait Asleep Exited) in H by done.
      * intros H. apply Ex in H. lia.
      * lia.
    + (* produced *) unfold step_produced. pose proof (i_prod _ _ _ _ _ _ C _ _ Hv) as Hi.
      rewrite slot_some by lia. destruct (core_produced _ _ _ _ _ _ _ _ C Hv) as [Hq C'].
      rewrite Hq. eexists. split; [done|].
      set (w' := if i =? wait_idx s then AtConsume else AtWait) in *.
      assert (Hw' : w' = AtConsume \/ w' = AtWait) by (unfold w'; destruct (i =? wait_idx s); auto).
      split; cbn.
      * unfold core, views. cbn. rewrite list_fmap_insert. by replace (view w') with w' by (destruct Hw' as [-> | ->]; done).
      * rewrite Ct. symmetry. eapply live_same; [done|]. by destruct Hw' as [-> | ->].
      * intros H. rewrite (elem_upd (workers s) t (Producing i) w' Exited) in H by (done || by destruct Hw' as [-> | ->]).
        destruct (Ex H) as [E1 E2]. split; [done|]. by rewrite (elem_upd (workers s) t (Producing i)) by (done || by destruct Hw' as [-> | ->]).
      * intros H. specialize (H w'). assert (w' = Asleep) as E by (apply H; by eapply elem_new).
        by destruct Hw' as [E'|E']; rewrite E' in E.
    + (* consumer's test *) unfold step_consume. rewrite slot_some by lia.
      destruct (queue s !! sidx (read_idx s)) as [[v|]|] eqn:Hq.
      3:{ rewrite (i_queue _ _ _ _ _ _ C) in Hq by lia. done. }
      * eexists. split; [done|]. split; cbn.
        -- unfold core, views. cbn. rewrite list_fmap_insert. by apply core_begin.
        -- rewrite Ct. symmetry. by eapply live_same.
        -- intros H. rewrite (elem_upd (workers s) t AtConsume InConsumer Exited) in H by done.
           rewrite (elem_upd (workers s) t AtConsume InConsumer Asleep) by done. by apply Ex.
        -- intros H. specialize (H InConsumer). discriminate H. by eapply elem_new.
      * eexists. split; [done|]. split; cbn.
        -- unfold core, views. cbn. rewrite list_fmap_insert. cbn. by eapply core_stop.
        -- rewrite Ct. symmetry. by eapply live_same.
        -- intros H. rewrite (elem_upd (workers s) t AtConsume AtWait Exited) in H by done.
           rewrite (elem_upd (workers s) t AtConsume AtWait Asleep) by done. by apply Ex.
        -- intros H. specialize (H AtWait). discriminate H. by eapply elem_new.
    + (* consumed *) unfold step_consumed in *. rewrite slot_some in * by lia.
      destruct (if max_pending <=? write_idx s - read_idx s then _ else _) as [ws'|] eqn:Hn; [|done].
      eexists. split; [done|].
      assert (Hws : ws' = <[t := AtConsume]> (workers s) \/
        (<[t := AtConsume]> (workers s) !! k = Some Asleep /\ ws' = <[k := AtWait]> (<[t := AtConsume]> (workers s)))).
      { destruct (max_pending <=? _); [by apply notify_one_spec in Hn|left; congruence]. }
      assert (Hme : <[t := AtConsume]> (workers s) !! t = Some AtConsume) by (by apply list_lookup_insert).
      assert (Hmine : ws' !! t = Some AtConsume).
      { destruct Hws as [-> |[Hk ->]]; [done|]. rewrite list_lookup_insert_ne; [done|]. intros ->. congruence. }
      assert (Hvs : view <$> ws' = <[t := AtConsume]> (view <$> workers s)).
      { rewrite <- (list_fmap_insert view _ _ AtConsume). destruct Hws as [-> |[Hk ->]]; [done|]. by eapply view_same. }
      assert (Hnew : forall x, x ∈ ws' -> x = AtWait \/ x = AtConsume \/ x ∈ workers s).
      { intros x [j Hj]%elem_of_list_lookup. destruct Hws as [-> |[Hk ->]].
        - destruct (lookup_upd _ _ _ _ _ _ Ht Hj) as [[-> ->]|[Hne Hj']]; [auto|]. right; right. apply elem_of_list_lookup. eauto.
        - destruct (lookup_upd _ _ _ _ _ _ Hk Hj) as [[-> ->]|[Hne Hj']]; [auto|].
          destruct (lookup_upd _ _ _ _ _ _ Ht Hj') as [[-> ->]|[Hne' Hj'']]; [auto|]. right; right. apply elem_of_list_lookup. eauto. }
      split; cbn.
      * unfold core, views. cbn. rewrite Hvs. by apply core_end.
      * rewrite Ct. symmetry. transitivity (live (<[t := AtConsume]> (workers s))); [|by eapply live_same].
        destruct Hws as [-> |[Hk ->]]; [done|]. by eapply live_same.
      * intros [?|[?|H]]%Hnew; [done..|]. destruct (Ex H) as [E1 E2]. split; [done|]. intros [?|[?|H']]%Hnew; done.
      * intros H. specialize (H AtConsume). discriminate H. apply elem_of_list_lookup. eauto.
  - destruct (workers s !! t) as [[]|] eqn:Ht; try done. eexists. split; [done|]. eapply inv_start; eauto.
  - destruct (main s); try done. eexists. split; [done|]. split; cbn; try done.
Qed.

Lemma live_fresh n : live (replicate n NotStarted) = n.
Proof. induction n; cbn; auto. Qed.

Lemma inv_init threads : first < last -> Inv (init threads).
Proof.
  intros Hl. unfold Pipe_Model.init. destruct (Z.leb_spec last first) as [?|_]; [lia|].
  assert (Hvs : forall t w, (view <$> AtWait :: replicate threads NotStarted) !! t = Some w -> w = AtWait).
  { intros t w Hw. apply list_lookup_fmap_inv in Hw as (w0 & -> & Hw0). destruct t as [|t]; cbn in Hw0; [by injection Hw0 as <-|].
    apply lookup_replicate in Hw0 as [-> _]. done. }
  assert (Hel : forall x, x ∈ AtWait :: replicate threads NotStarted -> x = AtWait \/ x = NotStarted).
  { intros x [-> |[-> _]%elem_of_replicate]%elem_of_cons; auto. }
  split; cbn [workers queue write_idx read_idx wait_idx count main log].
  - unfold core, views. cbn [workers queue write_idx read_idx wait_idx count main log]. split.
    + lia.
    + by rewrite replicate_length.
    + intros i Hi. rewrite lookup_replicate_2 by apply sidx_lt. rewrite decide_False by lia. done.
    + intros t i Ht. by apply Hvs in Ht.
    + intros t t' i Ht. by apply Hvs in Ht.
    + intros t t' w w' Ht _ Cw. apply Hvs in Ht as ->. done.
    + intros _. split; [done|lia].
    + intros t w Ht Cw. apply Hvs in Ht as ->. done.
    + intros [t Ht]%elem_of_list_lookup. by apply Hvs in Ht.
    + rewrite decide_False; [|intros [t Ht]%elem_of_list_lookup; by apply Hvs in Ht]. rewrite Z.sub_diag. done.
  - cbn. by rewrite live_fresh.
  - intros H. by apply Hel in H as [?|?].
  - intros H. specialize (H AtWait). discriminate H. by left.
Qed.

Lemma run_inv s ms s' : Inv s -> run s ms = Some s' -> Inv s'.
Proof.
  revert s. induction ms as [|m ms IH]; cbn; intros s I H; [by injection H as <-|].
  destruct (step s m) as [[s1| |]|] eqn:E; try done.
  destruct (inv_step s m I) as (s2 & E2 & I2); [by rewrite E|]. rewrite E in E2. injection E2 as ->. eauto.
Qed.

Lemma init_empty threads ms s : last <= first -> run (init threads) ms = Some s -> ms = [] /\ s = init threads.
Proof.
  intros Hl. unfold Pipe_Model.init. destruct (Z.leb_spec last first); [|lia].
  destruct ms as [|[t k|t|] ms]; cbn; [|done..]. intros [=<-]. done.
Qed.

(** ** The consumer's view *)

(** In every schedule, at every moment, the calls of the consumer are those for the first items, each once, in order,
    one at a time; the last one may still be running. *)
Theorem C43_in_order threads ms s : run (init threads) ms = Some s ->
  exists n, 0 <= n <= Z.max 0 (last - first) /\
    (log s = consumed_in_order n
     \/ n < last - first /\ log s = consumed_in_order n ++ [CBegin (producer (first + n))]).
Proof.
  intros H. destruct (Z.le_gt_cases last first) as [Hl|Hl].
  { destruct (init_empty threads ms s Hl H) as [_ ->]. exists 0. split; [lia|]. left.
    unfold Pipe_Model.init. by destruct (Z.leb_spec last first); [|lia]. }
  pose proof (run_inv _ _ _ (inv_init threads Hl) H) as I.
  destruct (i_core _ I) as [W L Q Pr U O No So In Lg].
  exists (read_idx s - first). split; [lia|].
  destruct (decide _) as [Hin|_] in Lg.
  - right. apply In in Hin as [? _]. split; [lia|]. by replace (first + (read_idx s - first)) with (read_idx s) by lia.
  - left. by rewrite app_nil_r in Lg.
Qed.

(** No schedule runs into undefined behaviour or a failing assert: in particular a producer always finds its slot of
    the ring empty, so that no item is overwritten. *)
Theorem C43_defined threads ms s m : run (init threads) ms = Some s ->
  match step s m with Some UB | Some NoFuel => False | _ => True end.
Proof.
  intros H. destruct (Z.le_gt_cases last first) as [Hl|Hl].
  { destruct (init_empty threads ms s Hl H) as [_ ->].
    unfold Pipe_Model.init. destruct (Z.leb_spec last first); [|lia]. by destruct m. }
  pose proof (run_inv _ _ _ (inv_init threads Hl) H) as I.
  destruct (step s m) eqn:E; [|done]. destruct (inv_step s m I) as (s2 & E2 & I2); [by rewrite E|].
  rewrite E in E2. by injection E2 as ->.
Qed.

(** The slot that the consumer empties without holding the mutex is not one that a producer will write to, and no two
    producers write to the same slot. *)
Theorem C43_no_race threads ms s a b i : run (init threads) ms = Some s -> workers s !! b = Some (Producing i) ->
  (workers s !! a = Some InConsumer -> slot i <> slot (read_idx s)) /\
  (forall j, workers s !! a = Some (Producing j) -> a <> b -> slot i <> slot j).
Proof.
  intros H Hb. destruct (Z.le_gt_cases last first) as [Hl|Hl].
  { destruct (init_empty threads ms s Hl H) as [_ ->].
    revert Hb. unfold Pipe_Model.init. by destruct (Z.leb_spec last first); [|lia]. }
  pose proof (run_inv _ _ _ (inv_init threads Hl) H) as I.
  destruct (i_core _ I) as [W L Q Pr U O No So In Lg].
  assert (Hv : forall t w, workers s !! t = Some w -> views s !! t = Some (view w))
    by (intros t w Ht; unfold views; by rewrite list_lookup_fmap, Ht).
  pose proof (Pr _ _ (Hv _ _ Hb)) as Hi. split.
  - intros Ha. destruct In as [Hr Hp]; [apply elem_of_list_lookup; exists a; apply (Hv _ _ Ha)|].
    rewrite !slot_some by lia. intros [=E]. apply (sidx_inj (read_idx s)) in E; [|lia..]. subst i.
    apply Hp, elem_of_list_lookup. exists b. apply (Hv _ _ Hb).
  - intros j Ha Hab. pose proof (Pr _ _ (Hv _ _ Ha)) as Hj. rewrite !slot_some by lia. intros [=E].
    apply (sidx_inj (read_idx s)) in E; [|lia..]. subst j. apply Hab. eapply U; [apply (Hv _ _ Ha)|apply (Hv _ _ Hb)].
Qed.

(** ** The caller's view *)

Record MainOk (s : pst V) : Prop := {
  m_some : workers s <> [];
  m_worker : main s = InWorker -> exists w, workers s !! 0%nat = Some w /\ exited w = false;
  m_join : main s = InJoin -> count s <> 0%nat /\ workers s !! 0%nat = Some Exited;
  m_ret : main s = Returned -> count s = 0%nat;
}.

Lemma live_lookup ws t w : ws !! t = Some w -> exited w = false -> live ws <> 0%nat.
Proof. intros H E. by rewrite (live_exit ws t w). Qed.
Lemma live_zero ws t w : live ws = 0%nat -> ws !! t = Some w -> w = Exited.
Proof.
  intros H Ht. destruct (exited w) eqn:E; [by destruct w|]. exfalso. by eapply live_lookup.
Qed.
Lemma live_pos ws : live ws <> 0%nat -> exists t w, ws !! t = Some w /\ exited w = false.
Proof.
  induction ws as [|w ws IH]; cbn; [done|]. destruct (exited w) eqn:E.
  - intros H. destruct IH as (t & w' & ? & ?); [done|]. by exists (S t), w'.
  - intros _. by exists 0%nat, w.
Qed.

(** A step that leaves the set of exited workers and the calling thread alone. *)
Lemma main_quiet s s' : MainOk s -> count s' = count s -> main s' = main s ->
  length (workers s') = length (workers s) ->
  (forall t w, workers s !! t = Some w -> exists w', workers s' !! t = Some w' /\ exited w' = exited w) -> MainOk s'.
Proof.
  intros [Ms Mw Mj Mr] Hc Hm Hlen Hw. split.
  - destruct (workers s); [done|]. by destruct (workers s').
  - rewrite Hm. intros E. destruct (Mw E) as (w & H1 & H2). destruct (Hw _ _ H1) as (w' & ? & ?). exists w'. split; congruence.
  - rewrite Hm, Hc. intros E. destruct (Mj E) as (H1 & H2). destruct (Hw _ _ H2) as (w' & ? & ?). split; [done|]. by destruct w'.
  - by rewrite Hm, Hc.
Qed.

Lemma upd_exited (ws : list wst) t w w' : ws !! t = Some w -> exited w' = exited w ->
  forall k x, ws !! k = Some x -> exists x', <[t := w']> ws !! k = Some x' /\ exited x' = exited x.
Proof.
  intros Ht E k x Hk. destruct (decide (k = t)) as [-> |Hn].
  - exists w'. rewrite list_lookup_insert by (by eapply lookup_lt_Some). split; [done|]. congruence.
  - exists x. by rewrite list_lookup_insert_ne.
Qed.

Lemma main_step s m s' : Inv s -> MainOk s -> m <> SpuriousJoin -> step s m = Some (Ok s') -> MainOk s'.
Proof.
  intros I M Hm H. pose proof M as [Ms Mw Mj Mr]. destruct m as [t k|t|]; [..|done]; cbn in H.
  - destruct (workers s !! t) as [w|] eqn:Ht; [|done]. pose proof (i_count _ I) as Ct.
    destruct w as [| | |i| | |]; try done.
    + injection H as <-. eapply main_quiet; [done..|by cbn; rewrite insert_length|]. cbn. by eapply upd_exited.
    + injection H as H. unfold step_wait in H. destruct (last <=? write_idx s).
      { injection H as <-.
        assert (Hnr : main s <> Returned).
        { intros E. apply Mr in E. rewrite Ct in E. by apply (live_zero _ _ _ E) in Ht. }
        assert (Hlt : (t < length (workers s))%nat) by (by eapply lookup_lt_Some).
        assert (Hlt' : (t < length (notify_all (workers s)))%nat) by (unfold notify_all; by rewrite map_length).
        split; cbn [workers count main].
        - intros E. apply (f_equal length) in E. rewrite insert_length in E. cbn in E. lia.
        - destruct t as [|t]; [by destruct (Nat.eqb _ _)|].
          destruct (main s) eqn:Em; [|by destruct (Nat.eqb _ _)|done]. intros _. destruct (Mw eq_refl) as (w & H1 & H2).
          exists (wake w). rewrite list_lookup_insert_ne by done. unfold notify_all. rewrite list_lookup_fmap, H1.
          split; [done|by destruct w].
        - destruct t as [|t].
          + destruct (Nat.eqb_spec (pred (count s)) 0) as [E|E]; [done|]. intros _. split; [done|]. by apply list_lookup_insert.
          + destruct (main s) eqn:Em; [done| |done].
            destruct (Nat.eqb_spec (pred (count s)) 0) as [E|E]; [done|]. intros _. split; [done|].
            rewrite list_lookup_insert_ne by done. apply notify_all_lookup; [by apply Mj|done].
        - destruct t as [|t].
          + destruct (Nat.eqb_spec (pred (count s)) 0) as [E|E]; done.
          + destruct (main s) eqn:Em; [done| |done]. destruct (Nat.eqb_spec (pred (count s)) 0) as [E|E]; done. }
      destruct (write_idx s - read_idx s <? max_pending).
      { destruct (slot (write_idx s)); [|done]. injection H as <-.
        eapply main_quiet; [done..|by cbn; rewrite insert_length|]. cbn. by eapply upd_exited. }
      injection H as <-. eapply main_quiet; [done..|by cbn; rewrite insert_length|]. cbn. by eapply upd_exited.
    + injection H as H. unfold step_produced in H. destruct (slot i) as [j|]; [|done].
      destruct (queue s !! j) as [[]|]; try done. injection H as <-.
      eapply main_quiet; [done..|by cbn; rewrite insert_length|]. cbn. eapply upd_exited; [done|]. by destruct (i =? _).
    + injection H as H. unfold step_consume in H. destruct (slot (read_idx s)) as [j|]; [|done].
      destruct (queue s !! j) as [[v|]|]; try done; injection H as <-;
        (eapply main_quiet; [done..|by cbn; rewrite insert_length|]; cbn; by eapply upd_exited).
    + unfold step_consumed in H. destruct (slot (read_idx s)) as [j|]; [|done].
      destruct (if max_pending <=? write_idx s - read_idx s then _ else _) as [ws'|] eqn:Hn; [|done].
      injection H as <-.
      assert (Hws : ws' = <[t := AtConsume]> (workers s) \/
        (<[t := AtConsume]> (workers s) !! k = Some Asleep /\ ws' = <[k := AtWait]> (<[t := AtConsume]> (workers s)))).
      { destruct (max_pending <=? _); [by apply notify_one_spec in Hn|left; congruence]. }
      eapply main_quiet; [done..| |]; cbn.
      * destruct Hws as [-> |[_ ->]]; by rewrite ?insert_length.
      * intros k0 x Hk0. destruct (upd_exited (workers s) t InConsumer AtConsume Ht eq_refl k0 x Hk0) as (x' & H1 & H2).
        destruct Hws as [-> |[Hk ->]]; [eauto|].
        destruct (upd_exited (<[t := AtConsume]> (workers s)) k Asleep AtWait Hk eq_refl k0 x' H1) as (x2 & H3 & H4).
        exists x2. split; [done|congruence].
  - destruct (workers s !! t) as [[]|] eqn:Ht; try done. injection H as <-.
    eapply main_quiet; [done..|by cbn; rewrite insert_length|]. cbn. by eapply upd_exited.
Qed.

Lemma main_init threads : first < last -> MainOk (init threads).
Proof.
  intros Hl. unfold Pipe_Model.init. destruct (Z.leb_spec last first) as [?|_]; [lia|]. split; cbn; try done. eauto.
Qed.

Lemma run_main s ms s' : Inv s -> MainOk s -> Forall (fun m => m <> SpuriousJoin) ms -> run s ms = Some s' -> MainOk s'.
Proof.
  revert s. induction ms as [|m ms IH]; cbn; intros s I M Hf H; [by injection H as <-|].
  apply Forall_cons in Hf as [Hm Hf].
  destruct (step s m) as [[s1| |]|] eqn:E; try done.
  destruct (inv_step s m I) as (s2 & E2 & I2); [by rewrite E|]. rewrite E in E2. injection E2 as ->.
  apply (IH s2); [done| |done..]. by apply (main_step s m s2).
Qed.

(** When the call returns, every item has been consumed and no worker is still at work — provided that the calling
    thread is not woken up for no reason while it waits for the other workers. *)
Theorem C43_complete threads ms s : run (init threads) ms = Some s -> Forall (fun m => m <> SpuriousJoin) ms ->
  main s = Returned -> log s = consumed_in_order (last - first) /\ Forall (fun w => w = Exited) (workers s).
Proof.
  intros H Hf Hr. destruct (Z.le_gt_cases last first) as [Hl|Hl].
  { destruct (init_empty threads ms s Hl H) as [_ ->].
    unfold Pipe_Model.init. destruct (Z.leb_spec last first); [|lia]. split; [|by constructor]. cbn.
    unfold Pipe_Spec.consumed_in_order. by rewrite (seqZ_nil first (last - first)) by lia. }
  pose proof (run_inv _ _ _ (inv_init threads Hl) H) as I.
  pose proof (run_main _ _ _ (inv_init threads Hl) (main_init threads Hl) Hf H) as M.
  pose proof (m_ret _ M Hr) as Hc. rewrite (i_count _ I) in Hc.
  assert (Hall : forall t w, workers s !! t = Some w -> w = Exited) by (intros; by eapply live_zero).
  destruct (i_core _ I) as [W L Q Pr U O No So In Lg].
  assert (Hv : forall t w, views s !! t = Some w -> w = AtWait).
  { intros t w Ht. apply list_lookup_fmap_inv in Ht as (w0 & -> & Hw0). by apply Hall in Hw0 as ->. }
  split; [|apply Forall_lookup; eauto].
  destruct No as [E1 E2]. { intros t w Ht. by apply Hv in Ht as ->. }
  assert (Hw : write_idx s = last).
  { apply (i_exit _ I). destruct (workers s) as [|w ws] eqn:Ew; [by destruct (m_some _ M)|].
    rewrite (Hall 0%nat w) by done. by left. }
  destruct (Z.eq_dec (read_idx s) (write_idx s)) as [E|E].
  2:{ exfalso. assert (Hin : Producing (read_idx s) ∈ views s) by (apply E2; lia).
      apply elem_of_list_lookup in Hin as [t Ht]. by apply Hv in Ht. }
  rewrite Lg, decide_False; [|intros [t Ht]%elem_of_list_lookup; by apply Hv in Ht].
  rewrite app_nil_r. f_equal. lia.
Qed.

(** Until the call returns, some worker can take its next step: no deadlock, and no wake-up is missed for ever. *)
Theorem C43_no_deadlock threads ms s : run (init threads) ms = Some s -> Forall (fun m => m <> SpuriousJoin) ms ->
  main s <> Returned -> exists t k s', step s (Go t k) = Some (Ok s').
Proof.
  intros H Hf Hr. destruct (Z.le_gt_cases last first) as [Hl|Hl].
  { destruct (init_empty threads ms s Hl H) as [_ ->]. exfalso. apply Hr.
    unfold Pipe_Model.init. by destruct (Z.leb_spec last first); [|lia]. }
  pose proof (run_inv _ _ _ (inv_init threads Hl) H) as I.
  pose proof (run_main _ _ _ (inv_init threads Hl) (main_init threads Hl) Hf H) as M.
  assert (Hrun : forall t k, step s (Go t k) <> None -> exists t k s', step s (Go t k) = Some (Ok s')).
  { intros t k Hn. destruct (inv_step s _ I Hn) as (s' & E & _). eauto. }
  destruct (decide (Forall (fun w => w = Asleep \/ w = Exited) (workers s))) as [Hall|Hsome].
  - exfalso. rewrite Forall_forall in Hall.
    destruct (decide (Exited ∈ workers s)) as [Hex|Hnex].
    + (* somebody left: nobody sleeps, so everybody left *)
      destruct (i_exit _ I Hex) as [_ Hna].
      assert (Hl0 : live (workers s) = 0%nat).
      { destruct (decide (live (workers s) = 0%nat)) as [|Hn]; [done|]. apply live_pos in Hn as (t & w & Ht & Hw).
        destruct (Hall w) as [-> | ->]; [apply elem_of_list_lookup; eauto| |done]. destruct Hna. apply elem_of_list_lookup. eauto. }
      destruct (main s) eqn:Em.
      * destruct (m_worker _ M Em) as (w & H1 & H2). by eapply live_lookup.
      * destruct (m_join _ M Em) as [Hc _]. by rewrite (i_count _ I) in Hc.
      * done.
    + (* everybody sleeps: the ring is full, and nobody produces its first item *)
      assert (Hsl : forall w, w ∈ workers s -> w = Asleep).
      { intros w Hw. destruct (Hall w Hw) as [?| ->]; done. }
      pose proof (i_full _ I Hsl) as Hfull.
      destruct (i_core _ I) as [W L Q Pr U O No So In Lg].
      assert (Hv : forall t w, views s !! t = Some w -> w = AtWait).
      { intros t w Ht. apply list_lookup_fmap_inv in Ht as (w0 & -> & Hw0). rewrite (Hsl w0); [done|]. apply elem_of_list_lookup. eauto. }
      destruct No as [E1 E2]. { intros t w Ht. by apply Hv in Ht as ->. }
      assert (Hin : Producing (read_idx s) ∈ views s) by (apply E2; lia).
      apply elem_of_list_lookup in Hin as [t Ht]. by apply Hv in Ht.
  - apply not_Forall_Exists in Hsome; [|apply _]. apply Exists_exists in Hsome as (w & [t Ht]%elem_of_list_lookup & Hw).
    destruct w as [| | |i| | |]; try (exfalso; by auto); try (apply (Hrun t 0%nat); cbn; by rewrite Ht).
    destruct (i_core _ I) as [W _ _ _ _ _ _ _ _ _].
    destruct (existsb asleep (<[t := AtConsume]> (workers s))) eqn:Ea.
    + apply existsb_exists in Ea as (w & Hin & Hwa). apply elem_of_list_In, elem_of_list_lookup in Hin as [k Hk].
      assert (w = Asleep) as -> by (by destruct w).
      apply (Hrun t k). cbn. rewrite Ht. unfold step_consumed. rewrite slot_some by lia.
      destruct (max_pending <=? _); [|done]. unfold notify_one. destruct (existsb _ _); [|done]. by rewrite Hk.
    + apply (Hrun t 0%nat). cbn. rewrite Ht. unfold step_consumed. rewrite slot_some by lia.
      destruct (max_pending <=? _); [|done]. unfold notify_one. by rewrite Ea.
Qed.

(** ** Every run ends *)

Definition weight (n : Z) (w : wst) : Z :=
  match w with
  | Exited => 0 | Asleep => n + 2 | AtWait => n + 3 | NotStarted => n + 4
  | InConsumer => n + 4 | AtConsume => n + 5 | Producing _ => n + 6
  end.
Fixpoint weights (n : Z) (ws : list wst) : Z := match ws with [] => 0 | w :: ws => weight n w + weights n ws end.

Lemma weights_upd n ws t w w' : ws !! t = Some w -> weights n (<[t := w']> ws) = weights n ws - weight n w + weight n w'.
Proof.
  revert t. induction ws as [|x ws IH]; intros [|t] Ht; try done.
  - injection Ht as ->. cbn [weights insert list_insert]. lia.
  - change (<[S t := w']> (x :: ws)) with (x :: <[t := w']> ws). cbn [weights]. rewrite (IH t) by done. lia.
Qed.
Lemma weights_pos n ws : 0 <= n -> 0 <= weights n ws.
Proof. intros Hn. induction ws as [|w ws IH]; cbn; [lia|]. destruct w; cbn; lia. Qed.
Lemma weights_notify n ws : weights n (notify_all ws) <= weights n ws + Z.of_nat (length ws).
Proof. unfold notify_all. induction ws as [|w ws IH]; cbn -[Z.of_nat]; [lia|]. destruct w; cbn -[Z.of_nat]; lia. Qed.

Definition measure (s : pst V) : Z :=
  4 * (last - write_idx s) + 3 * (last - read_idx s) + weights (Z.of_nat (length (workers s))) (workers s).

Lemma measure_step s m s' : Inv s -> step s m = Some (Ok s') ->
  length (workers s') = length (workers s) /\ measure s' <= measure s + (if is_go m then -1 else 1).
Proof.
  intros I H. unfold measure. destruct m as [t k|t|]; cbn in H; cbn [is_go].
  - destruct (workers s !! t) as [w|] eqn:Ht; [|done].
    destruct w as [| | |i| | |]; try done.
    + injection H as <-. cbn. rewrite insert_length, (weights_upd _ _ _ _ _ Ht). cbn. lia.
    + injection H as H. unfold step_wait in H. destruct (last <=? write_idx s).
      { injection H as <-. cbn. unfold notify_all at 1 2. rewrite insert_length, map_length.
        split; [done|].
        rewrite (weights_upd _ _ t AtWait Exited) by (by apply notify_all_lookup).
        pose proof (weights_notify (Z.of_nat (length (workers s))) (workers s)). cbn. lia. }
      destruct (write_idx s - read_idx s <? max_pending).
      { destruct (slot (write_idx s)); [|done]. injection H as <-. cbn.
        rewrite insert_length, (weights_upd _ _ _ _ _ Ht). cbn. lia. }
      injection H as <-. cbn. rewrite insert_length, (weights_upd _ _ _ _ _ Ht). cbn. lia.
    + injection H as H. unfold step_produced in H. destruct (slot i) as [j|]; [|done].
      destruct (queue s !! j) as [[]|]; try done. injection H as <-. cbn.
      rewrite insert_length, (weights_upd _ _ _ _ _ Ht). destruct (i =? _); cbn; lia.
    + injection H as H. unfold step_consume in H. destruct (slot (read_idx s)) as [j|]; [|done].
      destruct (queue s !! j) as [[v|]|]; try done; injection H as <-; cbn;
        rewrite insert_length, (weights_upd _ _ _ _ _ Ht); cbn; lia.
    + unfold step_consumed in H. destruct (slot (read_idx s)) as [j|]; [|done].
      destruct (if max_pending <=? write_idx s - read_idx s then _ else _) as [ws'|] eqn:Hn; [|done].
      injection H as <-. cbn.
      assert (Hws : ws' = <[t := AtConsume]> (workers s) \/
        (<[t := AtConsume]> (workers s) !! k = Some Asleep /\ ws' = <[k := AtWait]> (<[t := AtConsume]> (workers s)))).
      { destruct (max_pending <=? _); [by apply notify_one_spec in Hn|left; congruence]. }
      destruct Hws as [-> |[Hk ->]]; rewrite !insert_length.
      * rewrite (weights_upd _ _ _ _ _ Ht). cbn. lia.
      * rewrite (weights_upd _ _ _ _ _ Hk), (weights_upd _ _ _ _ _ Ht). cbn. lia.
  - destruct (workers s !! t) as [[]|] eqn:Ht; try done. injection H as <-. cbn.
    rewrite insert_length, (weights_upd _ _ _ _ _ Ht). cbn. lia.
  - destruct (main s); try done. injection H as <-. cbn. lia.
Qed.

Lemma measure_run s ms s' : Inv s -> run s ms = Some s' -> measure s' <= measure s - go_steps ms + spurious_steps ms.
Proof.
  unfold go_steps, spurious_steps.
  revert s. induction ms as [|m ms IH]; cbn -[Z.of_nat]; intros s I H; [injection H as <-; lia|].
  destruct (step s m) as [[s1| |]|] eqn:E; try done.
  destruct (inv_step s m I) as (s2 & E2 & I2); [by rewrite E|]. rewrite E in E2. injection E2 as ->.
  destruct (measure_step s m s2 I E) as [_ Hm]. specialize (IH s2 I2 H).
  destruct (is_go m); cbn -[Z.of_nat]; lia.
Qed.

Lemma weights_fresh n k : weights n (replicate k NotStarted) = Z.of_nat k * (n + 4).
Proof. induction k; cbn -[Z.of_nat]; [lia|]. rewrite IHk. lia. Qed.

(** A run has a bounded number of steps, as long as threads are not woken up for no reason over and over. *)
Theorem C43_terminates threads ms s : run (init threads) ms = Some s -> first < last ->
  go_steps ms <= 7 * (last - first) + Z.of_nat (threads + 1) * Z.of_nat (threads + 5) + spurious_steps ms.
Proof.
  intros H Hl. pose proof (run_inv _ _ _ (inv_init threads Hl) H) as I.
  pose proof (measure_run _ _ _ (inv_init threads Hl) H) as Hm.
  assert (0 <= measure s).
  { destruct (i_core _ I) as [W _ _ _ _ _ _ _ _ _]. unfold measure.
    pose proof (weights_pos (Z.of_nat (length (workers s))) (workers s)). lia. }
  assert (measure (init threads) <= 7 * (last - first) + Z.of_nat (threads + 1) * Z.of_nat (threads + 5)); [|lia].
  unfold measure, Pipe_Model.init. destruct (Z.leb_spec last first); [lia|]. cbn [workers write_idx read_idx length].
  rewrite replicate_length. cbn [weights weight]. rewrite weights_fresh. nia.
Qed.
End pipe.

(** ** Cases *)

(** Two threads, two items: thread 1 is still producing item 1 when the calling thread, done with item 0, wakes up for
    no reason and returns. *)
Theorem C43_return_early_refuted :
  exists ms s, run (fun i => i) 2 16 (init 0 2 16 1) ms = Some s /\ main s = Returned /\
    log s <> consumed_in_order (fun i => i) 0 2 /\ Producing 1 ∈ workers s.
Proof.
  exists [Go 0 0; Go 1 0; Go 1 0; Go 0 0; Go 0 0; Go 0 0; Go 0 0; Go 0 0; SpuriousJoin]. eexists.
  split; [vm_compute; reflexivity|]. vm_compute. split; [done|]. split; [done|]. right; left.
Qed.

(** Item numbers may be negative (filler layers above a raft): below minus the ring's size, the ring is accessed out of
    bounds. *)
Theorem C43_negative_first_refuted :
  step (fun i => i) 10 (ring_size 8 0) (init (-9) 10 (ring_size 8 0) 0) (Go 0 0) = Some UB.
Proof. vm_compute. reflexivity. Qed.

(** A ring of one slot, two threads: thread 1 goes to sleep on the full ring and is woken; the run ends. *)
Definition example_schedule : list move :=
  [Go 0 0; Go 1 0; Go 1 0; Go 0 0; Go 0 0; Go 0 1; Go 1 0; Go 0 0; Go 0 0; Go 1 0; Go 1 0; Go 1 0; Go 1 0; Go 1 0].
Example C43_example : exists s, run (fun i => i) 2 1 (init 0 2 1 1) example_schedule = Some s /\
  main s = Returned /\ log s = [CBegin 0; CEnd; CBegin 1; CEnd] /\ Forall (fun m => m <> SpuriousJoin) example_schedule.
Proof. eexists. split; [vm_compute; reflexivity|]. split; [done|]. split; [done|]. unfold example_schedule. by repeat (apply Forall_cons_2; [done|]). Qed.

Print Assumptions C43_in_order.
Print Assumptions C43_defined.
Print Assumptions C43_no_race.
Print Assumptions C43_complete.
Print Assumptions C43_no_deadlock.
Print Assumptions C43_terminates.
