(** * C32: layer plans are written once, in order, with bounded look-ahead *)
From Coq Require Import ZArith Lia.
From stdpp Require Import list list_numbers.
From Verif Require Import Common Pipe_Model Pipe_Spec Pipe_Props LayerBuffer_Model.
Local Open Scope Z_scope.

(** The plans handed over, and those handed over since the last flush. *)
Fixpoint handed {P} (rs : list (request P)) : list P :=
  match rs with [] => [] | Handle p :: r => p :: handed r | Flush :: r => handed r end.
Fixpoint since_flush {P} (acc : list P) (rs : list (request P)) : list P :=
  match rs with [] => acc | Handle p :: r => since_flush (acc ++ [p]) r | Flush :: r => since_flush [] r end.

Definition kept {P} (l : list P) : list P := drop (length l - buffer_size) l.

Lemma handle_kept {P} (b : buf P) l p : pending b = kept l ->
  pending (handle b p) = kept (l ++ [p]) /\
  written (handle b p) ++ pending (handle b p) = written b ++ pending b ++ [p].
Proof.
  intros E. unfold handle. set (l' := pending b ++ [p]).
  assert (length (pending b) = Nat.min (length l) buffer_size)%nat as Hlen.
  { rewrite E. unfold kept. rewrite drop_length. lia. }
  assert (length l' = S (Nat.min (length l) buffer_size))%nat as Hlen'.
  { unfold l'. rewrite app_length, Hlen. cbn. lia. }
  unfold kept in *. rewrite app_length. cbn [length].
  destruct (Nat.ltb_spec buffer_size (length l')) as [L|L].
  - destruct l' as [|x rest] eqn:El'; [cbn in Hlen'; lia|]. cbn [pending written].
    split; [|by rewrite <- app_assoc; cbn; f_equal].
    unfold l' in El'. rewrite E in El'.
    rewrite <- drop_app_le in El' by lia.
    replace (length l + 1 - buffer_size)%nat with (S (length l - buffer_size)) by lia.
    rewrite <- (drop_drop _ 1 (length l - buffer_size)) || rewrite <- Nat.add_1_r, <- drop_drop.
    by rewrite El'.
  - cbn [pending written]. split; [|done]. unfold l'. rewrite E.
    replace (length l - buffer_size)%nat with 0%nat by lia.
    replace (length l + 1 - buffer_size)%nat with 0%nat by lia. done.
Qed.

Lemma serve_all_spec {P} (rs : list (request P)) : forall b l, pending b = kept l ->
  pending (serve_all b rs) = kept (since_flush l rs) /\
  written (serve_all b rs) ++ pending (serve_all b rs) = written b ++ pending b ++ handed rs.
Proof.
  induction rs as [|[p|] rs IH]; intros b l E; cbn.
  - by rewrite app_nil_r.
  - destruct (handle_kept b l p E) as [H1 H2]. destruct (IH (handle b p) (l ++ [p]) H1) as [H3 H4].
    split; [done|]. unfold serve_all in H4. rewrite H4. rewrite app_assoc, H2, <- !app_assoc. done.
  - destruct (IH (flush b) []) as [H3 H4]; [done|]. split; [done|]. unfold serve_all in H4. rewrite H4.
    cbn. by rewrite <- app_assoc.
Qed.

(** Whatever is asked of the buffer, the plans written and then those kept are the
    plans handed over, in that order; of the plans handed over since the last
    flush the last five, and no others, are kept. *)
Theorem C32_in_order P (rs : list (request P)) :
  let b := serve_all empty_buf rs in
  written b ++ pending b = handed rs /\
  (length (pending b) = Nat.min 5 (length (since_flush [] rs)))%nat /\
  pending b `suffix_of` since_flush [] rs.
Proof.
  cbv zeta. destruct (serve_all_spec rs empty_buf [] eq_refl) as [H1 H2]. split; [done|].
  rewrite H1. unfold kept. split.
  - rewrite drop_length. unfold buffer_size. lia.
  - exists (take (length (since_flush [] rs) - buffer_size) (since_flush [] rs)). by rewrite take_drop.
Qed.

(** After a flush all plans handed over have been written, each once. *)
Theorem C32_flush_writes_all P (rs : list (request P)) :
  written (serve_all empty_buf (rs ++ [Flush])) = handed rs /\
  pending (serve_all empty_buf (rs ++ [Flush])) = [].
Proof.
  unfold serve_all. rewrite fold_left_app. cbn. split; [|done].
  by destruct (serve_all_spec rs empty_buf [] eq_refl) as [_ H2].
Qed.

(** ** In the pipeline *)

Section pipe.
  Context {V : Type} (layer_nr : V -> Z) (needs : Z -> option Z) (producer : Z -> V) (first last max_pending : Z).
  Hypothesis Hmax : 0 < max_pending.
  Hypothesis Hfirst : - max_pending <= first.
  Hypothesis Hnr : forall i, layer_nr (producer i) = i.
  Hypothesis Hneeds : forall i j, needs i = Some j -> first <= j < i /\ i - 5 <= j.

  Context (b0 : buf V).
  Hypothesis Hb0 : pending b0 = [].

  Local Notation wrun := (wrun layer_nr needs producer last max_pending b0).
  Local Notation wstep := (wstep layer_nr needs producer last max_pending b0).
  Local Notation run := (Pipe_Model.run producer last max_pending).
  Local Notation init := (Pipe_Model.init first last max_pending).

  Lemma wrun_run s ms s' : wrun s ms = Some s' -> run s ms = Some s'.
  Proof.
    revert s. induction ms as [|m ms IH]; intros s; cbn; [done|].
    destruct (wstep s m) as [[s1| |]|] eqn:E; try done. intros H.
    assert (step producer last max_pending s m = Some (Ok s1)) as ->.
    { unfold LayerBuffer_Model.wstep in E. destruct m as [t k| |]; [|done..].
      destruct (workers s !! t) as [[]|]; try done. by destruct (waiting _ _ _ _ _). }
    by apply IH.
  Qed.

  Lemma buffer_after_app b c l1 l2 :
    buffer_after b c (flat_map (fun i => [CBegin (producer i); CEnd]) l1 ++ l2) =
    match l1 with [] => buffer_after b c l2
    | _ => buffer_after (fold_left handle (map producer l1) b) None l2 end.
  Proof.
    revert b c. induction l1 as [|i l1 IH]; intros b c; [done|]. cbn. rewrite IH. by destruct l1.
  Qed.

  Lemma fold_handle_kept l0 l (b : buf V) : pending b = kept l0 ->
    pending (fold_left handle l b) = kept (l0 ++ l).
  Proof.
    revert l0 b. induction l as [|p l IH]; intros l0 b E; cbn; [by rewrite app_nil_r|].
    rewrite (IH (l0 ++ [p])); [by rewrite <- app_assoc|]. by apply handle_kept.
  Qed.

  Lemma buffer_pending lg n : 0 <= n ->
    (lg = consumed_in_order producer first n \/
     exists v, lg = consumed_in_order producer first n ++ [CBegin v]) ->
    pending (buffer_after b0 None lg) = kept (map producer (seqZ first n)).
  Proof.
    intros Hn H.
    assert (buffer_after b0 None lg = fold_left handle (map producer (seqZ first n)) b0) as ->.
    { unfold consumed_in_order in H. destruct H as [-> |[v ->]].
      - rewrite <- (app_nil_r (flat_map _ _)), buffer_after_app. by destruct (seqZ first n).
      - rewrite buffer_after_app. by destruct (seqZ first n). }
    apply (fold_handle_kept []). by rewrite Hb0.
  Qed.

  Lemma kept_seqZ n i : 0 <= n ->
    producer i ∈ kept (map producer (seqZ first n)) <-> first <= i < first + n /\ first + n - 5 <= i.
  Proof.
    intros Hn. unfold kept. rewrite map_length, seqZ_length.
    replace (map producer (seqZ first n)) with (producer <$> seqZ first n) by done.
    rewrite <- fmap_drop, elem_of_list_fmap. unfold buffer_size. split.
    - intros (j & E & Hj). assert (j = i) as -> by (apply (f_equal layer_nr) in E; rewrite !Hnr in E; congruence).
      apply elem_of_list_lookup in Hj as [k Hk]. rewrite lookup_drop in Hk.
      apply lookup_seqZ in Hk as [-> Hk]. lia.
    - intros H. exists i. split; [done|]. apply elem_of_list_lookup.
      exists (Z.to_nat (i - first) - (Z.to_nat n - 5))%nat. rewrite lookup_drop.
      apply lookup_seqZ. lia.
  Qed.

  Lemma reached_pending threads ms s : run (init threads) ms = Some s -> first < last ->
    forall i, producer i ∈ pending (buffer_of b0 s) <-> first <= i < read_idx s /\ read_idx s - 5 <= i.
  Proof.
    intros H Hl i.
    pose proof (run_inv producer first last max_pending Hmax Hfirst _ _ _ (inv_init producer first last max_pending Hmax threads Hl) H) as I.
    destruct (i_core _ _ _ _ _ I) as [W L Q Pr U O No So In Lg].
    unfold buffer_of. rewrite (buffer_pending _ (read_idx s - first)); [|lia|].
    - rewrite kept_seqZ by lia. lia.
    - rewrite Lg. destruct (decide _); [right; eauto|left; by rewrite app_nil_r].
  Qed.

  Lemma completed_plan_some (b : buf V) j : producer j ∈ pending b ->
    exists p, completed_plan layer_nr b j = Some p /\ p ∈ pending b /\ layer_nr p = j.
  Proof.
    intros H. unfold completed_plan.
    assert (producer j ∈ List.filter (fun p => layer_nr p =? j) (pending b)) as K.
    { apply elem_of_list_In, filter_In. split; [by apply elem_of_list_In|]. apply Z.eqb_eq, Hnr. }
    destruct (List.filter _ _) as [|p r] eqn:E; [by apply elem_of_nil in K|]. exists p. split; [done|].
    assert (In p (List.filter (fun p => layer_nr p =? j) (pending b))) as Hp by (rewrite E; by left).
    apply filter_In in Hp as [H1 H2]. apply Z.eqb_eq in H2. by rewrite elem_of_list_In.
  Qed.

  Lemma finished_elem l tl l1 x l2 : tl = [] \/ (exists v, tl = [CBegin v]) ->
    flat_map (fun i => [CBegin (producer i); CEnd]) l ++ tl = l1 ++ CBegin x :: CEnd :: l2 -> x ∈ map producer l.
  Proof.
    intros Htl. revert l1. induction l as [|i l IH]; intros l1 E; cbn in E.
    - destruct Htl as [-> |[v ->]]; destruct l1 as [|? [|??]]; done.
    - destruct l1 as [|a [|b l1]]; cbn in E; [injection E as E _; rewrite <- E; by left|done|].
      right. eapply (IH l1). congruence.
  Qed.

  (** The buffer has finished with [v]'s hand-over. *)
  Definition handed_over (lg : list (event V)) (v : V) : Prop := exists l1 l2, lg = l1 ++ CBegin v :: CEnd :: l2.

  Lemma handed_over_read threads ms s j : run (init threads) ms = Some s -> first < last ->
    handed_over (log s) (producer j) <-> first <= j < read_idx s.
  Proof.
    intros H Hl.
    pose proof (run_inv producer first last max_pending Hmax Hfirst _ _ _ (inv_init producer first last max_pending Hmax threads Hl) H) as I.
    destruct (i_core _ _ _ _ _ I) as [W L Q Pr U O No So In Lg]. split.
    - intros (l1 & l2 & E). rewrite Lg in E. unfold consumed_in_order in E.
      apply finished_elem in E; [|destruct (decide _); [right; eauto|by left]].
      apply elem_of_list_fmap in E as (k & E & Hk). apply elem_of_seqZ in Hk.
      assert (j = k) as -> by (apply (f_equal layer_nr) in E; rewrite !Hnr in E; congruence). lia.
    - intros Hj. rewrite Lg.
      replace (read_idx s - first) with ((j - first) + (1 + (read_idx s - j - 1))) by lia.
      unfold handed_over, consumed_in_order. rewrite seqZ_app by lia. rewrite flat_map_app.
      rewrite (seqZ_app _ 1) by lia. rewrite flat_map_app.
      replace (first + (j - first)) with j by lia. 
      replace (seqZ j 1) with [j] by (unfold seqZ; cbn; f_equal; lia). cbn [flat_map app]. rewrite <- app_assoc. cbn [app]. eauto.
  Qed.

  (** A layer's plan that is asked for is, once handed over, found in the buffer,
      and stays there (not written, not deleted) for as long as the layer that
      asked for it is being produced. *)
  Theorem C32_plan_stays threads ms s t i j :
    wrun (init threads) ms = Some s -> first < last ->
    workers s !! t = Some (Producing i) -> needs i = Some j ->
    handed_over (log s) (producer j) ->
    completed_plan layer_nr (buffer_of b0 s) j = Some (producer j).
  Proof.
    intros H Hl Ht Hj Hh. apply wrun_run in H.
    rewrite (handed_over_read _ _ _ _ H Hl) in Hh.
    assert (i_lt : read_idx s <= i).
    { pose proof (run_inv producer first last max_pending Hmax Hfirst _ _ _ (inv_init producer first last max_pending Hmax threads Hl) H) as I.
      destruct (i_core _ _ _ _ _ I) as [W L Q Pr U O No So In Lg].
      specialize (Pr t i). unfold views in Pr. rewrite list_lookup_fmap, Ht in Pr. specialize (Pr eq_refl). lia. }
    destruct (Hneeds _ _ Hj) as [? ?].
    destruct (completed_plan_some (buffer_of b0 s) j) as (p & E1 & E2 & E3).
    { rewrite (reached_pending _ _ _ H Hl). lia. }
    rewrite E1. f_equal.
    assert (exists k, p = producer k) as [k ->]; [|by rewrite Hnr in E3; subst].
    pose proof (run_inv producer first last max_pending Hmax Hfirst _ _ _ (inv_init producer first last max_pending Hmax threads Hl) H) as I.
    destruct (i_core _ _ _ _ _ I) as [W L Q Pr U O No So In Lg].
    unfold buffer_of in E2. rewrite (buffer_pending _ (read_idx s - first)) in E2; [|lia|].
    - unfold kept in E2. apply elem_of_list_lookup in E2 as [k Hk]. rewrite lookup_drop in Hk.
      apply elem_of_list_lookup_2, elem_of_list_fmap in Hk as (k' & -> & _). eauto.
    - rewrite Lg. destruct (decide _); [right; eauto|left; by rewrite app_nil_r].
  Qed.

  (** Though workers wait for plans of lower layers, some worker can always go on
      until all layers have been handed over. *)
  Theorem C32_no_deadlock threads ms s :
    wrun (init threads) ms = Some s -> first < last ->
    Forall (fun m => m <> SpuriousJoin) ms -> main s <> Returned ->
    exists t k s', wstep s (Go t k) = Some (Ok s').
  Proof.
    intros H Hl Hf Hr. apply wrun_run in H.
    pose proof (run_inv producer first last max_pending Hmax Hfirst _ _ _ (inv_init producer first last max_pending Hmax threads Hl) H) as I.
    destruct (C43_no_deadlock producer first last max_pending Hmax Hfirst threads ms s H Hf Hr) as (t & k & s' & E).
    assert ((exists i, workers s !! t = Some (Producing i)) \/ ~ (exists i, workers s !! t = Some (Producing i))) as [[i Hi]|Hn].
    { destruct (workers s !! t) as [[]|]; try (right; by intros [? ?]). left. eauto. }
    2: { exists t, k, s'. unfold LayerBuffer_Model.wstep. rewrite E.
         destruct (workers s !! t) as [[]|] eqn:Et; try done. destruct Hn. eauto. }
    destruct (i_core _ _ _ _ _ I) as [W L Q Pr U O No So In Lg].
    destruct (decide (Exists (fun w => consuming w = true) (workers s))) as [Hc|Hc].
    - (* somebody consumes *)
      apply Exists_exists in Hc as (w & [u Hu]%elem_of_list_lookup & Hw).
      assert (exists k s', step producer last max_pending s (Go u k) = Some (Ok s')) as (k' & s2 & E2).
      { assert (forall k, step producer last max_pending s (Go u k) <> None -> exists k s', step producer last max_pending s (Go u k) = Some (Ok s')) as Hrun.
        { intros k' Hk. destruct (inv_step producer first last max_pending Hmax Hfirst s _ I Hk) as (s2 & E2 & _). eauto. }
        destruct w; try done.
        - apply (Hrun 0%nat). cbn. by rewrite Hu.
        - destruct (existsb asleep (<[u := AtConsume]> (workers s))) eqn:Ea.
          + apply existsb_exists in Ea as (w & Hin & Hwa). apply elem_of_list_In, elem_of_list_lookup in Hin as [k' Hk].
            assert (w = Asleep) as -> by (by destruct w).
            apply (Hrun k'). cbn. rewrite Hu. unfold step_consumed. rewrite (slot_some first max_pending Hmax Hfirst) by lia.
            destruct (max_pending <=? _); [|done]. unfold notify_one. destruct (existsb _ _); [|done]. by rewrite Hk.
          + apply (Hrun 0%nat). cbn. rewrite Hu. unfold step_consumed. rewrite (slot_some first max_pending Hmax Hfirst) by lia.
            destruct (max_pending <=? _); [|done]. unfold notify_one. by rewrite Ea. }
      exists u, k', s2. unfold LayerBuffer_Model.wstep. rewrite Hu. by destruct w.
    - (* nobody consumes: the lowest layer is being produced, and all below it are done *)
      destruct No as [E1 E2].
      { intros u w Hu. apply list_lookup_fmap_inv in Hu as (w0 & -> & Hw0).
        destruct (consuming (view w0)) eqn:Ew; [|done]. exfalso. apply Hc, Exists_exists. exists w0.
        split; [by eapply elem_of_list_lookup_2|]. by destruct w0. }
      assert (Hin : Producing (read_idx s) ∈ views s).
      { apply E2. specialize (Pr t i). unfold views in Pr. rewrite list_lookup_fmap, Hi in Pr. specialize (Pr eq_refl). lia. }
      apply elem_of_list_lookup in Hin as [u Hu]. apply list_lookup_fmap_inv in Hu as (w & Ew & Hu).
      assert (w = Producing (read_idx s)) as -> by (by destruct w).
      assert (waiting layer_nr needs b0 s (read_idx s) = false) as Hwait.
      { unfold waiting. destruct (needs (read_idx s)) as [j|] eqn:Ej; [|done].
        destruct (Hneeds _ _ Ej) as [? ?].
        destruct (completed_plan_some (buffer_of b0 s) j) as (p & -> & _); [|done].
        rewrite (reached_pending _ _ _ H Hl). lia. }
      destruct (inv_step producer first last max_pending Hmax Hfirst s (Go u 0%nat) I) as (s2 & E3 & _).
      { cbn. by rewrite Hu. }
      exists u, 0%nat, s2. unfold LayerBuffer_Model.wstep. by rewrite Hu, Hwait.
  Qed.

  (** And every run ends. *)
  Theorem C32_terminates threads ms s : wrun (init threads) ms = Some s -> first < last ->
    go_steps ms <= 7 * (last - first) + Z.of_nat (threads + 1) * Z.of_nat (threads + 5) + spurious_steps ms.
  Proof. intros H Hl. by eapply C43_terminates; [..|by apply wrun_run|]. Qed.

  (** When the pipeline has ended and the buffer is flushed, every layer's plan has
      been written, once and in order, after those of earlier mesh groups. *)
  Theorem C32_mesh_group threads ms s : wrun (init threads) ms = Some s -> first < last ->
    Forall (fun m => m <> SpuriousJoin) ms -> main s = Returned ->
    written (flush (buffer_of b0 s)) = written b0 ++ map producer (seqZ first (last - first)).
  Proof.
    intros H Hl Hf Hr. apply wrun_run in H.
    destruct (C43_complete producer first last max_pending Hmax Hfirst threads ms s H Hf Hr) as [E _].
    unfold buffer_of. rewrite E. unfold consumed_in_order.
    rewrite <- (app_nil_r (flat_map _ _)), buffer_after_app.
    assert (forall (l : list V) (b : buf V), written (flush (fold_left handle l b)) = written b ++ pending b ++ l \/ (length (pending b) > 5)%nat) as K.
    { clear. induction l as [|p l IH]; intros b; cbn [fold_left].
      - left. unfold flush. cbn. by rewrite app_nil_r.
      - destruct (decide (5 < length (pending b))%nat) as [|Hb]; [right; lia|]. left.
        assert (kept (pending b) = pending b) as Hk.
        { unfold kept, buffer_size. by replace (length (pending b) - 5)%nat with 0%nat by lia. }
        destruct (handle_kept b (pending b) p) as [H1 H2]; [done|].
        destruct (IH (handle b p)) as [-> |Hc].
        + rewrite app_assoc, H2, <- !app_assoc. done.
        + exfalso. rewrite H1 in Hc. unfold kept in Hc. rewrite drop_length in Hc. unfold buffer_size in Hc. lia. }
    destruct (K (map producer (seqZ first (last - first))) b0) as [K'|K'].
    - rewrite Hb0 in K'. by destruct (seqZ first (last - first)).
    - rewrite Hb0 in K'. cbn in K'. lia.
  Qed.
End pipe.

(** Layers that ask for the layer below: what the code does for layers above 0. *)
Definition below (i : Z) : option Z := if 0 <? i then Some (i - 1) else None.
Lemma below_ok first i j : first <= 0 -> below i = Some j -> first <= j < i /\ i - 5 <= j.
Proof. unfold below. destruct (Z.ltb_spec 0 i); [|done]. intros ? [= <-]. lia. Qed.

(** Two threads, three layers: thread 1, at layer 1, waits for layer 0. *)
Example C32_example :
  exists s, wrun (fun i => i) below (fun i => i) 3 16 empty_buf (init 0 3 16 1) [Go 1 0; Go 0 0; Go 1 0] = Some s /\
    workers s !! 1%nat = Some (Producing 1) /\
    wstep (fun i => i) below (fun i => i) 3 16 empty_buf s (Go 1 0) = None /\
  exists s', wrun (fun i => i) below (fun i => i) 3 16 empty_buf s [Go 0 0; Go 0 0; Go 0 0; Go 1 0] = Some s' /\
    completed_plan (fun i => i) (buffer_of empty_buf s') 0 = Some 0.
Proof.
  eexists. split; [vm_compute; reflexivity|]. split; [reflexivity|]. split; [vm_compute; reflexivity|].
  eexists. split; [vm_compute; reflexivity|]. vm_compute. reflexivity.
Qed.

(** Had the look-back been one more than the buffer's size, a layer could wait for
    ever: layer 6, asking for layer 0, finds it gone. *)
Theorem C32_six_below_refuted :
  exists ms s, wrun (fun i => i) (fun i => if i =? 6 then Some 0 else None) (fun i => i) 7 16 empty_buf (init 0 7 16 0) ms = Some s /\
    main s <> Returned /\
    (forall t k, wstep (fun i => i) (fun i => if i =? 6 then Some 0 else None) (fun i => i) 7 16 empty_buf s (Go t k) = None).
Proof.
  exists (concat (replicate 6 (replicate 5 (Go 0 0))) ++ [Go 0 0]). eexists.
  split; [vm_compute; reflexivity|]. split; [done|]. intros [|t] k; [vm_compute; reflexivity|]. reflexivity.
Qed.

(** Seven plans, of which two have been written. *)
Example C32_example_buffer :
  serve_all empty_buf [Handle 1; Handle 2; Flush; Handle 3; Handle 4; Handle 5; Handle 6; Handle 7; Handle 8; Handle 9]
  = Buf [5; 6; 7; 8; 9] [1; 2; 3; 4].
Proof. reflexivity. Qed.

Print Assumptions C32_in_order.
Print Assumptions C32_flush_writes_all.
Print Assumptions C32_plan_stays.
Print Assumptions C32_no_deadlock.
Print Assumptions C32_terminates.
Print Assumptions C32_mesh_group.
Print Assumptions C32_six_below_refuted.
