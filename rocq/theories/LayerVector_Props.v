(** C25: layer vectors. *)
From Coq Require Import ZArith Lia.
From stdpp Require Import list.
From Verif Require Import Common Math_Model Layers_Model Layers_Proofs LayerVector_Model.
Open Scope Z_scope.

(** Storing [xs], in order, in a vector initialised with or without raft layers: with [lowest] the
    lowest layer number, item number i is on layer lowest + i, and nothing else is stored. *)
Theorem C25_layer_vector : forall (T : Type) (dflt : T) s raft v0 xs,
  lv_init s raft = Ok v0 ->
  let v := fold_left lv_push_back xs v0 in
  exists lowest : Z,
    (if raft then getTotalExtraLayers s = Ok (- lowest) else lowest = 0) /\
    (* at() finds exactly the item of that layer and reports every other layer *)
    (forall l x, lv_at v l = Some x <-> exists i, xs !! i = Some x /\ l = lowest + Z.of_nat i) /\
    (forall l, lv_at v l = None <-> l < lowest \/ lowest + Z.of_nat (length xs) <= l) /\
    (* operator[] agrees where at() does not throw, and only there *)
    (forall l, lv_index v l = of_opt (lv_at v l)) /\
    (* get() is at() or the default value *)
    (forall l, lv_get dflt v l = default dflt (lv_at v l)) /\
    (* iterators: forward and backward *)
    (forall l, lowest <= l < lowest + Z.of_nat (length xs) ->
       lv_getLayer v (lv_iterator_at v l) = l /\ lv_vector v !! lv_iterator_at v l = lv_at v l) /\
    (forall l, lv_at v l = None -> lv_iterator_at v l = length xs) /\
    (forall i, (i < length xs)%nat -> lv_vector v !! i = lv_at v (lv_getLayer v i)) /\
    (forall j, (j < length xs)%nat -> rev (lv_vector v) !! j = lv_at v (lv_getLayer_rev v j)) /\
    (forall i j, (i < j)%nat -> lv_getLayer v i < lv_getLayer v j) /\
    (xs <> [] -> lv_front v = of_opt (lv_at v lowest)).
Proof.
  intros T dflt s raft v0 xs Hinit v.
  assert (Hv0 : lv_vector v0 = [] /\ (if raft then getTotalExtraLayers s = Ok (lv_delta v0) else lv_delta v0 = 0)).
  { unfold lv_init in Hinit. destruct raft; [|by injection Hinit as <-].
    apply rbind_ok in Hinit as (d & Hd & [= <-]). done. }
  destruct Hv0 as [Hvec Hdelta].
  assert (Hv : lv_vector v = xs /\ lv_delta v = lv_delta v0).
  { subst v. assert (forall w : LayerVector T, lv_vector (fold_left lv_push_back xs w) = lv_vector w ++ xs /\
       lv_delta (fold_left lv_push_back xs w) = lv_delta w) as H.
    { induction xs as [|x xs IH]; intros w; simpl; [by rewrite app_nil_r|].
      destruct (IH (lv_push_back w x)) as [-> ->]. simpl. by rewrite <- app_assoc. }
    destruct (H v0) as [-> ->]. by rewrite Hvec. }
  clearbody v. destruct v as [vec d]. simpl in Hv. destruct Hv as [-> ->].
  set (d := lv_delta v0) in *. clearbody d. clear v0 Hinit Hvec.
  exists (- d). split; [destruct raft; [by rewrite Z.opp_involutive|lia]|].
  assert (Hat : forall l x, lv_at (LV xs d) l = Some x <-> exists i, xs !! i = Some x /\ l = - d + Z.of_nat i).
  { intros l x. unfold lv_at. simpl. destruct (Z.ltb_spec (l + d) 0) as [Hl|Hl].
    - split; [done|]. intros (i & _ & ->). lia.
    - split.
      + intros H. exists (Z.to_nat (l + d)). split; [done|lia].
      + intros (i & H & ->). replace (Z.to_nat (- d + Z.of_nat i + d)) with i by lia. done. }
  assert (HNone : forall l, lv_at (LV xs d) l = None <-> l < - d \/ - d + Z.of_nat (length xs) <= l).
  { intros l. unfold lv_at. simpl. destruct (Z.ltb_spec (l + d) 0) as [Hl|Hl]; [split; [lia|done]|].
    rewrite lookup_ge_None. lia. }
  split; [done|]. split; [done|]. split.
  { intros l. unfold lv_index, lv_at. by destruct (_ <? 0). }
  split.
  { intros l. unfold lv_get, lv_at. simpl. destruct (Z.ltb_spec (l + d) 0) as [Hl|Hl].
    - destruct (Z.leb_spec 0 (l + d)); [lia|done].
    - destruct (Z.leb_spec 0 (l + d)); [|lia]. simpl.
      destruct (Z.ltb_spec (l + d) (Z.of_nat (length xs))) as [H1|H1].
      + destruct (xs !! Z.to_nat (l + d)) eqn:E; [simpl; by apply nth_lookup_Some|].
        apply lookup_ge_None in E. lia.
      + rewrite lookup_ge_None_2 by lia. done. }
  split.
  { intros l Hl. unfold lv_getLayer, lv_iterator_at, lv_at. simpl.
    destruct (Z.leb_spec 0 (l + d)); [|lia]. destruct (Z.ltb_spec (l + d) (Z.of_nat (length xs))); [|lia].
    destruct (Z.ltb_spec (l + d) 0); [lia|]. simpl. split; [lia|done]. }
  split.
  { intros l Hl. apply HNone in Hl. unfold lv_iterator_at. simpl.
    destruct (Z.leb_spec 0 (l + d)); [|done]. destruct (Z.ltb_spec (l + d) (Z.of_nat (length xs))); [lia|done]. }
  split.
  { intros i Hi. unfold lv_getLayer, lv_at. simpl. destruct (Z.ltb_spec (Z.of_nat i - d + d) 0); [lia|].
    f_equal. lia. }
  split.
  { intros j Hj. unfold lv_getLayer_rev, lv_at. simpl.
    destruct (Z.ltb_spec (Z.of_nat (length xs) - Z.of_nat j - 1 - d + d) 0); [lia|].
    rewrite <- (rev_involutive xs) at 2. change (@rev T) with (@reverse T) || idtac.
    assert (forall k, (k < length xs)%nat -> rev xs !! (length xs - 1 - k)%nat = xs !! k) as Hrev.
    { intros k Hk. rewrite <- (reverse_involutive xs) at 3. rewrite <- rev_alt || idtac.
      rewrite reverse_lookup by (rewrite reverse_length; lia). rewrite reverse_length.
      unfold reverse. rewrite <- rev_alt. f_equal. lia. }
    rewrite rev_involutive. rewrite <- Hrev by lia. f_equal. lia. }
  split; [unfold lv_getLayer; simpl; lia|].
  intros Hne. unfold lv_front, lv_at. simpl. destruct (Z.ltb_spec (- d + d) 0); [lia|].
  replace (Z.to_nat (- d + d)) with 0%nat by lia. done.
Qed.

(** Storing and removing: pop_back undoes push_back, so a vector never shifts other layers. *)
Theorem C25_pop_undoes_push : forall (T : Type) (v : LayerVector T) x, lv_pop_back (lv_push_back v x) = Ok v.
Proof.
  intros T [vec d] x. unfold lv_pop_back, lv_push_back. simpl. destruct (vec ++ [x]) eqn:E; [by destruct vec|].
  rewrite <- E, removelast_last. done.
Qed.

Example C25_nonvacuous :
  let s := RaftSettings true 100 100 300 0 200 2 100 0 1 100 0 in
  exists v0, lv_init (T := nat) s true = Ok v0 /\
    let v := fold_left lv_push_back (seq 0 12) v0 in
    lv_at v (-7) = Some 0%nat /\ lv_at v 0 = Some 7%nat /\ lv_at v (-8) = None /\ lv_at v 5 = None /\
    lv_getLayer_rev v 0 = 4 /\ lv_iterator_at v 3 = 10%nat.
Proof. eexists. split; [vm_compute; reflexivity|]. vm_compute. auto 10. Qed.

Print Assumptions C25_layer_vector.
Print Assumptions C25_pop_undoes_push.
