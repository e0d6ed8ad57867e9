(** C85: empty layers at the bottom are removed. *)
From Coq Require Import ZArith Lia.
From stdpp Require Import prelude list.
From Verif Require Import Common EmptyFirst_Model EmptyFirst_Spec.
Open Scope Z_scope.

Lemma forallb_false {A} (f : A -> bool) l : forallb f l = false -> exists x, x ∈ l /\ f x = false.
Proof.
  induction l as [|x l IH]; cbn [forallb]; [done|]. destruct (f x) eqn:E; cbn [andb].
  - intros H. destruct (IH H) as (y & ? & ?). exists y. split; [by right|done].
  - intros _. exists x. split; [by left|done].
Qed.

Lemma isEmptyLayer_spec s i : isEmptyLayer s i = true <-> ~ printable s i.
Proof.
  unfold isEmptyLayer.
  assert (Hm : forall m, mesh_empty_at m i = true <-> forall l, mlayers m !! i = Some l ->
    (forall n, n ∈ print_outlines l -> n = 0%nat) /\ (surface_normal m = false -> open_polylines l = 0%nat)).
  { intros m. unfold mesh_empty_at. destruct (mlayers m !! i) as [l|]; [|by split].
    assert (Hf : forallb (fun n => (n =? 0)%nat) (print_outlines l) = true <-> forall n, n ∈ print_outlines l -> n = 0%nat).
    { rewrite forallb_forall. setoid_rewrite Nat.eqb_eq. setoid_rewrite elem_of_list_In. done. }
    destruct (surface_normal m); cbn [negb andb].
    - rewrite Hf. split; [intros H l' [= <-]; done|]. intros H. apply (H l eq_refl).
    - destruct (Nat.ltb_spec 0 (open_polylines l)).
      + split; [done|]. intros H'. destruct (H' l eq_refl) as [_ X]. specialize (X eq_refl). lia.
      + rewrite Hf. split; [intros X l' [= <-]; split; [done|lia]|]. intros X. apply (X l eq_refl). }
  destruct (generated (support s) && default false (support_layers (support s) !! i)) eqn:E.
  - split; [done|]. intros []. right. apply andb_true_iff in E as [-> E]. destruct (_ !! i) as [[]|]; done.
  - rewrite forallb_forall. setoid_rewrite Hm. setoid_rewrite <- elem_of_list_In. split.
    + intros H [(m & l & Hin & Hl & P)|[G S]].
      * destruct (H m Hin l Hl) as [A B]. destruct P as [(n & Hn & N)|[X Y]]; auto.
      * by rewrite G, S in E.
    + intros H m Hin l Hl. split.
      * intros n Hn. destruct (decide (n = 0%nat)); [done|]. destruct H. left. exists m, l. split; [done|]. split; [done|]. left. by exists n.
      * intros X. destruct (decide (open_polylines l = 0%nat)); [done|]. destruct H. left. exists m, l. split; [done|]. split; [done|]. by right.
Qed.

Lemma highest_fold i ms : forall z0, let z := fold_left (fun z m => match mlayers m !! i with None => z | Some l => Z.max z (printZ l) end) ms z0 in
  z0 <= z /\ (forall m l, m ∈ ms -> mlayers m !! i = Some l -> printZ l <= z) /\
  (z = z0 \/ exists m l, m ∈ ms /\ mlayers m !! i = Some l /\ z = printZ l).
Proof.
  induction ms as [|m ms IH]; intros z0; cbn [fold_left].
  - split; [lia|]. split; [by intros ? ? ?%elem_of_nil|by left].
  - destruct (IH (match mlayers m !! i with None => z0 | Some l => Z.max z0 (printZ l) end)) as (A & B & C).
    set (z := fold_left _ ms _) in *. clearbody z. split; [destruct (mlayers m !! i); lia|]. split.
    + intros m' l [-> |Hin]%elem_of_cons Hl; [rewrite Hl in A; lia|by apply (B m')].
    + destruct C as [-> |(m' & l & Hin & Hl & ->)]; [|right; exists m', l; split; [by right|done]].
      destruct (mlayers m !! i) as [l|] eqn:El; [|by left].
      destruct (Z.max_spec z0 (printZ l)) as [[_ ->]|[_ ->]]; [right; exists m, l; split; [by left|done]|by left].
Qed.

Lemma count_empty_spec s todo : forall i h, 
  let r := count_empty s todo i h in
  (i <= r.1 <= i + todo)%nat /\ (forall j, (i <= j < r.1)%nat -> ~ printable s j) /\
  ((r.1 < i + todo)%nat -> printable s r.1) /\
  h <= r.2 /\ (forall j m l, (i <= j < r.1)%nat -> m ∈ meshes s -> mlayers m !! j = Some l -> printZ l <= r.2) /\
  (0 <= h -> r.2 = h \/ exists j m l, (i <= j < r.1)%nat /\ m ∈ meshes s /\ mlayers m !! j = Some l /\ r.2 = printZ l).
Proof.
  induction todo as [|todo IH]; intros i h; cbn [count_empty].
  - cbn. repeat split; try lia; by left.
  - destruct (isEmptyLayer s i) eqn:E.
    + apply isEmptyLayer_spec in E.
      destruct (IH (S i) (Z.max h (layer_highest s i))) as (A & B & C & D & F & G).
      destruct (highest_fold i (meshes s) 0) as (P & Q & R). fold (layer_highest s i) in P, Q, R.
      set (r := count_empty s todo (S i) (Z.max h (layer_highest s i))) in *.
      split; [lia|]. split; [|split; [|split; [lia|split]]].
      * intros j Hj. destruct (decide (j = i)) as [-> |]; [done|]. apply B. lia.
      * intros X. apply C. lia.
      * intros j m l Hj Hm Hl. destruct (decide (j = i)) as [-> |]; [|apply (F j m l); [lia|done..]].
        specialize (Q m l Hm Hl). lia.
      * intros Hh. destruct (G ltac:(lia)) as [X|(j & m & l & Hj & ?)]; [|right; exists j, m, l; split; [lia|done]].
        destruct (Z.max_spec h (layer_highest s i)) as [[H1 H2]|[H1 H2]]; [|left; lia].
        destruct R as [R|(m & l & ? & ? & R)]; [left; lia|]. right. exists i, m, l. split; [lia|]. split; [done|]. split; [done|]. lia.
    + assert (Hp : ~ ~ printable s i) by (rewrite <- isEmptyLayer_spec; by rewrite E).
      assert (Hp' : printable s i).
      { unfold isEmptyLayer in E. unfold printable.
        destruct (generated (support s) && default false (support_layers (support s) !! i)) eqn:E1.
        - right. apply andb_true_iff in E1 as [-> E1]. destruct (_ !! i) as [[]|]; done.
        - left. clear Hp E1. apply forallb_false in E.
          destruct E as (m & Hm & X). unfold mesh_empty_at in X. destruct (mlayers m !! i) as [l|] eqn:El; [|done].
          exists m, l. split; [done|]. split; [done|].
          destruct (negb (surface_normal m) && (0 <? open_polylines l)%nat) eqn:E2.
          + right. apply andb_true_iff in E2 as [E2 E3]. apply negb_true_iff in E2. apply Nat.ltb_lt in E3. split; [done|lia].
          + left. apply forallb_false in X as (n & Hn & X). apply Nat.eqb_neq in X. eauto. }
      cbn. split; [lia|]. split; [lia|]. split; [done|]. split; [lia|]. split; [lia|by left].
Qed.

Lemma remove_from_mesh_ok n h m : (n <= length (mlayers m))%nat -> (0 < n)%nat ->
  exists m', remove_from_mesh n h m = Ok m' /\ lowered n h m m'.
Proof.
  intros Hn Hpos. unfold remove_from_mesh, transfer_thickness, erase_first.
  destruct (Nat.ltb_spec n (length (mlayers m))) as [L|L].
  - destruct (lookup_lt_is_Some_2 (mlayers m) 0) as [l0 E0]; [lia|].
    destruct (lookup_lt_is_Some_2 (mlayers m) n) as [ln En]; [lia|].
    rewrite E0, En. cbn [of_opt rbind]. rewrite insert_length. rewrite (proj2 (Nat.ltb_ge _ _)) by lia. cbn [rbind].
    eexists. split; [done|]. split; [done|]. split; [done|]. cbn [mlayers].
    split; [by rewrite map_length, drop_length, insert_length|].
    intros i l l' Hl Hl'. rewrite list_lookup_fmap, lookup_drop in Hl'. destruct (decide (i = 0%nat)) as [-> |N].
    + rewrite Nat.add_0_r in *. rewrite list_lookup_insert in Hl' by lia. cbn in Hl'. injection Hl' as <-.
      assert (ln = l) as -> by congruence. cbn. split; [done|]. split; [done|]. split; [done|]. intros l1 E1. congruence.
    + rewrite list_lookup_insert_ne in Hl' by lia. rewrite Hl in Hl'. cbn in Hl'. injection Hl' as <-. done.
  - cbn [rbind]. rewrite (proj2 (Nat.ltb_ge _ _)) by lia. cbn [rbind]. eexists. split; [done|].
    split; [done|]. split; [done|]. cbn [mlayers]. split; [by rewrite map_length, drop_length|].
    intros i l l' Hl. apply lookup_lt_Some in Hl. lia.
Qed.

Lemma remove_from_meshes_ok n h ms : (forall m, m ∈ ms -> (n <= length (mlayers m))%nat) -> (0 < n)%nat ->
  exists ms', remove_from_meshes n h ms = Ok ms' /\ Forall2 (lowered n h) ms ms'.
Proof.
  intros H Hn. induction ms as [|m ms IH]; cbn [remove_from_meshes]; [by exists []; split; [|constructor]|].
  destruct (remove_from_mesh_ok n h m) as (m' & -> & Hm); [apply H; by left|done|]. cbn [rbind].
  destruct IH as (ms' & -> & Hms); [intros; apply H; by right|]. cbn [rbind]. exists (m' :: ms'). by split; [|constructor].
Qed.

Lemma lowered_0 m : lowered 0 0 m m.
Proof.
  split; [done|]. split; [lia|]. split; [lia|]. intros i l l' Hl Hl'. cbn in Hl. assert (l' = l) as -> by congruence.
  split; [lia|]. split; [done|]. split; [done|]. destruct (decide (i = 0%nat)) as [-> |]; [|done]. intros. congruence.
Qed.

(** C85. *)
Theorem C85_empty_first s total :
  same_layers s total ->
  exists n h s', removeEmptyFirstLayers s total = Ok (s', (total - n)%nat) /\ (n <= total)%nat /\
    (forall j, (j < n)%nat -> ~ printable s j) /\ ((n < total)%nat -> printable s n) /\
    Forall2 (lowered n h) (meshes s) (meshes s') /\
    support_layers (support s') = drop n (support_layers (support s)) /\ generated (support s') = generated (support s) /\
    support_max_filled (support s') = support_max_filled (support s) - Z.of_nat n /\
    same_layers s' (total - n) /\
    0 <= h /\ (forall j m l, (j < n)%nat -> m ∈ meshes s -> mlayers m !! j = Some l -> printZ l <= h) /\
    (h = 0 \/ exists j m l, (j < n)%nat /\ m ∈ meshes s /\ mlayers m !! j = Some l /\ h = printZ l).
Proof.
  intros [Hm Hs]. unfold removeEmptyFirstLayers.
  destruct (count_empty_spec s total 0 0) as (A & B & C & D & E & F). set (r := count_empty s total 0 0) in *.
  destruct r as [n h]. cbn [fst snd] in *. destruct (Nat.ltb_spec 0 n) as [Hn|Hn].
  - destruct (remove_from_meshes_ok n h (meshes s)) as (ms & -> & Hms); [intros m X; rewrite (Hm m X); lia|done|].
    unfold erase_first. rewrite (proj2 (Nat.ltb_ge _ _)) by lia. cbn [rbind]. exists n, h. eexists. split; [done|].
    split; [lia|]. split; [intros j Hj; apply B; lia|]. split; [done|]. split; [done|]. split; [done|]. split; [done|].
    split; [done|]. split.
    { split; cbn; [|rewrite drop_length; lia]. intros m' [i Hi]%elem_of_list_lookup.
      destruct (Forall2_lookup_r _ _ _ _ _ Hms Hi) as (m & Hmi & (_ & _ & L & _)). rewrite L.
      rewrite (Hm m); [done|]. apply elem_of_list_lookup. eauto. }
    split; [done|]. split; [intros j m l Hj; apply E; lia|].
    destruct (F ltac:(lia)) as [X|(j & m & l & Hj & ?)]; [by left|]. right. exists j, m, l. split; [lia|done].
  - assert (n = 0%nat) as -> by lia. exists 0%nat, 0, s. rewrite Nat.sub_0_r. split; [done|]. split; [lia|]. split; [lia|].
    split; [done|]. split; [apply Forall2_same_length_lookup; split; [done|]; intros i x y Hx Hy; assert (y = x) as -> by congruence; apply lowered_0|].
    split; [done|]. split; [done|]. split; [lia|]. split; [by split|]. split; [lia|]. split; [lia|by left].
Qed.
Print Assumptions C85_empty_first.

(** Layers of the same height after the first: layer [i] of each mesh is at [initial + i * height]. *)
Definition evenly (initial height : Z) (s : sstorage) : Prop :=
  forall m i l, m ∈ meshes s -> mlayers m !! i = Some l -> printZ l = initial + Z.of_nat i * height.

(** If layers were removed, the new first layer is one layer height above the bed, with the thickness of the initial layer; the
    heights of the others follow. *)
Theorem C85_heights s total initial height s' total' :
  same_layers s total -> evenly initial height s -> 0 < initial -> 0 < height -> meshes s <> [] ->
  removeEmptyFirstLayers s total = Ok (s', total') -> total' <> total ->
  evenly height height s'.
Proof.
  intros Hs He Hi Hh Hne Hr Ht.
  destruct (C85_empty_first s total Hs) as (n & h & s1 & Hr1 & Hn & _ & _ & Hl & _ & _ & _ & _ & Hh0 & Hmax & Hatt).
  assert (s1 = s' /\ total' = (total - n)%nat) as [-> ->] by (split; congruence). assert (0 < n)%nat by lia.
  destruct Hs as [Hs _].
  assert (Hhe : h = initial + (Z.of_nat n - 1) * height).
  { destruct (meshes s) as [|m0 ms] eqn:Em; [done|]. assert (Hin : m0 ∈ m0 :: ms) by (by left).
    destruct (lookup_lt_is_Some_2 (mlayers m0) (n - 1)) as [l El]; [rewrite (Hs m0 Hin); lia|].
    pose proof (Hmax (n - 1)%nat m0 l ltac:(lia) Hin El) as X.
    rewrite (He m0 (n - 1)%nat l) in X; [|by rewrite Em|done].
    destruct Hatt as [-> |(j & m & l' & Hj & Hm & Hl' & ->)]; [nia|].
    assert (Y : printZ l' = initial + Z.of_nat j * height) by (apply (He m); [by rewrite Em|done]). rewrite Y in *.
    assert (Z.of_nat j * height <= (Z.of_nat n - 1) * height) by (apply Z.mul_le_mono_nonneg_r; lia).
    replace (Z.of_nat (n - 1)) with (Z.of_nat n - 1) in X by lia. lia. }
  intros m' i l' [k Hk]%elem_of_list_lookup Hl'.
  destruct (Forall2_lookup_r _ _ _ _ _ Hl Hk) as (m & Hmk & (_ & _ & L & P)).
  assert (Hin : m ∈ meshes s) by (apply elem_of_list_lookup; eauto).
  pose proof (lookup_lt_Some _ _ _ Hl') as Hlt. rewrite L in Hlt.
  destruct (lookup_lt_is_Some_2 (mlayers m) (n + i)) as [l El]; [lia|].
  destruct (P i l l' El Hl') as (-> & _). rewrite (He m (n + i)%nat l Hin El). rewrite Hhe. lia.
Qed.
Print Assumptions C85_heights.

Definition demo (initial height : Z) : sstorage :=
  SStorage [SMesh true [SLayer initial initial 0 [0%nat]; SLayer (initial + height) height 2 [];
                        SLayer (initial + 2 * height) height 0 [0%nat; 1%nat]; SLayer (initial + 3 * height) height 0 [1%nat]] 3]
    (SSupport false [true; false; false; false] (-1)).

(** So the first layer is not as thick as it is high. *)
Theorem C85_thickness_refuted :
  exists s total m l, same_layers s total /\ evenly 300 100 s /\ removeEmptyFirstLayers s total = Ok (SStorage [m] (SSupport false [false; false] (-3)), 2%nat) /\
    mlayers m !! 0%nat = Some l /\ printZ l = 100 /\ thickness l = 300.
Proof.
  exists (demo 300 100), 4%nat. eexists _, _. split; [split; [by intros m ->%elem_of_list_singleton|done]|]. split.
  { intros m i l ->%elem_of_list_singleton. do 4 (destruct i as [|i]; [by intros [= <-]|]). done. }
  split; [by vm_compute|]. split; [by vm_compute|]. done.
Qed.
Print Assumptions C85_thickness_refuted.

(** Support or meshes with fewer layers than are empty are not allowed. *)
Theorem C85_fewer_layers_refuted :
  exists s total, (forall m, m ∈ meshes s -> length (mlayers m) = total) /\ removeEmptyFirstLayers s total = UB.
Proof.
  exists (SStorage [SMesh true [SLayer 300 300 0 []; SLayer 400 100 0 [1%nat]] 1] (SSupport false [] (-1))), 2%nat.
  split; [by intros m ->%elem_of_list_singleton|done].
Qed.
Print Assumptions C85_fewer_layers_refuted.

Example C85_nonvacuous :
  match removeEmptyFirstLayers (demo 200 200) 4 with
  | Ok (s', t) => t = 2%nat /\ map (fun m => map printZ (mlayers m)) (meshes s') = [[200; 400]]
  | _ => False
  end.
Proof. by vm_compute. Qed.
