(** * C33: planned temperature inserts are written once, in order and on time *)
From stdpp Require Import list sorting.
From Coq Require Import QArith Qminmax Lqa.
From Verif Require Import Common TempInsert_Model TempInsert_Spec.

(** ** Sorting *)

Lemma ti_ltb_true a b : ti_ltb a b = true -> not_after a b.
Proof.
  unfold ti_ltb, not_after. destruct (Nat.eqb_spec (ti_path a) (ti_path b)) as [E|E].
  - intros H. right. split; [done|]. apply negb_true_iff in H.
    destruct (Qlt_le_dec (ti_time a) (ti_time b)) as [L|L]; [lra|].
    apply Qle_bool_iff in L. congruence.
  - intros H. apply Nat.ltb_lt in H. by left.
Qed.

Lemma ti_ltb_false a b : ti_ltb a b = false -> not_after b a.
Proof.
  unfold ti_ltb, not_after. destruct (Nat.eqb_spec (ti_path a) (ti_path b)) as [E|E].
  - intros H. right. split; [done|]. apply negb_false_iff in H. by apply Qle_bool_iff.
  - intros H. apply Nat.ltb_ge in H. left. lia.
Qed.

Lemma not_after_trans a b c : not_after a b -> not_after b c -> not_after a c.
Proof.
  unfold not_after. intros [H|[H1 H2]] [K|[K1 K2]]; [left; lia..|].
  right. split; [congruence|lra].
Qed.

Lemma ti_place_perm i l : ti_place i l ≡ₚ i :: l.
Proof.
  induction l as [|j r IH]; cbn [ti_place]; [done|]. destruct (ti_ltb j i); [|done].
  rewrite IH. constructor.
Qed.

Lemma ti_sort_perm l : ti_sort l ≡ₚ l.
Proof. induction l as [|i l IH]; [done|]. cbn. by rewrite ti_place_perm, IH. Qed.

Lemma ti_place_sorted i l : StronglySorted not_after l -> StronglySorted not_after (ti_place i l).
Proof.
  induction 1 as [|j r Hs IH Hf]; cbn [ti_place].
  { repeat constructor. }
  destruct (ti_ltb j i) eqn:E.
  - constructor; [done|]. rewrite ti_place_perm. constructor; [by apply ti_ltb_true|done].
  - constructor; [by constructor|]. apply ti_ltb_false in E. constructor; [done|].
    eapply Forall_impl; [exact Hf|]. intros k Hk. by eapply not_after_trans.
Qed.

Lemma ti_sort_sorted l : StronglySorted not_after (ti_sort l).
Proof. induction l as [|i l IH]; cbn; [constructor|]. by apply ti_place_sorted. Qed.

Lemma same_moment_ltb a i j :
  same_moment a i = true -> ti_ltb j i = true -> same_moment a j = false.
Proof.
  unfold same_moment, ti_ltb. intros H K. apply andb_true_iff in H as [H1 H2].
  apply Nat.eqb_eq in H1. apply Qeq_bool_iff in H2. apply andb_false_iff.
  destruct (Nat.eqb_spec (ti_path j) (ti_path i)) as [E|E].
  - right. apply negb_true_iff in K. destruct (Qeq_bool (ti_time a) (ti_time j)) eqn:F; [|done].
    apply Qeq_bool_iff in F. rewrite <- K. symmetry. apply Qle_bool_iff. lra.
  - left. apply Nat.eqb_neq. congruence.
Qed.

Lemma ti_place_stable a i l :
  StronglySorted not_after l ->
  filter (same_moment a) (ti_place i l) = filter (same_moment a) (i :: l).
Proof.
  induction 1 as [|j r Hs IH Hf]; cbn [ti_place]; [done|].
  destruct (ti_ltb j i) eqn:E; [|done].
  rewrite (filter_cons _ j), IH, !filter_cons.
  destruct (decide (same_moment a i)) as [Hi|Hi]; [|done].
  destruct (decide (same_moment a j)) as [Hj|Hj]; [|done].
  exfalso. apply Is_true_true in Hi, Hj. pose proof (same_moment_ltb _ _ _ Hi E). congruence.
Qed.

Lemma ti_sort_stable a l : filter (same_moment a) (ti_sort l) = filter (same_moment a) l.
Proof.
  induction l as [|i l IH]; [done|]. cbn [ti_sort foldr]. fold (ti_sort l).
  rewrite ti_place_stable by apply ti_sort_sorted. rewrite !filter_cons, IH. done.
Qed.

(** ** One call of [handle_inserts] *)

Definition due (idx : nat) (cum : Q) (i : tinsert) : Prop :=
  (ti_path i < idx)%nat \/ (ti_path i = idx /\ (ti_time i <= cum)%Q).
Definition future (idx : nat) (cum : Q) (i : tinsert) : Prop :=
  (idx < ti_path i)%nat \/ (ti_path i = idx /\ (cum < ti_time i)%Q).

Lemma handle_inserts_spec idx cum l :
  StronglySorted not_after l ->
  l = (handle_inserts idx cum l).1 ++ (handle_inserts idx cum l).2 /\
  Forall (due idx cum) (handle_inserts idx cum l).1 /\
  Forall (future idx cum) (handle_inserts idx cum l).2.
Proof.
  induction 1 as [|i r Hs IH Hf]; cbn [handle_inserts].
  { split; [done|]. split; constructor. }
  destruct (_ || _) eqn:E; cbn [fst snd].
  - split; [done|]. split; [constructor|].
    assert (future idx cum i) as Hi.
    { apply orb_true_iff in E as [E|E].
      - left. by apply Nat.ltb_lt.
      - apply andb_true_iff in E as [E1 E2]. right. apply Nat.eqb_eq in E1. split; [done|].
        apply negb_true_iff in E2. apply Qnot_le_lt. intros L. apply Qle_bool_iff in L. congruence. }
    constructor; [done|]. eapply Forall_impl; [exact Hf|].
    intros k [K|[K1 K2]]; destruct Hi as [L|[L1 L2]]; [left; lia..|].
    right. split; [congruence|lra].
  - destruct IH as (IH1 & IH2 & IH3). split; [cbn; by rewrite <- IH1|]. split; [|done].
    constructor; [|done]. apply orb_false_iff in E as [E1 E2]. apply Nat.ltb_ge in E1.
    apply andb_false_iff in E2 as [E2|E2].
    + apply Nat.eqb_neq in E2. left. lia.
    + apply negb_false_iff, Qle_bool_iff in E2.
      destruct (decide (ti_path i = idx)); [by right|left; lia].
Qed.

Section trace.
  Context {A : Type} (early : nat -> Q -> Prop).

  (** What may come before what. *)
  Definition before_ok (e f : event A) : Prop :=
    match e, f with
    | EInsert i, EInsert j => not_after i j
    | EInsert i, EMove p c _ =>
      (ti_path i < p)%nat \/
      (ti_path i = p /\ ((ti_time i <= c)%Q \/ exists d, early p d /\ (ti_time i <= d)%Q))
    | EMove p c _, EInsert i =>
      (p < ti_path i)%nat \/ (p = ti_path i /\ (c < ti_time i)%Q)
    | EMove p c _, EMove q d _ => (p < q)%nat \/ (p = q /\ (c <= d)%Q)
    end.

  Lemma SS_app (l1 l2 : list (event A)) :
    StronglySorted before_ok l1 -> StronglySorted before_ok l2 ->
    (forall e f, e ∈ l1 -> f ∈ l2 -> before_ok e f) ->
    StronglySorted before_ok (l1 ++ l2).
  Proof.
    induction 1 as [|e l1 Hs IH Hf]; intros H2 Hc; [done|]. cbn. constructor.
    - apply IH; [done|]. intros. apply Hc; set_solver.
    - apply Forall_app. split; [done|]. apply Forall_forall. intros f Hf'. apply Hc; set_solver.
  Qed.

  Lemma SS_map (l : list tinsert) :
    StronglySorted not_after l -> StronglySorted before_ok (map EInsert l).
  Proof.
    induction 1 as [|i l Hs IH Hf]; cbn; [constructor|]. constructor; [done|].
    apply Forall_fmap. eapply Forall_impl; [exact Hf|]. done.
  Qed.

  Lemma SS_app_inv (l1 l2 : list tinsert) :
    StronglySorted not_after (l1 ++ l2) ->
    StronglySorted not_after l1 /\ StronglySorted not_after l2 /\
    forall i j, i ∈ l1 -> j ∈ l2 -> not_after i j.
  Proof.
    induction l1 as [|i l1 IH]; intros H; cbn in H.
    { split; [constructor|]. split; [done|]. intros i j Hi. set_solver. }
    apply StronglySorted_inv in H as [Hs Hf]. destruct (IH Hs) as (H1 & H2 & H3).
    apply Forall_app in Hf as [Hf1 Hf2]. split; [by constructor|]. split; [done|].
    intros a b [->|Ha]%elem_of_cons Hb; [|by apply H3].
    rewrite Forall_forall in Hf2. by apply Hf2.
  Qed.

  Lemma inserts_of_app (a b : list (event A)) : inserts_of (a ++ b) = inserts_of a ++ inserts_of b.
  Proof. apply omap_app. Qed.
  Lemma moves_of_app (a b : list (event A)) : moves_of (a ++ b) = moves_of a ++ moves_of b.
  Proof. apply omap_app. Qed.
  Lemma inserts_of_map l : inserts_of (map (EInsert (A := A)) l) = l.
  Proof. induction l as [|i l IH]; [done|]. cbn. unfold inserts_of in IH. by rewrite IH. Qed.
  Lemma moves_of_map l : moves_of (map (EInsert (A := A)) l) = [].
  Proof. induction l as [|i l IH]; [done|]. cbn. done. Qed.
  Lemma elem_of_inserts i (tr : list (event A)) : EInsert i ∈ tr -> i ∈ inserts_of tr.
  Proof. intros H. apply elem_of_list_omap. by exists (EInsert i). Qed.

  (** One iteration. *)
  Lemma run_ops_spec idx ops : forall cum l,
    StronglySorted not_after l -> Forall (future idx cum) l -> ticks_ok ops ->
    let k := run_ops (A := A) idx cum l ops in
    StronglySorted before_ok k.1.1 /\
    inserts_of k.1.1 ++ k.1.2 = l /\
    moves_of k.1.1 = omap (fun o => match o with Move m => Some m | _ => None end) ops /\
    (forall p c m, EMove p c m ∈ k.1.1 -> p = idx /\ (cum <= c)%Q /\ (c <= k.2)%Q) /\
    (forall i, EInsert i ∈ k.1.1 -> ti_path i = idx) /\
    Forall (future idx k.2) k.1.2 /\
    (k.2 == cum + duration ops)%Q /\ (cum <= k.2)%Q.
  Proof.
    induction ops as [|[dt|m] ops IH]; intros cum l Hl Hf Ht; cbn [run_ops duration].
    - cbn. split; [constructor|]. split; [done|]. split; [done|]. split; [set_solver|].
      split; [set_solver|]. split; [done|]. split; lra.
    - apply Forall_cons_1 in Ht as [Hdt Ht]. set (cum' := (cum + dt)%Q).
      destruct (handle_inserts_spec idx cum' l Hl) as (H1 & H2 & H3).
      set (w := handle_inserts idx cum' l) in *.
      assert (Hl' := Hl). rewrite H1 in Hl'. apply SS_app_inv in Hl' as (Hw1 & Hw2 & Hw3).
      specialize (IH cum' w.2 Hw2 H3 Ht). cbv zeta in IH |- *.
      set (k := run_ops idx cum' w.2 ops) in *. cbn [fst snd].
      destruct IH as (I1 & I2 & I3 & I4 & I5 & I6 & I7 & I8).
      assert (forall i, i ∈ w.1 -> ti_path i = idx) as Hp.
      { intros i Hi. rewrite Forall_forall in H2. specialize (H2 i Hi).
        assert (i ∈ l) as Hil by (rewrite H1; set_solver).
        rewrite Forall_forall in Hf. specialize (Hf i Hil).
        destruct H2 as [?|[? ?]], Hf as [?|[? ?]]; try lia. }
      split.
      { apply SS_app; [by apply SS_map|done|]. intros e f He Hf'.
        apply elem_of_list_fmap in He as (i & -> & Hi). destruct f as [j|p c m]; cbn.
        - apply Hw3; [done|]. rewrite <- I2. apply elem_of_app. left. by apply elem_of_inserts.
        - destruct (I4 _ _ _ Hf') as (-> & Hc & _). right. split; [by apply Hp|]. left.
          rewrite Forall_forall in H2. destruct (H2 i Hi) as [?|[? ?]]; [|lra].
          rewrite (Hp i Hi) in *. lia. }
      split. { rewrite inserts_of_app, inserts_of_map, <- app_assoc, I2. by symmetry. }
      split. { rewrite moves_of_app, moves_of_map, I3. done. }
      split. { intros p c m Hm. apply elem_of_app in Hm as [Hm|Hm].
        { by apply elem_of_list_fmap in Hm as (? & ? & ?). }
        destruct (I4 _ _ _ Hm) as (? & ? & ?). unfold cum' in *. split; [done|]. split; lra. }
      split. { intros i Hi. apply elem_of_app in Hi as [Hi|Hi]; [|by apply I5].
        apply elem_of_list_fmap in Hi as (j & [= ->] & Hj). by apply Hp. }
      split; [done|]. unfold cum' in *. split; lra.
    - apply Forall_cons_1 in Ht as [_ Ht]. specialize (IH cum l Hl Hf Ht). cbv zeta in IH |- *.
      set (k := run_ops idx cum l ops) in *. cbn [fst snd].
      destruct IH as (I1 & I2 & I3 & I4 & I5 & I6 & I7 & I8).
      split.
      { constructor; [done|]. apply Forall_forall. intros [i|p c m'] He; cbn.
        - apply elem_of_inserts in He. assert (i ∈ l) as Hi by (rewrite <- I2; set_solver).
          rewrite Forall_forall in Hf. destruct (Hf i Hi) as [?|[? ?]]; [by left|]. right.
          split; [by symmetry|done].
        - destruct (I4 _ _ _ He) as (-> & ? & _). by right. }
      split; [done|]. split. { cbn. unfold moves_of in I3. by rewrite I3. }
      split. { intros p c m' [H|H]%elem_of_cons; [|by apply I4 with m'].
        injection H as -> -> ->. split; [done|]. split; lra. }
      split. { intros i [H|H]%elem_of_cons; [done|by apply I5]. }
      done.
  Qed.

  (** The whole plan, from some iteration on. *)
  Definition run_all (cum : Q) (l : list tinsert) (its : list (nat * list (op A))) : list (event A) :=
    (run_paths cum l its).1 ++ map EInsert (run_paths cum l its).2.

  Lemma run_all_spec its : forall cum l,
    StronglySorted not_after l -> proper its -> (0 <= cum)%Q ->
    (forall it r, its = it :: r -> (cum == 0)%Q \/ exists d, early it.1 d /\ (cum == d)%Q) ->
    (forall l1 q ops0 p ops l2, its = l1 ++ (q, ops0) :: (p, ops) :: l2 -> early p (duration ops0)) ->
    StronglySorted before_ok (run_all cum l its) /\
    inserts_of (run_all cum l its) = l /\
    moves_of (run_all cum l its) = moves_asked its /\
    (forall p c m, EMove p c m ∈ run_all cum l its -> p ∈ map fst its).
  Proof.
    unfold run_all. induction its as [|[idx ops] its IH]; intros cum l Hl [Hp Hpt] Hcum Hhd Hlink; cbn [run_paths].
    { cbn [fst snd app]. split; [by apply SS_map|]. split; [apply inserts_of_map|].
      split; [apply moves_of_map|]. intros p c m Hm. by apply elem_of_list_fmap in Hm as (? & ? & ?). }
    cbn [fst snd] in *. apply StronglySorted_inv in Hp as [Hp Hpf]. apply Forall_cons_1 in Hpt as [Ht Hpt]. cbn [snd] in Ht.
    destruct (handle_inserts_spec idx cum l Hl) as (H1 & H2 & H3).
    set (w := handle_inserts idx cum l) in *.
    assert (Hl' := Hl). rewrite H1 in Hl'. apply SS_app_inv in Hl' as (Hw1 & Hw2 & Hw3).
    assert (Forall (future idx 0) w.2) as H3'.
    { eapply Forall_impl; [exact H3|]. intros i [?|[? ?]]; [by left|right]. split; [done|lra]. }
    pose proof (run_ops_spec idx ops 0 w.2 Hw2 H3' Ht) as K. cbv zeta in K.
    set (k := run_ops idx 0 w.2 ops) in *.
    destruct K as (I1 & I2 & I3 & I4 & I5 & I6 & I7 & I8).
    assert (StronglySorted not_after k.1.2) as Hk2.
    { rewrite <- I2 in Hw2. exact (proj1 (proj2 (SS_app_inv _ _ Hw2))). }
    destruct (IH k.2 k.1.2 Hk2 (conj Hp Hpt) I8) as (J1 & J2 & J3 & J4).
    { intros [p ops'] r ->. right. exists (duration ops). split.
      - by eapply (Hlink [] idx ops p ops' r).
      - rewrite I7. lra. }
    { intros l1 q ops0 p ops' l2 ->. by eapply (Hlink ((idx, ops) :: l1) q ops0 p ops' l2). }
    set (t := run_paths k.2 k.1.2 its) in *. cbn [fst snd].
    rewrite <- !app_assoc.
    assert (forall i, EInsert i ∈ t.1 ++ map EInsert t.2 -> i ∈ k.1.2) as Hin.
    { intros i Hi. rewrite <- J2. by apply elem_of_inserts. }
    split; [|split; [|split]].
    - apply SS_app; [by apply SS_map| |].
      + apply SS_app; [done..|]. intros e f He Hf. destruct f as [j|q d m'].
        * pose proof (Hin _ Hf) as Hj. destruct e as [i|p c m]; cbn.
          -- apply elem_of_inserts in He. rewrite <- I2 in Hw2. apply SS_app_inv in Hw2 as (_ & _ & Hw2).
             by apply Hw2.
          -- destruct (I4 _ _ _ He) as (-> & _ & ?). rewrite Forall_forall in I6.
             destruct (I6 _ Hj) as [?|[? ?]]; [by left|]. right. split; [by symmetry|lra].
        * assert (idx < q)%nat as Hq.
          { rewrite Forall_forall in Hpf. apply Hpf. by eapply J4. }
          destruct e as [i|p c m]; cbn.
          -- left. by rewrite (I5 _ He).
          -- destruct (I4 _ _ _ He) as (-> & _ & _). by left.
      + intros e f He Hf. apply elem_of_list_fmap in He as (i & -> & Hi).
        apply elem_of_app in Hf as [Hf|Hf].
        * destruct f as [j|q d m']; cbn.
          -- apply Hw3; [done|]. rewrite <- I2. apply elem_of_app. left. by apply elem_of_inserts.
          -- destruct (I4 _ _ _ Hf) as (-> & ? & _). rewrite Forall_forall in H2.
             destruct (H2 i Hi) as [?|[? Hc]]; [by left|]. right. split; [done|].
             destruct (Hhd _ _ eq_refl) as [E|(d' & E1 & E2)]; [left; lra|].
             right. exists d'. split; [done|]. lra.
        * destruct f as [j|q d m']; cbn.
          -- apply Hw3; [done|]. rewrite <- I2. apply elem_of_app. right. by apply Hin.
          -- assert (idx < q)%nat as Hq.
             { rewrite Forall_forall in Hpf. apply Hpf. by eapply J4. }
             rewrite Forall_forall in H2. destruct (H2 i Hi) as [?|[? ?]]; left; lia.
    - rewrite !inserts_of_app in *. rewrite inserts_of_map, J2, I2. by symmetry.
    - rewrite !moves_of_app in *. rewrite moves_of_map, J3, I3. done.
    - intros p c m Hm. apply elem_of_app in Hm as [Hm|Hm].
      { by apply elem_of_list_fmap in Hm as (? & ? & ?). }
      apply elem_of_app in Hm as [Hm|Hm].
      + destruct (I4 _ _ _ Hm) as (-> & _). cbn. left.
      + cbn. right. by eapply J4.
  Qed.
End trace.

Lemma write_plan_spec {A} ins (its : list (nat * list (op A))) :
  proper its ->
  StronglySorted (before_ok (previous_takes its)) (write_plan ins its) /\
  inserts_of (write_plan ins its) = ti_sort ins /\
  moves_of (write_plan ins its) = moves_asked its.
Proof.
  intros Hp. destruct (run_all_spec (previous_takes its) its 0 (ti_sort ins)) as (H1 & H2 & H3 & _).
  - apply ti_sort_sorted.
  - done.
  - lra.
  - intros. left. reflexivity.
  - intros l1 q ops0 p ops l2 E. by exists l1, q, ops0, ops, l2.
  - done.
Qed.

Lemma SS_split {B} (R : B -> B -> Prop) l1 x l2 :
  StronglySorted R (l1 ++ x :: l2) -> (forall y, y ∈ l1 -> R y x) /\ (forall y, y ∈ l2 -> R x y).
Proof.
  induction l1 as [|a l1 IH]; cbn; intros H; apply StronglySorted_inv in H as [Hs Hf].
  - split; [set_solver|]. by apply Forall_forall.
  - destruct (IH Hs) as [H1 H2]. split; [|done]. intros y [->|Hy]%elem_of_cons; [|by apply H1].
    rewrite Forall_forall in Hf. apply Hf. set_solver.
Qed.

(** ** The theorems *)

(** Every insert is written exactly once, ordered by path and time, those for the
    same moment in the order in which they were added; no move is lost. *)
Theorem C33_once_in_order A ins (its : list (nat * list (op A))) :
  proper its ->
  inserts_of (write_plan ins its) ≡ₚ ins /\
  StronglySorted not_after (inserts_of (write_plan ins its)) /\
  (forall a, filter (same_moment a) (inserts_of (write_plan ins its)) = filter (same_moment a) ins) /\
  moves_of (write_plan ins its) = moves_asked its.
Proof.
  intros Hp. destruct (write_plan_spec ins its Hp) as (_ & H2 & H3). rewrite H2.
  split; [apply ti_sort_perm|]. split; [apply ti_sort_sorted|]. split; [|done].
  intros a. apply ti_sort_stable.
Qed.

(** No insert is written before its path is reached, nor left until a later path
    has started, nor until a move of its own path that is later than its time. *)
Theorem C33_in_its_path A ins (its : list (nat * list (op A))) pre i post :
  proper its ->
  write_plan ins its = pre ++ EInsert i :: post ->
  (forall p t m, EMove p t m ∈ pre -> (p <= ti_path i)%nat /\ (p = ti_path i -> (t < ti_time i)%Q)) /\
  (forall p t m, EMove p t m ∈ post -> (ti_path i <= p)%nat).
Proof.
  intros Hp E. destruct (write_plan_spec ins its Hp) as (H1 & _). rewrite E in H1.
  apply SS_split in H1 as [H1 H2]. split; intros p t m Hm.
  - specialize (H1 _ Hm). cbn in H1. destruct H1 as [?|[? ?]]; split; (lia || done).
  - specialize (H2 _ Hm). cbn in H2. lia.
Qed.

(** An insert is not written before its time, unless that time is no longer than
    what the iteration before its path took. *)
Theorem C33_not_early A ins (its : list (nat * list (op A))) pre i post p t m :
  proper its ->
  write_plan ins its = pre ++ EInsert i :: post ->
  EMove p t m ∈ post -> p = ti_path i ->
  (forall d, previous_takes its p d -> (d < ti_time i)%Q) ->
  (ti_time i <= t)%Q.
Proof.
  intros Hp E Hm Hpi Hd. destruct (write_plan_spec ins its Hp) as (H1 & _). rewrite E in H1.
  apply SS_split in H1 as [_ H2]. specialize (H2 _ Hm). cbn in H2.
  destruct H2 as [?|(? & [?|(d & H3 & H4)])]; [lia|done|]. specialize (Hd d H3). lra.
Qed.

(** The stronger claim, that an insert is never written before its time, fails:
    the time of the previous path is compared with the time within this one. *)
Theorem C33_not_early_refuted :
  ~ (forall ins (its : list (nat * list (op nat))) pre i post p t m,
       proper its ->
       write_plan ins its = pre ++ EInsert i :: post ->
       EMove p t m ∈ post -> p = ti_path i -> (ti_time i <= t)%Q).
Proof.
  intros H.
  set (i := TInsert 1 0 200 false 5).
  set (its := [(0%nat, [Tick 10; Move 0%nat]); (1%nat, [Tick 2; Move 1%nat; Tick 9; Move 2%nat])]).
  specialize (H [i] its [EMove 0%nat (0 + 10)%Q 0%nat] i
                [EMove 1%nat (0 + 2)%Q 1%nat; EMove 1%nat (0 + 2 + 9)%Q 2%nat] 1%nat (0 + 2)%Q 1%nat).
  assert (ti_time i <= 0 + 2)%Q as K; [|cbn in K; lra].
  apply H.
  - split; cbn.
    + repeat constructor.
    + repeat (constructor; cbn; try lra).
  - reflexivity.
  - left.
  - reflexivity.
Qed.

(** Three inserts added in disorder. *)
Example C33_example :
  let a := TInsert 1 0 205 false 1 in
  let b := TInsert 0 1 190 false (1 # 2) in
  let c := TInsert 1 1 215 false 3 in
  let its := [(0%nat, [Tick 0; Move 10%nat; Tick (3 # 4); Move 11%nat]);
              (1%nat, [Tick 1; Move 12%nat; Tick 1; Move 13%nat]); (2%nat, [Move 14%nat])] in
  proper its /\
  omap (fun e => match e with EInsert i => Some (inl i) | EMove _ _ m => Some (inr m) end)
       (write_plan [a; b; c] its) =
  [inr 10%nat; inl b; inr 11%nat; inl a; inr 12%nat; inr 13%nat; inl c; inr 14%nat].
Proof.
  cbv zeta. split; [|reflexivity]. split; cbn.
  - repeat constructor.
  - repeat (constructor; cbn; try lra).
Qed.

Print Assumptions C33_once_in_order.
Print Assumptions C33_in_its_path.
Print Assumptions C33_not_early.
Print Assumptions C33_not_early_refuted.
