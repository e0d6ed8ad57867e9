(** C62: ordering lines monotonically. *)
From Coq Require Import ZArith QArith Qminmax Qround Lia Lqa.
From stdpp Require Import prelude gmap list sorting.
From Verif Require Import Common Geo_Model Geo_Spec Grid_Model Mono_Model Mono_Spec Mono_Proofs.
Open Scope Z_scope.

(** ** Rounding *)
Lemma Qfloor_range q : (inject_Z (Qfloor q) <= q)%Q /\ (q < inject_Z (Qfloor q) + 1)%Q.
Proof.
  split; [apply Qfloor_le|]. pose proof (Qlt_floor q) as H. rewrite inject_Z_plus in H. exact H.
Qed.

Lemma Qfloor_ge q z : (inject_Z z <= q)%Q -> z <= Qfloor q.
Proof. intros H. rewrite <- (Qfloor_Z z). by apply Qfloor_resp_le. Qed.

Lemma Qfloor_lt q z : (q < inject_Z z)%Q -> Qfloor q < z.
Proof.
  intros H. pose proof (Qfloor_le q) as H1. rewrite Zlt_Qlt. by eapply Qle_lt_trans.
Qed.

Lemma llround_pos q : (0 <= q)%Q -> llround q = Qfloor (q + (1 # 2)).
Proof. intros H. unfold llround. apply Qle_bool_iff in H. by rewrite H. Qed.
Lemma llround_neg q : (q < 0)%Q -> llround q = - Qfloor (- q + (1 # 2)).
Proof.
  intros H. unfold llround. destruct (Qle_bool 0 q) eqn:E; [|done]. apply Qle_bool_iff in E. lra.
Qed.

Lemma llround_mono a b : (a <= b)%Q -> llround a <= llround b.
Proof.
  intros H. destruct (Qlt_le_dec a 0) as [Ha|Ha], (Qlt_le_dec b 0) as [Hb|Hb].
  - rewrite !llround_neg by done. assert (Qfloor (- b + (1 # 2)) <= Qfloor (- a + (1 # 2))) by (apply Qfloor_resp_le; lra). lia.
  - rewrite llround_neg, llround_pos by done.
    assert (0 <= Qfloor (- a + (1 # 2))) by (apply Qfloor_ge; unfold inject_Z; lra).
    assert (0 <= Qfloor (b + (1 # 2))) by (apply Qfloor_ge; unfold inject_Z; lra). lia.
  - lra.
  - rewrite !llround_pos by done. apply Qfloor_resp_le. lra.
Qed.

Lemma llround_step a b : (a + 1 <= b)%Q -> llround a < llround b.
Proof.
  intros H. destruct (Qlt_le_dec a 0) as [Ha|Ha], (Qlt_le_dec b 0) as [Hb|Hb].
  - rewrite !llround_neg by done.
    assert (Qfloor (- b + (1 # 2)) + 1 <= Qfloor (- a + (1 # 2))); [|lia].
    apply Qfloor_ge. rewrite inject_Z_plus. pose proof (Qfloor_le (- b + (1 # 2))). unfold inject_Z at 2. lra.
  - rewrite llround_neg, llround_pos by done.
    assert (0 <= Qfloor (- a + (1 # 2))) by (apply Qfloor_ge; unfold inject_Z; lra).
    assert (0 <= Qfloor (b + (1 # 2))) by (apply Qfloor_ge; unfold inject_Z; lra).
    destruct (Qlt_le_dec b (1 # 2)) as [Hb2|Hb2].
    + assert (1 <= Qfloor (- a + (1 # 2))) by (apply Qfloor_ge; unfold inject_Z; lra). lia.
    + assert (1 <= Qfloor (b + (1 # 2))) by (apply Qfloor_ge; unfold inject_Z; lra). lia.
  - lra.
  - rewrite !llround_pos by done.
    assert (Qfloor (a + (1 # 2)) + 1 <= Qfloor (b + (1 # 2))); [|lia].
    apply Qfloor_ge. rewrite inject_Z_plus. pose proof (Qfloor_le (a + (1 # 2))). unfold inject_Z at 2. lra.
Qed.

Lemma LineProjections_low L v i : (LineProjections L v i).1 = llround (low L v i / precision_factor).
Proof.
  unfold LineProjections. cbn [fst]. unfold low.
  set (a := projectToVector _ v). set (b := projectToVector _ v).
  assert (Hdiv : forall x y, (x <= y)%Q -> (x / precision_factor <= y / precision_factor)%Q).
  { intros x y Hxy. unfold precision_factor. apply Qmult_le_compat_r; [done|]. done. }
  assert (Heq : forall x y, (x == y)%Q -> llround x = llround y).
  { intros x y Hxy. apply Z.le_antisymm; apply llround_mono; rewrite Hxy; apply Qle_refl. }
  destruct (Qlt_le_dec a b) as [Hab|Hab].
  - assert (Hm : (Qmin a b == a)%Q) by (apply Q.min_l; lra).
    rewrite (Heq (Qmin a b / precision_factor)%Q (a / precision_factor)%Q) by (by rewrite Hm).
    pose proof (llround_mono _ _ (Hdiv a b ltac:(lra))). lia.
  - assert (Hm : (Qmin a b == b)%Q) by (by apply Q.min_r).
    rewrite (Heq (Qmin a b / precision_factor)%Q (b / precision_factor)%Q) by (by rewrite Hm).
    pose proof (llround_mono _ _ (Hdiv b a Hab)). lia.
Qed.

(** ** Which lines overlap *)
Lemma low_high L d i : (low L d i <= high L d i)%Q.
Proof.
  unfold low, high. eapply Qle_trans; [apply Q.le_min_l|apply Q.le_max_l].
Qed.

Lemma overlapping_complete L v adj me : 0 <= adj -> forall later q, q ∈ later ->
  StronglySorted (fun a b => (low L v a <= low L v b)%Q) later ->
  (forall j, j ∈ later -> (low L v me <= low L v j)%Q) ->
  (low L v q <= high L v me + inject_Z adj)%Q ->
  (low L (rotated90CCW v) q <= high L (rotated90CCW v) me + inject_Z adj)%Q ->
  (low L (rotated90CCW v) me <= high L (rotated90CCW v) q + inject_Z adj)%Q ->
  q ∈ overlapping L v adj me later.
Proof.
  intros Hadj. assert (Hadj' : (0 <= inject_Z adj)%Q) by (change 0%Q with (inject_Z 0); by rewrite <- Zle_Qle).
  induction later as [|j later IH]; intros q Hq Hs Hlow H1 H2 H3; [inversion Hq|].
  apply StronglySorted_inv in Hs as [Hs Hf]. rewrite Forall_forall in Hf. cbn [overlapping].
  pose proof (Hlow j ltac:(left)) as Hj. pose proof (low_high L v j) as Hjh.
  assert (Hjq : (low L v j <= low L v q)%Q).
  { apply elem_of_cons in Hq as [-> |Hq]; [apply Qle_refl|by apply Hf]. }
  assert (E1 : Qle_bool (low L v j) (high L v me + inject_Z adj) = true) by (apply Qle_bool_iff; lra).
  assert (E2 : Qle_bool (low L v me - inject_Z adj) (high L v j) = true) by (apply Qle_bool_iff; lra).
  rewrite E1, E2. cbn [negb orb].
  apply elem_of_cons in Hq as [-> |Hq].
  - set (h := rotated90CCW v) in *. pose proof (low_high L h j). pose proof (low_high L h me).
    match goal with |- j ∈ (if ?c then _ else _) => assert (Ec : c = true) end.
    { destruct (Qlt_le_dec (low L h me - inject_Z adj) (low L h j)) as [Ha|Ha].
      - destruct (Qlt_le_dec (high L h me + inject_Z adj) (high L h j)) as [Hb|Hb].
        + apply orb_true_iff. left. apply orb_true_iff. right. rewrite andb_true_iff, !Qle_bool_iff. lra.
        + apply orb_true_iff. right. rewrite andb_true_iff, !Qle_bool_iff. lra.
      - apply orb_true_iff. left. apply orb_true_iff. left. rewrite andb_true_iff, !Qle_bool_iff. lra. }
    rewrite Ec. left.
  - assert (IHq : q ∈ overlapping L v adj me later).
    { apply IH; try done. intros k Hk. apply Hlow. by right. }
    destruct (_ || _); [by right|done].
Qed.

Lemma after_sorted L v i l : StronglySorted (fun a b => (low L v a <= low L v b)%Q) l -> i ∈ l ->
  StronglySorted (fun a b => (low L v a <= low L v b)%Q) (after i l) /\
  forall j, j ∈ after i l -> (low L v i <= low L v j)%Q.
Proof.
  induction 1 as [|a l Hs IH Hf]; intros Hi; [inversion Hi|]. cbn [after]. destruct (Nat.eqb_spec a i) as [-> |Hn].
  - split; [done|]. by rewrite Forall_forall in Hf.
  - apply elem_of_cons in Hi as [-> |Hi]; [done|]. by apply IH.
Qed.

Lemma in_after L v i q l : StronglySorted (fun a b => (low L v a <= low L v b)%Q) l -> i ∈ l -> q ∈ l ->
  (low L v i < low L v q)%Q -> q ∈ after i l.
Proof.
  induction 1 as [|a l Hs IH Hf]; intros Hi Hq Hlt; [inversion Hi|]. cbn [after]. rewrite Forall_forall in Hf.
  destruct (Nat.eqb_spec a i) as [-> |Hn].
  - apply elem_of_cons in Hq as [-> |Hq]; [by apply Qlt_irrefl in Hlt|done].
  - apply elem_of_cons in Hi as [-> |Hi]; [done|]. apply elem_of_cons in Hq as [-> |Hq]; [|by apply IH].
    pose proof (Hf i Hi). lra.
Qed.

(** ** Sorting and splitting *)
Lemma sort_insert_perm L v i l : sort_insert L v i l ≡ₚ i :: l.
Proof.
  induction l as [|j l IH]; [done|]. cbn [sort_insert]. destruct (Qle_bool _ _); [done|]. rewrite IH. apply Permutation_swap.
Qed.
Lemma sort_lines_perm L v l : sort_lines L v l ≡ₚ l.
Proof. induction l as [|i l IH]; [done|]. cbn [sort_lines fold_right]. rewrite sort_insert_perm. by f_equiv. Qed.
Lemma sort_insert_sorted L v i l : StronglySorted (fun a b => (low L v a <= low L v b)%Q) l ->
  StronglySorted (fun a b => (low L v a <= low L v b)%Q) (sort_insert L v i l).
Proof.
  induction 1 as [|j l Hs IH Hf]; cbn [sort_insert]; [repeat constructor|]. destruct (Qle_bool _ _) eqn:E.
  - apply Qle_bool_iff in E. constructor; [by constructor|]. constructor; [done|].
    rewrite Forall_forall in *. intros x Hx. eapply Qle_trans; [exact E|by apply Hf].
  - assert (Hji : (low L v j <= low L v i)%Q).
    { destruct (Qlt_le_dec (low L v i) (low L v j)) as [Hlt|]; [|done].
      assert (Qle_bool (low L v i) (low L v j) = true); [apply Qle_bool_iff; lra|congruence]. }
    constructor; [done|]. rewrite Forall_forall in *. intros x Hx. rewrite sort_insert_perm in Hx.
    apply elem_of_cons in Hx as [-> |Hx]; [done|by apply Hf].
Qed.
Lemma sort_lines_sorted L v l : StronglySorted (fun a b => (low L v a <= low L v b)%Q) (sort_lines L v l).
Proof. induction l as [|i l IH]; [constructor|]. cbn [sort_lines fold_right]. by apply sort_insert_sorted. Qed.

Lemma split_perm L v adj l : forall cur, (split_passes L v adj cur l).1 ++ (split_passes L v adj cur l).2 ≡ₚ l.
Proof.
  induction l as [|i l IH]; intros cur; [done|]. cbn [split_passes].
  match goal with |- context [split_passes L v adj (Some ?c) l] => set (cur' := c) end.
  specialize (IH (Some cur')). destruct (split_passes L v adj (Some cur') l) as [a b]. cbn [fst snd] in *.
  destruct cur'.1; cbn [fst snd].
  - rewrite <- Permutation_middle. by f_equiv.
  - rewrite <- app_comm_cons. by f_equiv.
Qed.

(** ** Lines and loops *)
Definition line_at (lines : list (list pt)) (i : nat) : list pt := List.nth i lines [].

Section order.
  Variable lines : list (list pt).
  Variable closed : nat -> bool.
  Variable v : Q * Q.
  Variable start : pt.
  Variable shuffle : gridmap (pt * nat) -> gridmap (pt * nat).
  Variable walk : list nat -> list nat.
  Hypothesis shuffle_perm : forall g, shuffle g ≡ₚ g.
  Hypothesis walk_perm : forall l, walk l ≡ₚ l.
  Hypothesis near_lines : forall line p, line ∈ lines -> p ∈ line -> near_origin p.
  Hypothesis near_start : near_origin start.
  Notation L := (line_at lines).
  Notation n := (length lines).

  Definition is_loop (i : nat) : bool := detectLoop L closed i || (size L i <=? 1)%nat.

  Lemma is_loop_spec i : is_loop i = false <-> is_line (closed i) (L i).
  Proof.
    unfold is_loop, detectLoop, is_line. rewrite !orb_false_iff, andb_false_iff, Nat.leb_gt, Nat.leb_gt, Z.ltb_ge.
    change (vSize2 (psub (back L i) (front L i))) with (dist2 (back L i) (front L i)).
    unfold size, coincide, coincident_point_distance. change (end_point (L i) true) with (back L i).
    change (end_point (L i) false) with (front L i). split.
    - intros [[H1 H2] H3]. split_and!; [done|lia|]. intros Hl Hd. lia.
    - intros (H1 & H2 & H3). split_and!; [done| |lia]. destruct (decide (3 <= length (L i))%nat) as [Hl|Hl]; [|left; lia].
      right. specialize (H3 Hl). lia.
  Qed.

  Lemma L_lookup i li : lines !! i = Some li -> L i = li.
  Proof. intros H. unfold line_at. by rewrite nth_lookup, H. Qed.
  Lemma lookup_L i : (i < n)%nat -> lines !! i = Some (L i).
  Proof.
    intros Hi. destruct (lookup_lt_is_Some_2 lines i Hi) as [li E]. rewrite E. by rewrite (L_lookup i li E).
  Qed.

  Notation Ls := (List.filter (fun i => negb (is_loop i)) (seq 0 n)).
  Notation loops := (List.filter is_loop (seq 0 n)).

  Lemma in_Ls i : i ∈ Ls <-> (i < n)%nat /\ is_line (closed i) (L i).
  Proof.
    rewrite elem_of_list_In, filter_In, in_seq, negb_true_iff, is_loop_spec. cbn [Nat.add]. split; [intros [? ?]; split; [lia|done]|intros [? ?]; split; [lia|done]].
  Qed.
  Lemma in_loops i : i ∈ loops <-> (i < n)%nat /\ ~ is_line (closed i) (L i).
  Proof.
    rewrite elem_of_list_In, filter_In, in_seq, <- is_loop_spec. cbn [Nat.add]. destruct (is_loop i); split; intros [? ?]; split; try lia; try done.
  Qed.

  Lemma filter_split (f : nat -> bool) l : List.filter (fun i => negb (f i)) l ++ List.filter f l ≡ₚ l.
  Proof.
    induction l as [|a l IH]; [done|]. cbn [List.filter]. destruct (f a); cbn [negb app].
    - rewrite <- Permutation_middle. by f_equiv.
    - by f_equiv.
  Qed.

  Lemma m0_other l : forall m j, j ∉ l -> sv (fold_left (fun m i => mark m i (size L i) (bw m i)) l m) j = sv m j.
  Proof.
    induction l as [|i l IH]; intros m j Hj; [done|]. apply not_elem_of_cons in Hj as [Hn Hj]. cbn [fold_left]. rewrite IH by done.
    cbn [sv mark]. destruct (Nat.eqb_spec j i); [done|done].
  Qed.
  Lemma m0_unknown l : forall m j, j ∈ l -> sv (fold_left (fun m i => mark m i (size L i) (bw m i)) l m) j = size L j.
  Proof.
    induction l as [|i l IH]; intros m j Hj; [inversion Hj|]. cbn [fold_left].
    destruct (decide (j ∈ l)) as [Hl|Hl]; [by apply IH|]. rewrite m0_other by done.
    apply elem_of_cons in Hj as [-> |?]; [|done]. cbn [sv mark]. by rewrite Nat.eqb_refl.
  Qed.

  (** Every set of lines the ordering is run on *)
  Definition good (P : list nat) : Prop := NoDup P /\ forall i, i ∈ P -> (i < n)%nat /\ is_line (closed i) (L i).

  Lemma good_size P : good P -> forall i, i ∈ P -> (2 <= size L i)%nat.
  Proof. intros [_ H] i Hi. by destruct (H i Hi) as (_ & _ & ? & _). Qed.
  Lemma good_near P : good P -> forall i p, i ∈ P -> p ∈ L i -> near_origin p.
  Proof.
    intros [_ H] i p Hi Hp. destruct (H i Hi) as [Hn _]. apply (near_lines (L i)); [|done].
    apply lookup_L in Hn. by apply elem_of_list_lookup_2 in Hn.
  Qed.
  Lemma good_sorted : good (sort_lines L v Ls).
  Proof.
    split.
    - rewrite sort_lines_perm. apply NoDup_ListNoDup, List.NoDup_filter, NoDup_ListNoDup, NoDup_seq.
    - intros i. rewrite sort_lines_perm. apply in_Ls.
  Qed.
  Lemma good_passes adj : let ps := split_passes L v adj None (sort_lines L v Ls) in good ps.1 /\ good ps.2 /\ (forall i, i ∈ ps.2 -> i ∉ ps.1).
  Proof.
    cbv zeta. pose proof (split_perm L v adj (sort_lines L v Ls) None) as Hp. destruct (split_passes _ _ _ _ _) as [a b]. cbn [fst snd] in *.
    destruct good_sorted as [Hnd Hin]. rewrite <- Hp in Hnd. apply NoDup_app in Hnd as (Ha & Hd & Hb). split_and!.
    - split; [done|]. intros i Hi. apply Hin. rewrite <- Hp. apply elem_of_app. by left.
    - split; [done|]. intros i Hi. apply Hin. rewrite <- Hp. apply elem_of_app. by right.
    - intros i Hi Hi'. by apply (Hd i).
  Qed.

  Lemma good_meet P : good P -> no_three_meet closed lines -> forall a b c : nat * bool, a.1 ∈ P -> b.1 ∈ P -> c.1 ∈ P ->
    b <> a -> c <> a -> coincide (pos L b) (pos L a) -> coincide (pos L c) (pos L a) -> b = c.
  Proof.
    intros [_ H] Hm [a x] [b y] [c z] Ha Hb Hc. cbn [fst] in *. intros H1 H2 H3 H4.
    destruct (H a Ha) as [Na La], (H b Hb) as [Nb Lb], (H c Hc) as [Nc Lc].
    by apply (Hm a b c x y z (L a) (L b) (L c) (lookup_L a Na) (lookup_L b Nb) (lookup_L c Nc)).
  Qed.
  Lemma good_apart P : good P -> ends_apart closed lines -> forall a b x y, a ∈ P -> b ∈ P -> a <> b -> ~ coincide (pos L (a, x)) (pos L (b, y)).
  Proof.
    intros [_ H] Hm a b x y Ha Hb Hn.
    destruct (H a Ha) as [Na La], (H b Hb) as [Nb Lb]. by apply (Hm a b x y (L a) (L b) Hn (lookup_L a Na) (lookup_L b Nb)).
  Qed.

  Notation run := (makeOrderedPath L v start shuffle walk).

  Lemma run_ok P m adj : good P -> (forall i, i ∈ P -> sv m i = size L i) ->
    exists m' out, run m P adj = Ok (m', out) /\ Forall (plan_ok L P) out /\ (forall j, j ∉ P -> sv m' j = sv m j) /\
      (no_three_meet closed lines -> forall i, i ∈ P -> i ∈ map plan_id out) /\
      (ends_apart closed lines -> map plan_id out ≡ₚ P).
  Proof.
    intros HP Hm. pose proof HP as [Hnd _].
    destruct (makeOrderedPath_ok L v start shuffle walk shuffle_perm walk_perm P Hnd (good_size P HP) (good_near P HP) near_start m adj Hm)
      as (s & m' & out & bs & _ & E & A & _ & _ & _ & _ & _ & B & _).
    exists m', out. split_and!; try done.
    - intros Hmeet. exact (makeOrderedPath_all L v start shuffle walk shuffle_perm walk_perm P Hnd (good_size P HP) (good_near P HP) near_start
        m adj m' out (good_meet P HP Hmeet) Hm E).
    - intros Hap. exact (makeOrderedPath_once L v start shuffle walk shuffle_perm walk_perm P Hnd (good_size P HP) (good_near P HP) near_start
        (good_apart P HP Hap) adj m m' out Hm E).
  Qed.

  Definition plan_loop (m : marks) (i : nat) : planned := (i, sv m i, bw m i).

  Lemma optimize_ok m adj interlaced : exists out,
    optimize L v start shuffle walk n closed m adj interlaced = Ok (out ++ map (plan_loop m) loops) /\
    Forall (fun x : planned => x.1.1 ∈ Ls /\ (x.1.2 = 0%nat \/ x.1.2 = (size L x.1.1 - 1)%nat)) out /\
    (no_three_meet closed lines -> forall i, i ∈ Ls -> i ∈ map plan_id out) /\
    (ends_apart closed lines -> map plan_id out ≡ₚ Ls).
  Proof.
    unfold optimize. cbv zeta.
    change (List.filter (fun i => detectLoop L closed i || (size L i <=? 1)%nat) (seq 0 n)) with loops.
    change (List.filter (fun i => negb (detectLoop L closed i || (size L i <=? 1)%nat)) (seq 0 n)) with Ls.
    set (m0 := fold_left _ Ls m).
    assert (Hm0 : forall i, i ∈ Ls -> sv m0 i = size L i) by apply m0_unknown.
    change (map (fun i => (i, sv m i, bw m i)) loops) with (map (plan_loop m) loops).
    assert (Hs : forall i, i ∈ sort_lines L v Ls <-> i ∈ Ls) by (intros i; by rewrite sort_lines_perm).
    destruct interlaced.
    - destruct (good_passes adj) as (G1 & G2 & Hd). pose proof (split_perm L v adj (sort_lines L v Ls) None) as Hp.
      destruct (split_passes L v adj None (sort_lines L v Ls)) as [P1 P2]. cbn [fst snd] in *.
      assert (Hin : forall i, i ∈ Ls <-> i ∈ P1 \/ i ∈ P2) by (intros i; rewrite <- Hs, <- Hp; apply elem_of_app).
      destruct (run_ok P1 m0 (adj * 2) G1) as (m1 & o1 & E1 & A1 & B1 & C1 & D1); [intros i Hi; apply Hm0, Hin; by left|].
      rewrite E1. cbn [rbind fst snd].
      destruct (run_ok P2 m1 (adj * 2) G2) as (m2 & o2 & E2 & A2 & B2 & C2 & D2).
      { intros i Hi. rewrite B1 by (by apply Hd). apply Hm0, Hin. by right. }
      rewrite E2. cbn [rbind fst snd]. exists (o2 ++ o1). rewrite <- app_assoc. split_and!; [done| | |].
      + apply Forall_app. split; (eapply Forall_impl; [eassumption|]); intros x [Hx Hy]; (split; [apply Hin; auto|done]).
      + intros Hmeet i Hi. rewrite map_app. apply elem_of_app. apply Hin in Hi as [Hi|Hi]; [right; by apply C1|left; by apply C2].
      + intros Hap. rewrite map_app, D1, D2 by done. rewrite Permutation_app_comm, Hp. apply sort_lines_perm.
    - destruct (run_ok (sort_lines L v Ls) m0 adj good_sorted) as (m1 & o1 & E1 & A1 & B1 & C1 & D1); [intros i Hi; by apply Hm0, Hs|].
      rewrite E1. cbn [rbind fst snd]. exists o1. split_and!; [done| | |].
      + eapply Forall_impl; [exact A1|]. intros x [Hx Hy]. split; [by apply Hs|done].
      + intros Hmeet i Hi. by apply C1, Hs.
      + intros Hap. rewrite D1 by done. apply sort_lines_perm.
  Qed.

  Lemma neighbour_over P adj p q : StronglySorted (fun a b => (low L v a <= low L v b)%Q) P -> p ∈ P -> q ∈ P -> 0 <= adj ->
    neighbour v adj (L p) (L q) -> (begins v (L p) + 10 <= begins v (L q))%Q -> q ∈ getOverlappingLines L v p P adj.
  Proof.
    intros Hs Hp Hq Hadj (N1 & N2 & N3) Hb. unfold getOverlappingLines.
    change (begins v (L p)) with (low L v p) in Hb. change (begins v (L q)) with (low L v q) in *.
    destruct (after_sorted L v p P Hs Hp) as [A B]. apply overlapping_complete; try done.
    apply (in_after L v p q P); try done. lra.
  Qed.

  Lemma optimize_order m adj out p q : ends_apart closed lines -> 0 <= adj ->
    optimize L v start shuffle walk n closed m adj false = Ok out -> p ∈ Ls -> q ∈ Ls ->
    neighbour v adj (L p) (L q) -> (begins v (L p) + 10 <= begins v (L q))%Q -> before (map plan_id out) p q.
  Proof.
    intros Hap Hadj. unfold optimize. cbv zeta.
    change (List.filter (fun i => detectLoop L closed i || (size L i <=? 1)%nat) (seq 0 n)) with loops.
    change (List.filter (fun i => negb (detectLoop L closed i || (size L i <=? 1)%nat)) (seq 0 n)) with Ls.
    set (m0 := fold_left _ Ls m).
    assert (Hs : forall i, i ∈ sort_lines L v Ls <-> i ∈ Ls) by (intros i; by rewrite sort_lines_perm).
    assert (Hm0 : forall i, i ∈ sort_lines L v Ls -> sv m0 i = size L i) by (intros i Hi; by apply m0_unknown, Hs).
    pose proof good_sorted as G. pose proof G as [Hnd _].
    destruct (run_ok (sort_lines L v Ls) m0 adj G Hm0) as (m1 & o1 & E1 & _).
    rewrite E1. cbn [rbind fst snd]. intros E Hp Hq Hn Hb.
    assert (Eo : out = o1 ++ map (fun i => (i, sv m i, bw m i)) loops) by congruence. subst out.
    destruct (makeOrderedPath_order L v start shuffle walk shuffle_perm walk_perm _ Hnd (good_size _ G) (good_near _ G) near_start
      (good_apart _ G Hap) adj (sort_lines_sorted L v Ls) m0 m1 o1 p q Hm0 E1) as (l1 & l2 & l3 & El).
    - by apply Hs.
    - apply neighbour_over; try done; [apply sort_lines_sorted|by apply Hs|by apply Hs].
    - intros a Ha. rewrite !LineProjections_low. apply llround_step. unfold precision_factor.
      change (begins v (L p)) with (low L v p) in Hb. change (begins v (L q)) with (low L v q) in Hb.
      assert (Hdiv : forall x : Q, (x / 10 == x * (1 # 10))%Q) by (intros x; field).
      rewrite !Hdiv. lra.
    - exists l1, l2, (l3 ++ map plan_id (map (fun i => (i, sv m i, bw m i)) loops)). rewrite map_app, El.
      rewrite <- app_assoc. cbn [app]. rewrite <- app_assoc. done.
  Qed.

  (** *** Printing every other row *)
  Fixpoint flags (adj : Z) (cur : option (bool * Q)) (l : list nat) : list (nat * bool) :=
    match l with
    | [] => []
    | i :: l =>
        let p := projectToMonotonicVector v (front L i) in
        let cur' := match cur with
                    | None => (false, p)
                    | Some (second, q) => if Qle_bool (p - q) (inject_Z (adj ÷ 2)) then (second, q) else (negb second, p)
                    end in
        (i, cur'.1) :: flags adj (Some cur') l
    end.

  Lemma flags_fst adj l : forall cur, map fst (flags adj cur l) = l.
  Proof. induction l as [|i l IH]; intros cur; [done|]. cbn [flags map fst]. by rewrite IH. Qed.

  Lemma split_flags adj l : forall cur, split_passes L v adj cur l =
    (map fst (List.filter (fun x => negb x.2) (flags adj cur l)), map fst (List.filter snd (flags adj cur l))).
  Proof.
    induction l as [|i l IH]; intros cur; [done|]. cbn [split_passes flags]. cbv zeta. rewrite IH. cbn [List.filter fst snd].
    match goal with |- context [if ?c.1 then _ else _] => destruct c as [[] q] end; cbn [fst snd negb map]; done.
  Qed.

  Lemma in_split adj l cur i : (i ∈ (split_passes L v adj cur l).1 <-> (i, false) ∈ flags adj cur l) /\
    (i ∈ (split_passes L v adj cur l).2 <-> (i, true) ∈ flags adj cur l).
  Proof.
    rewrite split_flags. cbn [fst snd]. rewrite !elem_of_list_In, !in_map_iff. split; split.
    - intros ([j b] & E & H). cbn [fst] in E. subst j. apply filter_In in H as [H E]. cbn [snd] in E. by destruct b.
    - intros H. exists (i, false). split; [done|]. apply filter_In. done.
    - intros ([j b] & E & H). cbn [fst] in E. subst j. apply filter_In in H as [H E]. cbn [snd] in E. by destruct b.
    - intros H. exists (i, true). split; [done|]. apply filter_In. done.
  Qed.

  Lemma filter_map_sorted (R : nat -> nat -> Prop) (f : nat * bool -> bool) l :
    StronglySorted R (map fst l) -> StronglySorted R (map fst (List.filter f l)).
  Proof.
    induction l as [|x l IH]; intros H; [done|]. cbn [map] in H. apply StronglySorted_inv in H as [H1 H2].
    cbn [List.filter]. destruct (f x); [|by apply IH]. cbn [map]. constructor; [by apply IH|].
    rewrite Forall_forall in *. intros y Hy. apply H2. rewrite elem_of_list_In, in_map_iff in *.
    destruct Hy as (z & <- & Hz). apply filter_In in Hz as [Hz _]. by exists z.
  Qed.

  Lemma split_sorted (R : nat -> nat -> Prop) adj l cur : StronglySorted R l ->
    StronglySorted R (split_passes L v adj cur l).1 /\ StronglySorted R (split_passes L v adj cur l).2.
  Proof.
    intros H. rewrite split_flags. cbn [fst snd]. split; apply filter_map_sorted; by rewrite flags_fst.
  Qed.

  Notation at_ i := (along_dir v (end_point (L i) false)).

  (** Rows: any two lines are at the same height or more than half the distance apart. *)
  Definition in_rows (adj : Z) (l : list nat) : Prop :=
    forall a b, a ∈ l -> b ∈ l -> (at_ a == at_ b \/ at_ a + inject_Z (adj ÷ 2) < at_ b \/ at_ b + inject_Z (adj ÷ 2) < at_ a)%Q.

  Lemma half_pos adj : 0 <= adj -> (0 <= inject_Z (adj ÷ 2))%Q.
  Proof. intros H. change 0%Q with (inject_Z 0). rewrite <- Zle_Qle. apply Z.quot_pos; lia. Qed.

  Lemma flags_in adj cur l i b : (i, b) ∈ flags adj cur l -> i ∈ l.
  Proof.
    intros H. rewrite <- (flags_fst adj l cur).
    change (map fst (flags adj cur l)) with (fst <$> flags adj cur l). apply elem_of_list_fmap. by exists (i, b).
  Qed.

  Lemma flags_head adj l : 0 <= adj -> forall b h, in_rows adj l -> StronglySorted (fun i j => (at_ i <= at_ j)%Q) l ->
    (forall i, i ∈ l -> at_ i == h \/ h + inject_Z (adj ÷ 2) < at_ i)%Q ->
    forall i bi, (i, bi) ∈ flags adj (Some (b, h)) l ->
      ((at_ i == h)%Q -> bi = b) /\
      ((h < at_ i)%Q -> (forall k, k ∈ l -> ~ (h < at_ k /\ at_ k < at_ i)%Q) -> bi = negb b).
  Proof.
    intros Hadj. pose proof (half_pos adj Hadj) as Hh.
    induction l as [|j l IH]; intros b h Hr Hs Hd i bi Hi; [inversion Hi|].
    apply StronglySorted_inv in Hs as [Hs Hf]. rewrite Forall_forall in Hf. cbn [flags] in Hi.
    change (projectToMonotonicVector v (front L j)) with (at_ j) in Hi.
    assert (Hr' : in_rows adj l) by (intros a c Ha Hc; apply Hr; by right).
    pose proof (Hd j ltac:(left)) as Hj. destruct (Qle_bool (at_ j - h) (inject_Z (adj ÷ 2))) eqn:E.
    - apply Qle_bool_iff in E. assert (Ej : (at_ j == h)%Q) by (destruct Hj as [?|?]; [done|lra]).
      apply elem_of_cons in Hi as [Hi|Hi].
      + inversion Hi; subst. split; [done|]. intros Hlt. lra.
      + destruct (IH b h Hr' Hs ltac:(intros k Hk; apply Hd; by right) i bi Hi) as [A B]. split; [done|].
        intros Hlt Hno. apply B; [done|]. intros k Hk. apply Hno. by right.
    - assert (Ej : (h + inject_Z (adj ÷ 2) < at_ j)%Q).
      { destruct Hj as [Hj|?]; [|done]. assert (Qle_bool (at_ j - h) (inject_Z (adj ÷ 2)) = true); [apply Qle_bool_iff; lra|congruence]. }
      apply elem_of_cons in Hi as [Hi|Hi].
      + inversion Hi; subst. split; [lra|done].
      + assert (Hil : i ∈ l) by (by apply flags_in in Hi). pose proof (Hf i Hil) as Hji.
        split; [lra|]. intros Hlt Hno. cbn [fst] in Hi.
        destruct (IH (negb b) (at_ j) Hr' Hs) with (i := i) (bi := bi) as [A _]; [|done|].
        * intros k Hk. pose proof (Hf k Hk). destruct (Hr k j ltac:(by right) ltac:(left)) as [?|[?|?]]; [by left|lra|by right].
        * apply A. destruct (Hr i j ltac:(by right) ltac:(left)) as [?|[?|?]]; [done|lra|].
          exfalso. apply (Hno j ltac:(left)). lra.
  Qed.

  Lemma flags_pair adj l : 0 <= adj -> forall cur, in_rows adj l -> StronglySorted (fun i j => (at_ i <= at_ j)%Q) l ->
    match cur with None => True | Some (_, h) => forall i, i ∈ l -> (at_ i == h \/ h + inject_Z (adj ÷ 2) < at_ i)%Q end ->
    forall p q bp bq, (p, bp) ∈ flags adj cur l -> (q, bq) ∈ flags adj cur l ->
      ((at_ p == at_ q)%Q -> bp = bq) /\
      ((at_ p < at_ q)%Q -> (forall k, k ∈ l -> ~ (at_ p < at_ k /\ at_ k < at_ q)%Q) -> bp = negb bq).
  Proof.
    intros Hadj. pose proof (half_pos adj Hadj) as Hh.
    induction l as [|j l IH]; intros cur Hr Hs Hd p q bp bq Hp Hq; [inversion Hp|].
    apply StronglySorted_inv in Hs as [Hs Hf]. rewrite Forall_forall in Hf. cbn [flags] in Hp, Hq. cbv zeta in Hp, Hq.
    assert (Hr' : in_rows adj l) by (intros a c Ha Hc; apply Hr; by right).
    match type of Hp with _ ∈ (_, ?c.1) :: _ => set (cur' := c) in Hp, Hq end.
    assert (Hc : (snd cur' == at_ j)%Q).
    { subst cur'. change (projectToMonotonicVector v (front L j)) with (at_ j). destruct cur as [[b h]|]; [|done].
      destruct (Qle_bool (at_ j - h) (inject_Z (adj ÷ 2))) eqn:E; [|done]. apply Qle_bool_iff in E. cbn [snd].
      destruct (Hd j ltac:(left)) as [?|?]; [by symmetry|lra]. }
    clearbody cur'. destruct cur' as [b h]. cbn [fst snd] in *.
    assert (Hd' : forall i, i ∈ l -> (at_ i == h \/ h + inject_Z (adj ÷ 2) < at_ i)%Q).
    { intros k Hk. pose proof (Hf k Hk). destruct (Hr k j ltac:(by right) ltac:(left)) as [?|[?|?]]; [left|lra|right]; lra. }
    pose proof (flags_head adj l Hadj b h Hr' Hs Hd') as Hhead.
    apply elem_of_cons in Hp as [Hp|Hp]; apply elem_of_cons in Hq as [Hq|Hq].
    - inversion Hp; inversion Hq; subst. split; [done|]. intros Hlt. lra.
    - inversion Hp; subst. destruct (Hhead q bq Hq) as [A B]. split.
      + intros E. symmetry. apply A. lra.
      + intros Hlt Hno. rewrite B; [by rewrite negb_involutive|lra|]. intros k Hk Hb. apply (Hno k ltac:(by right)). lra.
    - inversion Hq; subst. destruct (Hhead p bp Hp) as [A _]. pose proof (Hf p (flags_in _ _ _ _ _ Hp)). split.
      + intros E. apply A. lra.
      + intros Hlt. lra.
    - destruct (IH (Some (b, h)) Hr' Hs Hd' p q bp bq Hp Hq) as [A B]. split; [done|].
      intros Hlt Hno. apply B; [done|]. intros k Hk. apply Hno. by right.
  Qed.

  Lemma flags_first adj l p bp : 0 <= adj -> in_rows adj l -> StronglySorted (fun i j => (at_ i <= at_ j)%Q) l ->
    (p, bp) ∈ flags adj None l -> (forall k, k ∈ l -> (at_ p <= at_ k)%Q) -> bp = false.
  Proof.
    intros Hadj Hr Hs Hp Hmin. destruct l as [|j l]; [inversion Hp|]. pose proof Hs as Hs0. apply StronglySorted_inv in Hs as [Hs Hf].
    rewrite Forall_forall in Hf.
    apply (flags_pair adj (j :: l) Hadj None Hr Hs0 I p j bp false Hp ltac:(left)).
    pose proof (Hmin j ltac:(left)). apply flags_in in Hp. apply elem_of_cons in Hp as [-> |Hp]; [done|]. pose proof (Hf p Hp). lra.
  Qed.

  Lemma optimize_interlaced m adj : ends_apart closed lines -> 0 <= adj -> exists o1 o2,
    optimize L v start shuffle walk n closed m adj true = Ok (o2 ++ o1 ++ map (plan_loop m) loops) /\
    (forall o p q, o = o1 \/ o = o2 -> p ∈ map plan_id o -> q ∈ map plan_id o -> neighbour v (2 * adj) (L p) (L q) ->
      (begins v (L p) + 10 <= begins v (L q))%Q -> before (map plan_id o) p q) /\
    ((forall i, i ∈ Ls -> (at_ i == along_dir v (end_point (L i) true))%Q) -> in_rows adj Ls ->
      (forall p, p ∈ Ls -> (forall k, k ∈ Ls -> (at_ p <= at_ k)%Q) -> p ∈ map plan_id o1) /\
      (forall p q, p ∈ Ls -> q ∈ Ls -> (at_ p == at_ q)%Q -> p ∈ map plan_id o1 -> q ∈ map plan_id o1) /\
      (forall p q, p ∈ Ls -> q ∈ Ls -> (at_ p < at_ q)%Q -> (forall k, k ∈ Ls -> ~ (at_ p < at_ k /\ at_ k < at_ q)%Q) ->
        (p ∈ map plan_id o1 <-> q ∈ map plan_id o2))).
  Proof.
    intros Hap Hadj. unfold optimize. cbv zeta.
    change (List.filter (fun i => detectLoop L closed i || (size L i <=? 1)%nat) (seq 0 n)) with loops.
    change (List.filter (fun i => negb (detectLoop L closed i || (size L i <=? 1)%nat)) (seq 0 n)) with Ls.
    set (m0 := fold_left _ Ls m).
    assert (Hm0 : forall i, i ∈ Ls -> sv m0 i = size L i) by apply m0_unknown.
    change (map (fun i => (i, sv m i, bw m i)) loops) with (map (plan_loop m) loops).
    assert (Hs : forall i, i ∈ sort_lines L v Ls <-> i ∈ Ls) by (intros i; by rewrite sort_lines_perm).
    pose proof (sort_lines_sorted L v Ls) as Hsort.
    destruct (good_passes adj) as (G1 & G2 & Hd). pose proof (split_perm L v adj (sort_lines L v Ls) None) as Hp.
    destruct (split_sorted _ adj _ None Hsort) as [S1 S2].
    assert (Hfl := fun i => in_split adj (sort_lines L v Ls) None i).
    destruct (split_passes L v adj None (sort_lines L v Ls)) as [P1 P2]. cbn [fst snd] in *.
    assert (Hin : forall i, i ∈ Ls <-> i ∈ P1 \/ i ∈ P2) by (intros i; rewrite <- Hs, <- Hp; apply elem_of_app).
    assert (U1 : forall i, i ∈ P1 -> sv m0 i = size L i) by (intros i Hi; apply Hm0, Hin; by left).
    destruct (run_ok P1 m0 (adj * 2) G1 U1) as (m1 & o1 & E1 & A1 & B1 & C1 & D1).
    rewrite E1. cbn [rbind fst snd].
    assert (U2 : forall i, i ∈ P2 -> sv m1 i = size L i).
    { intros i Hi. rewrite B1 by (by apply Hd). apply Hm0, Hin. by right. }
    destruct (run_ok P2 m1 (adj * 2) G2 U2) as (m2 & o2 & E2 & A2 & B2 & C2 & D2).
    rewrite E2. cbn [rbind fst snd]. exists o1, o2. specialize (D1 Hap). specialize (D2 Hap). split; [done|]. split.
    { assert (Hgen : forall P ma mb o p q, good P -> (forall i, i ∈ P -> sv ma i = size L i) ->
        StronglySorted (fun a b => (low L v a <= low L v b)%Q) P -> run ma P (adj * 2) = Ok (mb, o) -> p ∈ P -> q ∈ P ->
        neighbour v (2 * adj) (L p) (L q) -> (begins v (L p) + 10 <= begins v (L q))%Q -> before (map plan_id o) p q).
      { intros P ma mb o p q G U Sd E Hp' Hq' Hn Hb. pose proof G as [Hnd _].
        apply (makeOrderedPath_order L v start shuffle walk shuffle_perm walk_perm _ Hnd (good_size _ G) (good_near _ G) near_start
          (good_apart _ G Hap) (adj * 2) Sd ma mb o p q U E Hp').
        - rewrite Z.mul_comm in Hn. apply neighbour_over; try done. lia.
        - intros a Ha. rewrite !LineProjections_low. apply llround_step. unfold precision_factor.
          change (begins v (L p)) with (low L v p) in Hb. change (begins v (L q)) with (low L v q) in Hb.
          assert (Hdiv : forall x : Q, (x / 10 == x * (1 # 10))%Q) by (intros x; field).
          rewrite !Hdiv. lra. }
      intros o p q [-> | ->] Hp' Hq' Hn Hb.
      - rewrite D1 in Hp', Hq'. exact (Hgen P1 m0 m1 o1 p q G1 U1 S1 E1 Hp' Hq' Hn Hb).
      - rewrite D2 in Hp', Hq'. exact (Hgen P2 m1 m2 o2 p q G2 U2 S2 E2 Hp' Hq' Hn Hb). }
    intros Hlev Hrow.
    assert (Hrow' : in_rows adj (sort_lines L v Ls)) by (intros a b Ha Hb; apply Hrow; by apply Hs).
    assert (Hlow : forall i, i ∈ Ls -> (low L v i == at_ i)%Q).
    { intros i Hi. unfold low. change (projectToVector (front L i) v) with (at_ i).
      change (projectToVector (back L i) v) with (along_dir v (end_point (L i) true)). rewrite (Q.min_l); [done|].
      rewrite (Hlev i Hi). apply Qle_refl. }
    assert (Hsort' : StronglySorted (fun i j => (at_ i <= at_ j)%Q) (sort_lines L v Ls)).
    { assert (Hall : forall i, i ∈ sort_lines L v Ls -> i ∈ Ls) by (intros i; apply Hs).
      clear - Hsort Hall Hlow. induction Hsort as [|i l Hl IH Hf]; constructor.
      - apply IH. intros k Hk. apply Hall. by right.
      - rewrite Forall_forall in *. intros k Hk. specialize (Hf k Hk).
        rewrite (Hlow i), (Hlow k) in Hf; [done|apply Hall; by right|apply Hall; left]. }
    assert (F1 : forall i, i ∈ map plan_id o1 <-> (i, false) ∈ flags adj None (sort_lines L v Ls)).
    { intros i. rewrite D1. apply Hfl. }
    assert (F2 : forall i, i ∈ map plan_id o2 <-> (i, true) ∈ flags adj None (sort_lines L v Ls)).
    { intros i. rewrite D2. apply Hfl. }
    assert (Fx : forall i, i ∈ Ls -> exists b, (i, b) ∈ flags adj None (sort_lines L v Ls)).
    { intros i Hi. apply Hin in Hi as [Hi|Hi]; [exists false|exists true]; by apply Hfl. }
    split_and!.
    - intros p Hp' Hmin. apply F1. destruct (Fx p Hp') as [b Hb].
      rewrite (flags_first adj _ p b Hadj Hrow' Hsort' Hb) in Hb; [done|]. intros k Hk. by apply Hmin, Hs.
    - intros p q Hp' Hq' E Hpo. apply F1 in Hpo. apply F1. destruct (Fx q Hq') as [b Hb].
      destruct (flags_pair adj _ Hadj None Hrow' Hsort' I p q _ _ Hpo Hb) as [A _]. by rewrite (A E).
    - intros p q Hp' Hq' Hlt Hno. rewrite F1, F2. destruct (Fx p Hp') as [bp Hbp], (Fx q Hq') as [bq Hbq]. split.
      + intros H. destruct (flags_pair adj _ Hadj None Hrow' Hsort' I p q _ _ H Hbq) as [_ A].
        destruct bq; [done|]. assert (HA : false = negb false); [|discriminate HA]. apply A; [done|]. intros k Hk. by apply Hno, Hs.
      + intros H. destruct (flags_pair adj _ Hadj None Hrow' Hsort' I p q _ _ Hbp H) as [_ A].
        destruct bp; [|done]. assert (HA : true = negb true); [|discriminate HA]. apply A; [done|]. intros k Hk. by apply Hno, Hs.
  Qed.
End order.

(** ** The theorems

    [lines] are the lines given, [closed] tells which of them the caller marked as closed, [v] is the direction, [start]
    where the nozzle is, [adj] the distance within which lines are adjacent and [m] the vertex and direction
    each path has been given before.  [shuffle] and [walk] are the orders in which the two unordered containers are
    iterated. *)
Definition print_order lines closed v start shuffle walk m adj interlaced : res (list planned) :=
  optimize (line_at lines) v start shuffle walk (length lines) closed m adj interlaced.
Definition printed (out : list planned) : list nat := map (fun x : planned => x.1.1) out.

Section theorems.
  Variable lines : list (list pt).
  Variable closed : nat -> bool.
  Variable v : Q * Q.
  Variable start : pt.
  Variable shuffle : gridmap (pt * nat) -> gridmap (pt * nat).
  Variable walk : list nat -> list nat.
  Hypothesis shuffle_perm : forall g, shuffle g ≡ₚ g.
  Hypothesis walk_perm : forall l, walk l ≡ₚ l.
  Hypothesis near_lines : forall line p, line ∈ lines -> p ∈ line -> near_origin p.
  Hypothesis near_start : near_origin start.
  Notation order := (print_order lines closed v start shuffle walk).

  (** Ordering ends, whichever way the lines touch.  The contours come last, in the order given and with the start they
      had; what comes before consists of the lines only, each begun at one of its two ends. *)
  Theorem C62_starts_at_an_end m adj interlaced : exists out loops,
    order m adj interlaced = Ok (out ++ map (fun i => (i, sv m i, bw m i)) loops) /\
    (forall i s b, (i, s, b) ∈ out -> exists line, lines !! i = Some line /\ is_line (closed i) line /\
       (s = 0%nat \/ s = (length line - 1)%nat)) /\
    StronglySorted lt loops /\
    (forall i, i ∈ loops <-> exists line, lines !! i = Some line /\ ~ is_line (closed i) line).
  Proof.
    destruct (optimize_ok lines closed v start shuffle walk shuffle_perm walk_perm near_lines near_start m adj interlaced)
      as (out & E & A & _ & _).
    exists out, (List.filter (is_loop lines closed) (seq 0 (length lines))). split; [exact E|]. split_and!.
    - intros i s b Hi. rewrite Forall_forall in A. destruct (A _ Hi) as [B C]. cbn [fst snd] in B, C.
      apply in_Ls in B as [Hn Hl]. exists (line_at lines i). by rewrite (lookup_L lines i Hn).
    - generalize 0%nat. generalize (length lines) as k. induction k as [|k IH]; intros a; [constructor|].
      cbn [seq List.filter]. destruct (is_loop lines closed a); [|apply IH]. constructor; [apply IH|].
      apply Forall_forall. intros j Hj. rewrite elem_of_list_In in Hj. apply filter_In in Hj as [Hj _]. apply in_seq in Hj. lia.
    - intros i. rewrite in_loops. split.
      + intros [Hn Hl]. exists (line_at lines i). by rewrite (lookup_L lines i Hn).
      + intros (line & Hi & Hl). rewrite (L_lookup lines i line Hi). split; [|done]. by apply lookup_lt_Some in Hi.
  Qed.

  (** If no three ends meet, every line is printed. *)
  Theorem C62_every_line_printed m adj interlaced : no_three_meet closed lines -> exists out,
    order m adj interlaced = Ok out /\ forall i, i ∈ printed out <-> (i < length lines)%nat.
  Proof.
    intros Hm.
    destruct (optimize_ok lines closed v start shuffle walk shuffle_perm walk_perm near_lines near_start m adj interlaced)
      as (out & E & A & B & _).
    eexists. split; [exact E|]. intros i. unfold printed. rewrite map_app, elem_of_app, map_map. cbn [plan_loop fst]. rewrite map_id.
    split.
    - intros [Hi|Hi].
      + rewrite elem_of_list_In, in_map_iff in Hi. destruct Hi as (x & <- & Hx). rewrite <- elem_of_list_In in Hx.
        rewrite Forall_forall in A. apply A in Hx as [Hx _]. by apply in_Ls in Hx as [? _].
      + by apply in_loops in Hi as [? _].
    - intros Hi. destruct (is_loop lines closed i) eqn:El.
      + right. rewrite elem_of_list_In. apply filter_In. split; [apply in_seq; lia|done].
      + left. apply (B Hm). apply in_Ls. split; [done|]. by apply is_loop_spec.
  Qed.

  (** If no two ends meet, every line is printed once. *)
  Theorem C62_every_line_once m adj interlaced : ends_apart closed lines -> exists out,
    order m adj interlaced = Ok out /\ printed out ≡ₚ seq 0 (length lines).
  Proof.
    intros Hm.
    destruct (optimize_ok lines closed v start shuffle walk shuffle_perm walk_perm near_lines near_start m adj interlaced)
      as (out & E & _ & _ & B).
    eexists. split; [exact E|]. unfold printed. rewrite map_app, map_map. cbn [plan_loop fst]. rewrite map_id.
    change (map (fun x : planned => x.1.1) out) with (map plan_id out). rewrite (B Hm). apply filter_split.
  Qed.

  (** Of two neighbouring lines, the one that begins earlier (by 10 micrometres at least) is printed first. *)
  Theorem C62_monotonic m adj p q lp lq : ends_apart closed lines -> 0 <= adj ->
    lines !! p = Some lp -> lines !! q = Some lq -> is_line (closed p) lp -> is_line (closed q) lq ->
    neighbour v adj lp lq -> (begins v lp + 10 <= begins v lq)%Q ->
    exists out, order m adj false = Ok out /\ before (printed out) p q.
  Proof.
    intros Hap Hadj Hp Hq Lp Lq Hn Hb.
    destruct (optimize_ok lines closed v start shuffle walk shuffle_perm walk_perm near_lines near_start m adj false)
      as (out & E & _). eexists. split; [exact E|].
    apply (optimize_order lines closed v start shuffle walk shuffle_perm walk_perm near_lines near_start m adj _ p q Hap Hadj E).
    - apply in_Ls. rewrite (L_lookup lines p lp Hp). split; [|done]. by apply lookup_lt_Some in Hp.
    - apply in_Ls. rewrite (L_lookup lines q lq Hq). split; [|done]. by apply lookup_lt_Some in Hq.
    - by rewrite (L_lookup lines p lp Hp), (L_lookup lines q lq Hq).
    - by rewrite (L_lookup lines p lp Hp), (L_lookup lines q lq Hq).
  Qed.

  (** When every other row is left out and printed in a pass of its own: there are two passes, each of them monotonic
      for neighbours within twice the distance; if the lines lie in rows, the first row is printed in the
      later pass, a row is printed in one pass, and successive rows are printed in different passes. *)
  Theorem C62_interlaced m adj : ends_apart closed lines -> 0 <= adj -> exists early late loops,
    order m adj true = Ok (early ++ late ++ loops) /\
    (forall pass p q lp lq, pass = early \/ pass = late -> lines !! p = Some lp -> lines !! q = Some lq ->
       p ∈ printed pass -> q ∈ printed pass -> neighbour v (2 * adj) lp lq -> (begins v lp + 10 <= begins v lq)%Q ->
       before (printed pass) p q) /\
    ((forall i line, lines !! i = Some line -> is_line (closed i) line -> level v line) ->
     (forall i j li lj, lines !! i = Some li -> lines !! j = Some lj -> is_line (closed i) li -> is_line (closed j) lj ->
        same_row_or_apart v (adj ÷ 2) li lj) ->
     (forall p lp, lines !! p = Some lp -> is_line (closed p) lp ->
        (forall k lk, lines !! k = Some lk -> is_line (closed k) lk -> (begins v lp <= begins v lk)%Q) -> p ∈ printed late) /\
     (forall p q lp lq, lines !! p = Some lp -> is_line (closed p) lp -> lines !! q = Some lq -> is_line (closed q) lq ->
        (begins v lp == begins v lq)%Q -> p ∈ printed late -> q ∈ printed late) /\
     (forall p q lp lq, lines !! p = Some lp -> is_line (closed p) lp -> lines !! q = Some lq -> is_line (closed q) lq ->
        (begins v lp < begins v lq)%Q ->
        (forall k lk, lines !! k = Some lk -> is_line (closed k) lk -> ~ (begins v lp < begins v lk /\ begins v lk < begins v lq)%Q) ->
        (p ∈ printed late <-> q ∈ printed early))).
  Proof.
    intros Hap Hadj.
    destruct (optimize_interlaced lines closed v start shuffle walk shuffle_perm walk_perm near_lines near_start m adj Hap Hadj)
      as (o1 & o2 & E & A & B).
    eexists o2, o1, _. split; [exact E|]. split.
    - intros pass p q lp lq Hpass Hp Hq Hpi Hqi Hn Hb.
      apply (A pass p q); [tauto|done|done| |]; by rewrite (L_lookup lines p lp Hp), (L_lookup lines q lq Hq).
    - intros Hlev Hrow.
      assert (HL : forall i line, lines !! i = Some line -> is_line (closed i) line ->
        i ∈ List.filter (fun i => negb (is_loop lines closed i)) (seq 0 (length lines)) /\ line_at lines i = line).
      { intros i line Hi Hl. rewrite in_Ls. rewrite (L_lookup lines i line Hi). split; [|done]. split; [|done]. by apply lookup_lt_Some in Hi. }
      assert (HLr : forall i, i ∈ List.filter (fun i => negb (is_loop lines closed i)) (seq 0 (length lines)) ->
        exists line, lines !! i = Some line /\ is_line (closed i) line /\ line_at lines i = line).
      { intros i Hi. apply in_Ls in Hi as [Hi Hl]. exists (line_at lines i). by rewrite (lookup_L lines i Hi). }
      assert (Hbeg : forall i line, lines !! i = Some line -> is_line (closed i) line ->
        (begins v line == along_dir v (end_point line false))%Q).
      { intros i line Hi Hl. unfold begins. apply Q.min_l.
        pose proof (Hlev i line Hi Hl) as El. unfold level in El. rewrite El. apply Qle_refl. }
      destruct B as (B1 & B2 & B3).
      + intros i Hi. destruct (HLr i Hi) as (line & Hl & Hil & ->). by apply (Hlev i line).
      + intros a b Ha Hb. destruct (HLr a Ha) as (la & Hla & Hila & ->), (HLr b Hb) as (lb & Hlb & Hilb & ->).
        pose proof (Hrow a b la lb Hla Hlb Hila Hilb) as R. unfold same_row_or_apart in R.
        by rewrite (Hbeg a la Hla Hila), (Hbeg b lb Hlb Hilb) in R.
      + split_and!.
        * intros p lp Hp Hl Hmin. destruct (HL p lp Hp Hl) as [Hi Ei]. apply B1; [done|]. intros k Hk.
          destruct (HLr k Hk) as (lk & Hlk & Hilk & ->). rewrite Ei.
          rewrite <- (Hbeg p lp Hp Hl), <- (Hbeg k lk Hlk Hilk). by apply (Hmin k).
        * intros p q lp lq Hp Hpl Hq Hql Heq Hin. destruct (HL p lp Hp Hpl) as [Hpi Ep], (HL q lq Hq Hql) as [Hqi Eq].
          apply (B2 p q); try done. by rewrite Ep, Eq, <- (Hbeg p lp Hp Hpl), <- (Hbeg q lq Hq Hql).
        * intros p q lp lq Hp Hpl Hq Hql Hlt Hno. destruct (HL p lp Hp Hpl) as [Hpi Ep], (HL q lq Hq Hql) as [Hqi Eq].
          apply (B3 p q); try done; [by rewrite Ep, Eq, <- (Hbeg p lp Hp Hpl), <- (Hbeg q lq Hq Hql)|].
          intros k Hk. destruct (HLr k Hk) as (lk & Hlk & Hilk & ->).
          rewrite Ep, Eq, <- (Hbeg p lp Hp Hpl), <- (Hbeg q lq Hq Hql), <- (Hbeg k lk Hlk Hilk). by apply (Hno k).
  Qed.
End theorems.

(** ** What does not hold *)
Definition marks0 : marks := Marks (fun _ => 0%nat) (fun _ => false).
Definition try lines v adj interlaced : res (list planned) :=
  print_order lines (fun _ => false) v (0, 0) (fun g => g) (fun l => l) marks0 adj interlaced.
Definition lines_twice : list (list pt) :=
  [[(0, 2000); (0, 3000)]; [(340, 0); (350, 1000)]; [(350, 1000); (350, 3000)]].

Lemma lookup_cases {A} (x : A) l i y : (x :: l) !! i = Some y -> (i = 0%nat /\ y = x) \/ exists j, i = S j /\ l !! j = Some y.
Proof. destruct i as [|j]; simpl; [intros [= ->]; by left|]. intros H. right. by exists j. Qed.

Ltac each_line H :=
  apply lookup_cases in H as [[-> ->]|(? & -> & H)]; [|try each_line H; try (rewrite lookup_nil in H; discriminate H)].

Lemma near_all (ls : list (list pt)) :
  forallb (forallb (fun p : pt => (Z.abs p.1 <=? 1000000000) && (Z.abs p.2 <=? 1000000000))) ls = true ->
  forall line p, line ∈ ls -> p ∈ line -> near_origin p.
Proof.
  intros H line p Hl Hp. rewrite forallb_forall in H. apply elem_of_list_In in Hl, Hp. specialize (H line Hl).
  rewrite forallb_forall in H. specialize (H p Hp). apply andb_true_iff in H as [A B]. split; by apply Z.leb_le.
Qed.

(** Three lines, two of which touch; line 2 is adjacent to both others and is printed twice. *)
Theorem C62_line_printed_twice_refuted : exists lines v adj out,
  no_three_meet (fun _ => false) lines /\ try lines v adj false = Ok out /\ printed out = [0; 2; 1; 2]%nat.
Proof.
  exists lines_twice, (1%Q, 0%Q), 400. eexists. split; [|split; [vm_compute; reflexivity|reflexivity]].
  unfold lines_twice. intros i j k a b c li lj lk Hi Hj Hk _ _ _ N1 N2 C1 C2.
  each_line Hi; each_line Hj; each_line Hk; destruct a, b, c; try done; try (exfalso; by apply N1); try (exfalso; by apply N2);
    vm_compute in C1, C2; try discriminate C1; try discriminate C2.
Qed.

(** Three lines forming a triangle and a fourth at one of the corners: lines 0 and 2 are never printed. *)
Definition lines_lost : list (list pt) :=
  [[(0, 0); (0, 1000)]; [(0, 1000); (500, 500)]; [(500, 500); (0, 0)]; [(500, 500); (2000, 500)]].
Theorem C62_line_lost_refuted : exists lines v adj out,
  Forall (is_line false) lines /\ length lines = 4%nat /\ try lines v adj false = Ok out /\ printed out = [1; 3]%nat.
Proof.
  exists lines_lost, (1%Q, 0%Q), 400. eexists. split; [|split; [done|split; [vm_compute; reflexivity|reflexivity]]].
  repeat constructor; unfold is_line; simpl; lia.
Qed.

(** Line 0 begins 4 micrometres before line 1, which is next to it, and is printed after it. *)
Definition lines_close : list (list pt) := [[(0, 0); (1000, 1000)]; [(4, -50); (10, -50)]; [(500, 0); (510, 0)]].
Lemma close_apart : ends_apart (fun _ => false) lines_close.
Proof.
  intros i j a b li lj Hn Hi Hj _ _ C. unfold lines_close in Hi, Hj.
  each_line Hi; each_line Hj; destruct a, b; try done; vm_compute in C; discriminate C.
Qed.
Theorem C62_close_rows_refuted : exists lines v adj out lp lq,
  ends_apart (fun _ => false) lines /\ lines !! 0%nat = Some lp /\ lines !! 1%nat = Some lq /\
  neighbour v adj lp lq /\ (begins v lp < begins v lq)%Q /\
  try lines v adj false = Ok out /\ printed out = [1; 0; 2]%nat.
Proof.
  exists lines_close, (1%Q, 0%Q), 400. eexists _, _, _. split; [apply close_apart|].
  split; [reflexivity|]. split; [reflexivity|]. split; [|split; [vm_compute; done|split; [vm_compute; reflexivity|reflexivity]]].
  split_and!; vm_compute; discriminate.
Qed.

(** ** The hypotheses are met *)
Definition lines_grid : list (list pt) :=
  [[(0, 0); (0, 1000)]; [(800, 0); (800, 1000)]; [(400, 0); (400, 1000)]; [(1200, 500); (1200, 900)];
   [(0, 5000); (10, 5000); (0, 5001)]].
Lemma grid_apart : ends_apart (fun _ => false) lines_grid.
Proof.
  intros i j a b li lj Hn Hi Hj (_ & _ & L1) (_ & _ & L2) C. unfold lines_grid in Hi, Hj.
  each_line Hi; each_line Hj; try done;
    first [exfalso; apply L1; [simpl; lia|vm_compute; done]|exfalso; apply L2; [simpl; lia|vm_compute; done]
          |destruct a, b; vm_compute in C; discriminate C].
Qed.

Example C62_every_line_once_example : exists out, try lines_grid (1%Q, 0%Q) 400 false = Ok out /\ printed out ≡ₚ seq 0 5.
Proof.
  apply (C62_every_line_once lines_grid (fun _ => false) (1%Q, 0%Q) (0, 0) (fun g => g) (fun l => l)); try done.
  - by apply near_all.
  - apply grid_apart.
Qed.
Example C62_every_line_once_value : exists out, try lines_grid (1%Q, 0%Q) 400 false = Ok out /\ printed out = [0; 2; 1; 3; 4]%nat.
Proof. eexists. split; [vm_compute; reflexivity|reflexivity]. Qed.
Example C62_monotonic_example : exists out, try lines_grid (1%Q, 0%Q) 400 false = Ok out /\ before (printed out) 2%nat 1%nat.
Proof.
  apply (C62_monotonic lines_grid (fun _ => false) (1%Q, 0%Q) (0, 0) (fun g => g) (fun l => l)
    ltac:(done) ltac:(done) (near_all lines_grid eq_refl) ltac:(done) marks0 400 2 1 [(400, 0); (400, 1000)] [(800, 0); (800, 1000)]
    grid_apart); try done; try (unfold is_line; simpl; lia).
Qed.
(** Every other row: rows at 400 and 1200 first, rows at 0 and 800 after them, the contour last. *)
Example C62_interlaced_value : exists out, try lines_grid (1%Q, 0%Q) 400 true = Ok out /\ printed out = [2; 3; 0; 1; 4]%nat.
Proof. eexists. split; [vm_compute; reflexivity|reflexivity]. Qed.
Example C62_interlaced_rows : forall i j li lj, lines_grid !! i = Some li -> lines_grid !! j = Some lj ->
  is_line false li -> is_line false lj -> level (1%Q, 0%Q) li /\ same_row_or_apart (1%Q, 0%Q) (400 ÷ 2) li lj.
Proof.
  intros i j li lj Hi Hj (_ & _ & L1) (_ & _ & L2). unfold lines_grid in Hi, Hj.
  each_line Hi; each_line Hj;
    first [exfalso; apply L1; [simpl; lia|vm_compute; done]|exfalso; apply L2; [simpl; lia|vm_compute; done]
          |split; [vm_compute; reflexivity|]; unfold same_row_or_apart;
           first [left; vm_compute; reflexivity|right; left; vm_compute; reflexivity|right; right; vm_compute; reflexivity]].
Qed.
Example C62_no_three_meet_example : no_three_meet (fun _ => false) lines_twice /\
  ~ ends_apart (fun _ => false) lines_twice.
Proof.
  split.
  - unfold lines_twice. intros i j k a b c li lj lk Hi Hj Hk _ _ _ N1 N2 C1 C2.
    each_line Hi; each_line Hj; each_line Hk; destruct a, b, c; try done; try (exfalso; by apply N1); try (exfalso; by apply N2);
      vm_compute in C1, C2; try discriminate C1; try discriminate C2.
  - intros H. apply (H 1%nat 2%nat true false _ _ ltac:(done) eq_refl eq_refl); try (unfold is_line; simpl; lia).
    vm_compute. done.
Qed.

Print Assumptions C62_starts_at_an_end.
Print Assumptions C62_every_line_printed.
Print Assumptions C62_every_line_once.
Print Assumptions C62_monotonic.
Print Assumptions C62_interlaced.
Print Assumptions C62_line_printed_twice_refuted.
Print Assumptions C62_line_lost_refuted.
Print Assumptions C62_close_rows_refuted.
