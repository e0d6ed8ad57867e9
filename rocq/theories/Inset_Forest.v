(** Lemmas for C14: the nesting graph, and the constraints between the lines of a region. *)
From Coq Require Import ZArith Lia.
From stdpp Require Import gmap list relations sorting.
From Verif Require Import Common Inset_Model Inset_Spec Inset_Proofs Inset_Region.

Section forest.
  Context (n : nat) (area : nat -> Z) (closed : nat -> bool) (inside : nat -> nat -> bool).
  Notation smaller := (smaller area).
  Notation around := (around n area closed inside).
  Notation encloses := (encloses n area closed inside).
  Notation adjacent := (adjacent n area closed inside).

  Lemma smaller_irrefl i : ~ smaller i i.
  Proof. unfold Inset_Spec.smaller. lia. Qed.
  Lemma smaller_trans i j k : smaller i j -> smaller j k -> smaller i k.
  Proof. unfold Inset_Spec.smaller. lia. Qed.
  Lemma smaller_total i j : i <> j -> smaller i j \/ smaller j i.
  Proof. unfold Inset_Spec.smaller. lia. Qed.
  Lemma encloses_unique j j' i : encloses j i -> encloses j' i -> j = j'.
  Proof.
    intros [A M] [A' M']. destruct (decide (j = j')) as [E | E]; [done|]. exfalso.
    apply (smaller_irrefl j). apply (smaller_trans _ j'); [by apply M; [| congruence] | by apply M'].
  Qed.
  Lemma encloses_smaller j i : encloses j i -> smaller i j.
  Proof. intros [(_ & _ & S & _) _]. exact S. Qed.
  Lemma adjacent_sym i j : adjacent i j -> adjacent j i.
  Proof. intros [H | H]; [by right | by left]. Qed.
  Lemma adjacent_irrefl i : ~ adjacent i i.
  Proof. intros [H | H]; apply encloses_smaller in H; by apply smaller_irrefl in H. Qed.
  Lemma adjacent_bound i j : adjacent i j -> (i < n)%nat /\ (j < n)%nat.
  Proof. intros [[(H1 & H2 & _) _] | [(H1 & H2 & _) _]]; done. Qed.

  (** z and the lines within it *)
  Definition desc (z x : nat) : Prop := rtc (fun a b => encloses b a) x z.
  Lemma desc_smaller z x : desc z x -> x = z \/ smaller x z.
  Proof.
    induction 1 as [x | x y z H R IH]; [by left|]. right. apply encloses_smaller in H.
    destruct IH as [-> | IH]; [done | by eapply smaller_trans].
  Qed.
  Lemma crossing z a b : adjacent a b -> desc z a -> ~ desc z b -> a = z /\ encloses b z.
  Proof.
    intros [H | H] D N.
    - exfalso. apply N. by apply (rtc_l _ _ a).
    - destruct D as [a | a a' z H' R]; [done|]. exfalso. apply N. by rewrite (encloses_unique b a' a).
  Qed.
  Lemma forest_closed (V : nat -> Prop) x y z :
    (forall a b, V a -> V b -> rtc (fun u v => adjacent u v /\ V u /\ V v) a b) ->
    V x -> V z -> ~ V y -> adjacent y x -> adjacent y z -> x = z.
  Proof.
    intros C Vx Vz Ny Ax Az.
    assert (G : forall x z, V x -> V z -> encloses y z -> adjacent y x -> x = z).
    { clear x z Vx Vz Ax Az. intros x z Vx Vz Ez Ax.
      assert (Nd : ~ desc z y).
      { intros D. apply desc_smaller in D as [-> | D]; [done|]. apply encloses_smaller in Ez.
        apply (smaller_irrefl y). by eapply smaller_trans. }
      assert (Dw : forall w, rtc (fun u v => adjacent u v /\ V u /\ V v) z w -> desc z w).
      { intros w R. apply rtc_ind_r_weak with (P := fun a b => a = z -> desc z b) in R; [by apply R | |].
        - intros a ->. constructor.
        - intros a b c _ (Ad & Vb & Vc) IH Ea. specialize (IH Ea). 
          destruct (decide (b = z)) as [-> | Nb].
          + destruct Ad as [H | H]; [by apply rtc_once|]. exfalso. apply Ny.
            by rewrite (encloses_unique y c z).
          + destruct Ad as [H | H]; [by apply (rtc_l _ _ b)|].
            destruct IH as [b | b b' z H' R']; [done|]. by rewrite (encloses_unique c b' b). }
      assert (Dx : desc z x) by (apply Dw, C; done).
      apply (crossing z x y) in Dx as [-> _]; [done | by apply adjacent_sym | done]. }
    destruct Az as [Ez | Ez]; [by apply G|].
    destruct Ax as [Ex | Ex]; [symmetry; apply G; [done | done | done | by right]|].
    by apply (encloses_unique x z y).
  Qed.

  (** ** Searching the forest *)
  Section trace.
    Context (adj : nat -> list nat) (adj_ok : forall x y, y ∈ adj x <-> adjacent x y).
    Notation A := (fun x y => y ∈ adj x).

    Lemma trace_connected o E : trace A o E ->
      forall a b, a ∈ E.*1 -> b ∈ E.*1 -> rtc (fun u v => adjacent u v /\ u ∈ E.*1 /\ v ∈ E.*1) a b.
    Proof.
      induction 1 as [| E y q pq d T IH Q Ad N]; intros a b Ha Hb.
      - apply elem_of_list_singleton in Ha as ->. apply elem_of_list_singleton in Hb as ->. constructor.
      - set (E' := E ++ [(y, (Some q, S d))]) in *.
        assert (Sub : forall x, x ∈ E.*1 -> x ∈ E'.*1) by (intros x X; subst E'; rewrite fmap_app; apply elem_of_app; by left).
        assert (Qn : q ∈ E.*1) by (apply elem_of_list_fmap; eexists; split; [| exact Q]; done).
        assert (Yn : y ∈ E'.*1) by (subst E'; rewrite fmap_app; apply elem_of_app; right; left).
        apply adj_ok in Ad.
        assert (Up : forall a b, a ∈ E.*1 -> b ∈ E.*1 -> rtc (fun u v => adjacent u v /\ u ∈ E'.*1 /\ v ∈ E'.*1) a b).
        { intros u v Hu Hv. apply (rtc_subrel (fun u v => adjacent u v /\ u ∈ E.*1 /\ v ∈ E.*1)); [| by apply IH].
          intros s t (H1 & H2 & H3). auto. }
        assert (Spl : forall x, x ∈ E'.*1 -> x ∈ E.*1 \/ x = y).
        { intros x X. subst E'. rewrite fmap_app in X. apply elem_of_app in X as [X | X]; [by left|].
          apply elem_of_list_singleton in X. by right. }
        destruct (Spl _ Ha) as [Ha' | ->], (Spl _ Hb) as [Hb' | ->].
        + by apply Up.
        + eapply rtc_r; [by apply (Up a q)|]. auto.
        + apply (rtc_l _ _ q); [| by apply Up]. split; [by apply adjacent_sym|]. auto.
        + constructor.
    Qed.

    Lemma trace_unique o E x s1 s2 : trace A o E -> (x, s1) ∈ E -> (x, s2) ∈ E -> s1 = s2.
    Proof.
      intros T H1 H2. apply trace_nodup in T. apply elem_of_list_lookup in H1 as [i1 H1]. apply elem_of_list_lookup in H2 as [i2 H2].
      assert (i1 = i2) as ->.
      { apply (NoDup_lookup E.*1 i1 i2 x T); rewrite list_lookup_fmap; [rewrite H1 | rewrite H2]; done. }
      congruence.
    Qed.

    Lemma trace_edges o E : trace A o E -> forall a b sa sb, (a, sa) ∈ E -> (b, sb) ∈ E -> adjacent a b ->
      (sa.1 = Some b /\ sa.2 = S sb.2) \/ (sb.1 = Some a /\ sb.2 = S sa.2).
    Proof.
      induction 1 as [| E y q pq d T IH Q Ad N]; intros a b sa sb Ha Hb Hab.
      - apply elem_of_list_singleton in Ha, Hb. assert (a = b) by congruence. subst. by apply adjacent_irrefl in Hab.
      - assert (Key : forall z sz, (z, sz) ∈ E -> adjacent y z -> z = q /\ sz = (pq, d)).
        { intros z sz Hz Hyz.
          assert (z = q) as ->.
          { apply (forest_closed (fun x => x ∈ E.*1) z y q).
            - by apply (trace_connected o).
            - apply elem_of_list_fmap. by exists (z, sz).
            - apply elem_of_list_fmap. by exists (q, (pq, d)).
            - done.
            - done.
            - apply adjacent_sym. by apply adj_ok. }
          split; [done|]. by apply (trace_unique o E q). }
        apply elem_of_app in Ha as [Ha | Ha]; apply elem_of_app in Hb as [Hb | Hb].
        + by apply IH.
        + apply elem_of_list_singleton in Hb. injection Hb as -> ->. apply adjacent_sym in Hab.
          destruct (Key _ _ Ha Hab) as [-> ->]. right. done.
        + apply elem_of_list_singleton in Ha. injection Ha as -> ->.
          destruct (Key _ _ Hb Hab) as [-> ->]. left. done.
        + apply elem_of_list_singleton in Ha, Hb. assert (a = b) by congruence. subst. by apply adjacent_irrefl in Hab.
    Qed.

    (** Walks from one line *)
    Inductive walk (o : nat) : nat -> nat -> Prop :=
    | walk_nil : walk o 0 o
    | walk_snoc k i j : walk o k i -> adjacent i j -> walk o (S k) j.

    Lemma trace_walk o E : trace A o E -> forall x p d, (x, (p, d)) ∈ E -> walk o d x.
    Proof.
      induction 1 as [| E y q pq d T IH Q Ad N]; intros x p d' H.
      - apply elem_of_list_singleton in H. injection H as -> _ ->. constructor.
      - apply elem_of_app in H as [H | H]; [by eapply IH|].
        apply elem_of_list_singleton in H. injection H as -> _ ->. apply (walk_snoc _ _ q); [by eapply IH|]. by apply adj_ok.
    Qed.
    Lemma trace_first o E : trace A o E -> (o, (None, 0)) ∈ E.
    Proof. induction 1; [left|]. apply elem_of_app. by left. Qed.
    Lemma walk_trace o E : trace A o E -> closed_in adj E E -> forall k x, walk o k x ->
      exists p d, (x, (p, d)) ∈ E /\ (d <= k)%nat.
    Proof.
      intros T C k x W. induction W as [| k i j W IH Ad].
      - exists None, 0%nat. split; [by apply trace_first | lia].
      - destruct IH as (p & d & H & L).
        assert (J : j ∈ E.*1). { apply (C i j); [apply elem_of_list_fmap; by exists (i, (p, d)) | by apply adj_ok]. }
        apply elem_of_list_fmap in J as ([j' [p' d']] & E1 & J). cbn in E1. subst j'.
        exists p', d'. split; [done|]. destruct (trace_edges o E T i j _ _ H J Ad) as [[_ D] | [_ D]]; cbn in D; lia.
    Qed.
    Lemma trace_parent o E x q d : trace A o E -> (x, (Some q, d)) ∈ E -> exists p d', d = S d' /\ (q, (p, d')) ∈ E /\ adjacent q x.
    Proof.
      induction 1 as [| E y q' pq d' T IH Q Ad N]; intros H.
      - apply elem_of_list_singleton in H. done.
      - apply elem_of_app in H as [H | H].
        + destruct (IH H) as (p & d'' & E1 & H1 & H2). exists p, d''. split; [done|]. split; [| done].
          apply elem_of_app. by left.
        + apply elem_of_list_singleton in H. injection H as -> -> ->. exists pq, d'. split; [done|].
          split; [apply elem_of_app; by left | by apply adj_ok].
    Qed.
    Lemma trace_none o E x d : trace A o E -> (x, (None, d)) ∈ E -> d = 0%nat.
    Proof.
      induction 1 as [| E y q' pq d' T IH Q Ad N]; intros H.
      - apply elem_of_list_singleton in H. congruence.
      - apply elem_of_app in H as [H | H]; [by apply IH|]. apply elem_of_list_singleton in H. done.
    Qed.
  End trace.
End forest.
