(** Lemmas for C14: the graph that is built, and the result of the two searches. *)
From Coq Require Import ZArith Lia.
From stdpp Require Import gmap list relations sorting.
From Verif Require Import Common Inset_Model Inset_Spec Inset_Proofs Inset_Region Inset_Forest.

Section graph.
  Context (n : nat) (area : nat -> Z) (closed : nat -> bool) (inside : nat -> nat -> bool).
  Context (ord : nat -> list nat -> list nat) (ord_perm : forall i l, ord i l ≡ₚ l).
  Notation smaller := (smaller area).
  Notation encloses := (encloses n area closed inside).
  Notation adjacent := (adjacent n area closed inside).
  Notation sorted := (sorted_lines n area).
  Notation adj := (neighbours_of n area closed inside ord).

  Lemma insert_perm i l : insert_by_area area i l ≡ₚ i :: l.
  Proof.
    induction l as [| j l IH]; cbn; [done|]. destruct (area i <? area j)%Z; [done|].
    rewrite IH. constructor.
  Qed.
  Lemma insert_sorted i l : (forall j, j ∈ l -> (j < i)%nat) -> StronglySorted smaller l ->
    StronglySorted smaller (insert_by_area area i l).
  Proof.
    induction l as [| j l IH]; intros B S; cbn; [repeat constructor|].
    apply StronglySorted_inv in S as [S F].
    destruct (area i <? area j)%Z eqn:E; [apply Z.ltb_lt in E | apply Z.ltb_ge in E].
    - constructor; [by constructor|]. constructor; [by left|].
      eapply Forall_impl; [exact F|]. intros k K. apply (smaller_trans area _ j); [by left | done].
    - constructor.
      + apply IH; [| done]. intros k K. apply B. by right.
      + rewrite insert_perm. constructor; [| done]. assert (j < i)%nat by (apply B; left).
        unfold Inset_Spec.smaller. lia.
  Qed.
  Lemma fold_insert is l : (forall j, j ∈ l -> forall i, i ∈ is -> (j < i)%nat) -> StronglySorted lt is -> StronglySorted smaller l ->
    StronglySorted smaller (fold_left (fun l i => insert_by_area area i l) is l) /\
    fold_left (fun l i => insert_by_area area i l) is l ≡ₚ is ++ l.
  Proof.
    revert l. induction is as [| i is IH]; intros l B Si Sl; cbn; [done|].
    apply StronglySorted_inv in Si as [Si Fi]. rewrite Forall_forall in Fi.
    destruct (IH (insert_by_area area i l)) as [S P].
    - intros j J k K. rewrite insert_perm in J. apply elem_of_cons in J as [-> | J]; [by apply Fi|].
      apply B; [done | by right].
    - done.
    - apply insert_sorted; [| done]. intros j J. apply B; [done | left].
    - split; [done|]. rewrite P, insert_perm. symmetry. apply Permutation_middle.
  Qed.
  Lemma seq_sorted k m : StronglySorted lt (seq k m).
  Proof.
    revert k. induction m as [| m IH]; intros k; cbn; constructor; [apply IH|].
    apply Forall_forall. intros x X. apply elem_of_seq in X. lia.
  Qed.
  Lemma sorted_ok : StronglySorted smaller sorted /\ sorted ≡ₚ seq 0 n.
  Proof.
    destruct (fold_insert (seq 0 n) []) as [S P].
    - intros j J. by apply elem_of_nil in J.
    - apply seq_sorted.
    - constructor.
    - rewrite app_nil_r in P. done.
  Qed.

  (** The nesting among some of the lines *)
  Definition around_in (P : list nat) (j i : nat) : Prop := i ∈ P /\ j ∈ P /\ smaller i j /\ closed j = true /\ inside j i = true.
  Definition encloses_in (P : list nat) (j i : nat) : Prop :=
    around_in P j i /\ forall k, around_in P k i -> k <> j -> smaller j k.

  Lemma StronglySorted_snoc P x : StronglySorted smaller (P ++ [x]) -> StronglySorted smaller P /\ forall p, p ∈ P -> smaller p x.
  Proof.
    induction P as [| y P IH]; intros S; cbn in S.
    - split; [constructor|]. intros p H. by apply elem_of_nil in H.
    - apply StronglySorted_inv in S as [S F]. destruct (IH S) as [S' L]. rewrite Forall_app in F. destruct F as [F1 F2].
      split; [by constructor|]. intros p H. apply elem_of_cons in H as [-> | H]; [| by apply L].
      by apply Forall_inv in F2.
  Qed.

  Lemma nest_spec P : StronglySorted smaller P -> forall s, s = fold_left (nest_step closed inside) P ([], []) ->
    (forall a b, (a, b) ∈ s.1 <-> encloses_in P a b \/ encloses_in P b a) /\
    (forall p, p ∈ s.2 <-> p ∈ P /\ forall k, ~ around_in P k p).
  Proof.
    induction P as [| x P IH] using rev_ind; intros S s ->.
    - cbn. split.
      + intros a b. split; [intros H; by apply elem_of_nil in H|].
        intros [[(H & _) _] | [(H & _) _]]; by apply elem_of_nil in H.
      + intros p. split; [intros H; by apply elem_of_nil in H|]. intros [H _]. by apply elem_of_nil in H.
    - apply StronglySorted_snoc in S as [S L]. rewrite fold_left_app. cbn [fold_left].
      destruct (IH S _ eq_refl) as [IG IP]. set (s := fold_left (nest_step closed inside) P ([], [])) in *.
      assert (Nx : x ∉ P). { intros H. apply L in H. by apply smaller_irrefl in H. }
      assert (Mem : forall y, y ∈ P ++ [x] <-> y ∈ P \/ y = x).
      { intros y. by rewrite elem_of_app, elem_of_list_singleton. }
      assert (AI : forall j i, around_in (P ++ [x]) j i <-> around_in P j i \/ (j = x /\ i ∈ P /\ closed x = true /\ inside x i = true)).
      { intros j i. unfold around_in. rewrite !Mem. split.
        - intros ([I | ->] & [J | ->] & Sm & C & In).
          + left. done.
          + right. done.
          + exfalso. apply L in J. apply (smaller_irrefl area j). by eapply smaller_trans.
          + by apply smaller_irrefl in Sm.
        - intros [(I & J & Sm & C & In) | (-> & I & C & In)].
          + split; [by left|]. split; [by left|]. done.
          + split; [by left|]. split; [by right|]. split; [by apply L|]. done. }
      assert (EI : forall j i, encloses_in (P ++ [x]) j i <->
        encloses_in P j i \/ (j = x /\ closed x = true /\ inside x i = true /\ i ∈ P /\ forall k, ~ around_in P k i)).
      { intros j i. unfold encloses_in. split.
        - intros [A M]. apply AI in A as [A | (-> & I & C & In)].
          + left. split; [done|]. intros k K Ne. apply M; [apply AI; by left | done].
          + right. split; [done|]. split; [done|]. split; [done|]. split; [done|]. intros k K.
            assert (Kx : k <> x). { intros ->. destruct K as (_ & K & _). done. }
            assert (Sx : smaller x k) by (apply M; [apply AI; by left | done]).
            destruct K as (_ & K & _). apply L in K. apply (smaller_irrefl area x). by eapply smaller_trans.
        - intros [[A M] | (-> & C & In & I & N)].
          + split; [apply AI; by left|]. intros k K Ne. apply AI in K as [K | (-> & _)]; [by apply M|].
            apply L. by destruct A as (_ & A & _).
          + split; [apply AI; right; done|]. intros k K Ne. apply AI in K as [K | (-> & _)]; [by apply N in K | done]. }
      unfold nest_step. destruct (closed x) eqn:C; cbn [fst snd].
      + split.
        * intros a b. rewrite elem_of_app, IG, elem_of_concat, !EI.
          assert (Q : (exists l, (a, b) ∈ l /\ l ∈ (fun p => [(x, p); (p, x)]) <$> filter (fun p => inside x p = true) s.2) <->
            (a = x /\ inside x b = true /\ b ∈ P /\ forall k, ~ around_in P k b) \/
            (b = x /\ inside x a = true /\ a ∈ P /\ forall k, ~ around_in P k a)).
          { split.
            - intros (l & H & Hl). apply elem_of_list_fmap in Hl as (p & -> & Hp). apply elem_of_list_filter in Hp as [In Hp].
              apply IP in Hp as [Hp1 Hp2]. apply elem_of_cons in H as [H | H]; [injection H as -> ->; left; done|].
              apply elem_of_list_singleton in H. injection H as -> ->. right. done.
            - intros [(-> & In & Hp) | (-> & In & Hp)]; apply IP in Hp; eexists; (split; [| apply elem_of_list_fmap; eexists;
                (split; [reflexivity|]); apply elem_of_list_filter; split; [exact In | exact Hp]]).
              + left.
              + right. left. }
          rewrite Q. tauto.
        * intros p. rewrite elem_of_app, elem_of_list_filter, IP, elem_of_list_singleton, Mem. split.
          -- intros [(In & Hp & N) | ->].
             ++ split; [by left|]. intros k K. apply AI in K as [K | (-> & _ & _ & K)]; [by apply N in K | congruence].
             ++ split; [by right|]. intros k K. apply AI in K as [(K & _) | (-> & K & _)]; done.
          -- intros [[Hp | ->] N]; [left | by right]. split; [| split; [done|]].
             ++ destruct (inside x p) eqn:In; [| done]. exfalso. apply (N x). apply AI. by right.
             ++ intros k K. apply (N k). apply AI. by left.
      + split.
        * intros a b. rewrite IG, !EI. split; [intros [H | H]; auto|]. intros [[H | (_ & H & _)] | [H | (_ & H & _)]]; auto; done.
        * intros p. rewrite elem_of_app, IP, elem_of_list_singleton, Mem. split.
          -- intros [(Hp & N) | ->].
             ++ split; [by left|]. intros k K. apply AI in K as [K | (-> & _ & K & _)]; [by apply N in K | congruence].
             ++ split; [by right|]. intros k K. apply AI in K as [(K & _) | (-> & K & _)]; done.
          -- intros [[Hp | ->] N]; [left | by right]. split; [done|]. intros k K. apply (N k). apply AI. by left.
  Qed.

  Lemma adj_spec x y : y ∈ adj x <-> adjacent x y.
  Proof.
    destruct sorted_ok as [S P]. destruct (nest_spec sorted S _ eq_refl) as [G _].
    assert (M : forall i, i ∈ sorted <-> (i < n)%nat). { intros i. rewrite P, elem_of_seq. lia. }
    assert (AR : forall j i, around_in sorted j i <-> Inset_Spec.around n area closed inside j i).
    { intros j i. unfold around_in, Inset_Spec.around. rewrite !M. tauto. }
    assert (EN : forall j i, encloses_in sorted j i <-> encloses j i).
    { intros j i. unfold encloses_in, Inset_Spec.encloses. rewrite AR. split; intros [A B]; (split; [done|]); intros k K; apply B; by apply AR. }
    unfold neighbours_of. rewrite ord_perm, elem_of_list_fmap. unfold Inset_Spec.adjacent. rewrite <- !EN.
    unfold nesting. rewrite <- G. split.
    - intros ([a b] & -> & H). apply elem_of_list_filter in H as [<- H]. exact H.
    - intros H. exists (x, y). split; [done|]. by apply elem_of_list_filter.
  Qed.
End graph.
