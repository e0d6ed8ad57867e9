(** Lemmas for C14: nesting is a forest, and depth first search of a forest finds the distances. *)
From Coq Require Import ZArith Lia.
From stdpp Require Import gmap list relations sorting.
From Verif Require Import Common Inset_Model Inset_Spec Inset_Proofs.

(** * Events of a search *)
Definition event := (nat * (option nat * nat))%type.
Definition record_event (node : nat) (st : option nat * nat) (acc : list event) : list event := acc ++ [(node, st)].
Definition next_event (node : nat) (st : option nat * nat) : option nat * nat := (Some node, S st.2).

Lemma dfs_sim {St Acc} adj (handle : nat -> St -> Acc -> Acc) (next : nat -> St -> St) (f : option nat * nat -> St) :
  (forall x st, next x (f st) = f (next_event x st)) -> forall acc0 fuel node st v E,
  dfs adj handle next fuel node (f st) v (fold_left (fun acc e => handle e.1 (f e.2) acc) E acc0) =
  (let! r := dfs adj record_event next_event fuel node st v E in
   Ok (r.1, fold_left (fun acc e => handle e.1 (f e.2) acc) r.2 acc0)).
Proof.
  intros Hn acc0. induction fuel as [| fuel IH]; intros node st v E; [done|]. cbn [dfs].
  destruct (decide (node ∈ v)); [done|].
  replace (handle node (f st) (fold_left (fun acc e => handle e.1 (f e.2) acc) E acc0))
    with (fold_left (fun acc e => handle e.1 (f e.2) acc) (record_event node st E) acc0)
    by (unfold record_event; by rewrite fold_left_app).
  rewrite Hn. generalize (record_event node st E) as E1. generalize (node :: v) as v1. generalize (adj node) as l.
  induction l as [| x l IHl]; intros v1 E1; [done|]. rewrite IH.
  destruct (dfs adj record_event next_event fuel x (next_event node st) v1 E1) as [[v2 E2] | |]; cbn; [| done | done].
  apply IHl.
Qed.

Lemma dfs_sim_ok {St Acc} adj (handle : nat -> St -> Acc -> Acc) (next : nat -> St -> St) (f : option nat * nat -> St) acc0 fuel node st v E :
  (forall x st, next x (f st) = f (next_event x st)) -> dfs adj record_event next_event fuel node st [] [] = Ok (v, E) ->
  dfs adj handle next fuel node (f st) [] acc0 = Ok (v, fold_left (fun acc e => handle e.1 (f e.2) acc) E acc0).
Proof.
  intros Hn H. pose proof (dfs_sim adj handle next f Hn acc0 fuel node st [] []) as Sim. cbn [fold_left] in Sim.
  etransitivity; [exact Sim|]. exact (f_equal (fun x => let! r := x in _) H).
Qed.

(** A sequence of visits: the root, then always a new neighbour of a visited node, one deeper. *)
Inductive trace (adj : nat -> nat -> Prop) (o : nat) : list event -> Prop :=
| trace_root : trace adj o [(o, (None, 0))]
| trace_snoc E y q pq d : trace adj o E -> (q, (pq, d)) ∈ E -> adj q y -> y ∉ E.*1 ->
    trace adj o (E ++ [(y, (Some q, S d))]).

Section search.
  Context (n : nat) (adj : nat -> list nat) (adj_bound : forall x y, y ∈ adj x -> (y < n)%nat).
  Notation A := (fun x y => y ∈ adj x).

  Lemma trace_nodup o E : trace A o E -> NoDup E.*1.
  Proof.
    induction 1 as [| E y q pq d T IH Q Ad N]; [apply NoDup_singleton|]. rewrite fmap_app. apply NoDup_app.
    split; [done|]. split; [| apply NoDup_singleton]. intros x X Y. apply elem_of_list_singleton in Y as ->. done.
  Qed.
  Lemma trace_bound o E : (o < n)%nat -> trace A o E -> forall x, x ∈ E.*1 -> (x < n)%nat.
  Proof.
    intros O. induction 1 as [| E y q pq d T IH Q Ad N]; intros x X.
    - apply elem_of_list_singleton in X as ->. done.
    - rewrite fmap_app in X. apply elem_of_app in X as [X | X]; [by apply IH|].
      apply elem_of_list_singleton in X as ->. by apply (adj_bound q).
  Qed.
  Lemma trace_count o E : (o < n)%nat -> trace A o E -> (length E <= n)%nat.
  Proof.
    intros O T. assert (S : E.*1 ⊆+ seq 0 n); [| apply submseteq_length in S; by rewrite fmap_length, seq_length in S].
    apply NoDup_submseteq.
    - by eapply trace_nodup.
    - intros x X. apply elem_of_seq. split; [lia|]. cbn. by eapply trace_bound.
  Qed.

  Definition closed_in (E' E : list event) : Prop := forall z w, z ∈ E'.*1 -> w ∈ adj z -> w ∈ E.*1.

  Lemma dfs_spec o : (o < n)%nat -> forall fuel q pq d y v E,
    trace A o E -> (q, (pq, d)) ∈ E -> y ∈ adj q -> (forall x, x ∈ v <-> x ∈ E.*1) -> (n + 2 <= fuel + length E)%nat ->
    exists v' E', dfs adj record_event next_event fuel y (Some q, S d) v E = Ok (v', E ++ E') /\
      trace A o (E ++ E') /\ (forall x, x ∈ v' <-> x ∈ (E ++ E').*1) /\ y ∈ (E ++ E').*1 /\ closed_in E' (E ++ E').
  Proof.
    intros O. induction fuel as [| fuel IH]; intros q pq d y v E T Q Ad V Fu.
    { pose proof (trace_count o E O T). lia. }
    cbn [dfs]. destruct (decide (y ∈ v)) as [Y | Y].
    - exists v, []. rewrite app_nil_r. split; [done|]. split; [done|]. split; [done|]. split; [by apply V|].
      intros z w Z. by apply elem_of_nil in Z.
    - set (E1 := E ++ [(y, (Some q, S d))]).
      assert (T1 : trace A o E1). { apply (trace_snoc _ _ _ _ _ pq); try done. by rewrite <- V. }
      assert (V1 : forall x, x ∈ y :: v <-> x ∈ E1.*1).
      { intros x. subst E1. rewrite fmap_app, elem_of_app, elem_of_cons, V. cbn. rewrite elem_of_list_singleton. tauto. }
      assert (Y1 : (y, (Some q, S d)) ∈ E1). { apply elem_of_app. right. left. }
      assert (L1 : (n + 2 <= fuel + length E1)%nat). { subst E1. rewrite app_length. cbn. lia. }
      change (record_event y (Some q, S d) E) with E1.
      (* The loop over the neighbours *)
      assert (Loop : forall l v2 E2, (forall x, x ∈ l -> x ∈ adj y) -> trace A o (E1 ++ E2) ->
        (forall x, x ∈ v2 <-> x ∈ (E1 ++ E2).*1) -> closed_in E2 (E1 ++ E2) ->
        exists v' E', (fix loop l visited acc := match l with [] => Ok (visited, acc) | x :: l' =>
            let! r := dfs adj record_event next_event fuel x (next_event y (Some q, S d)) visited acc in loop l' r.1 r.2 end)
            l v2 (E1 ++ E2) = Ok (v', E1 ++ E2 ++ E') /\
          trace A o (E1 ++ E2 ++ E') /\ (forall x, x ∈ v' <-> x ∈ (E1 ++ E2 ++ E').*1) /\
          (forall x, x ∈ l -> x ∈ (E1 ++ E2 ++ E').*1) /\ closed_in (E2 ++ E') (E1 ++ E2 ++ E')).
      { induction l as [| x l IHl]; intros v2 E2 Sub T2 V2 C2.
        - exists v2, []. rewrite !app_nil_r. split; [done|]. split; [done|]. split; [done|]. split; [| done].
          intros x X. by apply elem_of_nil in X.
        - destruct (IH y (Some q) (S d) x v2 (E1 ++ E2)) as (v3 & E3 & R & T3 & V3 & X3 & C3); try done.
          + apply elem_of_app. by left.
          + apply Sub. left.
          + rewrite app_length. lia.
          + change (next_event y (Some q, S d)) with (Some y, S (S d)) in *. rewrite R. cbn [rbind fst snd].
            rewrite <- app_assoc in *.
            destruct (IHl v3 (E2 ++ E3)) as (v4 & E4 & R4 & T4 & V4 & X4 & C4).
            * intros z Z. apply Sub. by right.
            * done.
            * done.
            * intros z w Z W. rewrite fmap_app in Z. apply elem_of_app in Z as [Z | Z]; [| by apply (C3 z w)].
              pose proof (C2 z w Z W) as H. rewrite fmap_app in H. rewrite !fmap_app, !elem_of_app.
              apply elem_of_app in H. tauto.
            * exists v4, (E3 ++ E4). rewrite <- app_assoc in R4, T4, V4, X4, C4.
              split; [exact R4|]. split; [done|]. split; [done|]. split; [| exact C4].
              intros z Z. apply elem_of_cons in Z as [-> | Z]; [| by apply X4].
              rewrite !fmap_app, !elem_of_app in X3. rewrite !fmap_app, !elem_of_app. tauto. }
      destruct (Loop (adj y) (y :: v) []) as (v' & E' & R & T' & V' & X' & C').
      + done.
      + by rewrite app_nil_r.
      + by rewrite app_nil_r.
      + intros z w Z. by apply elem_of_nil in Z.
      + rewrite app_nil_r in R. cbn [app] in *. rewrite R. exists v', ((y, (Some q, S d)) :: E').
        assert (EE : E1 ++ E' = E ++ (y, (Some q, S d)) :: E') by (subst E1; by rewrite <- app_assoc).
        rewrite EE in *. split; [done|]. split; [done|]. split; [done|]. split.
        { rewrite fmap_app. apply elem_of_app. right. left. }
        intros z w Z W. rewrite fmap_cons in Z. apply elem_of_cons in Z as [-> | Z]; [by apply X' | by apply (C' z w)].
  Qed.

  Lemma dfs_root o : (o < n)%nat -> exists v E, dfs adj record_event next_event (n + 2) o (None, 0%nat) [] [] = Ok (v, E) /\
    trace A o E /\ closed_in E E.
  Proof.
    intros O. replace (n + 2)%nat with (S (n + 1)) by lia. cbn [dfs].
    destruct (decide (o ∈ [])) as [X | _]; [by apply elem_of_nil in X|].
    change (record_event o (None, 0%nat) []) with [(o, (@None nat, 0%nat))]. set (E1 := [(o, (None, 0%nat))]).
    assert (T1 : trace A o E1) by constructor.
    assert (Loop : forall l v2 E2, (forall x, x ∈ l -> x ∈ adj o) -> trace A o (E1 ++ E2) ->
        (forall x, x ∈ v2 <-> x ∈ (E1 ++ E2).*1) -> closed_in E2 (E1 ++ E2) ->
        exists v' E', (fix loop l visited acc := match l with [] => Ok (visited, acc) | x :: l' =>
            let! r := dfs adj record_event next_event (n + 1) x (next_event o (None, 0%nat)) visited acc in loop l' r.1 r.2 end)
            l v2 (E1 ++ E2) = Ok (v', E1 ++ E2 ++ E') /\
          trace A o (E1 ++ E2 ++ E') /\ (forall x, x ∈ v' <-> x ∈ (E1 ++ E2 ++ E').*1) /\
          (forall x, x ∈ l -> x ∈ (E1 ++ E2 ++ E').*1) /\ closed_in (E2 ++ E') (E1 ++ E2 ++ E')).
    { induction l as [| x l IHl]; intros v2 E2 Sub T2 V2 C2.
      - exists v2, []. rewrite !app_nil_r. split; [done|]. split; [done|]. split; [done|]. split; [| done].
        intros x X. by apply elem_of_nil in X.
      - destruct (dfs_spec o O (n + 1) o None 0 x v2 (E1 ++ E2)) as (v3 & E3 & R & T3 & V3 & X3 & C3); try done.
        + left.
        + apply Sub. left.
        + rewrite app_length. cbn. lia.
        + change (next_event o (None, 0%nat)) with (Some o, 1%nat) in *. rewrite R. cbn [rbind fst snd].
          rewrite <- app_assoc in *.
          destruct (IHl v3 (E2 ++ E3)) as (v4 & E4 & R4 & T4 & V4 & X4 & C4).
          * intros z Z. apply Sub. by right.
          * done.
          * done.
          * intros z w Z W. rewrite fmap_app in Z. apply elem_of_app in Z as [Z | Z]; [| by apply (C3 z w)].
            pose proof (C2 z w Z W) as H. rewrite fmap_app in H. rewrite !fmap_app, !elem_of_app.
            apply elem_of_app in H. tauto.
          * exists v4, (E3 ++ E4). rewrite <- app_assoc in R4, T4, V4, X4, C4.
            split; [exact R4|]. split; [done|]. split; [done|]. split; [| exact C4].
            intros z Z. apply elem_of_cons in Z as [-> | Z]; [| by apply X4].
            rewrite !fmap_app, !elem_of_app in X3. rewrite !fmap_app, !elem_of_app. tauto. }
    destruct (Loop (adj o) [o] []) as (v' & E' & R & T' & V' & X' & C').
    - done.
    - by rewrite app_nil_r.
    - intros x. cbn. done.
    - intros z w Z. by apply elem_of_nil in Z.
    - rewrite app_nil_r in R. cbn [app] in *. exists v', (E1 ++ E'). split; [exact R|]. split; [done|].
      intros z w Z W. rewrite fmap_app in Z. apply elem_of_app in Z as [Z | Z]; [| by apply (C' z w)].
      apply elem_of_list_singleton in Z as ->. by apply X'.
  Qed.
End search.
