(** Lemmas for C14. *)
From Coq Require Import ZArith Lia.
From stdpp Require Import gmap list relations.
From Verif Require Import Common Inset_Model Inset_Spec.

Lemma elem_of_concat {A} (x : A) ls : x ∈ concat ls <-> exists l, x ∈ l /\ l ∈ ls.
Proof.
  induction ls as [| l ls IH]; cbn.
  - split; [intros H; by apply elem_of_nil in H | intros (l & _ & H); by apply elem_of_nil in H].
  - rewrite elem_of_app, IH. split.
    + intros [H | (l' & H & Hl)]; [exists l; split; [done | left] | exists l'; split; [done | by right]].
    + intros (l' & H & Hl). apply elem_of_cons in Hl as [-> | Hl]; [by left | right; by exists l'].
Qed.

(** * Bins *)
Definition bins_ok (bins : list (list nat)) (P : nat -> nat -> Prop) : Prop :=
  forall k i, i ∈ nth k bins [] <-> P k i.
Lemma nth_lookup_default {A} (l : list (list A)) k : nth k l [] = default [] (l !! k).
Proof. revert k. induction l as [| x l IH]; intros [| k]; cbn; auto. Qed.
Lemma bin_add_nth bins k i j : nth j (bin_add bins k i) [] = if decide (j = k) then nth k bins [] ++ [i] else nth j bins [].
Proof.
  unfold bin_add. set (bins' := if decide (length bins <= k)%nat then _ else _).
  assert (L : (k < length bins')%nat).
  { subst bins'. destruct (decide _); [rewrite app_length, replicate_length; lia | lia]. }
  assert (N : forall j, nth j bins' [] = nth j bins []).
  { intros j'. subst bins'. destruct (decide _) as [D | D]; [| done].
    destruct (decide (j' < length bins)%nat) as [J | J].
    - by rewrite app_nth1.
    - rewrite app_nth2 by lia. rewrite (nth_overflow bins) by lia.
      rewrite nth_lookup_default. destruct (replicate _ _ !! _) eqn:E; [| done].
      apply lookup_replicate in E as [-> _]. done. }
  rewrite !nth_lookup_default. destruct (decide (j = k)) as [-> | D].
  - rewrite list_lookup_alter. destruct (lookup_lt_is_Some_2 bins' k L) as [b B]. rewrite B. cbn.
    specialize (N k). rewrite !nth_lookup_default, B in N. cbn in N. by rewrite N.
  - rewrite list_lookup_alter_ne by done. specialize (N j). by rewrite !nth_lookup_default in N.
Qed.
Lemma bin_add_length bins k i : length (bin_add bins k i) = Nat.max (length bins) (S k).
Proof. unfold bin_add. rewrite alter_length. destruct (decide _); [rewrite app_length, replicate_length |]; lia. Qed.

(** The numbers of the lines with some property, in order. *)
Definition which (P : wline -> bool) (i : nat) (lines : list wline) : list nat :=
  (fix go i lines := match lines with [] => [] | l :: ls => (if P l then [i] else []) ++ go (S i) ls end) i lines.
Lemma elem_of_which P i lines x : x ∈ which P i lines <-> exists k l, x = (i + k)%nat /\ lines !! k = Some l /\ P l = true.
Proof.
  revert i. induction lines as [| l lines IH]; intros i; cbn.
  - split; [intros H; by apply elem_of_nil in H | intros (k & l & _ & H & _); done].
  - rewrite elem_of_app, IH. split.
    + intros [H | (k & l' & -> & L & Pl)].
      * destruct (P l) eqn:E; [| by apply elem_of_nil in H]. apply elem_of_list_singleton in H as ->.
        exists 0%nat, l. rewrite Nat.add_0_r. done.
      * exists (S k), l'. split; [lia|]. done.
    + intros (k & l' & -> & L & Pl). destruct k as [| k]; cbn in L.
      * left. injection L as ->. rewrite Pl, Nat.add_0_r. left.
      * right. exists k, l'. split; [lia|]. done.
Qed.
Lemma NoDup_which P i lines : NoDup (which P i lines).
Proof.
  revert i. induction lines as [| l lines IH]; intros i; cbn; [constructor|].
  destruct (P l); cbn; [| apply IH]. constructor; [| apply IH].
  intros H. apply elem_of_which in H as (k & l' & E & _). lia.
Qed.

Definition is_wall (k : nat) (l : wline) : bool := negb (l_odd l) && (l_inset l =? k)%nat.
Definition is_filler (k : nat) (l : wline) : bool := l_odd l && (l_inset l =? k)%nat.
Lemma bin_lines_spec lines : forall i walls fillers k,
  nth k (bin_lines i lines walls fillers).1 [] = nth k walls [] ++ which (is_wall k) i lines /\
  nth k (bin_lines i lines walls fillers).2 [] = nth k fillers [] ++ which (is_filler k) i lines.
Proof.
  induction lines as [| l lines IH]; intros i walls fillers k; cbn [bin_lines which].
  - cbn. by rewrite !app_nil_r.
  - unfold is_wall, is_filler. destruct (l_odd l) eqn:O.
    + destruct (IH (S i) walls (bin_add fillers (l_inset l) i) k) as [-> ->]. cbn. split; [done|].
      rewrite bin_add_nth. destruct (decide (k = l_inset l)) as [-> | D].
      * rewrite Nat.eqb_refl. by rewrite <- app_assoc.
      * rewrite (proj2 (Nat.eqb_neq (l_inset l) k)) by congruence. done.
    + destruct (IH (S i) (bin_add walls (l_inset l) i) fillers k) as [-> ->]. cbn. split; [| done].
      rewrite bin_add_nth. destruct (decide (k = l_inset l)) as [-> | D].
      * rewrite Nat.eqb_refl. by rewrite <- app_assoc.
      * rewrite (proj2 (Nat.eqb_neq (l_inset l) k)) by congruence. done.
Qed.
Lemma nth_in_length {A} (l : list (list A)) k x : x ∈ nth k l [] -> (k < length l)%nat.
Proof.
  intros H. destruct (decide (k < length l)%nat) as [D | D]; [done|].
  rewrite nth_overflow in H by lia. by apply elem_of_nil in H.
Qed.

Lemma elem_of_inset_order lines o2i a b : (a, b) ∈ getInsetOrder lines o2i <->
  exists la lb, lines !! a = Some la /\ lines !! b = Some lb /\ l_odd la = false /\
    ((l_odd lb = false /\ (if o2i then l_inset lb = S (l_inset la) else l_inset la = S (l_inset lb))) \/
     (l_odd lb = true /\ l_inset lb = S (l_inset la))).
Proof.
  assert (Wl : forall k i, i ∈ nth k (bin_lines 0 lines [] []).1 [] <->
    exists l, lines !! i = Some l /\ l_odd l = false /\ l_inset l = k).
  { intros k i. rewrite (proj1 (bin_lines_spec lines 0 [] [] k)).
    replace (nth k [] [] : list nat) with ([] : list nat) by (destruct k; done). cbn [app]. rewrite elem_of_which.
    unfold is_wall. split.
    - intros (k' & l & -> & L & P). exists l. apply andb_true_iff in P as [P1 P2].
      apply negb_true_iff in P1. apply Nat.eqb_eq in P2. done.
    - intros (l & L & O & I). exists i, l. split; [done|]. split; [done|]. rewrite O, I, Nat.eqb_refl. done. }
  assert (Fl : forall k i, i ∈ nth k (bin_lines 0 lines [] []).2 [] <->
    exists l, lines !! i = Some l /\ l_odd l = true /\ l_inset l = k).
  { intros k i. rewrite (proj2 (bin_lines_spec lines 0 [] [] k)).
    replace (nth k [] [] : list nat) with ([] : list nat) by (destruct k; done). cbn [app]. rewrite elem_of_which.
    unfold is_filler. split.
    - intros (k' & l & -> & L & P). exists l. apply andb_true_iff in P as [P1 P2]. apply Nat.eqb_eq in P2. done.
    - intros (l & L & O & I). exists i, l. split; [done|]. split; [done|]. rewrite O, I, Nat.eqb_refl. done. }
  unfold getInsetOrder. set (W := (bin_lines 0 lines [] []).1) in *. set (F := (bin_lines 0 lines [] []).2) in *.
  cbv zeta. rewrite elem_of_app, !elem_of_concat. split.
  - intros [(l & H & Hl) | (l & H & Hl)].
    + apply elem_of_list_fmap in Hl as (k & -> & Hk). apply elem_of_seq in Hk.
      apply elem_of_concat in H as (l & H & Hl). apply elem_of_list_fmap in Hl as (x & -> & Hx).
      apply elem_of_list_fmap in H as (y & E & Hy).
      apply Wl in Hx as (lx & Lx & Ox & Ix). apply Wl in Hy as (ly & Ly & Oy & Iy).
      destruct o2i; injection E as -> ->.
      * exists lx, ly. split; [done|]. split; [done|]. split; [done|]. left. split; [done|]. lia.
      * exists ly, lx. split; [done|]. split; [done|]. split; [done|]. left. split; [done|]. lia.
    + apply elem_of_list_fmap in Hl as (k & -> & Hk). apply elem_of_seq in Hk.
      apply elem_of_concat in H as (l & H & Hl). apply elem_of_list_fmap in Hl as (x & -> & Hx).
      destruct (decide _) as [D | D]; [by apply elem_of_nil in H|].
      apply elem_of_list_fmap in H as (y & E & Hy). injection E as -> ->.
      apply Fl in Hx as (lx & Lx & Ox & Ix). apply Wl in Hy as (ly & Ly & Oy & Iy).
      exists ly, lx. split; [done|]. split; [done|]. split; [done|]. right. split; [done|]. lia.
  - intros (la & lb & La & Lb & Oa & [[Ob I] | [Ob I]]).
    + left.
      assert (X : forall x y lx ly, lines !! x = Some lx -> lines !! y = Some ly -> l_odd lx = false -> l_odd ly = false ->
        l_inset ly = S (l_inset lx) -> (a, b) = (if o2i then (x, y) else (y, x)) ->
        exists l, (a, b) ∈ l /\ l ∈ (fun k => concat ((fun line => (fun inner =>
          if o2i then (line, inner) else (inner, line)) <$> nth (k + 1) W []) <$> nth k W [])) <$> seq 0 (length W - 1)).
      { intros x y lx ly Lx Ly Ox Oy I' E.
        assert (Hx : x ∈ nth (l_inset lx) W []) by (apply Wl; by exists lx).
        assert (Hy : y ∈ nth (l_inset lx + 1) W []) by (apply Wl; exists ly; repeat split; [done | done | lia]).
        eexists. split; [| apply elem_of_list_fmap; exists (l_inset lx); split; [reflexivity|]; apply elem_of_seq;
          apply nth_in_length in Hy; lia].
        apply elem_of_concat. eexists. split; [| apply elem_of_list_fmap; exists x; split; [reflexivity | done]].
        apply elem_of_list_fmap. exists y. done. }
      destruct o2i; [by apply (X a b la lb) | by apply (X b a lb la)].
    + right. assert (Ha : a ∈ nth (l_inset lb - 1) W []) by (apply Wl; exists la; repeat split; [done | done | lia]).
      assert (Hb : b ∈ nth (l_inset lb) F []) by (apply Fl; by exists lb).
      eexists. split; [| apply elem_of_list_fmap; exists (l_inset lb); split; [reflexivity|]; apply elem_of_seq;
        apply nth_in_length in Hb; lia].
      apply elem_of_concat. eexists. split; [| apply elem_of_list_fmap; exists b; split; [reflexivity | done]].
      destruct (decide _) as [D | D]; [apply nth_in_length in Ha; lia|].
      apply elem_of_list_fmap. by exists a.
Qed.

Lemma NoDup_concat_fmap {A B} (f : A -> list B) (l : list A) : NoDup l -> (forall x, x ∈ l -> NoDup (f x)) ->
  (forall x y b, x ∈ l -> y ∈ l -> b ∈ f x -> b ∈ f y -> x = y) -> NoDup (concat (f <$> l)).
Proof.
  induction l as [| x l IH]; intros N F D; cbn; [constructor|]. apply NoDup_cons in N as [N1 N2].
  apply NoDup_app. split; [apply F; left|]. split.
  - intros b B1 B2. apply elem_of_concat in B2 as (bs & B2 & B3). apply elem_of_list_fmap in B3 as (y & -> & Y).
    apply N1. rewrite (D x y b); [done | left | by right | done | done].
  - apply IH; [done | |].
    + intros y Y. apply F. by right.
    + intros y z b Y Z. apply D; by right.
Qed.
Lemma NoDup_inset_order lines o2i : NoDup (getInsetOrder lines o2i).
Proof.
  assert (Wn : forall k, NoDup (nth k (bin_lines 0 lines [] []).1 [])).
  { intros k. rewrite (proj1 (bin_lines_spec lines 0 [] [] k)). destruct k; cbn; apply NoDup_which. }
  assert (Fn : forall k, NoDup (nth k (bin_lines 0 lines [] []).2 [])).
  { intros k. rewrite (proj2 (bin_lines_spec lines 0 [] [] k)). destruct k; cbn; apply NoDup_which. }
  assert (Wl : forall k i, i ∈ nth k (bin_lines 0 lines [] []).1 [] ->
    exists l, lines !! i = Some l /\ l_odd l = false /\ l_inset l = k).
  { intros k i. rewrite (proj1 (bin_lines_spec lines 0 [] [] k)).
    replace (nth k [] [] : list nat) with ([] : list nat) by (destruct k; done). cbn [app]. rewrite elem_of_which.
    unfold is_wall. intros (k' & l & -> & L & P). exists l. apply andb_true_iff in P as [P1 P2].
    apply negb_true_iff in P1. apply Nat.eqb_eq in P2. done. }
  assert (Fl : forall k i, i ∈ nth k (bin_lines 0 lines [] []).2 [] ->
    exists l, lines !! i = Some l /\ l_odd l = true /\ l_inset l = k).
  { intros k i. rewrite (proj2 (bin_lines_spec lines 0 [] [] k)).
    replace (nth k [] [] : list nat) with ([] : list nat) by (destruct k; done). cbn [app]. rewrite elem_of_which.
    unfold is_filler. intros (k' & l & -> & L & P). exists l. apply andb_true_iff in P as [P1 P2].
    apply Nat.eqb_eq in P2. done. }
  unfold getInsetOrder. set (W := (bin_lines 0 lines [] []).1) in *. set (F := (bin_lines 0 lines [] []).2) in *.
  cbv zeta. apply NoDup_app. split; [| split].
  - apply NoDup_concat_fmap; [apply NoDup_seq | |].
    + intros k _. apply NoDup_concat_fmap; [apply Wn | |].
      * intros x _. apply NoDup_fmap_2; [| apply Wn]. intros y z E. destruct o2i; congruence.
      * intros x y b X Y B1 B2. apply elem_of_list_fmap in B1 as (u & -> & U). apply elem_of_list_fmap in B2 as (v & E & V).
        destruct o2i; congruence.
    + intros k k' b _ _ B1 B2. apply elem_of_concat in B1 as (l & B1 & L1). apply elem_of_list_fmap in L1 as (x & -> & X).
      apply elem_of_list_fmap in B1 as (u & -> & U).
      apply elem_of_concat in B2 as (l & B2 & L2). apply elem_of_list_fmap in L2 as (y & -> & Y).
      apply elem_of_list_fmap in B2 as (v & E & V).
      apply Wl in X as (lx & LX & _ & IX). apply Wl in Y as (ly & LY & _ & IY).
      assert (x = y) as -> by (destruct o2i; congruence). congruence.
  - intros [a b] H1 H2. apply elem_of_concat in H1 as (l & H1 & L1). apply elem_of_list_fmap in L1 as (k & -> & _).
    apply elem_of_concat in H1 as (l & H1 & L1). apply elem_of_list_fmap in L1 as (x & -> & X).
    apply elem_of_list_fmap in H1 as (y & E & Y).
    apply elem_of_concat in H2 as (l & H2 & L2). apply elem_of_list_fmap in L2 as (k' & -> & _).
    apply elem_of_concat in H2 as (l & H2 & L2). apply elem_of_list_fmap in L2 as (x' & -> & X').
    destruct (decide _) as [D | D]; [by apply elem_of_nil in H2|].
    apply elem_of_list_fmap in H2 as (y' & E' & Y').
    apply Wl in X as (lx & LX & OX & IX). apply Wl in Y as (ly & LY & OY & IY).
    apply Fl in X' as (lx' & LX' & OX' & IX').
    assert (b = x') as -> by congruence. destruct o2i; injection E as -> ->; congruence.
  - apply NoDup_concat_fmap; [apply NoDup_seq | |].
    + intros k _. apply NoDup_concat_fmap; [apply Fn | |].
      * intros x _. destruct (decide _); [constructor|]. apply NoDup_fmap_2; [| apply Wn]. intros y z E. congruence.
      * intros x y b X Y B1 B2. destruct (decide _); [by apply elem_of_nil in B1|].
        apply elem_of_list_fmap in B1 as (u & -> & U). apply elem_of_list_fmap in B2 as (v & E & V). congruence.
    + intros k k' b _ _ B1 B2. apply elem_of_concat in B1 as (l & B1 & L1). apply elem_of_list_fmap in L1 as (x & -> & X).
      apply elem_of_concat in B2 as (l & B2 & L2). apply elem_of_list_fmap in L2 as (y & -> & Y).
      destruct (decide (length W <= k - 1)%nat) as [D1 | D1]; [by apply elem_of_nil in B1|].
      destruct (decide (length W <= k' - 1)%nat) as [D2 | D2]; [by apply elem_of_nil in B2|].
      apply elem_of_list_fmap in B1 as (u & -> & U). apply elem_of_list_fmap in B2 as (v & E & V).
      apply Fl in X as (lx & LX & _ & IX). apply Fl in Y as (ly & LY & _ & IY). congruence.
Qed.

(** Acyclic when some number strictly grows along every constraint. *)
Lemma acyclic_rank (order : list (nat * nat)) (rank : nat -> Z) :
  (forall a b, (a, b) ∈ order -> (rank a < rank b)%Z) -> acyclic order.
Proof.
  intros R i H. assert (G : forall a b, tc (fun a b => (a, b) ∈ order) a b -> (rank a < rank b)%Z).
  { intros a b T. induction T as [a b T | a b c T _ IH]; [by apply R|]. specialize (R _ _ T). lia. }
  specialize (G i i H). lia.
Qed.
