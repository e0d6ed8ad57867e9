(** C21: what simplification does to a polygon or line. *)
From Coq Require Import ZArith Lia.
From stdpp Require Import list relations.
From Verif Require Import Common Geo_Model Order_Model LinearAlg_Model Simplify_Model.
Open Scope Z_scope.

(** * Specification *)

(** The neighbours of position [j] in a ring of [n] vertices. *)
Definition after_in (n j : nat) : nat := if (S j =? n)%nat then 0%nat else S j.
Definition before_in (n j : nat) : nat := if (j =? 0)%nat then (n - 1)%nat else (j - 1)%nat.

Section spec.
  Context {V : Type} (pos : V → pt) (merge : V → pt → V → V)
          (intersection : pt → pt → pt → pt → option pt) (max_resolution max_deviation : Z).

  (** The length of the edge between two vertices is at most, or more than, the resolution. *)
  Definition short (a b : V) : Prop := vSize2 (psub (pos a) (pos b)) <= max_resolution * max_resolution.
  Definition long (a b : V) : Prop := max_resolution * max_resolution < vSize2 (psub (pos a) (pos b)).

  (** [v] is the vertex at position [j] of the line, [b] and [a] are its neighbours, and it may be
      removed: it is no end point of an open line, and is no farther from the line through its
      neighbours than the permitted deviation. *)
  Definition removable (closed : bool) (l : list V) (j : nat) (b v a : V) : Prop :=
    l !! j = Some v ∧ l !! before_in (length l) j = Some b ∧ l !! after_in (length l) j = Some a ∧
    (closed = false → (0 < j)%nat ∧ (j < length l - 1)%nat) ∧
    getDistFromLine (pos v) (pos b) (pos a) <= Z.abs max_deviation.

  (** One vertex less: either it is left out, if it is practically on the line or both its edges are
      short; or, if one of its edges is short and the other long, the short edge is replaced by a
      vertex at the intersection of the edges around it. *)
  Inductive thinned (closed : bool) : list V → list V → Prop :=
  | left_out l j b v a :
      removable closed l j b v a →
      getDistFromLine (pos v) (pos b) (pos a) <= 5 ∨ short v b ∧ short v a →
      thinned closed l (delete j l)
  | joined_before l j b v a bb x :
      removable closed l j b v a → short v b → long v a →
      (closed = false → before_in (length l) j ≠ 0%nat) →
      l !! before_in (length l) (before_in (length l) j) = Some bb →
      intersection (pos bb) (pos b) (pos v) (pos a) = Some x →
      getDist2FromLineSegment (pos b) x (pos v) <= max_deviation * max_deviation →
      thinned closed l (delete j (<[before_in (length l) j := merge b x a]> l))
  | joined_after l j b v a aa x :
      removable closed l j b v a → long v b → short v a →
      (closed = false → after_in (length l) j ≠ (length l - 1)%nat) →
      l !! after_in (length l) (after_in (length l) j) = Some aa →
      intersection (pos b) (pos v) (pos a) (pos aa) = Some x →
      getDist2FromLineSegment (pos v) x (pos a) <= max_deviation * max_deviation →
      thinned closed l (delete j (<[after_in (length l) j := merge b x a]> l)).
End spec.

(** * Vertices that are left *)

(** The number of vertices left before [i], and in total. *)
Definition rank (del : list bool) (i : nat) : nat := length (List.filter negb (take i del)).
Definition remaining (del : list bool) : nat := length (List.filter negb del).

Lemma rank_0 del : rank del 0 = 0%nat.
Proof. done. Qed.
Lemma rank_all del : rank del (length del) = remaining del.
Proof. unfold rank. by rewrite firstn_all. Qed.
Lemma rank_S del i (d : bool) : del !! i = Some d → rank del (S i) = (rank del i + if d then 0 else 1)%nat.
Proof.
  intros H. unfold rank. rewrite (take_S_r _ _ _ H), List.filter_app, app_length. simpl. by destruct d.
Qed.
Lemma rank_le del i j : (i <= j)%nat → (rank del i <= rank del j)%nat.
Proof.
  intros H. unfold rank. replace j with (i + (j - i))%nat by lia.
  rewrite <-take_take_drop, List.filter_app, app_length. lia.
Qed.
Lemma rank_le_left del i : (rank del i <= remaining del)%nat.
Proof.
  destruct (decide (i <= length del)%nat); [rewrite <-rank_all; by apply rank_le|].
  unfold rank. rewrite take_ge by lia. done.
Qed.
Lemma rank_lt del i j : (i < j)%nat → del !! i = Some false → (rank del i < rank del j)%nat.
Proof.
  intros H Hi. pose proof (rank_le del (S i) j ltac:(lia)). rewrite (rank_S _ _ _ Hi) in *. lia.
Qed.
Lemma rank_lt_left del i : del !! i = Some false → (rank del i < remaining del)%nat.
Proof. intros H. pose proof (lookup_lt_Some _ _ _ H). rewrite <-rank_all. by apply rank_lt. Qed.

Lemma left_delete del i : del !! i = Some false → remaining del = S (remaining (<[i := true]> del)).
Proof.
  unfold remaining. revert i. induction del as [|d del IH]; intros i; [done|]. destruct i as [|i]; simpl.
  - intros [= ->]. done.
  - intros H. destruct d; simpl; by rewrite (IH i).
Qed.

Lemma remaining_all n : remaining (replicate n false) = n.
Proof. unfold remaining. induction n as [|n IH]; simpl; [done|by rewrite IH]. Qed.

Lemma mod_next i n : (i < n)%nat → ((i + 1) mod n = if (S i =? n) then 0 else S i)%nat.
Proof.
  intros H. destruct (Nat.eqb_spec (S i) n) as [<-|Hne].
  - replace (i + 1)%nat with (S i) by lia. by apply Nat.mod_same.
  - rewrite Nat.mod_small by lia. lia.
Qed.
Lemma mod_previous i n : (i < n)%nat → ((i + n - 1) mod n = if (i =? 0) then n - 1 else i - 1)%nat.
Proof.
  intros H. destruct (Nat.eqb_spec i 0) as [->|Hne].
  - rewrite Nat.mod_small by lia. lia.
  - replace (i + n - 1)%nat with (i - 1 + 1 * n)%nat by lia. rewrite Nat.mod_add by lia. apply Nat.mod_small. lia.
Qed.

Lemma next_from_spec fuel del i k :
  del !! i = Some false → (k < length del)%nat → (0 < fuel)%nat →
  (k + fuel = i ∨ k + fuel = i + length del)%nat →
  ∃ i', next_from fuel del k = Ok i' ∧ del !! i' = Some false ∧
    rank del i' = if (rank del (S k) =? remaining del)%nat then 0%nat else rank del (S k).
Proof.
  intros Hi. pose proof (lookup_lt_Some _ _ _ Hi) as Hlt. revert k. induction fuel as [|fuel IH]; intros k Hk Hf Hinv; [lia|].
  cbn [next_from]. rewrite mod_next by done. set (k' := if (S k =? length del)%nat then 0%nat else S k).
  assert (k' < length del)%nat as Hk' by (unfold k'; destruct (Nat.eqb_spec (S k) (length del)); lia).
  destruct (lookup_lt_is_Some_2 _ _ Hk') as [d Hd]. unfold flag. rewrite Hd. simpl.
  assert (rank del k' = if (S k =? length del)%nat then 0%nat else rank del (S k)) as Hr
    by (unfold k'; by destruct (S k =? length del)%nat).
  destruct d.
  - destruct fuel as [|fuel].
    { exfalso. assert (k' = i); [|congruence]. unfold k'. destruct (Nat.eqb_spec (S k) (length del)); lia. }
    destruct (IH k') as (i' & ? & ? & Hrank); [done|lia|unfold k'; destruct (Nat.eqb_spec (S k) (length del)); lia|].
    exists i'. split; [done|]. split; [done|]. rewrite Hrank, (rank_S _ _ _ Hd), Nat.add_0_r, Hr.
    destruct (Nat.eqb_spec (S k) (length del)) as [Hn|Hn]; [|done]. rewrite Hn, rank_all, Nat.eqb_refl.
    by destruct (0 =? remaining del)%nat.
  - exists k'. split; [done|]. split; [done|]. pose proof (rank_lt_left _ _ Hd). rewrite Hr in *.
    destruct (Nat.eqb_spec (S k) (length del)) as [Hn|Hn].
    + by rewrite Hn, rank_all, Nat.eqb_refl.
    + destruct (Nat.eqb_spec (rank del (S k)) (remaining del)); lia.
Qed.

Lemma next_spec del i :
  del !! i = Some false →
  ∃ i', next_not_deleted i del = Ok i' ∧ del !! i' = Some false ∧ rank del i' = after_in (remaining del) (rank del i).
Proof.
  intros Hi. pose proof (lookup_lt_Some _ _ _ Hi) as Hlt.
  destruct (next_from_spec (length del) del i i) as (i' & ? & ? & Hr); [done|lia|lia|lia|].
  exists i'. split; [done|]. split; [done|]. rewrite Hr, (rank_S _ _ _ Hi), Nat.add_1_r. done.
Qed.

Lemma previous_from_spec fuel del i k :
  del !! i = Some false → (k < length del)%nat → (0 < fuel)%nat →
  (k = i + fuel ∨ k + length del = i + fuel)%nat →
  ∃ i', previous_from fuel del k = Ok i' ∧ del !! i' = Some false ∧
    rank del i' = before_in (remaining del) (rank del k).
Proof.
  intros Hi. pose proof (lookup_lt_Some _ _ _ Hi) as Hlt. pose proof (rank_lt_left _ _ Hi) as Hpos.
  revert k. induction fuel as [|fuel IH]; intros k Hk Hf Hinv; [lia|].
  cbn [previous_from]. rewrite mod_previous by done. set (k' := if (k =? 0)%nat then (length del - 1)%nat else (k - 1)%nat).
  assert (k' < length del)%nat as Hk' by (unfold k'; destruct (Nat.eqb_spec k 0); lia).
  destruct (lookup_lt_is_Some_2 _ _ Hk') as [d Hd]. unfold flag. rewrite Hd. simpl.
  assert (rank del (S k') = if (k =? 0)%nat then remaining del else rank del k) as Hr.
  { unfold k'. destruct (Nat.eqb_spec k 0); [|by replace (S (k - 1)) with k by lia].
    replace (S (length del - 1)) with (length del) by lia. apply rank_all. }
  rewrite (rank_S _ _ _ Hd) in Hr.
  destruct d.
  - destruct fuel as [|fuel].
    { exfalso. assert (k' = i); [|congruence]. unfold k'. destruct (Nat.eqb_spec k 0); lia. }
    destruct (IH k') as (i' & ? & ? & Hrank); [done|lia|unfold k'; destruct (Nat.eqb_spec k 0); lia|].
    exists i'. split; [done|]. split; [done|]. rewrite Hrank. rewrite Nat.add_0_r in Hr. rewrite Hr.
    destruct (Nat.eqb_spec k 0) as [->|Hn]; [|done]. unfold before_in. rewrite rank_0. simpl.
    destruct (Nat.eqb_spec (remaining del) 0); lia.
  - exists k'. split; [done|]. split; [done|]. unfold before_in.
    destruct (Nat.eqb_spec k 0) as [->|Hn].
    + rewrite rank_0. simpl. lia.
    + destruct (Nat.eqb_spec (rank del k) 0); lia.
Qed.

Lemma previous_spec del i :
  del !! i = Some false →
  ∃ i', previous_not_deleted i del = Ok i' ∧ del !! i' = Some false ∧ rank del i' = before_in (remaining del) (rank del i).
Proof.
  intros Hi. pose proof (lookup_lt_Some _ _ _ Hi) as Hlt.
  apply (previous_from_spec (length del) del i i); [done|lia|lia|lia].
Qed.

Section kept.
  Context {V : Type}.
  Implicit Types poly : list V.

  Lemma kept_length poly del : length poly = length del → length (kept poly del) = remaining del.
  Proof.
    unfold remaining. revert del. induction poly as [|v poly IH]; intros [|d del] H; simpl in H; try lia; [done|].
    injection H as H. simpl. destruct d; simpl; by rewrite IH.
  Qed.

  Lemma kept_lookup poly del i v :
    poly !! i = Some v → del !! i = Some false → kept poly del !! rank del i = Some v.
  Proof.
    unfold rank. revert del i. induction poly as [|w poly IH]; intros [|d del] [|i] Hv Hd; try done.
    - simpl in *. injection Hv as ->. injection Hd as ->. done.
    - simpl in *. destruct d; simpl; by apply IH.
  Qed.

  Lemma kept_delete poly del i :
    length poly = length del → del !! i = Some false →
    kept poly (<[i := true]> del) = delete (rank del i) (kept poly del).
  Proof.
    unfold rank. revert del i. induction poly as [|w poly IH]; intros [|d del] [|i] Hl Hd; simpl in Hl; try lia; try done.
    - simpl in *. injection Hd as ->. done.
    - simpl in *. injection Hl as Hl. destruct d; simpl; by rewrite IH.
  Qed.

  Lemma kept_insert poly del i x :
    length poly = length del → del !! i = Some false →
    kept (<[i := x]> poly) del = <[rank del i := x]> (kept poly del).
  Proof.
    unfold rank. revert del i. induction poly as [|w poly IH]; intros [|d del] [|i] Hl Hd; simpl in Hl; try lia; try done.
    - simpl in *. injection Hd as ->. done.
    - simpl in *. injection Hl as Hl. destruct d; simpl; by rewrite IH.
  Qed.

  Lemma kept_none poly : kept poly (replicate (length poly) false) = poly.
  Proof. induction poly; simpl; [done|]. by f_equal. Qed.
End kept.

Lemma rank_inj del i j :
  del !! i = Some false → del !! j = Some false → rank del i = rank del j → i = j.
Proof.
  intros Hi Hj H. destruct (decide (i < j)%nat) as [Hlt|]; [pose proof (rank_lt _ _ _ Hlt Hi); lia|].
  destruct (decide (j < i)%nat) as [Hlt|]; [pose proof (rank_lt _ _ _ Hlt Hj); lia|]. lia.
Qed.

(** * The queue *)
Lemma pop_none q : pop q = None → q = [].
Proof. destruct q as [|x q]; [done|]. simpl. destruct (pop q) as [[y r]|]; [|done]. by destruct (comes_first y x). Qed.
Lemma pop_some q x r : pop q = Some (x, r) → q ≡ₚ x :: r.
Proof.
  revert x r. induction q as [|y q IH]; intros x r; simpl; [done|].
  destruct (pop q) as [[z s]|] eqn:E.
  - specialize (IH _ _ eq_refl). destruct (comes_first z y); intros [= <- <-]; [|done].
    rewrite IH. constructor.
  - intros [= <- <-]. by rewrite (pop_none _ E).
Qed.

Section run.
  Context {V : Type} (pos : V → pt) (area_deviation : V → V → V → Z) (merge : V → pt → V → V)
          (intersection : pt → pt → pt → pt → option pt)
          (max_resolution max_deviation max_area_deviation : Z).
  Notation importance := (importance pos area_deviation max_resolution max_area_deviation).
  Notation remove := (remove pos merge intersection max_resolution max_deviation).
  Notation thin_out := (thin_out pos area_deviation merge intersection max_resolution max_deviation max_area_deviation).
  Notation rounds := (rounds pos area_deviation merge intersection max_resolution max_deviation max_area_deviation).
  Notation initial := (initial pos area_deviation max_resolution max_area_deviation).
  Notation simplify := (simplify pos area_deviation merge intersection max_resolution max_deviation max_area_deviation).
  Notation thinned := (thinned pos merge intersection max_resolution max_deviation).
  Notation dist := (λ v b a, getDistFromLine (pos v) (pos b) (pos a)).
  Implicit Types poly : list V.

  (** What the flags satisfy during the run. *)
  Definition flags_ok (closed : bool) poly (del : list bool) : Prop :=
    length poly = length del ∧ (2 <= length poly)%nat ∧
    (closed = false → del !! 0%nat = Some false ∧ del !! (length poly - 1)%nat = Some false).

  Lemma importance_spec closed poly del i :
    flags_ok closed poly del → del !! i = Some false →
    ∃ w, importance poly del i closed = Ok w ∧
      (w = INT64_MAX ∨
       ∃ b v a, let l := kept poly del in
         l !! rank del i = Some v ∧ l !! before_in (length l) (rank del i) = Some b ∧
         l !! after_in (length l) (rank del i) = Some a ∧
         (closed = false → (0 < i)%nat ∧ (i < length poly - 1)%nat) ∧
         w = dist v b a * dist v b a ∧
         (w <= 25 ∨ vSize2 (psub (pos b) (pos v)) <= max_resolution * max_resolution
                  ∨ vSize2 (psub (pos a) (pos v)) <= max_resolution * max_resolution)).
  Proof.
    intros (Hl & H2 & Hopen) Hi. pose proof (lookup_lt_Some _ _ _ Hi) as Hlt. unfold Simplify_Model.importance.
    destruct (negb closed && ((i =? 0)%nat || (i =? length poly - 1)%nat)) eqn:Eend.
    { eexists. split; [done|]. by left. }
    destruct (lookup_lt_is_Some_2 poly i) as [v Hv]; [lia|]. rewrite Hv. cbn [of_opt rbind].
    destruct (previous_spec _ _ Hi) as (bi & -> & Hbi & Hbr). cbn [rbind].
    destruct (next_spec _ _ Hi) as (ai & -> & Hai & Har). cbn [rbind].
    destruct (lookup_lt_is_Some_2 poly bi) as [b Hb]; [rewrite Hl; by eapply lookup_lt_Some|]. rewrite Hb. cbn [of_opt rbind].
    destruct (lookup_lt_is_Some_2 poly ai) as [a Ha]; [rewrite Hl; by eapply lookup_lt_Some|]. rewrite Ha. cbn [of_opt rbind].
    destruct (max_area_deviation <? area_deviation b v a); [eexists; split; [done|by left]|].
    set (l := kept poly del). assert (length l = remaining del) as Hll by by apply kept_length.
    assert (∃ b' v' a', l !! rank del i = Some v' ∧ l !! before_in (length l) (rank del i) = Some b' ∧
         l !! after_in (length l) (rank del i) = Some a' ∧ b' = b ∧ v' = v ∧ a' = a) as (b' & v' & a' & Hv' & Hb' & Ha' & -> & -> & ->).
    { exists b, v, a. split; [by apply kept_lookup|]. rewrite Hll, <-Hbr, <-Har.
      split; [by apply kept_lookup|]. split; [by apply kept_lookup|]. done. }
    assert (closed = false → (0 < i)%nat ∧ (i < length poly - 1)%nat) as Hint.
    { intros ->. simpl in Eend. apply orb_false_iff in Eend as [E1 E2]. apply Nat.eqb_neq in E1, E2. lia. }
    unfold getDist2FromLine. unfold min_resolution.
    destruct (dist v b a * dist v b a <=? 5 * 5) eqn:E5.
    { eexists. split; [done|]. right. exists b, v, a. do 5 (split; [done|]). left. apply Z.leb_le in E5. lia. }
    destruct ((max_resolution * max_resolution <? vSize2 (psub (pos b) (pos v))) &&
              (max_resolution * max_resolution <? vSize2 (psub (pos a) (pos v)))) eqn:El; [eexists; split; [done|by left]|].
    eexists. split; [done|]. right. exists b, v, a. do 5 (split; [done|]). right.
    apply andb_false_iff in El as [El|El]; apply Z.ltb_ge in El; [by left|by right].
  Qed.

  Lemma vSize2_swap p q : vSize2 (psub p q) = vSize2 (psub q p).
  Proof. unfold vSize2, psub. simpl. ring. Qed.

  Lemma before_in_lt n j : (j < n)%nat → (before_in n j < n)%nat.
  Proof. unfold before_in. destruct (Nat.eqb_spec j 0); lia. Qed.
  Lemma after_in_lt n j : (j < n)%nat → (after_in n j < n)%nat.
  Proof. unfold after_in. destruct (Nat.eqb_spec (S j) n); lia. Qed.

  Lemma sq_le_abs d m : 0 <= d → d * d <= m * m → d <= Z.abs m.
  Proof. nia. Qed.
  Lemma dist_nonneg p q r : 0 <= getDistFromLine p q r.
  Proof.
    unfold getDistFromLine. assert (∀ x, 0 <= vSize x) as Hs.
    { intros x. unfold vSize. pose proof (Z.sqrt_nonneg (vSize2 x)). destruct (_ <=? _); lia. }
    specialize (Hs (psub r q)) as Hrq. destruct (Z.eqb_spec (vSize (psub r q)) 0); [apply Hs|]. apply Z.quot_pos; lia.
  Qed.

  Lemma remove_spec closed poly del i w :
    max_deviation * max_deviation < INT64_MAX →
    flags_ok closed poly del → del !! i = Some false →
    importance poly del i closed = Ok w → w <= max_deviation * max_deviation →
    ∃ poly' del' done_, remove poly del i w closed = Ok (poly', del', done_) ∧ flags_ok closed poly' del' ∧
      length poly' = length poly ∧
      (if done_ then del' = <[i := true]> del ∧ thinned closed (kept poly del) (kept poly' del')
       else poly' = poly ∧ del' = del).
  Proof.
    intros Hmax Hok Hi Hw Hdev. destruct (importance_spec _ _ _ _ Hok Hi) as (w' & Hw' & Hspec).
    rewrite Hw in Hw'. injection Hw' as <-. destruct Hspec as [->|Hspec]; [lia|].
    destruct Hspec as (b & v & a & Hv & Hb & Ha & Hint & Hwd & Hshort). simpl in *.
    pose proof Hok as (Hl & H2 & Hopen). set (l := kept poly del) in *.
    assert (length l = remaining del) as Hll by by apply kept_length.
    pose proof (rank_lt_left _ _ Hi) as Hrlt.
    assert (closed = false → (0 < rank del i)%nat ∧ (rank del i < length l - 1)%nat) as Hinner.
    { intros Hc. destruct (Hopen Hc) as [H0 Hn]. destruct (Hint Hc) as [Hi0 Hin].
      pose proof (rank_lt _ _ _ Hi0 H0). pose proof (rank_lt _ _ _ Hin Hi). pose proof (rank_lt_left _ _ Hn). lia. }
    assert (flags_ok closed poly (<[i := true]> del)) as Hok'.
    { split; [by rewrite insert_length|]. split; [done|]. intros Hc. destruct (Hopen Hc). destruct (Hint Hc).
      split; rewrite list_lookup_insert_ne by lia; done. }
    assert (removable pos max_deviation closed l (rank del i) b v a) as Hrem.
    { split; [done|]. split; [done|]. split; [done|]. split; [done|]. apply sq_le_abs; [apply dist_nonneg|]. lia. }
    unfold Simplify_Model.remove, min_resolution.
    destruct (w <=? 5 * 5) eqn:E5.
    { eexists _, _, _. split; [done|]. split; [done|]. split; [done|]. simpl. split; [done|].
      rewrite kept_delete by done. eapply left_out; [exact Hrem|]. left. apply Z.leb_le in E5.
      pose proof (dist_nonneg (pos v) (pos b) (pos a)). nia. }
    apply Z.leb_gt in E5.
    destruct (previous_spec _ _ Hi) as (bi & -> & Hbi & Hbr). cbn [rbind].
    destruct (next_spec _ _ Hi) as (ai & -> & Hai & Har). cbn [rbind].
    rewrite <-Hll in Hbr, Har.
    destruct (lookup_lt_is_Some_2 poly i) as [v' Hv']; [rewrite Hl; by eapply lookup_lt_Some|].
    assert (v' = v) as -> by (pose proof (kept_lookup _ _ _ _ Hv' Hi : l !! _ = Some _); congruence).
    destruct (lookup_lt_is_Some_2 poly bi) as [b' Hb']; [rewrite Hl; by eapply lookup_lt_Some|].
    assert (b' = b) as -> by (pose proof (kept_lookup _ _ _ _ Hb' Hbi : l !! _ = Some _) as E; rewrite Hbr in E; congruence).
    destruct (lookup_lt_is_Some_2 poly ai) as [a' Ha']; [rewrite Hl; by eapply lookup_lt_Some|].
    assert (a' = a) as -> by (pose proof (kept_lookup _ _ _ _ Ha' Hai : l !! _ = Some _) as E; rewrite Har in E; congruence).
    rewrite Hv', Hb', Ha'. cbn [of_opt rbind].
    destruct ((vSize2 (psub (pos v) (pos b)) <=? max_resolution * max_resolution)
              && (vSize2 (psub (pos v) (pos a)) <=? max_resolution * max_resolution)) eqn:Es.
    { eexists _, _, _. split; [done|]. split; [done|]. split; [done|]. simpl. split; [done|].
      rewrite kept_delete by done. eapply left_out; [exact Hrem|]. right.
      apply andb_true_iff in Es as [Es1 Es2]. apply Z.leb_le in Es1, Es2. done. }
    rewrite (vSize2_swap (pos b)), (vSize2_swap (pos a)) in Hshort.
    destruct Hshort as [?|Hshort]; [lia|].
    assert (∀ k x, k ≠ i → del !! k = Some false → flags_ok closed (<[k := x]> poly) (<[i := true]> del)) as Hok2.
    { intros k x Hk Hdk. destruct Hok' as (? & ? & ?). unfold flags_ok. by rewrite insert_length. }
    assert (∀ k x, k ≠ i → del !! k = Some false →
       kept (<[k := x]> poly) (<[i := true]> del) = delete (rank del i) (<[rank del k := x]> l)) as Hk2.
    { intros k x Hk Hdk. rewrite kept_delete; [|by rewrite insert_length|done]. by rewrite kept_insert. }
    destruct (vSize2 (psub (pos v) (pos b)) <=? vSize2 (psub (pos v) (pos a))) eqn:Eba.
    - apply Z.leb_le in Eba.
      assert (short pos max_resolution v b ∧ long pos max_resolution v a) as [Hs Hlo].
      { unfold short, long. apply andb_false_iff in Es as [Es|Es]; apply Z.leb_gt in Es; lia. }
      destruct (negb closed && (bi =? 0)%nat) eqn:Eb.
      { cbn [rbind]. eexists _, _, _. by split. }
      destruct (previous_spec _ _ Hbi) as (bbi & -> & Hbbi & Hbbr). cbn [rbind].
      destruct (lookup_lt_is_Some_2 poly bbi) as [bb Hbb]; [rewrite Hl; by eapply lookup_lt_Some|].
      rewrite Hbb. cbn [of_opt rbind].
      destruct (intersection (pos bb) (pos b) (pos v) (pos a)) as [x|] eqn:Ex; [|eexists _, _, _; by split].
      destruct (getDist2FromLineSegment (pos b) x (pos v) <=? max_deviation * max_deviation) eqn:Ed;
        [|eexists _, _, _; by split].
      assert (bi ≠ i) as Hne.
      { intros ->. assert (ai = i) as ->; [|rewrite Ha' in Hv'; injection Hv' as ->; unfold long, vSize2, psub in Hlo; simpl in Hlo; nia].
        apply (rank_inj del); [done..|]. rewrite Har. revert Hbr. unfold before_in, after_in.
        destruct (Nat.eqb_spec (rank del i) 0), (Nat.eqb_spec (S (rank del i)) (length l)); lia. }
      eexists _, _, _. split; [done|]. split; [by apply Hok2|]. split; [by rewrite insert_length|]. simpl. split; [done|].
      rewrite Hk2 by done. rewrite Hbr. eapply joined_before; [exact Hrem|done|done| | |exact Ex|by apply Z.leb_le].
      + intros ->. simpl in Eb. apply Nat.eqb_neq in Eb. rewrite <-Hbr. destruct (Hopen eq_refl) as [H0 _].
        pose proof (rank_lt del 0 bi ltac:(lia) H0). lia.
      + rewrite <-Hbr. rewrite Hll, <-Hbbr. by apply kept_lookup.
    - apply Z.leb_gt in Eba.
      assert (long pos max_resolution v b ∧ short pos max_resolution v a) as [Hlo Hs].
      { unfold short, long. apply andb_false_iff in Es as [Es|Es]; apply Z.leb_gt in Es; lia. }
      destruct (negb closed && (ai =? length poly - 1)%nat) eqn:Eb.
      { cbn [rbind]. eexists _, _, _. by split. }
      destruct (next_spec _ _ Hai) as (aai & -> & Haai & Haar). cbn [rbind].
      destruct (lookup_lt_is_Some_2 poly aai) as [aa Haa]; [rewrite Hl; by eapply lookup_lt_Some|].
      rewrite Haa. cbn [of_opt rbind].
      destruct (intersection (pos b) (pos v) (pos a) (pos aa)) as [x|] eqn:Ex; [|eexists _, _, _; by split].
      destruct (getDist2FromLineSegment (pos v) x (pos a) <=? max_deviation * max_deviation) eqn:Ed;
        [|eexists _, _, _; by split].
      assert (ai ≠ i) as Hne.
      { intros ->. assert (bi = i) as ->; [|rewrite Hb' in Hv'; injection Hv' as ->; unfold long, vSize2, psub in Hlo; simpl in Hlo; nia].
        apply (rank_inj del); [done..|]. rewrite Hbr. revert Har. unfold before_in, after_in.
        destruct (Nat.eqb_spec (rank del i) 0), (Nat.eqb_spec (S (rank del i)) (length l)); lia. }
      eexists _, _, _. split; [done|]. split; [by apply Hok2|]. split; [by rewrite insert_length|]. simpl. split; [done|].
      rewrite Hk2 by done. rewrite Har. eapply joined_after; [exact Hrem|done|done| | |exact Ex|by apply Z.leb_le].
      + intros ->. simpl in Eb. apply Nat.eqb_neq in Eb. rewrite <-Har. destruct (Hopen eq_refl) as [_ Hn].
        pose proof (lookup_lt_Some _ _ _ Hai). pose proof (rank_lt del ai (length poly - 1) ltac:(lia) Hai).
        pose proof (rank_lt_left _ _ Hn). lia.
      + rewrite <-Har. rewrite Hll, <-Haar. by apply kept_lookup.
  Qed.

  Definition queue_ok (del : list bool) (q : list (nat * Z)) : Prop :=
    NoDup (map fst q) ∧ ∀ e, e ∈ q → del !! e.1 = Some false.
  Definition outdated (closed : bool) poly del (e : nat * Z) : bool :=
    match importance poly del e.1 closed with Ok w => negb (w =? e.2) | _ => true end.
  Definition stale closed poly del q : nat := length (List.filter (outdated closed poly del) q).

  Lemma stale_perm closed poly del q q' : q ≡ₚ q' → stale closed poly del q = stale closed poly del q'.
  Proof.
    unfold stale. induction 1 as [|x l l' H IH|x y l|l l' l'' H IH H' IH']; simpl; [done| | |lia].
    - destruct (outdated _ _ _ x); simpl; lia.
    - by destruct (outdated _ _ _ x), (outdated _ _ _ y).
  Qed.
  Lemma stale_le closed poly del q : (stale closed poly del q <= length q)%nat.
  Proof. unfold stale. induction q as [|x q IH]; simpl; [lia|]. destruct (outdated _ _ _ x); simpl; lia. Qed.

  Lemma thin_out_spec (Hmax : max_deviation * max_deviation < INT64_MAX) closed min_size fuel poly del q removed :
    flags_ok closed poly del → queue_ok del q → (length q <= length poly)%nat →
    (length q * S (length poly) + stale closed poly del q < fuel)%nat →
    ∃ poly' del' q' removed', thin_out fuel closed min_size poly del q removed = Ok (poly', del', q', removed') ∧
      flags_ok closed poly' del' ∧ length poly' = length poly ∧
      rtc (thinned closed) (kept poly del) (kept poly' del') ∧
      (remaining del' + removed' = remaining del + removed)%nat ∧
      (q' = [] ∨ ¬ (min_size < length poly' - removed')%nat).
  Proof.
    revert poly del q removed. induction fuel as [|fuel IH]; intros poly del q removed Hok [HN Hq] Hlen Hf; [lia|].
    cbn [Simplify_Model.thin_out]. destruct (pop q) as [[[i w] q']|] eqn:Ep.
    2:{ exists poly, del, q, removed. split; [done|]. split; [done|]. split; [done|]. split; [done|].
        split; [done|]. left. by apply pop_none. }
    apply pop_some in Ep. destruct (min_size <? length poly - removed)%nat eqn:Em.
    2:{ exists poly, del, q, removed. split; [done|]. split; [done|]. split; [done|]. split; [done|].
        split; [done|]. right. by apply Nat.ltb_ge in Em; lia. }
    assert (del !! i = Some false) as Hi by (apply (Hq (i, w)); rewrite Ep; by left).
    destruct (importance_spec _ _ _ _ Hok Hi) as (w' & Hw' & _). rewrite Hw'. cbn [rbind].
    rewrite (stale_perm _ _ _ _ _ Ep), Ep in Hf. rewrite Ep in Hlen. simpl in Hlen.
    assert (NoDup (i :: map fst q')) as HN' by (change i with (fst (i, w)); rewrite <-fmap_cons, <-Ep; done).
    assert (∀ e, e ∈ q' → del !! e.1 = Some false) as Hq' by (intros e He; apply Hq; rewrite Ep; by right).
    assert (∀ e, e ∈ q' → e.1 ≠ i) as Hne.
    { intros e He Heq. apply NoDup_cons in HN' as [Hni _]. apply Hni. apply elem_of_list_fmap. exists e. by rewrite Heq. }
    apply NoDup_cons in HN' as [Hni HN']. simpl in Hf.
    destruct (w' =? w) eqn:Ew; simpl.
    - apply Z.eqb_eq in Ew as ->.
      destruct (w <=? max_deviation * max_deviation) eqn:Ed.
      + apply Z.leb_le in Ed. destruct (remove_spec _ _ _ _ _ Hmax Hok Hi Hw' Ed) as (poly' & del' & dn & -> & Hok' & Hl' & Hdn).
        cbn [rbind fst snd]. destruct dn.
        * destruct Hdn as [-> Hth].
          destruct (IH poly' (<[i := true]> del) q' (S removed)) as (p2 & d2 & q2 & r2 & ? & ? & ? & ? & Hrem & ?).
          { done. }
          { split; [done|]. intros e He. rewrite list_lookup_insert_ne by (by apply not_eq_sym, Hne). by apply Hq'. }
          { lia. }
          { pose proof (stale_le closed poly' (<[i:=true]> del) q'). rewrite Hl'. lia. }
          exists p2, d2, q2, r2. split; [done|]. split; [done|]. split; [lia|]. split; [by eapply rtc_l|].
          split; [|done]. rewrite (left_delete _ _ Hi). lia.
        * destruct Hdn as [-> ->].
          destruct (IH poly del q' removed) as (p2 & d2 & q2 & r2 & ? & ? & ? & ? & ? & ?); [done|done|lia| |].
          { pose proof (stale_le closed poly del q'). lia. }
          exists p2, d2, q2, r2. done.
      + destruct (IH poly del q' removed) as (p2 & d2 & q2 & r2 & ? & ? & ? & ? & ? & ?); [done|done|lia| |].
        { pose proof (stale_le closed poly del q'). lia. }
        exists p2, d2, q2, r2. done.
    - destruct (IH poly del ((i, w') :: q') removed) as (p2 & d2 & q2 & r2 & ? & ? & ? & ? & ? & ?).
      + done.
      + split; [by constructor|]. intros e [-> |He]%elem_of_cons; [done|by apply Hq'].
      + simpl. lia.
      + unfold stale in *. cbn [length List.filter] in *. unfold outdated at 1. cbn [fst snd]. rewrite Hw', Z.eqb_refl. cbn [negb].
        assert (outdated closed poly del (i, w) = true) as Ho by (unfold outdated; cbn [fst snd]; by rewrite Hw', Ew).
        rewrite Ho in Hf. cbn [length] in Hf. lia.
      + exists p2, d2, q2, r2. done.
  Qed.

  Lemma initial_spec closed poly del i rest :
    flags_ok closed poly del → rest = drop i del →
    ∃ q, initial poly del closed i rest = Ok q ∧ NoDup (map fst q) ∧ (length q <= length rest)%nat ∧
      ∀ e, e ∈ q → del !! e.1 = Some false ∧ (i <= e.1)%nat.
  Proof.
    intros Hok. revert i. induction rest as [|d rest IH]; intros i Hr.
    - eexists. split; [done|]. split; [constructor|]. split; [done|]. intros e []%not_elem_of_nil.
    - assert (del !! i = Some d) as Hi.
      { pose proof (lookup_drop del i 0) as E. rewrite <-Hr, Nat.add_0_r in E. by rewrite <-E. }
      destruct (IH (S i)) as (q & Hq & HN & Hlen & Hin).
      { replace (S i) with (i + 1)%nat by lia. rewrite <-(drop_drop del 1 i), <-Hr. done. }
      cbn [Simplify_Model.initial]. destruct d.
      + exists q. split; [done|]. split; [done|]. split; [simpl; lia|]. intros e He. apply Hin in He. split; [apply He|lia].
      + destruct (importance_spec _ _ _ _ Hok Hi) as (w & -> & _). cbn [rbind]. rewrite Hq. cbn [rbind].
        eexists. split; [done|]. split; [|split].
        * simpl. constructor; [|done]. intros (e & He & Hein)%elem_of_list_fmap. apply Hin in Hein. lia.
        * simpl. lia.
        * intros e [-> |He]%elem_of_cons; [done|]. apply Hin in He. split; [apply He|lia].
  Qed.

  Lemma rounds_spec (Hmax : max_deviation * max_deviation < INT64_MAX) closed min_size fuel poly del :
    flags_ok closed poly del → (remaining del < fuel)%nat →
    ∃ poly' del', rounds fuel closed min_size poly del [] = Ok (poly', del') ∧ flags_ok closed poly' del' ∧
      rtc (thinned closed) (kept poly del) (kept poly' del').
  Proof.
    revert poly del. induction fuel as [|fuel IH]; intros poly del Hok Hf; [lia|].
    cbn [Simplify_Model.rounds].
    destruct (initial_spec closed poly del 0 del Hok eq_refl) as (q & -> & HN & Hlen & Hin). cbn [rbind].
    destruct (thin_out_spec Hmax closed min_size (S (length poly) * S (length poly)) poly del ([] ++ q) 0)
      as (p2 & d2 & q2 & r2 & -> & Hok2 & Hl2 & Hth & Hrem & Hend).
    { done. }
    { split; [done|]. intros e He. by apply Hin. }
    { simpl. destruct Hok as (-> & _). done. }
    { pose proof (stale_le closed poly del ([] ++ q)). destruct Hok as (Hl & _). simpl in *. nia. }
    cbn [rbind fst snd]. destruct ((min_size <? length p2 - r2)%nat && negb (r2 =? 0)%nat) eqn:E.
    - apply andb_true_iff in E as [E1 E2]. apply Nat.ltb_lt in E1. apply negb_true_iff, Nat.eqb_neq in E2.
      destruct Hend as [->|Hend]; [|done]. destruct (IH p2 d2 Hok2) as (p3 & d3 & -> & Hok3 & Hth3); [lia|].
      exists p3, d3. split; [done|]. split; [done|]. by etransitivity.
    - exists p2, d2. done.
  Qed.

  Lemma delete_inner {A} (l : list A) j :
    (0 < j)%nat → (j < length l - 1)%nat →
    head (delete j l) = head l ∧ last (delete j l) = last l ∧ length (delete j l) = (length l - 1)%nat.
  Proof.
    intros Hj Hj'. assert (length (delete j l) = (length l - 1)%nat) as Hlen by (rewrite length_delete; [done|apply lookup_lt_is_Some_2; lia]).
    split; [|split; [|done]].
    - destruct l as [|x l]; [done|]. destruct j; [lia|]. done.
    - rewrite !last_lookup, Hlen. rewrite lookup_delete_ge by lia. f_equal. lia.
  Qed.
  Lemma insert_inner {A} (l : list A) j x :
    (0 < j)%nat → (j < length l - 1)%nat → head (<[j := x]> l) = head l ∧ last (<[j := x]> l) = last l.
  Proof.
    intros Hj Hj'. split.
    - destruct l as [|y l]; [done|]. destruct j; [lia|]. done.
    - rewrite !last_lookup, insert_length. rewrite list_lookup_insert_ne by lia. done.
  Qed.

  Lemma thinned_open l l' :
    thinned false l l' → head l' = head l ∧ last l' = last l ∧ (2 <= length l')%nat.
  Proof.
    intros H. remember false as closed eqn:Hc. destruct H as [l j b v a (_ & _ & _ & Hj & _) _|l j b v a bb x (_ & _ & _ & Hj & _) _ _ Hb _ _ _|l j b v a aa x (_ & _ & _ & Hj & _) _ _ Ha _ _ _]; subst closed;
      destruct (Hj eq_refl) as [Hj1 Hj2].
    - destruct (delete_inner l j Hj1 Hj2) as (? & ? & ?). split; [done|]. split; [done|lia].
    - specialize (Hb eq_refl).
      destruct (insert_inner l (before_in (length l) j) (merge b x a)) as [H1 H2];
        [lia|unfold before_in in *; destruct (Nat.eqb_spec j 0); lia|].
      destruct (delete_inner (<[before_in (length l) j := merge b x a]> l) j) as (H3 & H4 & H5); [done|by rewrite insert_length|].
      rewrite insert_length in H5. rewrite H3, H4, H1, H2. split; [done|]. split; [done|lia].
    - specialize (Ha eq_refl).
      destruct (insert_inner l (after_in (length l) j) (merge b x a)) as [H1 H2];
        [unfold after_in in *; destruct (Nat.eqb_spec (S j) (length l)); lia..|].
      destruct (delete_inner (<[after_in (length l) j := merge b x a]> l) j) as (H3 & H4 & H5); [done|by rewrite insert_length|].
      rewrite insert_length in H5. rewrite H3, H4, H1, H2. split; [done|]. split; [done|lia].
  Qed.

  Lemma thinned_length closed l l' : thinned closed l l' → length l = S (length l').
  Proof.
    intros H. destruct H as [l j b v a (Hj & _) _|l j b v a bb x (Hj & _) _ _ _ _ _ _|l j b v a aa x (Hj & _) _ _ _ _ _ _];
      apply lookup_lt_Some in Hj; (rewrite length_delete by (apply lookup_lt_is_Some_2; rewrite ?insert_length; lia));
      rewrite ?insert_length; lia.
  Qed.

  Lemma detect_small_total poly min_size : (2 <= min_size)%nat → ∃ b, detect_small pos poly min_size = Ok b.
  Proof.
    intros Hm. unfold detect_small. destruct (Nat.ltb_spec (length poly) min_size); [by eexists|].
    destruct (Nat.eqb_spec (length poly) min_size) as [He|]; [|by eexists].
    destruct poly as [|a [|b poly]]; simpl in *; [lia..|].
    destruct (lookup_lt_is_Some_2 (a :: b :: poly) (S (length poly))) as [c Hc]; [simpl; lia|]. simpl in Hc.
    simpl. rewrite Hc. simpl. by eexists.
  Qed.

  Theorem simplify_spec (Hmax : max_deviation * max_deviation < INT64_MAX) poly closed :
    ∃ out, simplify poly closed = Ok out ∧
      (out = [] ∨ rtc (thinned closed) poly out) ∧
      (out = [] ∨ (if closed then 3 else 2) <= length out)%nat ∧
      (closed = false → ∀ a c, head poly = Some a → last poly = Some c → 25 <= vSize2 (psub (pos c) (pos a)) → out ≠ []).
  Proof.
    unfold Simplify_Model.simplify. set (ms := if closed then 3%nat else 2%nat).
    assert (2 <= ms)%nat as Hms by (unfold ms; destruct closed; lia).
    assert (∀ l, closed = false → detect_small pos l ms = Ok true → ∀ a c, head l = Some a → last l = Some c → 25 <= vSize2 (psub (pos c) (pos a)) → length l = 1%nat) as Hsm.
    { intros l -> Hd a c Ha Hc Hfar. unfold detect_small in Hd. subst ms. cbn iota in Hd.
      destruct l as [|x [|y [|z l]]]; [done|done| |done]. exfalso. simpl in Hd. injection Hd as Hd. simpl in Ha, Hc.
      injection Ha as ->. injection Hc as ->. apply Z.ltb_lt in Hd. unfold min_resolution in Hd. lia. }
    destruct (detect_small_total poly ms Hms) as (sm & Hsm1). rewrite Hsm1. cbn [rbind]. destruct sm.
    { exists []. split; [done|]. split; [by left|]. split; [by left|]. intros Hc a c Ha Hla Hfar _.
      pose proof (Hsm _ Hc Hsm1 _ _ Ha Hla Hfar) as H1. destruct poly as [|x [|]]; simpl in *; try lia.
      injection Ha as ->. injection Hla as ->. unfold vSize2, psub in Hfar. simpl in Hfar. lia. }
    destruct (Nat.eqb_spec (length poly) ms) as [He|Hne].
    { exists poly. split; [done|]. split; [by right|]. split; [right; fold ms; lia|]. intros _ a c Ha _ _ ->. done. }
    assert (ms < length poly)%nat as Hlt.
    { unfold detect_small in Hsm1. destruct (Nat.ltb_spec (length poly) ms); [done|lia]. }
    assert (flags_ok closed poly (replicate (length poly) false)) as Hok.
    { split; [by rewrite replicate_length|]. split; [lia|]. intros _. split; apply lookup_replicate; split; [done|lia|done|lia]. }
    destruct (rounds_spec Hmax closed ms (S (length poly)) poly _ Hok) as (p2 & d2 & -> & Hok2 & Hth).
    { rewrite remaining_all. lia. }
    cbn [rbind fst snd]. rewrite kept_none in Hth. set (f := kept p2 d2) in *.
    destruct (detect_small_total f ms Hms) as (sm & Hsm2). rewrite Hsm2. cbn [rbind].
    eexists. split; [done|]. split; [destruct sm; [by left|by right]|]. split.
    - destruct sm; [by left|right]. unfold detect_small in Hsm2. destruct (Nat.ltb_spec (length f) ms); [done|]. done.
    - intros Hc a c Ha Hla Hfar. destruct sm; [|subst f; intros E].
      + exfalso. assert (head f = Some a ∧ last f = Some c ∧ (2 <= length f)%nat) as (Hf1 & Hf2 & Hf3).
        { rewrite <-Ha, <-Hla. clear -Hth Hc Hlt Hms. subst closed. assert (2 <= length poly)%nat as H2 by lia. clear Hlt.
          induction Hth as [l|l1 l2 l3 H12 H23 IH]; [done|].
          destruct (thinned_open _ _ H12) as (<- & <- & Hl2). by apply IH. }
        pose proof (Hsm _ Hc Hsm2 _ _ Hf1 Hf2 Hfar). lia.
      + rewrite E in Hsm2. unfold detect_small in Hsm2. simpl in Hsm2. destruct (Nat.ltb_spec 0 ms); [done|lia].
  Qed.
End run.

(** * C21

    The theorems are about lines with any kind of vertices (points and junctions are two kinds), any
    rule for line intersections and any settings for which the square of the permitted deviation is
    less than the largest 64-bit number. *)
Section theorems.
  Context {V : Type} (pos : V → pt) (area_deviation : V → V → V → Z) (merge : V → pt → V → V)
          (intersection : pt → pt → pt → pt → option pt)
          (max_resolution max_deviation max_area_deviation : Z)
          (Hmax : max_deviation * max_deviation < 2 ^ 63 - 1).
  Notation simplify := (simplify pos area_deviation merge intersection max_resolution max_deviation max_area_deviation).
  Notation thinned := (thinned pos merge intersection max_resolution max_deviation).

  (** Simplifying ends, without undefined behaviour. *)
  Theorem C21_total poly closed : ∃ out, simplify poly closed = Ok out.
  Proof. destruct (simplify_spec pos area_deviation merge intersection max_resolution max_deviation max_area_deviation Hmax poly closed) as (out & ? & _). by exists out. Qed.

  (** Unless the result is empty, it comes from the input by removing one vertex after the other,
      each permitted at its time. *)
  Theorem C21_steps poly closed out :
    simplify poly closed = Ok out → out = [] ∨ rtc (thinned closed) poly out.
  Proof.
    intros H. destruct (simplify_spec pos area_deviation merge intersection max_resolution max_deviation max_area_deviation Hmax poly closed) as (out' & H' & ? & _).
    rewrite H in H'. by injection H' as <-.
  Qed.

  (** The result is empty or has at least three vertices (two for an open line), and never more than
      the input. *)
  Theorem C21_size poly closed out :
    simplify poly closed = Ok out →
    out = [] ∨ ((if closed then 3 else 2) <= length out <= length poly)%nat.
  Proof.
    intros H. destruct (simplify_spec pos area_deviation merge intersection max_resolution max_deviation max_area_deviation Hmax poly closed) as (out' & H' & Hst & Hsz & _).
    rewrite H in H'. injection H' as <-. destruct Hst as [->|Hst]; [by left|]. destruct Hsz as [->|Hsz]; [by left|]. right.
    split; [done|]. clear -Hst. induction Hst as [l|l1 l2 l3 H12 H23 IH]; [done|]. apply thinned_length in H12. lia.
  Qed.

  (** An open line keeps its two end points, and does not vanish if they are at least five units
      apart. *)
  Theorem C21_endpoints poly out :
    simplify poly false = Ok out → out = [] ∨ head out = head poly ∧ last out = last poly.
  Proof.
    intros H. destruct (C21_steps _ _ _ H) as [->|Hst]; [by left|right].
    clear H. induction Hst as [l|l1 l2 l3 H12 H23 IH]; [done|].
    apply thinned_open in H12 as (<- & <- & _). done.
  Qed.
  Theorem C21_open_stays poly out a c :
    simplify poly false = Ok out → head poly = Some a → last poly = Some c →
    5 * 5 <= vSize2 (psub (pos c) (pos a)) → out ≠ [].
  Proof.
    intros H Ha Hc Hfar. destruct (simplify_spec pos area_deviation merge intersection max_resolution max_deviation max_area_deviation Hmax poly false) as (out' & H' & _ & _ & Hst).
    rewrite H in H'. injection H' as <-. by eapply Hst.
  Qed.

  (** A vertex of the result is a vertex of the input, or was put at the intersection of two edges,
      no farther from the edge it replaces than the permitted deviation. *)
  Inductive derived (poly : list V) : V → Prop :=
  | original v : v ∈ poly → derived poly v
  | crossing p q r s b a x :
      derived poly p → derived poly q → derived poly r → derived poly s →
      derived poly b → derived poly a →
      intersection (pos p) (pos q) (pos r) (pos s) = Some x →
      getDist2FromLineSegment (pos q) x (pos r) <= max_deviation * max_deviation →
      derived poly (merge b x a).

  Theorem C21_vertices poly closed out v :
    simplify poly closed = Ok out → v ∈ out → derived poly v.
  Proof.
    intros H. destruct (C21_steps _ _ _ H) as [->|Hst]; [intros []%not_elem_of_nil|]. clear H. revert v.
    assert (∀ v, v ∈ poly → derived poly v) as H0 by (intros v Hv; by constructor).
    revert H0. set (p0 := poly) at 2. change (derived poly) with (derived p0). clearbody p0.
    induction Hst as [l|l1 l2 l3 H12 H23 IH]; [done|]. intros H0. apply IH.
    assert (∀ (l : list V) j v, v ∈ delete j l → v ∈ l) as Hdel.
    { intros l j v. rewrite !elem_of_list_lookup. intros (i & Hi). destruct (decide (i < j)%nat).
      - rewrite lookup_delete_lt in Hi by done. by exists i.
      - rewrite lookup_delete_ge in Hi by lia. by exists (S i). }
    assert (∀ (l : list V) j x v, v ∈ <[j := x]> l → v ∈ l ∨ v = x) as Hins.
    { intros l j x v. rewrite elem_of_list_lookup. intros (i & Hi). apply list_lookup_insert_Some in Hi as [(_ & <- & _)|(_ & Hi)].
      - by right.
      - left. apply elem_of_list_lookup. by exists i. }
    destruct H12 as [l j b v a (Hj & Hb & Ha & _) _|l j b v a bb x (Hj & Hb & Ha & _) _ _ _ Hbb Hx Hd|l j b v a aa x (Hj & Hb & Ha & _) _ _ _ Haa Hx Hd]; intros u Hu.
    - apply H0. by eapply Hdel.
    - apply Hdel, Hins in Hu as [Hu| -> ]; [by apply H0|].
      eapply crossing; [..|exact Hx|exact Hd]; apply H0; by eapply elem_of_list_lookup_2.
    - apply Hdel, Hins in Hu as [Hu| -> ]; [by apply H0|].
      eapply crossing; [..|exact Hx|exact Hd]; apply H0; by eapply elem_of_list_lookup_2.
  Qed.
End theorems.

(** The distance from a line that is measured is the distance from the infinite line through the two
    points, rounded down, up to the rounding of the length of their connection. *)
Theorem C21_distance p a b :
  let l := vSize (psub b a) in let d := getDistFromLine p a b in
  4 * vSize2 (psub b a) <= (2 * l + 1) * (2 * l + 1) ∧
  (l ≠ 0 → (2 * l - 1) * (2 * l - 1) <= 4 * vSize2 (psub b a) ∧ d * l <= Z.abs (cross (psub b a) (psub p a)) < (d + 1) * l).
Proof.
  cbv zeta. assert (∀ x, 0 <= vSize x ∧ (x ≠ (0, 0) → 0 < vSize x) ∧
     (0 < vSize2 x → (2 * vSize x - 1) * (2 * vSize x - 1) <= 4 * vSize2 x) ∧ 4 * vSize2 x <= (2 * vSize x + 1) * (2 * vSize x + 1)) as Hs.
  { intros x. unfold vSize. assert (0 <= vSize2 x) as H0 by (unfold vSize2; nia).
    pose proof (Z.sqrt_spec _ H0) as [Hl Hu]. pose proof (Z.sqrt_nonneg (vSize2 x)). set (s := Z.sqrt (vSize2 x)) in *.
    assert (x ≠ (0, 0) → 0 < vSize2 x) as Hx.
    { intros Hne. unfold vSize2. destruct x as [u v]; simpl in *. destruct (decide (u = 0)) as [->|]; [|nia].
      destruct (decide (v = 0)) as [->|]; [done|nia]. }
    destruct (Z.leb_spec (vSize2 x) (s * s + s)); split; try lia; split; try nia; intros Hne; specialize (Hx Hne); nia. }
  destruct (Hs (psub b a)) as (Hnn & _ & Hlow & Hup). split; [done|]. intros Hl. split.
  - apply Hlow. destruct (decide (0 < vSize2 (psub b a))) as [|Hn]; [done|]. exfalso. apply Hl.
    assert (vSize2 (psub b a) = 0) as Hz by (unfold vSize2 in *; nia). unfold vSize. by rewrite Hz.
  - unfold getDistFromLine. rewrite (proj2 (Z.eqb_neq _ _) Hl).
    replace ((p.1 - b.1) * (p.2 - a.2) + (a.1 - p.1) * (p.2 - b.2)) with (- cross (psub b a) (psub p a)) by (unfold cross, psub; simpl; ring).
    rewrite Z.abs_opp. set (l := vSize (psub b a)) in *. set (c := Z.abs _).
    assert (0 <= c) by (unfold c; lia). rewrite Z.quot_div_nonneg by lia.
    pose proof (Z.div_mod c l Hl). pose proof (Z.mod_pos_bound c l ltac:(lia)). nia.
Qed.

(** ** Examples and refutations *)

(** An intersection rule: exact up to rounding down. *)
Definition floor_intersection (a b c d : pt) : option pt :=
  let div := cross (psub b a) (psub d c) in
  if div =? 0 then None
  else let t := cross (psub c a) (psub d c) in
       Some (a.1 + (b.1 - a.1) * t / div, a.2 + (b.2 - a.2) * t / div).

(** A vertex on an edge is left out, a bevelled corner of a long line is sharpened. *)
Example C21_example :
  simplify_points floor_intersection 500 25 0
    [(0, 0); (5000, 1); (9990, 0); (10000, 10); (10000, 9000)] false
  = Ok [(0, 0); (10000, 0); (10000, 9000)].
Proof. vm_compute. reflexivity. Qed.
Example C21_example_polygon :
  simplify_points floor_intersection 500 25 0
    [(0, 0); (100, 3); (200, 0); (300, 200); (200, 300); (0, 300)] true
  = Ok [(0, 0); (200, 0); (300, 200); (200, 300); (0, 300)].
Proof. vm_compute. reflexivity. Qed.

(** Refuted: that the result stays within the permitted deviation of the input.  A vertex on the
    line through its neighbours, but far beyond them, is left out. *)
Theorem C21_deviation_refuted intersection :
  simplify_points intersection 500 25 0 [(0, 0); (10000, 0); (5000, 0); (5000, 9000)] false
  = Ok [(0, 0); (5000, 0); (5000, 9000)].
Proof. vm_compute. reflexivity. Qed.

(** Refuted: that a polygon is not thinned out below three vertices.  The limit counts the vertices
    removed in one round only, so a polygon 0.3 mm wide vanishes although the permitted deviation is
    0.025 mm. *)
Theorem C21_vanishes_refuted intersection :
  simplify_points intersection 1000 25 0
    [(11, 39); (80, 12); (207, 7); (280, 19); (232, 39); (300, 29); (224, 49); (294, 76); (198, 97); (195, 97); (92, 97); (141, 69)] true
  = Ok [].
Proof. vm_compute. reflexivity. Qed.

Print Assumptions C21_total.
Print Assumptions C21_steps.
Print Assumptions C21_size.
Print Assumptions C21_endpoints.
Print Assumptions C21_open_stays.
Print Assumptions C21_vertices.
Print Assumptions C21_distance.
Print Assumptions C21_deviation_refuted.
Print Assumptions C21_vanishes_refuted.
