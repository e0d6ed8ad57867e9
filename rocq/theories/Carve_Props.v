(** Properties of carving (C41) and cutting meshes (C58). *)
From Coq Require Import ZArith Sorting.Sorted.
From stdpp Require Import list.
From Verif Require Import Common Geo_Model Slicer_Model Box_Model Carve_Model Carve_Spec.
Open Scope Z_scope.

(** ** Reading and writing areas *)
Lemma set_area_lookup vols k l a m :
  set_area vols k l a !! m
  = if decide (m = k) then (fun v => with_layers v (<[l := a]> (layers v))) <$> vols !! m else vols !! m.
Proof. unfold set_area. case_decide; subst; [apply list_lookup_alter|by apply list_lookup_alter_ne]. Qed.

Lemma set_area_same vols k l a : same_settings vols (set_area vols k l a).
Proof.
  split; [apply alter_length|]. intros m v v' Hv Hv'. rewrite set_area_lookup in Hv'. case_decide.
  - rewrite Hv in Hv'. simpl in Hv'. inversion Hv'. split; [done|]. simpl. apply insert_length.
  - rewrite Hv in Hv'. inversion Hv'. subst. by destruct v'.
Qed.

Lemma has_set vols k l a m l' p :
  has (set_area vols k l a) m l' p
  = if decide (m = k /\ l' = l) then match vols !! k with Some v => if decide (l < length (layers v))%nat then a p else false | None => false end
    else has vols m l' p.
Proof.
  unfold has, at_layer. rewrite set_area_lookup. destruct (decide (m = k)) as [->|Hn].
  - destruct (vols !! k) as [v|] eqn:E; simpl.
    + destruct (decide (l' = l)) as [->|Hl].
      * rewrite decide_True by done. destruct (decide (l < length (layers v))%nat).
        -- by rewrite list_lookup_insert.
        -- rewrite lookup_ge_None_2; [done|]. rewrite insert_length. by apply Nat.nlt_ge.
      * rewrite decide_False by naive_solver. by rewrite list_lookup_insert_ne.
    + case_decide; done.
  - rewrite decide_False by naive_solver. done.
Qed.

Lemma same_refl vols : same_settings vols vols.
Proof. split; [done|]. intros k v v' H1 H2. rewrite H1 in H2. inversion H2; subst. by destruct v'. Qed.
Lemma same_trans a b c : same_settings a b -> same_settings b c -> same_settings a c.
Proof.
  intros [L1 S1] [L2 S2]. split; [congruence|]. intros k v v'' Hv Hv''.
  destruct (lookup_lt_is_Some_2 b k) as [v' Hv']. { rewrite L1. by eapply lookup_lt_Some. }
  destruct (S1 k v v' Hv Hv') as [E1 N1]. destruct (S2 k v' v'' Hv' Hv'') as [E2 N2]. split; [|congruence].
  rewrite E2, E1. done.
Qed.
Lemma same_lookup a b k v : same_settings a b -> a !! k = Some v ->
  exists v', b !! k = Some v' /\ v' = with_layers v (layers v') /\ length (layers v') = length (layers v).
Proof.
  intros [L S] Hv. destruct (lookup_lt_is_Some_2 b k) as [v' Hv']. { rewrite L. by eapply lookup_lt_Some. }
  exists v'. split; [done|]. by apply (S k).
Qed.
Lemma same_even L a b : same_settings a b -> even_layers L a -> even_layers L b.
Proof.
  intros [Hl HS] H. apply Forall_lookup. intros k v' Hv'. destruct (lookup_lt_is_Some_2 a k) as [v Hv].
  { rewrite <- Hl. by eapply lookup_lt_Some. }
  destruct (HS k v v' Hv Hv') as [_ ->]. eapply (Forall_lookup_1 _ _ _ _ H Hv).
Qed.
Lemma same_order a b k : same_settings a b -> order_of b k = order_of a k.
Proof.
  intros HS. unfold order_of. destruct (a !! k) as [v|] eqn:E.
  - destruct (same_lookup a b k v HS E) as (v' & -> & -> & _). done.
  - destruct HS as [Hl _]. apply lookup_ge_None in E. rewrite lookup_ge_None_2 by lia. done.
Qed.

Lemma get_area_ok L vols k l : even_layers L vols -> (k < length vols)%nat -> (l < L)%nat ->
  exists a, get_area vols k l = Ok a /\ forall p, has vols k l p = a p.
Proof.
  intros HL Hk Hl. destruct (lookup_lt_is_Some_2 vols k Hk) as [v Hv].
  pose proof (Forall_lookup_1 _ _ _ _ HL Hv) as Hlen. cbv beta in Hlen.
  destruct (lookup_lt_is_Some_2 (layers v) l) as [a Ha]; [lia|].
  exists a. unfold get_area, get_vol, has, at_layer. rewrite Hv. cbn [of_opt rbind]. split; [by rewrite Ha|]. intros p. by rewrite Ha.
Qed.
Lemma has_set_even L vols k l a m l' p : even_layers L vols -> (k < length vols)%nat -> (l < L)%nat ->
  has (set_area vols k l a) m l' p = if decide (m = k /\ l' = l) then a p else has vols m l' p.
Proof.
  intros HL Hk Hl. rewrite has_set. case_decide; [|done].
  destruct (lookup_lt_is_Some_2 vols k Hk) as [v Hv]. rewrite Hv.
  pose proof (Forall_lookup_1 _ _ _ _ HL Hv) as Hlen. cbv beta in Hlen. rewrite decide_True by lia. done.
Qed.

(** ** The rank *)
Definition rank_lt (ord : nat -> Z) (j i : nat) : Prop := ord j < ord i \/ (ord j = ord i /\ (j < i)%nat).

Lemma rank_insert_perm ord k l : Permutation (rank_insert ord k l) (k :: l).
Proof.
  induction l as [|m l IH]; [done|]. simpl. case_match; [done|]. rewrite IH. constructor.
Qed.
Lemma rank_insert_sorted ord k l :
  (forall m, m ∈ l -> (k < m)%nat) -> StronglySorted (rank_lt ord) l -> StronglySorted (rank_lt ord) (rank_insert ord k l).
Proof.
  intros Hk Hs. induction Hs as [|m l Hs IH HF]; simpl; [repeat constructor|]. case_match eqn:E.
  - apply Z.leb_le in E. constructor; [by constructor|]. constructor.
    + assert (k < m)%nat by (apply Hk; left). unfold rank_lt. lia.
    + eapply Forall_impl; [exact HF|]. intros x. unfold rank_lt. assert (k < m)%nat by (apply Hk; left). lia.
  - apply Z.leb_gt in E. constructor.
    + apply IH. intros x Hx. apply Hk. by right.
    + rewrite rank_insert_perm. constructor; [unfold rank_lt; lia|done].
Qed.
Lemma ranked_perm ord n : Permutation (ranked ord n) (seq 0 n).
Proof. unfold ranked. induction (seq 0 n) as [|k l IH]; [done|]. simpl. rewrite rank_insert_perm. by constructor. Qed.
Lemma ranked_sorted ord n : StronglySorted (rank_lt ord) (ranked ord n).
Proof.
  unfold ranked. generalize 0%nat. induction n as [|n IH]; intros s; simpl; [constructor|].
  apply rank_insert_sorted; [|apply IH]. intros m Hm.
  assert (Hp : Permutation (foldr (rank_insert ord) [] (seq (S s) n)) (seq (S s) n)).
  { clear. induction (seq (S s) n) as [|k l IH]; [done|]. simpl. rewrite rank_insert_perm. by constructor. }
  rewrite Hp in Hm. apply elem_of_seq in Hm. lia.
Qed.

(** ** One point of one layer *)
Section point.
  (** who takes part, whose boxes touch, whether the later one is kept, order *)
  Context (part : nat -> bool) (hit : nat -> nat -> bool) (tie : nat -> nat -> bool).

  Definition upd (f : nat -> bool) (k : nat) (b : bool) : nat -> bool := fun m => if decide (m = k) then b else f m.
  Definition abs_pair (f : nat -> bool) (k1 k2 : nat) : nat -> bool :=
    if tie k1 k2 then upd f k2 (f k2 && negb (f k1)) else upd f k1 (f k1 && negb (f k2)).
  Fixpoint abs_one (f : nat -> bool) (k1 : nat) (before : list nat) : nat -> bool :=
    match before with
    | [] => f
    | k2 :: before' => abs_one (if part k2 && hit k1 k2 then abs_pair f k1 k2 else f) k1 before'
    end.
  Fixpoint abs_all (f : nat -> bool) (before todo : list nat) : nat -> bool :=
    match todo with
    | [] => f
    | k1 :: todo' => abs_all (if part k1 then abs_one f k1 before else f) (before ++ [k1]) todo'
    end.

  Context (B : nat -> nat -> Prop) (f0 : nat -> bool).
  Context (Btrans : forall a b c, B a b -> B b c -> B a c) (Basym : forall a b, B a b -> B b a -> False).
  Context (Btotal : forall a b, a ≠ b -> B a b \/ B b a).
  Context (Hhit : forall a b, f0 a = true -> f0 b = true -> hit a b = true).

  Definition kept (l : list nat) (k : nat) : Prop :=
    f0 k = true /\ (k ∈ l -> part k = true -> forall m, m ∈ l -> m ≠ k -> part m = true -> f0 m = true -> B k m).

  Lemma kept_winner l m : m ∈ l -> part m = true -> f0 m = true ->
    exists w, w ∈ l /\ part w = true /\ kept l w /\ (w = m \/ B w m).
  Proof.
    revert m. induction l as [|x l IH]; intros m Hm Hp Hf; [by apply elem_of_nil in Hm|].
    destruct (decide (part x = true /\ f0 x = true)) as [[Hpx Hfx]|Hx].
    - assert (Hex : exists w, w ∈ x :: l /\ part w = true /\ kept (x :: l) w /\ (w = x \/ B w x)).
      { destruct (decide (Exists (fun y => part y = true /\ f0 y = true) l)) as [HE|HN].
        - apply Exists_exists in HE as (y & Hy & Hpy & Hfy).
          destruct (IH y Hy Hpy Hfy) as (w & Hw & Hpw & [Hfw Hkw] & _).
          destruct (decide (w = x)) as [->|Hne].
          { exists x. split; [left|]. split; [done|]. split; [|by left]. split; [done|]. intros _ _ m' Hm' Hne' Hpm Hfm.
            apply elem_of_cons in Hm' as [->|Hm']; [done|]. by apply Hkw. }
          destruct (Btotal w x Hne) as [HB|HB].
          + exists w. split; [by right|]. split; [done|]. split; [|by right]. split; [done|]. intros _ _ m' Hm' Hne' Hpm Hfm.
            apply elem_of_cons in Hm' as [->|Hm']; [done|]. by apply Hkw.
          + exists x. split; [left|]. split; [done|]. split; [|by left]. split; [done|]. intros _ _ m' Hm' Hne' Hpm Hfm.
            apply elem_of_cons in Hm' as [->|Hm']; [done|].
            destruct (decide (m' = w)) as [->|Hmw]; [done|]. apply (Btrans _ w); [done|]. by apply Hkw.
        - exists x. split; [left|]. split; [done|]. split; [|by left]. split; [done|]. intros _ _ m' Hm' Hne' Hpm Hfm.
          apply elem_of_cons in Hm' as [->|Hm']; [done|]. destruct HN. apply Exists_exists. eauto. }
      destruct Hex as (w & Hw & Hpw & Hkw & Hwx). exists w. split; [done|]. split; [done|]. split; [done|].
      destruct (decide (w = m)) as [->|Hne]; [by left|]. right. destruct Hkw as [_ Hk]. by apply Hk.
    - apply elem_of_cons in Hm as [->|Hm]; [naive_solver|]. destruct (IH m Hm Hp Hf) as (w & Hw & Hpw & [Hfw Hkw] & Hor).
      exists w. split; [by right|]. split; [done|]. split; [|done]. split; [done|]. intros _ _ m' Hm' Hne Hpm Hfm.
      apply elem_of_cons in Hm' as [->|Hm']; [naive_solver|]. by apply Hkw.
  Qed.

  (** the volume [i] against those of [pre], of the volumes [dn] done *)
  Lemma abs_one_kept dn i pre post f :
    dn = pre ++ post -> NoDup (i :: dn) -> part i = true ->
    (forall j, j ∈ dn -> part j = true -> if tie i j then B i j else B j i) ->
    (forall k, f k = true <->
       if decide (k = i) then f0 i = true /\ forall m, m ∈ pre -> part m = true -> kept dn m -> B i m
       else kept dn k /\ (k ∈ pre -> part k = true -> f0 i = true -> B k i)) ->
    forall k, abs_one f i post k = true <->
       if decide (k = i) then f0 i = true /\ forall m, m ∈ dn -> part m = true -> kept dn m -> B i m
       else kept dn k /\ (k ∈ dn -> part k = true -> f0 i = true -> B k i).
  Proof.
    intros -> Hnd Hpi Htie. revert pre f Hnd Htie. induction post as [|j post IH]; intros pre f Hnd Htie Hf k.
    - cbn [abs_one]. rewrite Hf. rewrite app_nil_r. done.
    - cbn [abs_one]. set (dn := pre ++ j :: post) in *.
      assert (Hdn : dn = (pre ++ [j]) ++ post) by (unfold dn; by rewrite <- app_assoc).
      assert (Hj : j ∈ dn) by (unfold dn; set_solver).
      assert (Hji : j ≠ i). { intros ->. apply NoDup_cons in Hnd as [Hn _]. done. }
      assert (Hjp : j ∉ pre). { apply NoDup_cons in Hnd as [_ Hnd]. unfold dn in Hnd. apply NoDup_app in Hnd as (_ & Hn & _).
        intros Hjp. apply (Hn j Hjp). left. }
      pose proof (IH (pre ++ [j])) as IH'. rewrite <- Hdn in IH'. apply IH'; [done|done|]. clear IH IH' k. intros k.
      pose proof (Hf i) as Hfi. rewrite decide_True in Hfi by done. pose proof (Hf j) as Hfj. rewrite decide_False in Hfj by done.
      assert (Hfj' : f j = true <-> kept dn j) by (rewrite Hfj; naive_solver). clear Hfj.
      (* two volumes which keep the point are the same *)
      assert (Huniq : forall m, m ∈ dn -> m ≠ j -> part m = true -> part j = true -> kept dn m -> kept dn j -> False).
      { intros m Hm Hne Hpm Hpj [Fm Km] [Fj Kj]. apply (Basym m j); [by apply Km|by apply Kj]. }
      destruct (part j && hit i j) eqn:Ehp.
      + apply andb_true_iff in Ehp as [Epj Ehit]. specialize (Htie j Hj Epj). unfold abs_pair. destruct (tie i j); unfold upd.
        * (* j loses *)
          destruct (decide (k = j)) as [->|Hkj].
          -- rewrite decide_False by done. rewrite andb_true_iff, negb_true_iff, Hfj', <- not_true_iff_false.
             rewrite Hfi. split.
             ++ intros [HK HN]. split; [done|]. intros _ _ Hfi0. exfalso. apply HN. split; [done|].
                intros m Hm Hpm HKm. exfalso. apply (Huniq m); try done; [unfold dn; set_solver|]. intros ->. done.
             ++ intros [HK HB]. split; [done|]. intros [Hfi0 _]. apply (Basym i j); [done|]. apply HB; [set_solver|done|done].
          -- rewrite Hf. destruct (decide (k = i)) as [->|Hki].
             ++ split.
                ** intros [H1 H2]. split; [done|]. intros m Hm Hpm HK. apply elem_of_app in Hm as [Hm|Hm]; [by apply H2|].
                   apply elem_of_list_singleton in Hm as ->. done.
                ** intros [H1 H2]. split; [done|]. intros m Hm. apply H2. set_solver.
             ++ split; (intros [H1 H2]; split; [done|]; intros Hk; apply H2; set_solver).
        * (* i loses *)
          destruct (decide (k = i)) as [->|Hki].
          -- rewrite andb_true_iff, negb_true_iff, <- not_true_iff_false, Hfj', Hfi. split.
             ++ intros [[H1 H2] HN]. split; [done|]. intros m Hm Hpm HK. apply elem_of_app in Hm as [Hm|Hm]; [by apply H2|].
                apply elem_of_list_singleton in Hm as ->. done.
             ++ intros [H1 H2]. split; [split; [done|]; intros m Hm; apply H2; set_solver|].
                intros HK. apply (Basym i j); [|done]. apply H2; [set_solver|done|done].
          -- rewrite Hf. rewrite decide_False by done. split.
             ++ intros [H1 H2]. split; [done|]. intros Hk Hpk Hfi0. apply elem_of_app in Hk as [Hk|Hk]; [by apply H2|].
                apply elem_of_list_singleton in Hk as ->. done.
             ++ intros [H1 H2]. split; [done|]. intros Hk. apply H2. set_solver.
      + (* nothing to do *)
        rewrite Hf. apply andb_false_iff in Ehp.
        assert (Hno : part j = true -> kept dn j -> f0 i = true -> False).
        { intros Hpj [Hfj0 _] Hfi0. rewrite (Hhit i j Hfi0 Hfj0) in Ehp. destruct Ehp; congruence. }
        destruct (decide (k = i)) as [->|Hki].
        * split.
          -- intros [H1 H2]. split; [done|]. intros m Hm Hpm HK. apply elem_of_app in Hm as [Hm|Hm]; [by apply H2|].
             apply elem_of_list_singleton in Hm as ->. exfalso. by apply Hno.
          -- intros [H1 H2]. split; [done|]. intros m Hm. apply H2. set_solver.
        * split.
          -- intros [H1 H2]. split; [done|]. intros Hk Hpk Hfi0. apply elem_of_app in Hk as [Hk|Hk]; [by apply H2|].
             apply elem_of_list_singleton in Hk as ->. exfalso. by apply Hno.
          -- intros [H1 H2]. split; [done|]. intros Hk. apply H2. set_solver.
  Qed.

  Lemma abs_all_kept before todo f :
    NoDup (before ++ todo) ->
    (forall i pre post, before ++ todo = pre ++ i :: post -> forall j, j ∈ pre -> part i = true -> part j = true -> if tie i j then B i j else B j i) ->
    (forall k, f k = true <-> kept before k) ->
    forall k, abs_all f before todo k = true <-> kept (before ++ todo) k.
  Proof.
    revert before f. induction todo as [|i todo IH]; intros before f Hnd Htie Hf k; cbn [abs_all].
    - by rewrite app_nil_r.
    - assert (Happ : before ++ i :: todo = (before ++ [i]) ++ todo) by by rewrite <- app_assoc. rewrite Happ.
      pose proof Hnd as Hnd0. rewrite Happ in Hnd. apply IH; [done|by rewrite <- Happ|]. clear k.
      assert (Hn1 : NoDup (before ++ [i])) by by apply NoDup_app in Hnd as (Hn & _ & _).
      assert (Hib : i ∉ before). { apply NoDup_app in Hn1 as (_ & Hn & _). intros H. apply (Hn i H). left. }
      intros k. destruct (part i) eqn:Epi.
      + assert (H1 : NoDup (i :: before)) by (rewrite Permutation_app_comm in Hn1; done).
        assert (H2 : forall j, j ∈ before -> part j = true -> if tie i j then B i j else B j i).
        { intros j Hj Hpj. by apply (Htie i before todo). }
        rewrite (abs_one_kept before i [] before f eq_refl H1 Epi H2).
        * destruct (decide (k = i)) as [->|Hki].
          -- split.
             ++ intros [Hfi HB]. split; [done|]. intros _ _ m Hm Hne Hpm Hfm. apply elem_of_app in Hm as [Hm|Hm].
                ** destruct (kept_winner before m Hm Hpm Hfm) as (w & Hw & Hpw & Hkw & [->|HBw]); [by apply HB|].
                   apply (Btrans _ w); [by apply HB|done].
                ** by apply elem_of_list_singleton in Hm as ->.
             ++ intros [Hfi HB]. split; [done|]. intros m Hm Hpm [Hfm _]. apply HB; try done; [set_solver|set_solver|].
                intros ->. done.
          -- split.
             ++ intros [[Hfk HK] HB]. split; [done|]. intros Hk Hpk m Hm Hne Hpm Hfm.
                apply elem_of_app in Hk as [Hk|Hk]; [|by apply elem_of_list_singleton in Hk].
                apply elem_of_app in Hm as [Hm|Hm]; [by apply HK|]. apply elem_of_list_singleton in Hm as ->. by apply HB.
             ++ intros [Hfk HK]. split.
                ** split; [done|]. intros Hk Hpk m Hm Hne Hpm Hfm. apply HK; try done; set_solver.
                ** intros Hk Hpk Hfi. apply HK; try done; set_solver.
        * intros m. rewrite Hf. destruct (decide (m = i)) as [->|Hne].
          -- split.
             ++ intros [Hfi _]. split; [done|]. intros x Hx. by apply elem_of_nil in Hx.
             ++ intros [Hfi _]. split; [done|]. done.
          -- split; [|by intros [? _]]. intros HK. split; [done|]. intros Hx. by apply elem_of_nil in Hx.
      + rewrite Hf. split.
        * intros [Hfk HK]. split; [done|]. intros Hk Hpk m Hm Hne Hpm Hfm.
          apply elem_of_app in Hk as [Hk|Hk]; [|apply elem_of_list_singleton in Hk; congruence].
          apply elem_of_app in Hm as [Hm|Hm]; [by apply HK|]. apply elem_of_list_singleton in Hm as ->. congruence.
        * intros [Hfk HK]. split; [done|]. intros Hk Hpk m Hm Hne Hpm Hfm. apply HK; try done; set_solver.
  Qed.
End point.

(** ** From the volumes to their points *)
Definition tie_at (alternate : bool) (vols : list volume) (l k1 k2 : nat) : bool :=
  alternate && (Z.rem (Z.of_nat l) 2 =? 0) && (order_of vols k1 =? order_of vols k2).
Definition hit_at (vols : list volume) (k1 k2 : nat) : bool :=
  match vols !! k1, vols !! k2 with Some v1, Some v2 => aabb3_hit (box v1) (box v2) | _, _ => false end.
Definition part_at (vols : list volume) (k : nat) : bool :=
  match vols !! k with Some v => negb (skipped v) | None => false end.

Lemma same_tie alt a b l k1 k2 : same_settings a b -> tie_at alt b l k1 k2 = tie_at alt a l k1 k2.
Proof. intros H. unfold tie_at. by rewrite !(same_order a b _ H). Qed.
Lemma same_hit a b k1 k2 : same_settings a b -> hit_at b k1 k2 = hit_at a k1 k2.
Proof.
  intros H. unfold hit_at. destruct H as [Hl HS].
  assert (H' : forall k, (a !! k = None /\ b !! k = None) \/ exists v v', a !! k = Some v /\ b !! k = Some v' /\ box v' = box v).
  { intros k. destruct (a !! k) as [v|] eqn:E.
    - destruct (same_lookup a b k v (conj Hl HS) E) as (v' & -> & -> & _). right. eauto.
    - left. split; [done|]. apply lookup_ge_None in E. apply lookup_ge_None. lia. }
  destruct (H' k1) as [[-> ->]|(v & v' & -> & -> & Hb)]; [done|]. destruct (H' k2) as [[-> ->]|(w & w' & -> & -> & Hb')]; [done|].
  by rewrite Hb, Hb'.
Qed.
Lemma same_part a b k : same_settings a b -> part_at b k = part_at a k.
Proof.
  intros H. unfold part_at. destruct (a !! k) as [v|] eqn:E.
  - destruct (same_lookup a b k v H E) as (v' & -> & -> & _). done.
  - destruct H as [Hl _]. apply lookup_ge_None in E. rewrite lookup_ge_None_2 by lia. done.
Qed.

Lemma carve_layer_has L alt vols k1 k2 l :
  even_layers L vols -> (k1 < length vols)%nat -> (k2 < length vols)%nat -> (l < L)%nat ->
  exists vols', carve_layer alt vols k1 k2 l = Ok vols' /\ same_settings vols vols'
    /\ forall k l' p, has vols' k l' p
       = if decide (l' = l) then abs_pair (tie_at alt vols l) (fun m => has vols m l p) k1 k2 k else has vols k l' p.
Proof.
  intros HL H1 H2 Hl. unfold carve_layer.
  destruct (get_area_ok L vols k1 l HL H1 Hl) as (a1 & -> & Ha1). destruct (get_area_ok L vols k2 l HL H2 Hl) as (a2 & -> & Ha2).
  cbn [rbind]. fold (tie_at alt vols l k1 k2).
  destruct (tie_at alt vols l k1 k2) eqn:Et; eexists; (split; [reflexivity|]); (split; [apply set_area_same|]); intros k l' p;
    rewrite (has_set_even L) by done; unfold abs_pair; rewrite Et; unfold upd, a_sub; rewrite Ha1, Ha2;
    (destruct (decide (l' = l)) as [->|Hll]; [destruct (decide (k = _)) as [->|Hk]|]).
  1, 4: rewrite decide_True by done; done.
  1, 3: rewrite decide_False by naive_solver; done.
  all: rewrite decide_False by naive_solver; done.
Qed.

Lemma carve_layers_has L alt vols k1 k2 ls :
  even_layers L vols -> (k1 < length vols)%nat -> (k2 < length vols)%nat -> Forall (fun l => l < L)%nat ls -> NoDup ls ->
  exists vols', carve_layers alt vols k1 k2 ls = Ok vols' /\ same_settings vols vols'
    /\ forall k l p, has vols' k l p
       = if decide (l ∈ ls) then abs_pair (tie_at alt vols l) (fun m => has vols m l p) k1 k2 k else has vols k l p.
Proof.
  intros HL H1 H2 HF Hnd. revert vols HL H1 H2. induction ls as [|l ls IH]; intros vols HL H1 H2.
  - exists vols. split; [done|]. split; [apply same_refl|]. done.
  - apply Forall_cons in HF as [Hl HF]. apply NoDup_cons in Hnd as [Hn Hnd].
    destruct (carve_layer_has L alt vols k1 k2 l HL H1 H2 Hl) as (v1 & E1 & S1 & G1).
    destruct (IH HF Hnd v1) as (v2 & E2 & S2 & G2); [by eapply same_even|destruct S1; lia|destruct S1; lia|].
    exists v2. cbn [carve_layers]. rewrite E1. cbn [rbind]. split; [done|]. split; [by eapply same_trans|].
    intros k l' p. rewrite G2. destruct (decide (l' = l)) as [->|Hne].
    + rewrite decide_False by done. rewrite decide_True by left. rewrite G1. by rewrite decide_True.
    + destruct (decide (l' ∈ ls)) as [Hin|Hni].
      * rewrite decide_True by by right. unfold abs_pair, upd. rewrite (same_tie _ _ _ _ _ _ S1). destruct (tie_at alt vols l' k1 k2); cbv beta; rewrite !G1; by rewrite !(decide_False (P := l' = l)) by done.
      * rewrite decide_False by set_solver. rewrite G1. by rewrite decide_False.
Qed.

Lemma abs_one_ext part hit tie f g k1 before : (forall k, f k = g k) ->
  forall k, abs_one part hit tie f k1 before k = abs_one part hit tie g k1 before k.
Proof.
  revert f g. induction before as [|k2 before IH]; intros f g H k; [apply H|]. cbn [abs_one]. apply IH. intros m.
  destruct (part k2 && hit k1 k2); [|apply H]. unfold abs_pair, upd. rewrite !H. destruct (tie k1 k2); case_decide; rewrite ?H; done.
Qed.
Lemma abs_one_params part hit tie part' hit' tie' f k1 before :
  (forall k, part k = part' k) -> (forall k m, hit k m = hit' k m) -> (forall k m, tie k m = tie' k m) ->
  forall k, abs_one part hit tie f k1 before k = abs_one part' hit' tie' f k1 before k.
Proof.
  intros Hp Hh Ht. revert f. induction before as [|k2 before IH]; intros f k; [done|]. cbn [abs_one]. rewrite IH, Hp, Hh.
  apply abs_one_ext. intros m. destruct (part' k2 && hit' k1 k2); [|done]. unfold abs_pair. by rewrite Ht.
Qed.
Lemma abs_all_ext part hit tie f g before todo : (forall k, f k = g k) ->
  forall k, abs_all part hit tie f before todo k = abs_all part hit tie g before todo k.
Proof.
  revert f g before. induction todo as [|k1 todo IH]; intros f g before H k; [apply H|]. cbn [abs_all]. apply IH. intros m.
  destruct (part k1); [|apply H]. by apply abs_one_ext.
Qed.
Lemma abs_all_params part hit tie part' hit' tie' f before todo :
  (forall k, part k = part' k) -> (forall k m, hit k m = hit' k m) -> (forall k m, tie k m = tie' k m) ->
  forall k, abs_all part hit tie f before todo k = abs_all part' hit' tie' f before todo k.
Proof.
  intros Hp Hh Ht. revert f before. induction todo as [|k1 todo IH]; intros f before k; [done|]. cbn [abs_all]. rewrite IH, Hp.
  apply abs_all_ext. intros m. destruct (part' k1); [|done]. by apply abs_one_params.
Qed.

Lemma carve_one_has L alt vols k1 before :
  even_layers L vols -> (k1 < length vols)%nat -> Forall (fun k => k < length vols)%nat before ->
  exists vols', carve_one alt vols k1 before = Ok vols' /\ same_settings vols vols'
    /\ forall k l p, (l < L)%nat ->
       has vols' k l p = abs_one (part_at vols) (hit_at vols) (tie_at alt vols l) (fun m => has vols m l p) k1 before k.
Proof.
  intros HL H1 HF. revert vols HL H1 HF. induction before as [|k2 before IH]; intros vols HL H1 HF.
  - exists vols. split; [done|]. split; [apply same_refl|]. done.
  - apply Forall_cons in HF as [H2 HF]. cbn [carve_one].
    destruct (lookup_lt_is_Some_2 vols k1 H1) as [v1 Hv1]. destruct (lookup_lt_is_Some_2 vols k2 H2) as [v2 Hv2].
    unfold get_vol. rewrite Hv1, Hv2. cbn [of_opt rbind].
    assert (Hstep : exists w,
      (if skipped v2 then Ok vols else if negb (aabb3_hit (box v1) (box v2)) then Ok vols
       else carve_layers alt vols k1 k2 (seq 0 (length (layers v1)))) = Ok w
      /\ same_settings vols w
      /\ forall k l p, (l < L)%nat -> has w k l p
         = (if part_at vols k2 && hit_at vols k1 k2 then abs_pair (tie_at alt vols l) (fun m => has vols m l p) k1 k2 else fun m => has vols m l p) k).
    { unfold part_at, hit_at. rewrite Hv1, Hv2. destruct (skipped v2); cbn [negb andb].
      { exists vols. split; [done|]. split; [apply same_refl|]. done. }
      destruct (aabb3_hit (box v1) (box v2)); cbn [negb].
      - pose proof (Forall_lookup_1 _ _ _ _ HL Hv1) as Hlen. cbv beta in Hlen. rewrite Hlen.
        destruct (carve_layers_has L alt vols k1 k2 (seq 0 L) HL H1 H2) as (w & E & S & G).
        { apply Forall_seq. lia. } { apply NoDup_seq. }
        exists w. split; [done|]. split; [done|]. intros k l p Hl. rewrite G. rewrite decide_True; [done|]. apply elem_of_seq. lia.
      - exists vols. split; [done|]. split; [apply same_refl|]. done. }
    destruct Hstep as (w & -> & S & G). cbn [rbind].
    assert (Hlw : length w = length vols) by (destruct S; done).
    destruct (IH w) as (w' & E' & S' & G'); [by eapply same_even|lia|by rewrite Hlw|].
    exists w'. split; [done|]. split; [by eapply same_trans|]. intros k l p Hl. rewrite (G' k l p Hl). cbn [abs_one].
    rewrite (abs_one_params _ _ _ (part_at vols) (hit_at vols) (tie_at alt vols l)).
    + apply abs_one_ext. intros m. by apply G.
    + intros m. by apply same_part.
    + intros m m'. by apply same_hit.
    + intros m m'. by apply same_tie.
Qed.

Lemma carve_all_has L alt vols before todo :
  even_layers L vols -> Forall (fun k => k < length vols)%nat before -> Forall (fun k => k < length vols)%nat todo ->
  exists vols', carve_all alt vols before todo = Ok vols' /\ same_settings vols vols'
    /\ forall k l p, (l < L)%nat ->
       has vols' k l p = abs_all (part_at vols) (hit_at vols) (tie_at alt vols l) (fun m => has vols m l p) before todo k.
Proof.
  revert vols before. induction todo as [|k1 todo IH]; intros vols before HL HFb HFt.
  - exists vols. split; [done|]. split; [apply same_refl|]. done.
  - apply Forall_cons in HFt as [H1 HFt]. cbn [carve_all].
    destruct (lookup_lt_is_Some_2 vols k1 H1) as [v1 Hv1]. unfold get_vol. rewrite Hv1. cbn [of_opt rbind].
    assert (Hstep : exists w, (if skipped v1 then Ok vols else carve_one alt vols k1 before) = Ok w /\ same_settings vols w
      /\ forall k l p, (l < L)%nat -> has w k l p
         = (if part_at vols k1 then abs_one (part_at vols) (hit_at vols) (tie_at alt vols l) (fun m => has vols m l p) k1 before
            else fun m => has vols m l p) k).
    { unfold part_at at 1. rewrite Hv1. destruct (skipped v1); cbn [negb].
      { exists vols. split; [done|]. split; [apply same_refl|]. done. }
      destruct (carve_one_has L alt vols k1 before HL H1 HFb) as (w & E & S & G). exists w. done. }
    destruct Hstep as (w & -> & S & G). cbn [rbind].
    assert (Hlw : length w = length vols) by (destruct S; done).
    destruct (IH w (before ++ [k1])) as (w' & E' & S' & G'); [by eapply same_even|rewrite Hlw; apply Forall_app_2; [done|by repeat constructor]|by rewrite Hlw|].
    exists w'. split; [done|]. split; [by eapply same_trans|]. intros k l p Hl. rewrite (G' k l p Hl). cbn [abs_all].
    rewrite (abs_all_params _ _ _ (part_at vols) (hit_at vols) (tie_at alt vols l)).
    + apply abs_all_ext. intros m. by apply G.
    + intros m. by apply same_part.
    + intros m m'. by apply same_hit.
    + intros m m'. by apply same_tie.
Qed.

(** ** C41 *)
Lemma part_at_carvable vols k : part_at vols k = true <-> carvable vols k.
Proof.
  unfold part_at, carvable, skipped, isModelMesh, isPrinted. destruct (vols !! k) as [v|]; [|naive_solver].
  destruct v as [[] ? ? [] [] [] [] ? ? ? ?]; simpl; naive_solver.
Qed.

Lemma rem_even l : (Z.rem (Z.of_nat l) 2 =? 0) = Nat.even l.
Proof.
  destruct (Nat.even l) eqn:E.
  - apply Nat.even_spec in E as [m ->]. apply Z.eqb_eq. rewrite Z.rem_mod_nonneg by lia.
    replace (Z.of_nat (2 * m)) with (Z.of_nat m * 2) by lia. apply Z_mod_mult.
  - apply Z.eqb_neq. rewrite Z.rem_mod_nonneg by lia. rewrite <- Nat.negb_odd in E. apply negb_false_iff, Nat.odd_spec in E as [m ->].
    replace (Z.of_nat (2 * m + 1)) with (1 + Z.of_nat m * 2) by lia. rewrite Z_mod_plus_full. done.
Qed.

(** After carving, a point of a volume which takes part belongs to it if it did before, and the volume wins against all
    others which take part and contained the point. Other volumes are left alone. There is always a result. *)
Theorem C41_winner L z alt vols :
  even_layers L vols -> in_boxes z vols ->
  exists vols', carveMultipleVolumes alt vols = Ok vols' /\ same_settings vols vols'
    /\ forall k l p, (l < L)%nat ->
       (has vols' k l p = true <->
        has vols k l p = true
        /\ (carvable vols k -> forall m, m ≠ k -> carvable vols m -> has vols m l p = true -> wins alt vols l k m)).
Proof.
  intros HL Hbox.
  assert (Hlt : forall k l p, has vols k l p = true -> (k < length vols)%nat).
  { intros k l p H. unfold has in H. destruct (vols !! k) eqn:E; [|done]. by eapply lookup_lt_Some. }
  assert (Hlt2 : forall k, carvable vols k -> (k < length vols)%nat).
  { intros k (v & E & _). by eapply lookup_lt_Some. }
  set (ord := order_of vols). set (n := length vols).
  pose proof (ranked_perm ord n) as Hperm. pose proof (ranked_sorted ord n) as Hsort.
  assert (HF : Forall (fun k => k < n)%nat (ranked ord n)). { rewrite Hperm. apply Forall_seq. lia. }
  assert (Hnd : NoDup (ranked ord n)). { rewrite Hperm. apply NoDup_seq. }
  unfold carveMultipleVolumes. fold ord n.
  destruct (ranked ord n) as [|k0 rest] eqn:Er.
  { exists vols. split; [done|]. split; [apply same_refl|]. intros k l p Hl. split; [|by intros [? _]]. intros Hk. split; [done|].
    apply Hlt in Hk. apply Permutation_nil in Hperm. fold n in Hk. destruct n; [lia|done]. }
  apply Forall_cons in HF as [HF1 HF2].
  destruct (carve_all_has L alt vols [k0] rest HL ltac:(by repeat constructor) HF2) as (vols' & E & S & G).
  exists vols'. split; [done|]. split; [done|]. intros k l p Hl. rewrite (G k l p Hl).
  set (B := fun a b => ord a < ord b \/ (ord a = ord b /\ if alt && Nat.even l then (b < a)%nat else (a < b)%nat)).
  rewrite (abs_all_kept (part_at vols) (hit_at vols) (tie_at alt vols l) B (fun m => has vols m l p)).
  - unfold kept. change ([k0] ++ rest) with (k0 :: rest). split.
    + intros [H1 H2]. split; [done|]. intros Hc m Hne Hcm Hm.
      assert (Hin : forall x, (x < n)%nat -> x ∈ k0 :: rest). { intros x Hx. rewrite Hperm. apply elem_of_seq. lia. }
      assert (HB : B k m).
      { apply H2; try done; [apply Hin; by eapply Hlt|by apply part_at_carvable|apply Hin; by eapply Hlt|by apply part_at_carvable]. }
      destruct Hc as (v & Ev & _). destruct Hcm as (w & Ew & _). exists v, w. split; [done|]. split; [done|].
      unfold B, ord, order_of in HB. rewrite Ev, Ew in HB. done.
    + intros [H1 H2]. split; [done|]. intros _ Hp m _ Hne Hpm Hm. apply part_at_carvable in Hp. apply part_at_carvable in Hpm.
      destruct (H2 Hp m Hne Hpm Hm) as (v & w & Ev & Ew & HB). unfold B, ord, order_of. rewrite Ev, Ew. done.
  - intros a b c. unfold B. destruct (alt && Nat.even l); lia.
  - intros a b. unfold B. destruct (alt && Nat.even l); lia.
  - intros a b. unfold B. destruct (alt && Nat.even l); lia.
  - intros a b Ha Hb. unfold hit_at. pose proof (Hlt _ _ _ Ha) as La. pose proof (Hlt _ _ _ Hb) as Lb.
    destruct (lookup_lt_is_Some_2 vols a La) as [v Hv]. destruct (lookup_lt_is_Some_2 vols b Lb) as [w Hw]. rewrite Hv, Hw.
    destruct (Hbox a v l p Hv Ha) as (X1 & Y1 & Z1). destruct (Hbox b w l p Hw Hb) as (X2 & Y2 & Z2).
    unfold aabb3_hit. apply negb_true_iff. rewrite !orb_false_iff, !Z.ltb_ge. lia.
  - done.
  - intros i pre post Heq j Hj Hpi Hpj. change ([k0] ++ rest) with (k0 :: rest) in Heq. rewrite Heq in Hsort.
    assert (Hr : rank_lt ord j i).
    { clear -Hsort Hj. induction pre as [|x pre IH]; [by apply elem_of_nil in Hj|]. inversion Hsort as [|? ? Hs HF']; subst.
      apply elem_of_cons in Hj as [->|Hj]; [|by apply IH]. eapply Forall_forall in HF'; [exact HF'|]. set_solver. }
    unfold tie_at. rewrite rem_even. fold ord. unfold B. unfold rank_lt in Hr.
    destruct (alt && Nat.even l); cbn [andb]; [|lia]. destruct (ord i =? ord j) eqn:Eo; [apply Z.eqb_eq in Eo|apply Z.eqb_neq in Eo]; lia.
  - intros m. unfold kept. split; [|by intros [? _]]. intros Hm. split; [done|]. intros Hin _ x Hx Hne.
    apply elem_of_list_singleton in Hin as ->. by apply elem_of_list_singleton in Hx.
Qed.

(** Hence the volumes which take part are disjoint afterwards, and together cover what they covered. *)
Lemma wins_asym alt vols l k m : wins alt vols l k m -> wins alt vols l m k -> False.
Proof.
  intros (v & w & Ev & Ew & H) (w' & v' & Ew' & Ev' & H'). rewrite Ev in Ev'. rewrite Ew in Ew'. inversion Ev'. inversion Ew'. subst.
  destruct (alt && Nat.even l); lia.
Qed.
Theorem C41_disjoint L z alt vols vols' k m l p :
  even_layers L vols -> in_boxes z vols -> carveMultipleVolumes alt vols = Ok vols' -> (l < L)%nat ->
  carvable vols k -> carvable vols m -> k ≠ m -> has vols' k l p = true -> has vols' m l p = true -> False.
Proof.
  intros HL Hb E Hl Hk Hm Hne H1 H2. destruct (C41_winner L z alt vols HL Hb) as (v & E' & _ & G). rewrite E in E'. inversion E'; subst v.
  apply G in H1 as [A1 W1]; [|done]. apply G in H2 as [A2 W2]; [|done].
  apply (wins_asym alt vols l k m); [by apply W1|by apply W2].
Qed.

Theorem C41_union L z alt vols vols' l p :
  even_layers L vols -> in_boxes z vols -> carveMultipleVolumes alt vols = Ok vols' -> (l < L)%nat ->
  ((exists k, carvable vols k /\ has vols k l p = true) <-> (exists k, carvable vols k /\ has vols' k l p = true)).
Proof.
  intros HL Hb E Hl. destruct (C41_winner L z alt vols HL Hb) as (v & E' & _ & G). rewrite E in E'. inversion E'; subst v.
  split.
  - intros (k & Hk & Hp). set (ord := order_of vols).
    set (B := fun a b => ord a < ord b \/ (ord a = ord b /\ if alt && Nat.even l then (b < a)%nat else (a < b)%nat)).
    assert (Hlt : forall m, carvable vols m -> m ∈ seq 0 (length vols)).
    { intros m (w & Ew & _). apply elem_of_seq. apply lookup_lt_Some in Ew. lia. }
    destruct (kept_winner (part_at vols) (fun _ _ => false) B (fun m => has vols m l p)) with (l := seq 0 (length vols)) (m := k) as (w & Hw & Hpw & [Hfw Hkw] & _).
    + intros a b c. unfold B. destruct (alt && Nat.even l); lia.
    + intros a b. unfold B. destruct (alt && Nat.even l); lia.
    + by apply Hlt.
    + by apply part_at_carvable.
    + done.
    + exists w. pose proof Hpw as Hcw. apply part_at_carvable in Hcw. split; [done|]. apply G; [done|]. split; [done|].
      intros _ m Hne Hcm Hm. assert (HB : B w m). { apply Hkw; try done; [by apply Hlt|by apply part_at_carvable]. }
      destruct Hcw as (v & Ev & _). destruct Hcm as (u & Eu & _). exists v, u. split; [done|]. split; [done|].
      unfold B, ord, order_of in HB. rewrite Ev, Eu in HB. done.
  - intros (k & Hk & Hp). exists k. split; [done|]. by apply G in Hp as [? _].
Qed.

Theorem C41_others L z alt vols vols' k l p :
  even_layers L vols -> in_boxes z vols -> carveMultipleVolumes alt vols = Ok vols' -> (l < L)%nat -> ~ carvable vols k ->
  has vols' k l p = has vols k l p.
Proof.
  intros HL Hb E Hl Hk. destruct (C41_winner L z alt vols HL Hb) as (v & E' & _ & G). rewrite E in E'. inversion E'; subst v.
  apply eq_true_iff_eq. rewrite G by done. naive_solver.
Qed.

(** ** Cutting meshes *)
Lemma same_victim a b k : same_settings a b -> victim b k = victim a k.
Proof.
  intros H. unfold victim. destruct (a !! k) as [v|] eqn:E.
  - destruct (same_lookup a b k v H E) as (v' & -> & -> & _). done.
  - destruct H as [Hl _]. apply lookup_ge_None in E. rewrite lookup_ge_None_2 by lia. done.
Qed.

Lemma cut_meshes_has L vols l cut ms outl :
  even_layers L vols -> (l < L)%nat -> Forall (fun m => m < length vols)%nat ms -> NoDup ms ->
  exists w out, cut_meshes vols l cut ms outl = Ok (w, out) /\ same_settings vols w
    /\ (forall m l' p, has w m l' p
         = if decide (l' = l /\ m ∈ ms) then (if victim vols m then has vols m l p && negb (cut p) else has vols m l p) else has vols m l' p)
    /\ forall p, out p = true <-> outl p = true \/ (cut p = true /\ exists m, m ∈ ms /\ victim vols m = true /\ has vols m l p = true).
Proof.
  intros HL Hl HF Hnd. revert vols HL HF outl. induction ms as [|m ms IH]; intros vols HL HF outl.
  - exists vols, outl. split; [done|]. split; [apply same_refl|]. split.
    + intros m l' p. rewrite decide_False; [done|]. intros [_ H]. by apply elem_of_nil in H.
    + intros p. split; [by left|]. intros [H|(_ & m & H & _)]; [done|by apply elem_of_nil in H].
  - apply Forall_cons in HF as [Hm HF]. apply NoDup_cons in Hnd as [Hn Hnd]. cbn [cut_meshes].
    destruct (lookup_lt_is_Some_2 vols m Hm) as [v Hv]. unfold get_vol at 1. rewrite Hv. cbn [of_opt rbind].
    assert (Hvic : victim vols m = negb (negb (isPrinted v) || support v)).
    { unfold victim, isPrinted. rewrite Hv. destruct (cutting v), (other v), (support v); done. }
    destruct (negb (isPrinted v) || support v) eqn:Esk; cbn [negb] in Hvic.
    + destruct (IH Hnd vols HL HF outl) as (w & out & -> & S & G & O). exists w, out. split; [done|]. split; [done|]. split.
      * intros m' l' p. rewrite G. destruct (decide (l' = l)) as [->|Hne].
        -- destruct (decide (m' = m)) as [->|Hmm].
           ++ rewrite decide_False by naive_solver. rewrite decide_True by (split; [done|left]). by rewrite Hvic.
           ++ destruct (decide (m' ∈ ms)).
              ** rewrite !decide_True by (split; [done|set_solver]). done.
              ** rewrite !decide_False by set_solver. done.
        -- rewrite !decide_False by naive_solver. done.
      * intros p. rewrite O. split; (intros [H|(H & m' & Hm' & Hv' & Hh)]; [by left|right; split; [done|]; exists m'; split; [|done]]).
        -- by right.
        -- apply elem_of_cons in Hm' as [->|Hm']; [congruence|done].
    + destruct (get_area_ok L vols m l HL Hm Hl) as (a & -> & Ha). cbn [rbind].
      set (vols1 := set_area vols m l (a_sub a cut)).
      assert (S1 : same_settings vols vols1) by apply set_area_same.
      destruct (IH Hnd vols1 (same_even _ _ _ S1 HL) ltac:(destruct S1 as [-> _]; done) (a_union outl (a_inter cut a))) as (w & out & -> & S & G & O).
      exists w, out. split; [done|]. split; [by eapply same_trans|].
      assert (H1 : forall m' l' p, has vols1 m' l' p = if decide (m' = m /\ l' = l) then has vols m l p && negb (cut p) else has vols m' l' p).
      { intros m' l' p. unfold vols1. rewrite (has_set_even L) by done. case_decide; [|done]. unfold a_sub. by rewrite Ha. }
      split.
      * intros m' l' p. rewrite G. rewrite (same_victim _ _ _ S1). rewrite !H1. destruct (decide (l' = l)) as [->|Hne].
        -- destruct (decide (m' = m)) as [->|Hmm].
           ++ rewrite decide_False by naive_solver. rewrite !decide_True by (split; try done; set_solver). by rewrite Hvic.
           ++ rewrite (decide_False (P := m' = m /\ l = l)) by naive_solver. destruct (decide (m' ∈ ms)).
              ** rewrite !decide_True by (split; [done|set_solver]). done.
              ** rewrite !decide_False by set_solver. done.
        -- rewrite !decide_False by naive_solver. done.
      * intros p. rewrite O. unfold a_union, a_inter. rewrite orb_true_iff, andb_true_iff, <- Ha. split.
        -- intros [[H|[Hc Hh]]|(Hc & m' & Hm' & Hv' & Hh)]; [by left| |].
           ++ right. split; [done|]. exists m. split; [left|]. done.
           ++ right. split; [done|]. exists m'. split; [by right|]. rewrite (same_victim _ _ _ S1) in Hv'. split; [done|].
              rewrite H1 in Hh. rewrite decide_False in Hh; [done|]. intros [-> _]. done.
        -- intros [H|(Hc & m' & Hm' & Hv' & Hh)]; [by left; left|]. apply elem_of_cons in Hm' as [->|Hm'].
           ++ left. right. done.
           ++ right. split; [done|]. exists m'. split; [done|]. rewrite (same_victim _ _ _ S1). split; [done|].
              rewrite H1. rewrite decide_False; [done|]. intros [-> _]. done.
Qed.

(** the part of the cutting mesh used *)
Definition limited (unions : nat -> option area) (v : volume) (l : nat) (p : pt) : bool :=
  if has_extruder v then match unions l with Some u => u p | None => false end else true.

Lemma cut_layer_has L unions vols k l v :
  even_layers L vols -> (l < L)%nat -> vols !! k = Some v -> cutting v = true ->
  exists w, cut_layer unions vols k l = Ok w /\ same_settings vols w
    /\ forall m l' p, has w m l' p = true <->
         if decide (l' = l) then
           if decide (m = k) then has vols k l p = true /\ limited unions v l p = true /\ exists x, victim vols x = true /\ has vols x l p = true
           else has vols m l p = true /\ (victim vols m = true -> ~ (has vols k l p = true /\ limited unions v l p = true))
         else has vols m l' p = true.
Proof.
  intros HL Hl Hv Hc. pose proof (lookup_lt_Some _ _ _ Hv) as Hk. unfold cut_layer. unfold get_vol at 1. rewrite Hv. cbn [of_opt rbind].
  destruct (get_area_ok L vols k l HL Hk Hl) as (a & -> & Ha). cbn [rbind].
  set (cut := if has_extruder v then _ else a).
  assert (Hcut : forall p, cut p = true <-> has vols k l p = true /\ limited unions v l p = true).
  { intros p. unfold cut, limited. rewrite Ha. destruct (has_extruder v); [|naive_solver]. destruct (unions l) as [u|].
    - unfold a_inter. rewrite andb_true_iff. done.
    - unfold a_empty. naive_solver. }
  set (vols1 := set_area vols k l cut).
  assert (S1 : same_settings vols vols1) by apply set_area_same.
  assert (Hl1 : length vols1 = length vols) by (destruct S1; done).
  destruct (cut_meshes_has L vols1 l cut (seq 0 (length vols)) a_empty (same_even _ _ _ S1 HL) Hl) as (w & out & -> & S & G & O).
  { rewrite Hl1. apply Forall_seq. lia. } { apply NoDup_seq. }
  cbn [rbind fst snd].
  assert (S2 : same_settings vols w) by by eapply same_trans.
  eexists. split; [reflexivity|]. split; [eapply same_trans; [exact S2|apply set_area_same]|].
  assert (H1 : forall m l' p, has vols1 m l' p = if decide (m = k /\ l' = l) then cut p else has vols m l' p).
  { intros m l' p. unfold vols1. by rewrite (has_set_even L). }
  assert (Hvk : victim vols k = false). { unfold victim. rewrite Hv, Hc. done. }
  intros m l' p. rewrite (has_set_even L); [|by eapply same_even|destruct S2; lia|done].
  destruct (decide (l' = l)) as [->|Hne]; [|rewrite decide_False by naive_solver].
  - destruct (decide (m = k)) as [->|Hmk].
    + rewrite decide_True by done. rewrite O, Hcut. unfold a_empty. split.
      * intros [H|([H1' H2] & x & Hx & Hvx & Hhx)]; [done|]. split; [done|]. split; [done|].
        rewrite (same_victim _ _ _ S1) in Hvx. exists x. split; [done|]. rewrite H1 in Hhx.
        rewrite decide_False in Hhx; [done|]. intros [-> _]. congruence.
      * intros (Hh & Hli & x & Hvx & Hhx). right. split; [done|]. exists x. split.
        { apply elem_of_seq. unfold has in Hhx. destruct (vols !! x) eqn:E; [|done]. apply lookup_lt_Some in E. lia. }
        rewrite (same_victim _ _ _ S1). split; [done|]. rewrite H1. rewrite decide_False; [done|]. intros [-> _]. congruence.
    + rewrite decide_False by naive_solver. rewrite G. rewrite (same_victim _ _ _ S1).
      rewrite !H1. rewrite !(decide_False (P := m = k /\ l = l)) by naive_solver.
      assert (Hin : has vols m l p = true -> m ∈ seq 0 (length vols)).
      { intros Hhx. apply elem_of_seq. unfold has in Hhx. destruct (vols !! m) eqn:E; [|done]. apply lookup_lt_Some in E. lia. }
      destruct (decide (l = l /\ m ∈ seq 0 (length vols))) as [_|Hni].
      * destruct (victim vols m).
        -- rewrite andb_true_iff, negb_true_iff, <- not_true_iff_false, Hcut. naive_solver.
        -- naive_solver.
      * split; [intros H; destruct Hni; naive_solver|]. intros [H _]. done.
  - rewrite G. rewrite decide_False by naive_solver. rewrite H1. by rewrite decide_False by naive_solver.
Qed.

Lemma cut_layers_has L unions vols k ls v :
  even_layers L vols -> vols !! k = Some v -> cutting v = true -> Forall (fun l => l < L)%nat ls -> NoDup ls ->
  exists w, cut_layers unions vols k ls = Ok w /\ same_settings vols w
    /\ forall m l p, has w m l p = true <->
         if decide (l ∈ ls) then
           if decide (m = k) then has vols k l p = true /\ limited unions v l p = true /\ exists x, victim vols x = true /\ has vols x l p = true
           else has vols m l p = true /\ (victim vols m = true -> ~ (has vols k l p = true /\ limited unions v l p = true))
         else has vols m l p = true.
Proof.
  intros HL Hv Hc HF Hnd. revert vols v HL Hv Hc. induction ls as [|l ls IH]; intros vols v HL Hv Hc.
  - exists vols. split; [done|]. split; [apply same_refl|]. intros m l p. rewrite decide_False; [done|]. intros H. by apply elem_of_nil in H.
  - apply Forall_cons in HF as [Hl HF]. apply NoDup_cons in Hnd as [Hn Hnd].
    destruct (cut_layer_has L unions vols k l v HL Hl Hv Hc) as (w1 & E1 & S1 & G1).
    destruct (same_lookup _ _ _ _ S1 Hv) as (v1 & Hv1 & Ev1 & _).
    destruct (IH HF Hnd w1 v1) as (w2 & E2 & S2 & G2); [by eapply same_even|done|by rewrite Ev1|].
    exists w2. cbn [cut_layers]. rewrite E1. cbn [rbind]. split; [done|]. split; [by eapply same_trans|].
    assert (Hlim : forall l p, limited unions v1 l p = limited unions v l p) by (intros; unfold limited; by rewrite Ev1).
    intros m l' p. rewrite G2. destruct (decide (l' = l)) as [->|Hne].
    + rewrite decide_False by done. rewrite decide_True by left. rewrite G1. by rewrite decide_True.
    + destruct (decide (l' ∈ ls)) as [Hin|Hni].
      * rewrite (decide_True (P := l' ∈ l :: ls)) by by right. rewrite Hlim.
        assert (Hsame : forall x, has w1 x l' p = true <-> has vols x l' p = true). { intros x. rewrite G1. by rewrite decide_False. }
        destruct (decide (m = k)).
        -- rewrite Hsame. split; intros (A & B & x & C & D); (split; [done|]); (split; [done|]); exists x.
           ++ rewrite (same_victim _ _ _ S1) in C. rewrite Hsame in D. done.
           ++ rewrite (same_victim _ _ _ S1). rewrite Hsame. done.
        -- rewrite !Hsame. rewrite (same_victim _ _ _ S1). done.
      * rewrite decide_False by set_solver. rewrite G1. by rewrite decide_False.
Qed.

Lemma union_has vols l k v p : vols !! k = Some v -> isPrinted v = true -> has vols k l p = true ->
  exists u, printable_union vols l = Some u /\ u p = true.
Proof.
  intros Hv Hp Hh. unfold printable_union.
  set (step := fun (u : option area) (v : volume) => _).
  assert (Hkeep : forall ws u0 u, u0 = Some u -> u p = true -> exists u', foldl step u0 ws = Some u' /\ u' p = true).
  { induction ws as [|w ws IH]; intros u0 u -> Hu; [by exists u|]. cbn [foldl].
    assert (exists u1, step (Some u) w = Some u1 /\ u1 p = true) as (u1 & E & Hu1).
    { unfold step. destruct (isPrinted w); [|by exists u]. destruct (layers w !! l) as [a|]; [|by exists u].
      eexists. split; [reflexivity|]. unfold a_union. by rewrite Hu. }
    by apply (IH _ u1). }
  rewrite <- (take_drop_middle _ _ _ Hv). rewrite foldl_app. cbn [foldl].
  assert (exists u1, step (foldl step None (take k vols)) v = Some u1 /\ u1 p = true) as (u1 & E & Hu1).
  { unfold has, at_layer in Hh. rewrite Hv in Hh. unfold step at 1. rewrite Hp. destruct (layers v !! l) as [a|] eqn:El; [|done].
    destruct (foldl step None (take k vols)) as [b|]; eexists; (split; [reflexivity|]); [|done]. unfold a_union. rewrite Hh. apply orb_true_r. }
  by apply (Hkeep _ _ u1).
Qed.

Lemma last_true (P : nat -> bool) j c : (c < j)%nat -> P c = true ->
  exists d, (d < j)%nat /\ P d = true /\ forall e, (d < e < j)%nat -> P e = false.
Proof.
  revert c. induction j as [|j IH]; intros c Hc HP; [lia|].
  destruct (P j) eqn:E; [exists j; split; [lia|]; split; [done|]; lia|].
  assert (Hcj : (c < j)%nat). { destruct (decide (c = j)) as [->|]; [congruence|lia]. }
  destruct (IH c Hcj HP) as (d & Hd & HPd & Hlast). exists d. split; [lia|]. split; [done|]. intros e He.
  destruct (decide (e = j)) as [->|]; [done|]. apply Hlast. lia.
Qed.

Lemma cut_all_has L vols0 vols j d :
  even_layers L vols0 -> (j + d = length vols0)%nat -> cut_settings j vols0 vols ->
  (forall k l p, (l < L)%nat -> has vols k l p = true <-> cut_spec vols0 j k l p) ->
  exists w, cut_all (printable_union vols0) vols (seq j d) = Ok w /\ cut_settings (length vols0) vols0 w
    /\ forall k l p, (l < L)%nat -> has w k l p = true <-> cut_spec vols0 (length vols0) k l p.
Proof.
  intros HL0. revert vols j. induction d as [|d IH]; intros vols j Hj HS Hspec.
  - exists vols. split; [done|]. replace (length vols0) with j by lia. done.
  - cbn [seq cut_all]. destruct HS as [Hlen HS]. destruct (lookup_lt_is_Some_2 vols0 j) as [v0 Hv0]; [lia|].
    destruct (lookup_lt_is_Some_2 vols j) as [v Hv]; [lia|]. unfold get_vol. rewrite Hv. cbn [of_opt rbind].
    destruct (HS j v0 v Hv0 Hv) as [Hll Ev]. rewrite decide_False in Ev by lia.
    assert (HL : even_layers L vols).
    { apply Forall_lookup. intros k w Hw. destruct (lookup_lt_is_Some_2 vols0 k) as [w0 Hw0]. { apply lookup_lt_Some in Hw. lia. }
      destruct (HS k w0 w Hw0 Hw) as [-> _]. apply (Forall_lookup_1 _ _ _ _ HL0 Hw0). }
    assert (Hcv : cutting v = cutting v0) by by rewrite Ev. rewrite Hcv.
    assert (Hcj : cutter vols0 j = cutting v0) by (unfold cutter; by rewrite Hv0).
    destruct (cutting v0) eqn:Ec; cbn [negb].
    2: { (* not a cutting mesh *)
      cbn [rbind]. apply IH; [lia| |].
      - split; [done|]. intros k w w' Hw Hw'. destruct (HS k w w' Hw Hw') as [H1 H2]. split; [done|]. rewrite H2 at 1. f_equal.
        destruct (decide (k < j)%nat); [rewrite decide_True by lia; done|]. destruct (decide (k = j)) as [->|].
        + rewrite decide_True by lia. rewrite Hw in Hv0. inversion Hv0; subst. by rewrite Ec.
        + rewrite decide_False by lia. done.
      - intros k l p Hl. rewrite (Hspec k l p Hl). unfold cut_spec. split; intros (A & B & C); (split; [done|]); split.
        + intros Hvk c Hcc. destruct (decide (c = j)) as [->|]; [congruence|]. apply B; [done|lia].
        + intros Hck Hkj. destruct (C Hck) as (C1 & C2 & C3). { destruct (decide (k = j)) as [->|]; [congruence|lia]. }
          split; [done|]. split; [done|]. intros Hjk c Hcc. destruct (decide (c = j)) as [->|]; [congruence|]. apply C3; [done|lia].
        + intros Hvk c Hcc. apply B; [done|lia].
        + intros Hck Hkj. destruct (C Hck) as (C1 & C2 & C3); [lia|]. split; [done|]. split; [done|]. intros Hjk c Hcc. apply C3; [done|lia]. }
    rewrite Hll. pose proof (Forall_lookup_1 _ _ _ _ HL0 Hv0) as Hll0. cbv beta in Hll0. rewrite Hll0.
    destruct (cut_layers_has L (printable_union vols0) vols j (seq 0 L) v HL Hv Hcv) as (w & -> & SW & GW).
    { apply Forall_seq. lia. } { apply NoDup_seq. }
    cbn [rbind].
    assert (Hhe : has_extruder v = has_extruder v0) by by rewrite Ev. rewrite Hhe.
    apply IH; [lia| |].
    + (* settings *)
      assert (HSw : forall k x x', vols0 !! k = Some x -> w !! k = Some x' ->
        length (layers x') = length (layers x)
        /\ x' = with_layers (if decide (k < j)%nat then (if cutting x && has_extruder x then no_cutting x else x) else x) (layers x')).
      { intros k x x' Hx Hx'. destruct SW as [Hlw SW]. destruct (lookup_lt_is_Some_2 vols k) as [y Hy]. { apply lookup_lt_Some in Hx. lia. }
        destruct (HS k x y Hx Hy) as [A1 A2]. destruct (SW k y x' Hy Hx') as [B1 B2]. split; [congruence|]. rewrite B1, A2. done. }
      assert (Hlw : length w = length vols0) by (destruct SW; lia).
      split; [destruct (has_extruder v0); [rewrite alter_length|]; done|].
      intros k x x' Hx Hx'. destruct (decide (k = j)) as [->|Hkj].
      * rewrite Hv0 in Hx. inversion Hx; subst x. rewrite decide_True by lia. rewrite Ec. cbn [andb].
        destruct (has_extruder v0) eqn:Eh.
        -- rewrite list_lookup_alter in Hx'. destruct (w !! j) as [y|] eqn:Ey; [|done]. simpl in Hx'. inversion Hx'; subst x'.
           destruct (HSw j v0 y Hv0 Ey) as [A1 A2]. rewrite decide_False in A2 by lia. split; [done|]. rewrite A2. done.
        -- destruct (HSw j v0 x' Hv0 Hx') as [A1 A2]. rewrite decide_False in A2 by lia. done.
      * assert (Hwk : w !! k = Some x'). { destruct (has_extruder v0); [rewrite list_lookup_alter_ne in Hx' by done|]; done. }
        destruct (HSw k x x' Hx Hwk) as [A1 A2]. split; [done|]. rewrite A2 at 1. f_equal.
        destruct (decide (k < j)%nat); [rewrite decide_True by lia|rewrite decide_False by lia]; done.
    + intros k l p Hl.
      assert (Hh : has (if has_extruder v0 then alter no_cutting j w else w) k l p = has w k l p).
      { destruct (has_extruder v0); [|done]. unfold has. destruct (decide (k = j)) as [->|Hkj].
        - rewrite list_lookup_alter. destruct (w !! j); done.
        - by rewrite list_lookup_alter_ne. }
      rewrite Hh, GW. rewrite decide_True by (apply elem_of_seq; lia). clear Hh GW.
      (* who has the point now *)
      assert (Hvict : forall m, victim vols m = true <-> (victim vols0 m = true \/ (joins vols0 m = true /\ (m < j)%nat))).
      { intros m. unfold victim, joins. destruct (vols0 !! m) as [x|] eqn:Ex.
        - destruct (lookup_lt_is_Some_2 vols m) as [y Hy]. { apply lookup_lt_Some in Ex. lia. }
          rewrite Hy. destruct (HS m x y Ex Hy) as [_ ->]. destruct (decide (m < j)%nat).
          + destruct x as [[] [] [] [] ? [] ? ? ? ? ?]; simpl; (split; [intros H; try done; auto|intros [H|[H H1]]; try done; try lia]).
          + destruct x as [[] [] [] [] ? [] ? ? ? ? ?]; simpl; (split; [intros H; try done; auto|intros [H|[H H1]]; try done; try lia]).
        - rewrite lookup_ge_None_2; [naive_solver|]. apply lookup_ge_None in Ex. lia. }
      assert (Hjc : forall m, joins vols0 m = true -> cutter vols0 m = true).
      { intros m. unfold joins, cutter. destruct (vols0 !! m) as [x|]; [|done]. destruct (cutting x); done. }
      assert (Hvc : forall m, victim vols0 m = true -> cutter vols0 m = true -> False).
      { intros m. unfold victim, cutter. destruct (vols0 !! m) as [x|]; [|done]. destruct (cutting x); done. }
      set (V := exists m, victim vols0 m = true /\ has vols0 m l p = true).
      assert (Hany : (exists x, victim vols x = true /\ has vols x l p = true) <->
                     V /\ forall c, (c < j)%nat -> cutter vols0 c = true -> joins vols0 c = false -> has vols0 c l p = false).
      { split.
        - intros (x & Hx & Hhx). apply (Hspec x l p Hl) in Hhx as (A & B & C). apply Hvict in Hx as [Hx|[Hx Hxj]].
          + split; [by exists x|]. intros c Hc1 Hc2 _. by apply B.
          + destruct (C (Hjc x Hx) Hxj) as (C1 & C2 & C3). split; [done|]. intros c Hc1 Hc2 Hc3.
            destruct (lt_eq_lt_dec c x) as [[?| -> ]|?]; [by apply C2|congruence|]. apply C3; [done|lia|done].
        - intros [HV HT]. assert (Hdec : (exists c, (c < j)%nat /\ cutter vols0 c && has vols0 c l p = true) \/ ~ (exists c, (c < j)%nat /\ cutter vols0 c && has vols0 c l p = true)).
          { destruct (existsb (fun c => cutter vols0 c && has vols0 c l p) (seq 0 j)) eqn:Eb.
            - left. apply existsb_exists in Eb as (c & Hc & Hcc). apply in_seq in Hc. exists c. split; [lia|done].
            - right. intros (c & Hc & Hcc). apply not_true_iff_false in Eb. apply Eb, existsb_exists. exists c. split; [apply in_seq; lia|done]. }
          destruct Hdec as [Hex|Hno].
          + destruct Hex as (c & Hc & Hcc). destruct (last_true (fun c => cutter vols0 c && has vols0 c l p) j c Hc Hcc) as (e & He & HPe & Hlast).
            apply andb_true_iff in HPe as [He1 He2].
            assert (Hje : joins vols0 e = true). { destruct (joins vols0 e) eqn:E; [done|]. rewrite (HT e He He1 E) in He2. done. }
            exists e. split; [apply Hvict; auto|]. apply (Hspec e l p Hl). split; [done|]. split; [intros Hve; exfalso; by apply (Hvc e)|].
            intros _ _. split; [done|]. split; [intros c' Hc'; apply HT; lia|]. intros _ c' Hc' Hcut. specialize (Hlast c' Hc').
            rewrite Hcut in Hlast. done.
          + destruct HV as (m & Hm & Hhm). exists m. split; [apply Hvict; auto|]. apply (Hspec m l p Hl). split; [done|]. split.
            * intros _ c Hc Hcut. destruct (has vols0 c l p) eqn:E; [|done]. destruct Hno. exists c. by rewrite Hcut, E.
            * intros Hcm. exfalso. by apply (Hvc m). }
      assert (HVlim : V -> limited (printable_union vols0) v l p = true).
      { intros (m & Hm & Hhm). unfold limited. destruct (has_extruder v); [|done]. destruct (vols0 !! m) as [x|] eqn:Ex; [|by unfold victim in Hm; rewrite Ex in Hm].
        destruct (union_has vols0 l m x p Ex) as (u & -> & Hu); [|done|done]. unfold victim in Hm. rewrite Ex in Hm. unfold isPrinted.
        destruct (cutting x), (other x); done. }
      assert (Hhj : has vols j l p = true <-> has vols0 j l p = true).
      { rewrite (Hspec j l p Hl). split; [by intros [? _]|]. intros H. split; [done|]. split; [intros Hvj; exfalso; by apply (Hvc j)|lia]. }
      destruct (decide (k = j)) as [->|Hkj].
      * rewrite Hhj, Hany. split.
        -- intros (A & _ & HV & HT). split; [done|]. split; [intros Hvj; exfalso; by apply (Hvc j)|]. intros _ _. split; [done|]. split; [done|]. lia.
        -- intros (A & _ & C). destruct (C Hcj) as (C1 & C2 & _); [lia|]. split; [done|]. split; [by apply HVlim|]. done.
      * rewrite Hhj. split.
        -- intros [Hk Hnot]. pose proof Hk as Hk'. apply (Hspec k l p Hl) in Hk' as (A & B & C).
           assert (Hvn : victim vols k = true -> has vols0 j l p = false).
           { intros Hvk. destruct (has vols0 j l p) eqn:E; [|done]. destruct (Hnot Hvk). split; [done|]. apply HVlim.
             assert (Hx : exists x, victim vols x = true /\ has vols x l p = true) by eauto. apply Hany in Hx as [HV _]. done. }
           split; [done|]. split.
           ++ intros Hvk c Hcc Hcut. destruct (decide (c = j)) as [->|]; [|apply B; [done|lia|done]]. apply Hvn, Hvict. by left.
           ++ intros Hck Hkj'. destruct (C Hck) as (C1 & C2 & C3); [lia|]. split; [done|]. split; [done|]. intros Hjk c Hcc Hcut.
              destruct (decide (c = j)) as [->|]; [|apply C3; [done|lia|done]]. apply Hvn, Hvict. right. split; [done|lia].
        -- intros (A & B & C). split.
           ++ apply (Hspec k l p Hl). split; [done|]. split.
              ** intros Hvk c Hcc. apply B; [done|lia].
              ** intros Hck Hkj'. destruct (C Hck) as (C1 & C2 & C3); [lia|]. split; [done|]. split; [done|]. intros Hjk c Hcc. apply C3; [done|lia].
           ++ intros Hvk [Hj1 _]. apply Hvict in Hvk as [Hvk|[Hjk Hkj']].
              ** rewrite (B Hvk j ltac:(lia) Hcj) in Hj1. done.
              ** destruct (C (Hjc k Hjk)) as (_ & _ & C3); [lia|]. rewrite (C3 Hjk j ltac:(lia) Hcj) in Hj1. done.
Qed.

(** ** C58: what belongs to whom after cutting *)
Theorem C58_cut L vols : even_layers L vols ->
  exists vols', carveCuttingMeshes vols = Ok vols' /\ cut_settings (length vols) vols vols'
    /\ forall k l p, (l < L)%nat -> (has vols' k l p = true <-> cut_spec vols (length vols) k l p).
Proof.
  intros HL. unfold carveCuttingMeshes. apply cut_all_has; [done|done| |].
  - split; [done|]. intros k v v' H1 H2. rewrite H1 in H2. inversion H2; subst. split; [done|]. rewrite decide_False by lia. by destruct v'.
  - intros k l p Hl. unfold cut_spec. split; [|by intros [? _]]. intros H. split; [done|]. split; lia.
Qed.

(** Nothing is lost and nothing is added: what was in a mesh to cut from is now there, or in a cutting mesh. *)
Theorem C58_union L vols vols' l p :
  even_layers L vols -> carveCuttingMeshes vols = Ok vols' -> (l < L)%nat ->
  ((exists k, victim vols k = true /\ has vols k l p = true)
   <-> (exists k, (victim vols k = true \/ cutter vols k = true) /\ has vols' k l p = true)).
Proof.
  intros HL E Hl. destruct (C58_cut L vols HL) as (w & E' & _ & G). rewrite E in E'. inversion E'; subst w. clear E'. split.
  - intros (m & Hm & Hh).
    assert (Hlt : forall c, has vols c l p = true -> (c < length vols)%nat).
    { intros c H. unfold has in H. destruct (vols !! c) eqn:Ex; [|done]. by eapply lookup_lt_Some. }
    assert (Hvc : forall x, victim vols x = true -> cutter vols x = true -> False).
    { intros x. unfold victim, cutter. destruct (vols !! x) as [v|]; [|done]. destruct (cutting v); done. }
    (* the first cutting mesh which does not join, or else the last one, or else the mesh itself *)
    set (T := fun c => cutter vols c && negb (joins vols c) && has vols c l p).
    destruct (existsb T (seq 0 (length vols))) eqn:Et.
    + apply existsb_exists in Et as (c & Hc & HT). apply in_seq in Hc.
      assert (Hfirst : exists d, T d = true /\ forall e, (e < d)%nat -> T e = false).
      { clear -HT. revert HT. induction c as [c IH] using lt_wf_ind. intros HT.
        destruct (existsb T (seq 0 c)) eqn:Ex.
        - apply existsb_exists in Ex as (d & Hd & HTd). apply in_seq in Hd. apply (IH d); [lia|done].
        - exists c. split; [done|]. intros e He. destruct (T e) eqn:Ee; [|done]. apply not_true_iff_false in Ex. destruct Ex.
          apply existsb_exists. exists e. split; [apply in_seq; lia|done]. }
      destruct Hfirst as (d & HTd & Hfirst). unfold T in HTd. apply andb_true_iff in HTd as [HTd Hd3]. apply andb_true_iff in HTd as [Hd1 Hd2].
      exists d. split; [by right|]. apply (G d l p Hl). split; [done|]. split; [intros Hv; exfalso; by apply (Hvc d)|]. intros _ _.
      split; [by exists m|]. split.
      * intros e He He1 He2. specialize (Hfirst e He). unfold T in Hfirst. rewrite He1, He2 in Hfirst. done.
      * intros Hj. rewrite Hj in Hd2. done.
    + assert (HnT : forall c, cutter vols c = true -> joins vols c = false -> has vols c l p = false).
      { intros c H1 H2. destruct (has vols c l p) eqn:Eh; [|done]. apply not_true_iff_false in Et. destruct Et. apply existsb_exists.
        exists c. split; [apply in_seq; pose proof (Hlt c Eh); lia|]. unfold T. by rewrite H1, H2, Eh. }
      destruct (existsb (fun c => cutter vols c && has vols c l p) (seq 0 (length vols))) eqn:Ec.
      * apply existsb_exists in Ec as (c & Hc & HT). apply in_seq in Hc.
        destruct (last_true (fun c => cutter vols c && has vols c l p) (length vols) c ltac:(lia) HT) as (d & Hd & HPd & Hlast).
        apply andb_true_iff in HPd as [Hd1 Hd2]. exists d. split; [by right|]. apply (G d l p Hl). split; [done|].
        split; [intros Hv; exfalso; by apply (Hvc d)|]. intros _ _. split; [by exists m|]. split.
        -- intros e _. apply HnT.
        -- intros _ e He He1. specialize (Hlast e He). rewrite He1 in Hlast. done.
      * exists m. split; [by left|]. apply (G m l p Hl). split; [done|]. split; [|intros Hcm; exfalso; by apply (Hvc m)].
        intros _ c Hc Hcc. destruct (has vols c l p) eqn:Eh; [|done]. apply not_true_iff_false in Ec. destruct Ec. apply existsb_exists.
        exists c. split; [apply in_seq; lia|]. by rewrite Hcc, Eh.
  - intros (k & Hk & Hh). apply (G k l p Hl) in Hh as (A & B & C). destruct Hk as [Hk|Hk]; [by exists k|].
    destruct (C Hk) as (HV & _); [|done]. unfold has in A. destruct (vols !! k) eqn:Ex; [|done]. by eapply lookup_lt_Some.
Qed.

(** Cutting meshes are disjoint from the meshes they cut and from each other. *)
Theorem C58_disjoint L vols vols' k m l p :
  even_layers L vols -> carveCuttingMeshes vols = Ok vols' -> (l < L)%nat ->
  cutter vols k = true -> (victim vols m = true \/ cutter vols m = true) -> k ≠ m ->
  has vols' k l p = true -> has vols' m l p = true -> False.
Proof.
  intros HL E Hl Hk Hm Hne H1 H2. destruct (C58_cut L vols HL) as (w & E' & _ & G). rewrite E in E'. inversion E'; subst w. clear E'.
  assert (Hlt : forall c, has vols c l p = true -> (c < length vols)%nat).
  { intros c H. unfold has in H. destruct (vols !! c) eqn:Ex; [|done]. by eapply lookup_lt_Some. }
  apply (G k l p Hl) in H1 as (A1 & _ & C1). apply (G m l p Hl) in H2 as (A2 & B2 & C2). destruct Hm as [Hm|Hm].
  - rewrite (B2 Hm k (Hlt k A1) Hk) in A1. done.
  - destruct (C1 Hk (Hlt k A1)) as (_ & P1 & Q1). destruct (C2 Hm (Hlt m A2)) as (_ & P2 & Q2).
    destruct (lt_eq_lt_dec k m) as [[Hkm|Hkm]|Hkm]; [|done|].
    + destruct (joins vols k) eqn:Ej.
      * rewrite (Q1 eq_refl m) in A2; [done|pose proof (Hlt m A2); lia|done].
      * rewrite (P2 k Hkm Hk Ej) in A1. done.
    + destruct (joins vols m) eqn:Ej.
      * rewrite (Q2 eq_refl k) in A1; [done|pose proof (Hlt k A1); lia|done].
      * rewrite (P1 m Hkm Hm Ej) in A2. done.
Qed.

(** ** C59: the overlap of volumes *)
Lemma area_set L vols k l a m l' : even_layers L vols -> (k < length vols)%nat -> (l < L)%nat ->
  area_at (set_area vols k l a) m l' = if decide (m = k /\ l' = l) then a else area_at vols m l'.
Proof.
  intros HL Hk Hl. unfold area_at, at_layer. rewrite set_area_lookup. destruct (lookup_lt_is_Some_2 vols k Hk) as [v Hv].
  pose proof (Forall_lookup_1 _ _ _ _ HL Hv) as Hlen. cbv beta in Hlen.
  destruct (decide (m = k)) as [->|Hn].
  - rewrite Hv. simpl. destruct (decide (l' = l)) as [->|Hne].
    + rewrite decide_True by done. rewrite list_lookup_insert by lia. done.
    + rewrite decide_False by naive_solver. by rewrite list_lookup_insert_ne.
  - rewrite decide_False by naive_solver. done.
Qed.
Lemma get_area_at L vols k l : even_layers L vols -> (k < length vols)%nat -> (l < L)%nat -> get_area vols k l = Ok (area_at vols k l).
Proof.
  intros HL Hk Hl. destruct (lookup_lt_is_Some_2 vols k Hk) as [v Hv]. pose proof (Forall_lookup_1 _ _ _ _ HL Hv) as Hlen. cbv beta in Hlen.
  destruct (lookup_lt_is_Some_2 (layers v) l) as [a Ha]; [lia|]. unfold get_area, get_vol, area_at, at_layer. rewrite Hv. cbn [of_opt rbind].
  by rewrite Ha.
Qed.
Lemma same_overlapping a b k : same_settings a b -> overlapping b k = overlapping a k /\ overlap_of b k = overlap_of a k.
Proof.
  intros H. unfold overlapping, overlap_of. destruct (a !! k) as [v|] eqn:E.
  - destruct (same_lookup a b k v H E) as (v' & -> & -> & _). done.
  - destruct H as [Hl _]. apply lookup_ge_None in E. rewrite lookup_ge_None_2 by lia. done.
Qed.

Section overlap_props.
  Context (offset : Z -> area -> area).

  Lemma all_others_has L vols k l bx ms : even_layers L vols -> (l < L)%nat -> Forall (fun m => m < length vols)%nat ms ->
    exists u, all_others offset vols k l bx ms = Ok u
      /\ forall p, u p = true <-> exists m w, m ∈ ms /\ m ≠ k /\ overlapping vols m = true /\ vols !! m = Some w
                                   /\ aabb3_hit (box w) bx = true /\ offset 20 (area_at vols m l) p = true.
  Proof.
    intros HL Hl HF. induction ms as [|m ms IH]; cbn [all_others].
    - eexists. split; [done|]. intros p. unfold a_empty. split; [done|]. intros (m & w & H & _). by apply elem_of_nil in H.
    - apply Forall_cons in HF as [Hm HF]. destruct (IH HF) as (u & -> & Hu). destruct (lookup_lt_is_Some_2 vols m Hm) as [v Hv].
      unfold get_vol at 1. rewrite Hv. cbn [of_opt rbind].
      assert (Hov : overlapping vols m = isModelMesh v && negb (support v)).
      { unfold overlapping, isModelMesh, isPrinted. rewrite Hv. by destruct (cutting v), (other v), (infill v), (support v). }
      destruct (negb (isModelMesh v) || support v || negb (aabb3_hit (box v) bx) || Nat.eqb m k) eqn:Es.
      + exists u. split; [done|]. intros p. rewrite Hu. split; intros (m' & w & H1 & H2 & H3 & H4 & H5 & H6); exists m', w.
        * split; [by right|]. done.
        * apply elem_of_cons in H1 as [->|H1]; [|done]. exfalso. rewrite Hv in H4. inversion H4; subst w. rewrite Hov in H3. rewrite H5 in Es.
          apply andb_true_iff in H3 as [H3a H3]. rewrite H3a in Es. apply negb_true_iff in H3. rewrite H3 in Es. cbn [negb orb] in Es. by apply Nat.eqb_eq in Es.
      + rewrite (get_area_at L) by done. cbn [rbind]. eexists. split; [done|]. intros p. unfold a_union. rewrite orb_true_iff, Hu.
        apply orb_false_iff in Es as [Es E4]. apply orb_false_iff in Es as [Es E3]. apply orb_false_iff in Es as [E1 E2].
        apply negb_false_iff in E1. apply negb_false_iff in E3. apply Nat.eqb_neq in E4. split.
        * intros [H|(m' & w & H1 & H')].
          -- exists m, v. rewrite Hov, E1, E2. split; [left|]. done.
          -- exists m', w. split; [by right|done].
        * intros (m' & w & H1 & H2 & H3 & H4 & H5 & H6). apply elem_of_cons in H1 as [->|H1]; [by left|]. right. exists m', w. done.
  Qed.

  Lemma overlap_layers_has L vols k bx half ls : even_layers L vols -> (k < length vols)%nat -> Forall (fun l => l < L)%nat ls -> NoDup ls ->
    exists w, overlap_layers offset vols k bx half ls = Ok w /\ same_settings vols w
      /\ (forall m l, m ≠ k -> area_at w m l = area_at vols m l)
      /\ (forall l, l ∉ ls -> area_at w k l = area_at vols k l)
      /\ (forall l p, l ∈ ls -> area_at w k l p = true <->
            area_at vols k l p = true
            \/ (offset half (area_at vols k l) p = true
                /\ exists m x, m ≠ k /\ overlapping vols m = true /\ vols !! m = Some x /\ aabb3_hit (box x) bx = true
                           /\ offset 20 (area_at vols m l) p = true)).
  Proof.
    intros HL Hk HF Hnd. revert vols HL Hk. induction ls as [|l ls IH]; intros vols HL Hk; cbn [overlap_layers].
    - exists vols. split; [done|]. split; [apply same_refl|]. split; [done|]. split; [done|]. intros l p H. by apply elem_of_nil in H.
    - apply Forall_cons in HF as [Hl HF]. apply NoDup_cons in Hnd as [Hn Hnd].
      destruct (all_others_has L vols k l bx (seq 0 (length vols)) HL Hl) as (u & -> & Hu). { apply Forall_seq. lia. }
      rewrite (get_area_at L) by done. cbn [rbind].
      set (a' := a_union _ _). set (v1 := set_area vols k l a').
      assert (S1 : same_settings vols v1) by apply set_area_same.
      assert (Har : forall m l', area_at v1 m l' = if decide (m = k /\ l' = l) then a' else area_at vols m l') by (intros; by apply (area_set L)).
      destruct (IH HF Hnd v1) as (w & E & S & G1 & G2 & G3); [by eapply same_even|destruct S1; lia|].
      exists w. split; [done|]. split; [by eapply same_trans|]. split; [|split].
      + intros m l' Hm. rewrite G1 by done. rewrite Har. by rewrite decide_False by naive_solver.
      + intros l' Hl'. rewrite G2 by set_solver. rewrite Har. rewrite decide_False; [done|]. set_solver.
      + intros l' p Hl'. destruct (decide (l' = l)) as [->|Hne].
        * rewrite G2 by done. rewrite Har. rewrite decide_True by done. unfold a', a_union, a_inter. rewrite orb_true_iff, andb_true_iff, Hu. split.
          -- intros [H|[(m & x & H1 & H2) H3]]; [by left|]. right. split; [done|]. exists m, x. done.
          -- intros [H|[H3 (m & x & H1 & H2 & H4 & H5)]]; [by left|]. right. split; [|done]. exists m, x. split; [|done].
             apply elem_of_seq. apply lookup_lt_Some in H4. lia.
        * assert (Hin : l' ∈ ls) by (apply elem_of_cons in Hl' as [?|?]; done). rewrite (G3 l' p Hin). rewrite Har.
          rewrite (decide_False (P := k = k /\ l' = l)) by naive_solver.
          split; (intros [H|[H (m & x & H1 & H2 & H3 & H4 & H5)]]; [by left|]; right; split; [done|]).
          -- destruct (lookup_lt_is_Some_2 vols m) as [y Hy]. { apply lookup_lt_Some in H3. destruct S1; lia. }
             destruct S1 as [SL SS]. destruct (SS m y x Hy H3) as [Ex _]. exists m, y. rewrite (proj1 (same_overlapping _ _ _ (conj SL SS))) in H2.
             rewrite Har in H5. rewrite decide_False in H5 by naive_solver. rewrite Ex in H4. done.
          -- destruct (same_lookup _ _ _ _ S1 H3) as (y & Hy & Ey & _). exists m, y. rewrite (proj1 (same_overlapping _ _ _ S1)).
             rewrite Har. rewrite decide_False by naive_solver. assert (Hb : box y = box x) by by rewrite Ey. rewrite Hb. done.
  Qed.

  Lemma overlap_all_has L vols0 vols j d :
    even_layers L vols0 -> (j + d = length vols0)%nat -> same_settings vols0 vols ->
    (forall k l, (j <= k)%nat -> area_at vols k l = area_at vols0 k l) ->
    (forall k l p, (k < j)%nat -> (l < L)%nat -> area_at vols k l p = true <-> grown offset vols0 vols k l p) ->
    exists w, overlap_all offset vols (seq j d) = Ok w /\ same_settings vols0 w
      /\ forall k l p, (l < L)%nat -> area_at w k l p = true <-> grown offset vols0 w k l p.
  Proof.
    intros HL0. revert vols j. induction d as [|d IH]; intros vols j Hj HS Hge Hlt; cbn [seq overlap_all].
    - exists vols. split; [done|]. split; [done|]. intros k l p Hl. destruct (decide (k < j)%nat) as [Hk|Hk]; [by apply Hlt|].
      rewrite Hge by lia. unfold grown. split; [by left|]. intros [H|(H & _)]; [done|]. unfold overlapping in H.
      rewrite lookup_ge_None_2 in H by lia. done.
    - destruct (lookup_lt_is_Some_2 vols0 j) as [v0 Hv0]; [lia|].
      destruct (same_lookup _ _ _ _ HS Hv0) as (v & Hv & Ev & Hll). unfold get_vol. rewrite Hv. cbn [of_opt rbind].
      pose proof (same_even _ _ _ HS HL0) as HL. assert (Hlv : length vols = length vols0) by (destruct HS; done).
      assert (Hov : overlapping vols0 j = isModelMesh v && negb (support v)).
      { unfold overlapping, isModelMesh, isPrinted. rewrite Hv0, Ev. simpl. by destruct (cutting v0), (other v0), (infill v0), (support v0). }
      assert (Hof : overlap_of vols0 j = overlap v) by (unfold overlap_of; by rewrite Hv0, Ev).
      assert (Hstep : exists w,
        (if negb (isModelMesh v) || support v || (overlap v =? 0) then Ok vols
         else overlap_layers offset vols j (aabb3_expandXY (box v) (overlap v)) (overlap v ÷ 2) (seq 0 (length (layers v)))) = Ok w
        /\ same_settings vols w /\ (forall m l, m ≠ j -> area_at w m l = area_at vols m l)
        /\ forall l p, (l < L)%nat -> area_at w j l p = true <-> grown offset vols0 vols j l p).
      { destruct (negb (isModelMesh v) || support v || (overlap v =? 0)) eqn:Es.
        - exists vols. split; [done|]. split; [apply same_refl|]. split; [done|]. intros l p Hl. rewrite Hge by lia. unfold grown.
          split; [by left|]. intros [H|(H1 & H2 & _)]; [done|]. exfalso. rewrite Hov in H1. rewrite Hof in H2.
          apply andb_true_iff in H1 as [H1 H1']. rewrite H1 in Es. apply negb_true_iff in H1'. rewrite H1' in Es. cbn [negb orb] in Es.
          by apply Z.eqb_eq in Es.
        - apply orb_false_iff in Es as [Es E3]. apply orb_false_iff in Es as [E1 E2]. apply negb_false_iff in E1. apply Z.eqb_neq in E3.
          pose proof (Forall_lookup_1 _ _ _ _ HL Hv) as Hlen. cbv beta in Hlen. rewrite Hlen.
          destruct (overlap_layers_has L vols j (aabb3_expandXY (box v) (overlap v)) (overlap v ÷ 2) (seq 0 L) HL) as (w & E & S & G1 & G2 & G3).
          { lia. } { apply Forall_seq. lia. } { apply NoDup_seq. }
          exists w. split; [done|]. split; [done|]. split; [done|]. intros l p Hl.
          assert (Hin : l ∈ seq 0 L) by (apply elem_of_seq; lia). rewrite (G3 l p Hin). unfold grown. rewrite Hge by lia. rewrite Hof, Hov, E1, E2.
          assert (Hcur : forall m, area_at (if decide (m < j)%nat then vols else vols0) m l = area_at vols m l).
          { intros m. case_decide; [done|]. rewrite Hge by lia. done. }
          split; (intros [H|H]; [by left|right]).
          + destruct H as [H (m & x & H1 & H2 & H3 & H4 & H5)]. split; [done|]. split; [done|]. split; [done|]. exists m. split; [done|].
            rewrite (proj1 (same_overlapping _ _ m HS)) in H2. split; [done|]. rewrite Hcur. split; [|done].
            destruct (lookup_lt_is_Some_2 vols0 m) as [y Hy]. { apply lookup_lt_Some in H3. lia. }
            destruct (same_lookup _ _ _ _ HS Hy) as (x' & Hx' & Ex & _). rewrite H3 in Hx'. inversion Hx'; subst x'.
            exists v0, y. split; [done|]. split; [done|]. rewrite Ex, Ev in H4. done.
          + destruct H as (_ & _ & H & m & H1 & H2 & (y0 & y & Hy0 & Hy & H4) & H5). split; [done|]. rewrite Hcur in H5.
            destruct (same_lookup _ _ _ _ HS Hy) as (x & Hx & Ex & _). rewrite Hv0 in Hy0. inversion Hy0; subst y0.
            exists m, x. split; [done|]. rewrite (proj1 (same_overlapping _ _ m HS)). split; [done|]. split; [done|]. rewrite Ex, Ev. done. }
      destruct Hstep as (w & -> & S & G1 & G2). cbn [rbind].
      assert (Hgr : forall k l p, (k <= j)%nat -> grown offset vols0 w k l p <-> grown offset vols0 vols k l p).
      { intros k l p Hk. unfold grown. split; (intros [H|(H1 & H2 & H3 & m & H4 & H5 & H6 & H7)]; [by left|right]; split; [done|]; split; [done|];
          split; [done|]; exists m; split; [done|]; split; [done|]; split; [done|]).
        - destruct (decide (m < k)%nat); [|done]. rewrite G1 in H7; [done|lia].
        - destruct (decide (m < k)%nat); [|done]. rewrite G1; [done|lia]. }
      apply IH; [lia|by eapply same_trans| |].
      + intros k l Hk. rewrite G1 by lia. apply Hge. lia.
      + intros k l p Hk Hl. rewrite Hgr by lia. destruct (decide (k = j)) as [->|Hne].
        * by apply G2.
        * rewrite G1 by done. apply Hlt; [lia|done].
  Qed.

  (** Every volume becomes exactly what it was, and, if it takes part, what of half its overlap around it is near to another
      one; volumes before it have grown already. *)
  Theorem C59_grown L vols : even_layers L vols ->
    exists vols', generateMultipleVolumesOverlap offset vols = Ok vols' /\ same_settings vols vols'
      /\ forall k l p, (l < L)%nat -> area_at vols' k l p = true <-> grown offset vols vols' k l p.
  Proof.
    intros HL. unfold generateMultipleVolumesOverlap. destruct (length vols <? 2)%nat eqn:E.
    - apply Nat.ltb_lt in E. exists vols. split; [done|]. split; [apply same_refl|]. intros k l p Hl. unfold grown. split; [by left|].
      intros [H|(H1 & _ & _ & m & H2 & H3 & _)]; [done|]. exfalso. unfold overlapping in H1, H3.
      destruct (vols !! k) eqn:Ek; [|done]. destruct (vols !! m) eqn:Em; [|done]. apply lookup_lt_Some in Ek. apply lookup_lt_Some in Em. lia.
    - apply (overlap_all_has L vols vols 0); [done|done|apply same_refl|done|lia].
  Qed.
End overlap_props.

(** ** Examples *)
Definition square (x0 x1 : Z) : area := fun p => (x0 <=? p.1) && (p.1 <=? x1) && (0 <=? p.2) && (p.2 <=? 10).
Definition big_box : AABB3D := Aabb3 (Pt3 0 0 0) (Pt3 100 100 100).
Definition model_vol (o : Z) (bx : AABB3D) (ls : list area) : volume := Vol false false false false false false false o 5 bx ls.
(** three models, of which the last has a lower order *)
Definition ex_vols : list volume :=
  [model_vol 1 big_box [square 0 10; square 0 10]; model_vol 1 big_box [square 5 20; square 5 20]; model_vol 0 big_box [square 18 30; square 8 30]].
Example C41_example :
  even_layers 2 ex_vols /\ in_boxes (fun _ => 50) ex_vols
  /\ (exists vols', carveMultipleVolumes true ex_vols = Ok vols'
     /\ (fun k => (has vols' k 0 (7, 5), has vols' k 1 (7, 5), has vols' k 1 (9, 5))) <$> [0; 1; 2]%nat
        = [(false, true, false); (true, false, false); (false, false, true)])
  /\ (exists vols', carveMultipleVolumes false ex_vols = Ok vols' /\ (fun k => has vols' k 0 (7, 5)) <$> [0; 1; 2]%nat = [true; false; false]).
Proof.
  split; [repeat constructor|]. split.
  { intros k v l p Hv Hh. unfold has in Hh. rewrite Hv in Hh.
    assert (Hb : box v = big_box) by (destruct k as [|[|[|k]]]; inversion Hv; done).
    assert (Hsq : exists x0 x1, 0 <= x0 /\ x1 <= 100 /\ square x0 x1 p = true).
    { destruct k as [|[|[|k]]]; inversion Hv; subst v; destruct l as [|[|l]]; cbn in Hh; try done; eexists _, _; (split; [|split; [|exact Hh]]); lia. }
    destruct Hsq as (x0 & x1 & H0 & H1 & Hs). unfold square in Hs. rewrite !andb_true_iff, !Z.leb_le in Hs. rewrite Hb. simpl. lia. }
  split; eexists; (split; [vm_compute; reflexivity|]); vm_compute; reflexivity.
Qed.

(** Without the boxes it does not hold: where overhangs are made printable the areas grow, but the boxes of the meshes do not
    (ConicalOverhang::apply), and neighbours remain overlapping. *)
Theorem C41_box_refuted : exists vols vols' p,
  even_layers 1 vols /\ carvable vols 0 /\ carvable vols 1 /\ carveMultipleVolumes false vols = Ok vols'
  /\ has vols' 0 0 p = true /\ has vols' 1 0 p = true.
Proof.
  exists [model_vol 0 (Aabb3 (Pt3 0 0 0) (Pt3 10 10 10)) [square 0 15]; model_vol 0 (Aabb3 (Pt3 12 0 0) (Pt3 20 10 10)) [square 12 20]].
  eexists _, (13, 5). split; [repeat constructor|]. split; [eexists; split; [done|done]|]. split; [eexists; split; [done|done]|].
  split; [vm_compute; reflexivity|]. split; reflexivity.
Qed.

(** a model, a cutting mesh with an extruder and two plain ones *)
Definition cut_vol (ext : bool) (a : area) : volume := Vol true false ext false false false false 0 0 big_box [a].
Definition ex_cut : list volume :=
  [model_vol 0 big_box [square 0 30]; cut_vol true (square 5 20); cut_vol false (square 10 40); cut_vol false (square 15 35)].
Example C58_example :
  even_layers 1 ex_cut /\ (fun k => (victim ex_cut k, cutter ex_cut k, joins ex_cut k)) <$> [0; 1; 2; 3]%nat
    = [(true, false, false); (false, true, true); (false, true, false); (false, true, false)]
  /\ exists vols', carveCuttingMeshes ex_cut = Ok vols'
     /\ (fun k => (has vols' k 0 (2, 5), has vols' k 0 (7, 5), has vols' k 0 (18, 5), has vols' k 0 (33, 5))) <$> [0; 1; 2; 3]%nat
        = [(true, false, false, false); (false, true, false, false); (false, false, true, false); (false, false, false, false)].
Proof.
  split; [repeat constructor|]. split; [done|]. eexists. split; [vm_compute; reflexivity|]. vm_compute. reflexivity.
Qed.

(** squares, and an offset which widens them *)
Definition widen (d : Z) (a : area) : area := fun p => a p || a (p.1 - d, p.2) || a (p.1 + d, p.2).
Example C59_example :
  exists vols', generateMultipleVolumesOverlap widen ex_vols = Ok vols'
    /\ overlapping ex_vols 0 = true /\ overlap_of ex_vols 0 = 5 /\ near ex_vols 0 1
    /\ has ex_vols 0 0 (12, 5) = false /\ has vols' 0 0 (12, 5) = true /\ has vols' 0 0 (14, 5) = false.
Proof.
  eexists. split; [vm_compute; reflexivity|]. split; [done|]. split; [done|]. split; [eexists _, _; done|]. done.
Qed.

Print Assumptions C41_winner.
Print Assumptions C41_disjoint.
Print Assumptions C41_union.
Print Assumptions C41_others.
Print Assumptions C41_box_refuted.
Print Assumptions C58_cut.
Print Assumptions C58_union.
Print Assumptions C58_disjoint.
Print Assumptions C59_grown.
