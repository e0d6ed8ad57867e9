(** Lemmas for C22. *)
From Coq Require Import ZArith Lia.
From stdpp Require Import list.
From Verif Require Import Common Geo_Model Geo_Spec Order_Model Grid_Model Grid_Proofs Grid_Props Ooze_Props
  PolyStitch_Model PolyStitch_Spec.
Open Scope Z_scope.

Section proofs.
  Context {J : Type} (mp : J -> pt) (walls : bool) (lines : list (list J * bool)) (mx sn : Z).
  Hypothesis Hmx : 0 < mx.
  Hypothesis Hmax : mx + 10 < COORD_MAX.
  Hypothesis Hne : forall i l o, lines !! i = Some (l, o) -> l <> [].

  Notation is_end := (is_end lines).
  Notation dist := (dist mp).
  Notation joined := (joined mp mx sn).
  Notation the_line := (the_line lines).

  Lemma length_of_path c : length_of mp c = path_length mp c.
  Proof. induction c as [|a [|b c] IH]; [done|done|]. change (vSize (psub (mp b) (mp a)) + length_of mp (b :: c) = dist b a + path_length mp (b :: c)). by rewrite IH. Qed.
  Lemma path_length_cons a b c : path_length mp (a :: b :: c) = dist b a + path_length mp (b :: c).
  Proof. done. Qed.
  Lemma added_length_path c b add : last c = Some b ->
    path_length mp c + added_length mp b add = path_length mp (c ++ add).
  Proof.
    unfold added_length. rewrite (length_of_path (b :: add)). induction c as [|a [|a' c] IH]; intros Hl; [done| |].
    - injection Hl as <-. change (0 + path_length mp (a :: add) = path_length mp (a :: add)). lia.
    - rewrite last_cons_cons in Hl. specialize (IH Hl). simpl app in *. rewrite !path_length_cons. lia.
  Qed.
  Lemma dist_sym a b : dist a b = dist b a.
  Proof. apply vSize_sym. Qed.
  Lemma path_length_snoc c b a : path_length mp (c ++ [b; a]) = path_length mp (c ++ [b]) + dist a b.
  Proof.
    induction c as [|x [|y c] IH]; [cbn; lia|cbn; lia|]. simpl app in *. rewrite !path_length_cons. lia.
  Qed.
  Lemma path_length_reverse c : path_length mp (reverse c) = path_length mp c.
  Proof.
    induction c as [|a [|b c] IH]; [done|done|]. rewrite !reverse_cons, <- app_assoc. cbn [app].
    rewrite path_length_snoc, <- reverse_cons, IH, path_length_cons, (dist_sym a b). lia.
  Qed.

  (** *** the search *)
  Definition weight (rev sc codd : bool) (from front : pt) (size : nat) (len : Z) (proc : list bool) (n : nat * nat)
      : option (Z * bool) :=
    let d := vSize (psub (p_of mp lines n) from) in
    if mx <? d then None
    else
      let near := vSize2 (psub (p_of mp lines n) front) <? sn * sn in
      if near && ((len + d <? 3 * mx) || (size <=? 2)%nat) then None
      else if negb near && default true (proc !! n.1) then None
      else if negb (canReverse walls lines n) && xorb (negb (n.2 =? 0)%nat) rev then None
      else if negb (canConnect walls lines codd n.1) then None
      else Some (if near then (if negb sc then d + 10 else d - 10) else d, near).

  Lemma visit_weight rev sc codd from front size len proc s n :
    visit mp walls lines mx sn rev sc codd from front size len proc s n =
    match weight rev sc codd from front size len proc n with
    | None => (s, true)
    | Some (d, near) => (if d <? closest_distance s then Search (Some n) near d else s, negb (d <? sn))
    end.
  Proof. unfold visit, weight. cbv zeta. repeat case_match; done. Qed.

  Definition wf (w : nat * nat -> option (Z * bool)) (s : search) (n : nat * nat) : search * bool :=
    match w n with
    | None => (s, true)
    | Some (d, near) => (if d <? closest_distance s then Search (Some n) near d else s, negb (d <? sn))
    end.

  Lemma run_search (w : nat * nat -> option (Z * bool)) l : forall s,
    (forall n d near, w n = Some (d, near) -> d < COORD_MAX) ->
    let s' := (run (wf w) s l).1 in
    (s' = s \/ exists n d near, n ∈ l /\ w n = Some (d, near) /\ s' = Search (Some n) near d /\ d < closest_distance s) /\
    ((closest_distance s' < sn /\ exists n d near, w n = Some (d, near) /\ closest_distance s' <= d) \/
     forall n d near, n ∈ l -> w n = Some (d, near) -> closest_distance s' <= d).
  Proof.
    induction l as [|n l IH]; intros s Hw; cbn [run].
    - split; [by left|]. right. intros n d near Hn. by apply elem_of_nil in Hn.
    - destruct (w n) as [[d near]|] eqn:En.
      + assert (Hf : wf w s n = (if d <? closest_distance s then Search (Some n) near d else s, negb (d <? sn)))
          by (unfold wf; by rewrite En).
        rewrite Hf. clear Hf. cbn [fst snd]. destruct (d <? sn) eqn:Esn; cbn [negb].
        * apply Z.ltb_lt in Esn. cbn [fst]. destruct (Z.ltb_spec d (closest_distance s)) as [Hd|Hd].
          -- split; [right|left]. { exists n, d, near. split; [apply elem_of_list_here|]. split; [exact En|]. split; [reflexivity|exact Hd]. } { split; [exact Esn|]. exists n, d, near. split; [exact En|simpl; lia]. }
          -- split; [by left|]. left. split; [lia|]. exists n, d, near. done.
        * set (s1 := if d <? closest_distance s then Search (Some n) near d else s).
          destruct (IH s1 Hw) as [A B]. cbv zeta in A, B. set (s' := (run (wf w) s1 l).1) in *.
          assert (Hs1 : closest_distance s1 <= d /\ closest_distance s1 <= closest_distance s).
          { unfold s1. destruct (Z.ltb_spec d (closest_distance s)); simpl; lia. }
          assert (Hs' : closest_distance s' <= closest_distance s1).
          { destruct A as [-> |(n' & d' & near' & _ & _ & -> & Hd)]; simpl; lia. }
          split.
          -- destruct A as [-> |(n' & d' & near' & Hin & Hw' & -> & Hd)].
             ++ unfold s1. destruct (Z.ltb_spec d (closest_distance s)); [|by left].
                right. exists n, d, near. split; [apply elem_of_list_here|]. done.
             ++ right. exists n', d', near'. split; [by apply elem_of_list_further|]. split; [done|]. split; [done|]. lia.
          -- destruct B as [B|B]; [by left|right]. intros n' d' near' Hin Hw'.
             apply elem_of_cons in Hin as [-> |Hin]; [|by eapply B]. rewrite En in Hw'. injection Hw' as <- <-. lia.
      + assert (Hf : wf w s n = (s, true)) by (unfold wf; by rewrite En). rewrite Hf. clear Hf.
        destruct (IH s Hw) as [A B]. cbv zeta in A, B. set (s' := (run (wf w) s l).1) in *. split.
        * destruct A as [-> |(n' & d' & near' & Hin & Hw' & E & Hd)]; [by left|].
          right. exists n', d', near'. split; [by apply elem_of_list_further|]. done.
        * destruct B as [B|B]; [by left|right]. intros n' d' near' Hin Hw'.
          apply elem_of_cons in Hin as [-> |Hin]; [|by eapply B]. congruence.
  Qed.

  (** *** ends *)
  Lemma p_of_end n x : is_end n x -> p_of mp lines n = mp x.
  Proof.
    intros (l & o & Hl & Hx & _). unfold p_of, points_of. rewrite Hl. simpl. by rewrite Hx.
  Qed.
  Lemma is_end_fun n x y : is_end n x -> is_end n y -> x = y.
  Proof. intros (l & o & Hl & Hx & _) (l' & o' & Hl' & Hy & _). congruence. Qed.
  Lemma elem_of_ends n : n ∈ ends lines <-> exists x, is_end n x.
  Proof.
    unfold ends. rewrite elem_of_list_In, in_flat_map. split.
    - intros (i & Hi & Hn). apply elem_of_list_In, elem_of_seq in Hi.
      destruct (lines !! i) as [[l o]|] eqn:El; [|apply lookup_ge_None in El; lia].
      pose proof (Hne _ _ _ El) as Hl. unfold points_of in Hn. rewrite El in Hn. simpl in Hn.
      destruct l as [|a l]; [done|]. destruct Hn as [<- |[<- |[]]].
      + exists a, (a :: l), o. simpl. split; [done|]. split; [done|]. by left.
      + simpl. destruct (lookup_lt_is_Some_2 (a :: l) (length l)) as [x Hx]; [simpl; lia|].
        exists x, (a :: l), o. simpl. split; [done|]. split; [done|]. by right.
    - intros (x & l & o & Hl & Hx & Hk). exists n.1. split.
      { apply elem_of_list_In, elem_of_seq. apply lookup_lt_Some in Hl. lia. }
      unfold points_of. rewrite Hl. simpl. destruct n as [i k]. simpl in *. destruct Hk as [-> |Hk]; [by left|].
      right. left. f_equal. lia.
  Qed.

  Variable grid : gridmap (nat * nat).
  Hypothesis Hgrid : point_grid (p_of mp lines) mx (ends lines) grid.

  Lemma nearby_sound q n : n ∈ nearby_elems mx grid q mx -> exists x, is_end n x.
  Proof.
    intros Hn. rewrite (nearby_elems_of (p_of mp lines) mx (ends lines)) in Hn by done.
    apply elem_of_list_filter in Hn as [_ Hn]. by apply elem_of_ends.
  Qed.
  Lemma nearby_complete q n x : is_end n x -> dist2 (mp x) q <= mx * mx -> n ∈ nearby_elems mx grid q mx.
  Proof.
    intros Hx Hd. rewrite (nearby_elems_of (p_of mp lines) mx (ends lines)) by done.
    apply elem_of_list_filter. split; [|by apply elem_of_ends; eauto].
    rewrite (p_of_end _ _ Hx). apply disc_in_square in Hd; [|lia]. apply within_cell; lia.
  Qed.

  Lemma odd_of_spec i l o : lines !! i = Some (l, o) -> odd_of lines i = o.
  Proof. intros H. unfold odd_of. by rewrite H. Qed.

  Definition taken (proc : list bool) (j : nat) : Prop := default true (proc !! j) = true.

  Lemma weight_spec rev sc i (c : list J) b f proc n x :
    (exists l o, lines !! i = Some (l, o)) ->
    last c = Some b -> head c = Some f -> is_end n x ->
    match weight rev sc (odd_of lines i) (mp b) (mp f) (length c) (path_length mp c) proc n with
    | None => ~ allowed mp lines mx sn walls rev i (taken proc) c n x
    | Some (d, near) => allowed mp lines mx sn walls rev i (taken proc) c n x /\ cost mp sn sc c x d /\
                        (near = true <-> snaps mp sn x f) /\ (near = false -> ~ taken proc n.1)
    end.
  Proof.
    intros (li & oi & Hi) Hb Hf Hx. unfold weight. rewrite (p_of_end n x Hx). cbv zeta.
    change (vSize (psub (mp x) (mp b))) with (dist x b).
    destruct (Z.ltb_spec mx (dist x b)) as [H1|H1].
    { intros (b' & f' & Hb' & _ & _ & Hd & _). rewrite Hb in Hb'. injection Hb' as <-. lia. }
    assert (Hsn : (vSize2 (psub (mp x) (mp f)) <? sn * sn) = true <-> snaps mp sn x f).
    { unfold snaps. apply Z.ltb_lt. }
    set (near := vSize2 (psub (mp x) (mp f)) <? sn * sn) in *. clearbody near.
    destruct (near && _) eqn:E1.
    { intros (b' & f' & Hb' & Hf' & _ & Hd & _ & Hc). rewrite Hb in Hb'. rewrite Hf in Hf'.
      injection Hb' as <-. injection Hf' as <-. apply andb_true_iff in E1 as [-> E1].
      destruct Hc as [[Hc _]|(_ & Hc1 & Hc2)]; [tauto|]. apply orb_true_iff in E1 as [E1|E1].
      - apply Z.ltb_lt in E1. lia.
      - apply Nat.leb_le in E1. lia. }
    destruct (negb near && _) eqn:E2.
    { intros (b' & f' & Hb' & Hf' & _ & Hd & _ & Hc). rewrite Hf in Hf'. injection Hf' as <-.
      apply andb_true_iff in E2 as [E2 Ht]. destruct near; [done|].
      destruct Hc as [[_ Hc]|(Hc & _)]; [by apply Hc|]. apply Hsn in Hc. done. }
    assert (Hend := Hx). destruct Hend as (ln & on & Hn & Hxn & Hk).
    pose proof (odd_of_spec _ _ _ Hn) as Hon. pose proof (odd_of_spec _ _ _ Hi) as Hoi.
    destruct (negb (canReverse walls lines n) && _) eqn:E3.
    { intros (b' & f' & _ & _ & _ & _ & Hu & _). apply andb_true_iff in E3 as [E3 E4].
      unfold canReverse in E3. destruct walls; [|done]. destruct (Hu eq_refl) as [_ Hu2].
      rewrite Hon in E3. destruct on; [done|]. unfold even in Hu2. specialize (Hu2 ltac:(eauto)).
      destruct n.2 as [|k]; simpl in E4; destruct rev; simpl in E4; try done; [by destruct Hu2 as [Hu2 _]; specialize (Hu2 eq_refl)|].
      destruct Hu2 as [_ Hu2]. by specialize (Hu2 eq_refl). }
    destruct (negb (canConnect walls lines (odd_of lines i) n.1)) eqn:E4.
    { intros (b' & f' & _ & _ & _ & _ & Hu & _). unfold canConnect in E4. destruct walls; [|done].
      rewrite Hon, Hoi in E4. destruct (Hu eq_refl) as [Hu1 _]. unfold odd in Hu1.
      destruct oi, on; simpl in E4; try done.
      - destruct Hu1 as [Hu1 _]. destruct Hu1 as [l' Hl']; [eauto|congruence].
      - destruct Hu1 as [_ Hu1]. destruct Hu1 as [l' Hl']; [eauto|congruence]. }
    split; [|split; [|split; [done|]]].
    - exists b, f. split; [done|]. split; [done|]. split; [done|]. split; [done|]. split.
      + intros Hw. rewrite Hw in *. unfold canReverse, canConnect in E3, E4. rewrite Hon in E3. rewrite Hon, Hoi in E4. split.
        * unfold odd. apply negb_false_iff, eqb_prop in E4. clear Hon Hoi. rewrite E4 in Hi.
          split; intros [l Hl]; eexists.
          -- rewrite Hi in Hl. injection Hl as _ Ho. rewrite Hn, Ho. done.
          -- rewrite Hn in Hl. injection Hl as _ Ho. rewrite Hi, Ho. done.
        * intros [l Hl]. rewrite Hn in Hl. injection Hl as -> ->. simpl in E3.
          destruct n.2 as [|k], rev; simpl in E3; done.
      + destruct near.
        * right. split; [by apply Hsn|]. simpl in E1. apply orb_false_iff in E1 as [E1 E1'].
          apply Z.ltb_ge in E1. apply Nat.leb_gt in E1'. lia.
        * left. split; [by intros H%Hsn|]. simpl in E2. unfold taken. by rewrite E2.
    - exists b, f. split; [done|]. split; [done|]. destruct near.
      + right. split; [by apply Hsn|]. destruct sc; simpl; lia.
      + left. split; [by intros H%Hsn|done].
    - intros ->. simpl in E2. unfold taken. by rewrite E2.
  Qed.

  Lemma allowed_end rev i t c n x : allowed mp lines mx sn walls rev i t c n x -> is_end n x.
  Proof. intros (? & ? & ? & ? & ? & _). done. Qed.
  Lemma cost_fun sc c x d d' : cost mp sn sc c x d -> cost mp sn sc c x d' -> d = d'.
  Proof.
    intros (b & f & Hb & Hf & H) (b' & f' & Hb' & Hf' & H'). rewrite Hb in Hb'. rewrite Hf in Hf'.
    injection Hb' as <-. injection Hf' as <-. destruct H as [[? ?]|[? ?]], H' as [[? ?]|[? ?]]; try done; congruence.
  Qed.

  Lemma find_next_spec rev i b f (st : chain_st) cl :
    (exists l o, lines !! i = Some (l, o)) ->
    last (chain st) = Some b -> head (chain st) = Some f -> chain_length st = path_length mp (chain st) ->
    let s := find_next mp walls lines mx sn grid rev (odd_of lines i) (mp b) (mp f) st cl in
    let al := allowed mp lines mx sn walls rev i (taken (processed st)) (chain st) in
    match closest s with
    | None => closing s = cl /\ forall n x, al n x -> ~ dist2 (mp x) (mp b) <= mx * mx
    | Some n => exists x d, al n x /\ cost mp sn (should_close st) (chain st) x d /\
        (closing s = true <-> snaps mp sn x f) /\ (closing s = false -> ~ taken (processed st) n.1) /\
        (d < sn \/ forall n' x' d', al n' x' -> dist2 (mp x') (mp b) <= mx * mx ->
                   cost mp sn (should_close st) (chain st) x' d' -> d <= d')
    end.
  Proof.
    intros Hi Hb Hf Hlen. cbv zeta. unfold find_next. rewrite processNearby_run.
    set (w := weight rev (should_close st) (odd_of lines i) (mp b) (mp f) (length (chain st)) (chain_length st) (processed st)).
    rewrite (run_ext _ (wf w)) by (intros; apply visit_weight).
    set (l := nearby_elems mx grid (mp b) mx).
    assert (Hw : forall n d near, w n = Some (d, near) -> d < COORD_MAX).
    { intros n d near. unfold w, weight. cbv zeta. destruct (Z.ltb_spec mx (vSize (psub (p_of mp lines n) (mp b)))); [done|].
      repeat case_match; intros [= <- _]; lia. }
    destruct (run_search w l (Search None cl COORD_MAX) Hw) as [A B]. cbv zeta in A, B.
    set (s := (run (wf w) (Search None cl COORD_MAX) l).1) in *.
    assert (Hws : forall n x, is_end n x -> match w n with
       | None => ~ allowed mp lines mx sn walls rev i (taken (processed st)) (chain st) n x
       | Some (d, near) => allowed mp lines mx sn walls rev i (taken (processed st)) (chain st) n x /\
            cost mp sn (should_close st) (chain st) x d /\
                        (near = true <-> snaps mp sn x f) /\ (near = false -> ~ taken (processed st) n.1)
       end).
    { intros n x Hx. unfold w. rewrite Hlen. by apply weight_spec. }
    destruct A as [Es|(n & d & near & Hn & Hwn & Es & Hd)].
    - rewrite Es in *. simpl. split; [done|]. intros n x Hal Hd. pose proof (allowed_end _ _ _ _ _ _ Hal) as Hx.
      specialize (Hws n x Hx). destruct (w n) as [[d near]|] eqn:E; [|done].
      destruct B as [B|B]; simpl in B.
      + destruct B as (_ & n1 & d1 & near1 & E1 & B). specialize (Hw _ _ _ E1). lia.
      + specialize (B n d near (nearby_complete _ _ _ Hx Hd) E). specialize (Hw _ _ _ E). lia.
    - rewrite Es. simpl. destruct (nearby_sound _ _ Hn) as [x Hx]. pose proof (Hws n x Hx) as H. rewrite Hwn in H.
      destruct H as (H1 & H2 & H3 & H4). exists x, d. split; [done|]. split; [done|]. split; [done|]. split; [done|].
      rewrite Es in B. simpl in B. destruct B as [[B _]|B]; [by left|right].
      intros n' x' d' Hal Hd' Hc'. pose proof (allowed_end _ _ _ _ _ _ Hal) as Hx'. specialize (Hws n' x' Hx').
      destruct (w n') as [[d1 near1]|] eqn:E; [|done]. destruct Hws as (_ & Hc1 & _).
      rewrite (cost_fun _ _ _ _ _ Hc' Hc1). eapply B; [|done]. by eapply nearby_complete.
  Qed.

  (** *** growing the chain *)
  Definition free (p : list bool) : nat := length (filter (fun b : bool => b = false) p).
  Lemma free_insert p j : p !! j = Some false -> free p = S (free (<[j := true]> p)).
  Proof.
    unfold free. revert j. induction p as [|b p IH]; intros j Hj; [done|]. destruct j as [|j]; simpl in *.
    - injection Hj as ->. rewrite !filter_cons. simpl. done.
    - rewrite !filter_cons. rewrite (IH j Hj) || idtac. destruct b; simpl.
      + by rewrite (IH j Hj).
      + by rewrite (IH j Hj).
  Qed.

  Lemma free_mono (q q' : list bool) : length q' = length q ->
    (forall j, q' !! j = Some false -> q !! j = Some false) -> (free q' <= free q)%nat.
  Proof.
    clear. unfold free. revert q'. induction q as [|b q IH]; intros [|b' q'] Hlen Himp; try done. injection Hlen as Hlen.
    specialize (IH q' Hlen (fun j => Himp (S j))). specialize (Himp 0%nat). simpl in Himp.
    rewrite !filter_cons. destruct b, b'; simpl; try lia. by specialize (Himp eq_refl).
  Qed.

  Lemma taken_not p j : ~ taken p j <-> p !! j = Some false.
  Proof. unfold taken. destruct (p !! j) as [[]|]; simpl; split; try done; intros H; by destruct H. Qed.

  Lemma end_line n x : is_end n x ->
    exists l, the_line (n.1, negb (n.2 =? 0)%nat) = x :: l /\
      the_line (n.1, negb (n.2 =? 0)%nat) = (if (n.2 =? 0)%nat then points_of lines n.1 else reverse (points_of lines n.1)).
  Proof.
    intros (l & o & Hl & Hx & Hk). unfold PolyStitch_Spec.the_line, points_of. cbn [fst snd]. rewrite Hl. simpl.
    destruct n as [i k]. simpl in *. destruct k as [|k]; simpl.
    - destruct l as [|a l]; [done|]. injection Hx as ->. exists l. done.
    - destruct Hk as [|Hk]; [done|]. destruct l as [|y l0] using rev_ind; [done|]. clear IHl0.
      rewrite app_length in Hk. simpl in Hk. rewrite lookup_app_r in Hx by lia.
      replace (S k - length l0)%nat with 0%nat in Hx by lia. injection Hx as ->. exists (reverse l0).
      by rewrite reverse_snoc.
  Qed.

  Definition same_kind (i : nat) (rev : bool) (jr : nat * bool) : Prop :=
    walls = true -> (odd lines i <-> odd lines jr.1) /\ (even lines jr.1 -> jr.2 = rev).
  Notation can_close := (can_close mp lines mx sn).
  Definition stuck (rev : bool) (i : nat) (proc : list bool) (c : list J) : Prop :=
    forall b n x, last c = Some b -> allowed mp lines mx sn walls rev i (taken proc) c n x ->
      ~ dist2 (mp x) (mp b) <= mx * mx.

  Lemma extend_ok rev i fuel : forall st,
    (exists l o, lines !! i = Some (l, o)) ->
    chain st <> [] -> chain_length st = path_length mp (chain st) -> (free (processed st) < fuel)%nat ->
    exists st' closed picks,
      extend mp walls lines mx sn grid fuel rev (odd_of lines i) st false = Ok (st', closed) /\
      joined (chain st) (map the_line picks) (chain st') /\
      head (chain st') = head (chain st) /\
      length (processed st') = length (processed st) /\
      NoDup (map fst picks) /\
      (forall j, j ∈ map fst picks -> processed st !! j = Some false) /\
      (forall j, processed st' !! j = Some false <-> processed st !! j = Some false /\ j ∉ map fst picks) /\
      Forall (same_kind i rev) picks /\
      (closed = true -> can_close (chain st')) /\
      (closed = false -> stuck rev i (processed st') (chain st')).
  Proof.
    induction fuel as [|fuel IH]; intros st Hi Hc Hlen Hfuel; [lia|]. cbn [extend].
    destruct (last (chain st)) as [b|] eqn:Eb; [|by apply last_None in Eb].
    destruct (head (chain st)) as [f|] eqn:Ef; [|by apply head_None in Ef]. cbn [of_opt rbind].
    pose proof (find_next_spec rev i b f st false Hi Eb Ef Hlen) as Hs. cbv zeta in Hs.
    set (s := find_next mp walls lines mx sn grid rev (odd_of lines i) (mp b) (mp f) st false) in *.
    destruct (closest s) as [n|] eqn:En.
    - destruct Hs as (x & d & Hal & Hcost & Hcl & Hnt & _). 
      destruct Hal as (b' & f' & Hb' & Hf' & Hx & Hd & Hu & Hal). rewrite Eb in Hb'. rewrite Ef in Hf'.
      injection Hb' as <-. injection Hf' as <-. destruct (closing s) eqn:Ecl.
      + exists st, true, []. split; [done|]. split; [constructor|]. split; [done|]. split; [done|]. split; [constructor|].
        split; [intros j Hj; by apply elem_of_nil in Hj|]. split; [intros j; split; [intros H; split; [done|apply not_elem_of_nil]|by intros [H _]]|].
        split; [constructor|]. split; [|done]. intros _. exists b, f, n, x. assert (Hsn : snaps mp sn x f) by by apply Hcl.
        destruct Hal as [[Hal _]|(_ & H1 & H2)]; [done|]. done.
      + specialize (Hnt eq_refl). apply taken_not in Hnt. destruct (end_line n x Hx) as (l & Hl & Hl'). rewrite <- Hl', Hl.
        rewrite (p_of_end n x Hx). change (vSize (psub (mp b) (mp x))) with (dist b x).
        assert (Hdb : dist b x <= mx) by (rewrite dist_sym; done).
        destruct (Z.ltb_spec (mx + 10) (dist b x)); [lia|]. rewrite Hnt. cbn [default from_option id].
        set (add := if dist b x <? sn then l else x :: l).
        replace (if dist b x <? sn then tail (x :: l) else x :: l) with add by (unfold add; by destruct (dist b x <? sn)).
        destruct (IH (Chain (chain st ++ add) (chain_length st + added_length mp b add)
                    (should_close st && negb (isOdd walls lines n.1)) (<[n.1:=true]> (processed st))))
          as (st' & closed & picks & Hr & Hj & Hh & Hpl & Hnd & Hfree & Hproc & Hkind & Hclose & Hstuck).
        { done. } { cbn [chain]. intros H'. by apply app_eq_nil in H' as [? _]. }
        { cbn [chain chain_length]. rewrite Hlen. by apply added_length_path. }
        { cbn [processed]. rewrite (free_insert _ _ Hnt) in Hfuel. lia. }
        cbn [chain processed] in *.
        exists st', closed, ((n.1, negb (n.2 =? 0)%nat) :: picks). split; [done|]. split.
        { cbn [map]. rewrite Hl. by apply (joined_cons mp mx sn (chain st) b x). }
        split; [rewrite Hh; by destruct (chain st)|]. split; [by rewrite Hpl, insert_length|].
        assert (Hins : forall j, <[n.1:=true]> (processed st) !! j = Some false <-> processed st !! j = Some false /\ j <> n.1).
        { intros j. destruct (decide (j = n.1)) as [-> |Hjn].
          - rewrite list_lookup_insert by by eapply lookup_lt_Some. split; [done|]. by intros [_ ?].
          - rewrite list_lookup_insert_ne by done. split; [done|]. by intros [? _]. }
        split. { cbn [map fst]. constructor; [|done]. intros Hin. apply Hfree, Hins in Hin as [_ ?]. done. }
        split. { cbn [map fst]. intros j [-> |Hin]%elem_of_cons; [done|]. by apply Hfree, Hins in Hin as [? _]. }
        split. { cbn [map fst]. intros j. rewrite Hproc, Hins, not_elem_of_cons. tauto. }
        split; [|done]. constructor; [|done]. intros Hw. cbn [fst snd]. destruct (Hu Hw) as [Hu1 Hu2]. split; [done|].
        intros He. specialize (Hu2 He). destruct n.2 as [|k], rev; simpl; try done; [by destruct Hu2 as [Hu2 _]; specialize (Hu2 eq_refl)|].
        destruct Hu2 as [_ Hu2]. by specialize (Hu2 eq_refl).
    - destruct Hs as [Hcl Hs]. rewrite Hcl. exists st, false, []. split; [done|]. split; [constructor|]. split; [done|].
      split; [done|]. split; [constructor|]. split; [intros j Hj; by apply elem_of_nil in Hj|].
      split; [intros j; split; [intros H; split; [done|apply not_elem_of_nil]|by intros [H _]]|].
      split; [constructor|]. split; [done|]. intros _ b' n x Hb'. rewrite Eb in Hb'. injection Hb' as <-. apply Hs.
  Qed.

  Lemma joined_head c ls c' : joined c ls c' -> c <> [] -> head c' = head c.
  Proof. induction 1; intros Hc; [done|]. rewrite IHjoined; [by destruct c|]. by destruct c. Qed.
  Lemma joined_nonnil c ls c' : joined c ls c' -> c <> [] -> c' <> [].
  Proof. induction 1; intros Hc; [done|]. apply IHjoined. by destruct c. Qed.
  Lemma last_reverse (c : list J) : last (reverse c) = head c.
  Proof. destruct c; [done|]. by rewrite reverse_cons, last_snoc. Qed.
  Lemma head_reverse (c : list J) : head (reverse c) = last c.
  Proof. rewrite <- (reverse_involutive c) at 2. by rewrite last_reverse. Qed.
  Lemma reverse_nonnil (c : list J) : c <> [] -> reverse c <> [].
  Proof. destruct c; [done|]. rewrite reverse_cons. intros _. by destruct (reverse c). Qed.

  Lemma within_dist x y : within mp x y mx -> dist x y <= mx.
  Proof.
    unfold within, PolyStitch_Spec.dist, vSize. set (n := vSize2 (psub (mp x) (mp y))). cbv zeta. intros H.
    assert (Hn : 0 <= n) by (unfold n, vSize2; nia). pose proof (Z.sqrt_spec n Hn) as [H1 H2].
    assert (Z.sqrt n <= mx) by nia. destruct (Z.leb_spec n (Z.sqrt n * Z.sqrt n + Z.sqrt n)); [done|]. nia.
  Qed.

  Lemma stuck_apart rev i p c b f j k e :
    stuck rev i p c -> p !! j = Some false -> last c = Some b -> head c = Some f ->
    is_end (j, k) e -> usable lines walls rev i (j, k) -> within mp e b mx -> snaps mp sn e f.
  Proof.
    intros Hst Hp Hb Hf He Hu Hw. destruct (decide (vSize2 (psub (mp e) (mp f)) < sn * sn)) as [|Hn]; [done|].
    exfalso. apply (Hst b (j, k) e Hb); [|exact Hw]. exists b, f. split; [done|]. split; [done|]. split; [done|].
    split; [by apply within_dist|]. split; [done|]. left. split; [done|]. by apply taken_not.
  Qed.

  Lemma the_line_flip j (r : bool) : reverse (the_line (j, negb r)) = the_line (j, r).
  Proof. unfold PolyStitch_Spec.the_line. cbn [fst snd]. destruct r; simpl; [done|]. apply reverse_involutive. Qed.

  Definition closable (c : list J) : Prop :=
    exists b f, last c = Some b /\ head c = Some f /\ within mp f b mx /\
      3 * mx <= path_length mp c + dist f b /\ (2 < length c)%nat.

  (** the last point is the end of a line of at least two points, in the direction of the line so far *)
  Lemma joined_last i c picks c' :
    (forall i l o, lines !! i = Some (l, o) -> (2 <= length l)%nat) ->
    joined c (map the_line picks) c' -> Forall (same_kind i false) picks ->
    (forall j r, (j, r) ∈ picks -> is_Some (lines !! j)) ->
    (exists n x, last c = Some x /\ is_end n x /\ (walls = true -> (odd lines i <-> odd lines n.1) /\ (even lines n.1 -> n.2 <> 0%nat))) ->
    exists n x, last c' = Some x /\ is_end n x /\ (walls = true -> (odd lines i <-> odd lines n.1) /\ (even lines n.1 -> n.2 <> 0%nat)).
  Proof.
    intros H2. revert c. induction picks as [|[j r] picks IH]; intros c Hj Hk Hsome Hlast; [by inversion Hj; subst|].
    remember (map the_line ((j, r) :: picks)) as ls eqn:Els. destruct Hj as [|c b a l ls c' Hb Hd Hj]; [done|].
    cbn [map] in Els. injection Els as Hal ->.
    apply Forall_cons in Hk as [Hk Hks]. eapply IH; [done|done|by intros; eapply Hsome, elem_of_list_further|].
    destruct (Hsome j r ltac:(apply elem_of_list_here)) as [[lj oj] Hlj].
    pose proof (H2 _ _ _ Hlj) as Hlen. 
    assert (Hadd : exists y, last (a :: l) = Some y /\ last (c ++ (if dist b a <? sn then l else a :: l)) = Some y).
    { unfold PolyStitch_Spec.the_line in Hal. cbn [fst snd] in Hal. rewrite Hlj in Hal.
      assert (Hll : (2 <= length (a :: l))%nat) by (rewrite Hal; destruct r; rewrite ?reverse_length; done).
      simpl in Hll. destruct l as [|a' l] using rev_ind; [simpl in Hll; lia|]. exists a'. split; [by rewrite app_comm_cons, last_snoc|].
      destruct (dist b a <? sn); rewrite ?app_comm_cons, app_assoc, last_snoc; done. }
    destruct Hadd as (y & Hy1 & Hy2). unfold PolyStitch_Spec.the_line in Hal. cbn [fst snd] in Hal. rewrite Hlj in Hal.
    exists (j, if r then 0%nat else pred (length lj)), y. split; [done|]. split.
    - exists lj, oj. cbn [fst snd]. split; [done|]. rewrite Hal in Hy1. destruct r.
      + rewrite last_reverse in Hy1. destruct lj; [done|]. split; [done|by left].
      + split; [by rewrite <- last_lookup|]. right. lia.
    - intros Hw. destruct (Hk Hw) as [Hk1 Hk2]. cbn [fst snd] in *. split; [done|]. intros He. rewrite (Hk2 He). simpl. lia.
  Qed.

  Definition two_points : Prop := forall i l o, lines !! i = Some (l, o) -> (2 <= length l)%nat.

  Lemma stitch_line_ok fuel i p l o :
    lines !! i = Some (l, o) -> p !! i = Some false -> (free p <= fuel)%nat ->
    exists p' x,
      stitch_line mp walls lines mx sn grid fuel i p = Ok (p', (out x, closed x)) /\
      fits mp lines mx sn walls x /\ length p' = length p /\ start (parts x) = i /\
      NoDup (used (parts x)) /\ (forall j, j ∈ used (parts x) -> p !! j = Some false) /\
      (forall j, p' !! j = Some false <-> p !! j = Some false /\ j ∉ used (parts x)) /\
      (closed x = false -> (forall j, p' !! j = Some false -> apart mp lines mx sn walls x j) /\
         (two_points -> sn <> 0 -> ~ closable (reverse (line x)))).
  Proof.
    intros Hl Hp Hfuel. unfold stitch_line.
    assert (Hline : points_of lines i = l) by (unfold points_of; by rewrite Hl).
    assert (Hline' : the_line (i, false) = l) by (unfold PolyStitch_Spec.the_line; cbn [fst snd]; by rewrite Hl).
    pose proof (Hne _ _ _ Hl) as Hlne.
    assert (Hins : forall j, <[i:=true]> p !! j = Some false <-> p !! j = Some false /\ j <> i).
    { intros j. destruct (decide (j = i)) as [-> |Hji].
      - rewrite list_lookup_insert by by eapply lookup_lt_Some. split; [done|]. by intros [_ ?].
      - rewrite list_lookup_insert_ne by done. split; [done|]. by intros [? _]. }
    rewrite Hline.
    destruct (extend_ok false i fuel (Chain l (length_of mp l) (isOdd walls lines i) (<[i:=true]> p)))
      as (st1 & cl1 & aft & Hr1 & Hj1 & Hh1 & Hpl1 & Hnd1 & Hfree1 & Hproc1 & Hkind1 & Hclose1 & Hstuck1).
    { eauto. } { done. } { apply length_of_path. } { cbn [processed]. rewrite (free_insert _ _ Hp) in Hfuel. lia. }
    rewrite Hr1. cbn [rbind fst snd chain processed] in *. clear Hr1. rewrite insert_length in Hpl1.
    assert (Hne1 : chain st1 <> []) by by eapply joined_nonnil.
    assert (Hall1 : walls = true -> forall j rev, (j, rev) ∈ aft -> (odd lines i <-> odd lines j) /\ (even lines j -> rev = false)).
    { intros Hw j rev Hin. rewrite Forall_forall in Hkind1. by apply (Hkind1 _ Hin). }
    destruct cl1.
    { exists (processed st1), (Built (Assembly [] i aft) (chain st1) (chain st1) true (chain st1)).
      cbn [parts mid line closed out]. split; [done|]. split.
      { split; [split|split]; cbn [parts mid line closed out before after start].
        - by rewrite Hline'.
        - constructor.
        - done.
        - split; [done|]. left. by apply Hclose1. }
      unfold used. cbn [before start after map app].
      split; [done|]. split; [done|]. split. { constructor; [|done]. intros Hin. apply Hfree1, Hins in Hin as [_ ?]. done. }
      split. { intros j [-> |Hin]%elem_of_cons; [done|]. by apply Hfree1, Hins in Hin as [? _]. }
      split; [|done]. intros j. rewrite Hproc1, Hins, not_elem_of_cons. tauto. }
    assert (Hf1 : (free (processed st1) < fuel)%nat).
    { rewrite (free_insert _ _ Hp) in Hfuel.
      assert (free (processed st1) <= free (<[i:=true]> p))%nat; [|lia]. apply free_mono; [by rewrite insert_length|]. intros j Hj. by apply Hproc1 in Hj as [? _]. }
    set (c := reverse (chain st1)) in *.
    destruct (extend_ok true i fuel (Chain c (length_of mp c) (should_close st1) (processed st1)))
      as (st2 & cl2 & bef & Hr2 & Hj2 & Hh2 & Hpl2 & Hnd2 & Hfree2 & Hproc2 & Hkind2 & Hclose2 & Hstuck2).
    { eauto. } { cbn [chain]. by apply reverse_nonnil. } { apply length_of_path. } { done. }
    rewrite Hr2. cbn [rbind fst snd chain processed] in *. clear Hr2. subst c.
    set (before' := map (fun jr : nat * bool => (jr.1, negb jr.2)) bef).
    assert (Hb1 : map fst before' = map fst bef).
    { unfold before'. rewrite map_map. done. }
    assert (Hb2 : map (fun jr => reverse (the_line jr)) before' = map the_line bef).
    { unfold before'. rewrite map_map. apply map_ext. intros [j r]. cbn [fst snd]. apply the_line_flip. }
    assert (Hall2 : walls = true -> forall j rev, (j, rev) ∈ before' -> (odd lines i <-> odd lines j) /\ (even lines j -> rev = false)).
    { intros Hw j rev Hin. rewrite Forall_forall in Hkind2. apply elem_of_list_In, in_map_iff in Hin as ([j' r'] & [= -> <-] & Hin).
      apply elem_of_list_In in Hin. destruct (Hkind2 _ Hin Hw) as [H1 H2]. cbn [fst snd] in *. split; [done|]. intros He. by rewrite (H2 He). }
    set (asm := Assembly before' i aft).
    assert (Hasm : forall ln, ln = reverse (chain st2) -> assembled mp lines mx sn asm (chain st1) ln).
    { intros ln ->. split; cbn [asm start after before]; [by rewrite Hline'|]. by rewrite Hb2, reverse_involutive. }
    assert (Hall : walls = true -> forall j rev, (j, rev) ∈ before asm ++ after asm ->
       (odd lines (start asm) <-> odd lines j) /\ (even lines j -> rev = false)).
    { intros Hw j rev [Hin|Hin]%elem_of_app; [by apply Hall2|by apply Hall1]. }
    assert (Hused : used asm = map fst bef ++ i :: map fst aft) by (unfold used, asm; cbn; by rewrite Hb1).
    assert (HU1 : NoDup (used asm)).
    { rewrite Hused. apply NoDup_app. split; [done|]. split.
      - intros j Hj [-> |Hj']%elem_of_cons.
        + apply Hfree2, Hproc1 in Hj as [Hj _]. apply Hins in Hj as [_ ?]. done.
        + apply Hfree2, Hproc1 in Hj as [_ ?]. done.
      - constructor; [|done]. intros Hj. apply Hfree1, Hins in Hj as [_ ?]. done. }
    assert (HU2 : forall j, j ∈ used asm -> p !! j = Some false).
    { intros j. rewrite Hused. intros [Hj|[-> |Hj]%elem_of_cons]%elem_of_app; [|done|].
      - apply Hfree2, Hproc1 in Hj as [Hj _]. by apply Hins in Hj as [? _].
      - by apply Hfree1, Hins in Hj as [? _]. }
    assert (HU3 : forall j, processed st2 !! j = Some false <-> p !! j = Some false /\ j ∉ used asm).
    { intros j. rewrite Hused, Hproc2, Hproc1, Hins, not_elem_of_app, not_elem_of_cons. tauto. }
    assert (Hne2 : chain st2 <> []). { eapply joined_nonnil; [done|]. by apply reverse_nonnil. }
    destruct cl2.
    { exists (processed st2), (Built asm (chain st1) (reverse (chain st2)) true (reverse (chain st2))).
      cbn [parts mid line closed out]. split; [done|]. split.
      { split; [|split]; cbn [parts mid line closed out]; [by apply Hasm|done|]. split; [done|]. right.
        rewrite reverse_involutive. by apply Hclose2. }
      split; [by rewrite Hpl2|]. split; [done|]. split; [done|]. split; [done|]. split; [done|done]. }
    exists (processed st2), (Built asm (chain st1) (reverse (chain st2)) false
       (if canReverse walls lines (i, 0%nat) then chain st2 else reverse (chain st2))).
    cbn [parts mid line closed out]. split; [done|]. split.
    { split; [|split]; cbn [parts mid line closed out]; [by apply Hasm|done|]. unfold canReverse. cbn [fst].
      rewrite (odd_of_spec _ _ _ Hl). destruct walls eqn:Hw; cbn [asm start].
      - destruct o; [|by left]. right. split; [by rewrite reverse_involutive|]. intros [_ [l' Hl']]. congruence.
      - right. split; [by rewrite reverse_involutive|]. by intros [? _]. }
    split; [by rewrite Hpl2|]. split; [done|]. split; [done|]. split; [done|]. split; [done|]. intros _. split.
    - intros j Hj k e He. cbn [parts line asm start]. split.
      + intros lst f Hlst Hf Hu Hw. rewrite last_reverse, Hh2, head_reverse in Hlst. rewrite Hline', <- Hh1 in Hf.
        eapply (stuck_apart false); [by apply Hstuck1| |done|done|done|done|done]. by apply Hproc2 in Hj as [? _].
      + intros lst f Hlst Hf Hu Hw. rewrite last_reverse in Hlst. rewrite head_reverse in Hf.
        eapply (stuck_apart true); [by apply Hstuck2|done|done|done|done|done|done].
    - intros H2 Hsn0 (b & f & Hb & Hf & Hw & Hlen & Hsize). cbn [line] in *. rewrite reverse_involutive in *.
      pose proof (Hh2) as Hf'. rewrite Hf, head_reverse in Hf'.
      destruct (joined_last i l aft (chain st1) H2) as (n & x & Hx & Hend & Hkn).
      { done. } { done. }
      { intros j r Hin. assert (Hin' : j ∈ map fst aft) by (apply elem_of_list_In, in_map_iff; exists (j, r); split; [done|by apply elem_of_list_In]).
        unfold PolyStitch_Spec.the_line in Hj1. destruct (lines !! j) eqn:E; [done|]. exfalso.
        clear - Hj1 Hin E. revert l Hj1. induction aft as [|[j' r'] aft IH]; intros l Hj1; [by apply elem_of_nil in Hin|].
        remember (map _ ((j', r') :: aft)) as ls eqn:Els. destruct Hj1 as [|c b a l ls c' Hb Hd Hj]; [done|].
        cbn [map fst snd] in Els. injection Els as Hal ->. apply elem_of_cons in Hin as [[= <- <-]|Hin].
        - rewrite E in Hal. by destruct r.
        - by eapply IH. }
      { destruct l as [|l0 l1] using rev_ind; [done|]. exists (i, length l1), l0. split; [by rewrite last_snoc|].
        assert (Hl2 := H2 _ _ _ Hl). rewrite app_length in Hl2. simpl in Hl2.
        split; [exists (l1 ++ [l0]), o; cbn [fst snd]; split; [done|]; split;
                [by rewrite lookup_app_r, Nat.sub_diag by lia|right; rewrite app_length; simpl; lia]|].
        intros _. cbn [fst snd]. split; [done|]. intros _. lia. }
      rewrite Hx in Hf'. injection Hf' as <-.
      apply (Hstuck2 eq_refl b n f Hb); [|done]. exists b, f. split; [done|]. split; [done|]. split; [done|].
      split; [by apply within_dist|]. split.
      { intros Hww. destruct (Hkn Hww) as [Hk1 Hk2]. split; [done|]. intros He. specialize (Hk2 He). split; [done|]. done. }
      right. split; [|done]. unfold snaps, psub, vSize2. cbn [fst snd]. nia.
  Qed.

  Lemma stitch_lines_ok fuel idxs : forall p rl rp,
    length p = length lines -> (free p <= fuel)%nat -> (forall j, p !! j = Some false -> j ∈ idxs) ->
    exists bs : list (built (J:=J)),
      stitch_lines mp walls lines mx sn grid fuel idxs p rl rp =
        Ok (rl ++ map out (List.filter (fun x => negb (closed x)) bs), rp ++ map out (List.filter closed bs)) /\
      Forall (fits mp lines mx sn walls) bs /\
      NoDup (concat (map (fun x => used (parts x)) bs)) /\
      (forall j, j ∈ concat (map (fun x => used (parts x)) bs) <-> p !! j = Some false) /\
      (forall k x, bs !! k = Some x -> closed x = false ->
         (forall j, j ∈ concat (map (fun x => used (parts x)) (drop (S k) bs)) -> apart mp lines mx sn walls x j) /\
         (two_points -> sn <> 0 -> ~ closable (reverse (line x)))).
  Proof.
    induction idxs as [|i idxs IH]; intros p rl rp Hlen Hfuel Hidx; cbn [stitch_lines].
    - exists []. cbn. rewrite !app_nil_r. split; [done|]. split; [constructor|]. split; [constructor|]. split.
      + intros j. split; [intros Hj; by apply elem_of_nil in Hj|]. intros Hj. by apply Hidx, elem_of_nil in Hj.
      + intros k x Hx. done.
    - destruct (p !! i) as [b|] eqn:Ei.
      2:{ cbn [default from_option]. apply IH; [done|done|]. intros j Hj.
          apply Hidx in Hj as Hin. apply elem_of_cons in Hin as [-> |?]; [congruence|done]. }
      destruct b; cbn [default from_option id].
      { apply IH; [done|done|]. intros j Hj. apply Hidx in Hj as Hin. apply elem_of_cons in Hin as [-> |?]; [congruence|done]. }
      destruct (lines !! i) as [[l o]|] eqn:El.
      2:{ apply lookup_ge_None in El. apply lookup_lt_Some in Ei. lia. }
      destruct (stitch_line_ok fuel i p l o El Ei Hfuel) as (p' & x & Hr & Hfits & Hpl & Hst & Hnd & Hu1 & Hu2 & Hopen).
      rewrite Hr. cbn [rbind fst snd]. clear Hr.
      assert (Hfree' : (free p' <= fuel)%nat).
      { enough (free p' <= free p)%nat by lia. apply free_mono; [done|]. intros j Hj. by apply Hu2 in Hj as [? _]. }
      assert (Hiu : i ∈ used (parts x)).
      { unfold used. rewrite Hst. apply elem_of_app. right. apply elem_of_list_here. }
      assert (Hidx' : forall j, p' !! j = Some false -> j ∈ idxs).
      { intros j Hj. apply Hu2 in Hj as [Hj Hnu]. apply Hidx, elem_of_cons in Hj as [-> |?]; done. }
      assert (Hgo : forall rl' rp', exists bs : list (built (J:=J)),
        stitch_lines mp walls lines mx sn grid fuel idxs p' rl' rp' =
          Ok (rl' ++ map out (List.filter (fun x => negb (closed x)) bs), rp' ++ map out (List.filter closed bs)) /\
        Forall (fits mp lines mx sn walls) (x :: bs) /\
        NoDup (concat (map (fun x => used (parts x)) (x :: bs))) /\
        (forall j, j ∈ concat (map (fun x => used (parts x)) (x :: bs)) <-> p !! j = Some false) /\
        (forall k y, (x :: bs) !! k = Some y -> closed y = false ->
           (forall j, j ∈ concat (map (fun x => used (parts x)) (drop (S k) (x :: bs))) -> apart mp lines mx sn walls y j) /\
           (two_points -> sn <> 0 -> ~ closable (reverse (line y))))).
      { intros rl' rp'. destruct (IH p' rl' rp') as (bs & E & Hf & Hn & Hc & Ho); [congruence|done|done|].
        exists bs. split; [done|]. split; [by constructor|]. cbn [map concat]. split; [|split].
        - apply NoDup_app. split; [done|]. split; [|done]. intros j Hj Hj'. apply Hc, Hu2 in Hj' as [_ ?]. done.
        - intros j. rewrite elem_of_app, Hc, Hu2. split; [intros [?|[? _]]; [by apply Hu1|done]|].
          intros Hj. destruct (decide (j ∈ used (parts x))); [by left|by right].
        - intros [|k] y Hy Hcl; simpl in Hy.
          + injection Hy as <-. destruct (Hopen Hcl) as [Ha Hb]. split; [|done]. intros j Hj. apply Ha, Hc. exact Hj.
          + by apply Ho. }
      destruct (closed x) eqn:Ecl.
      + destruct (Hgo rl (rp ++ [out x])) as (bs & E & Hrest). exists (x :: bs). split; [|exact Hrest].
        rewrite E. cbn [List.filter]. rewrite Ecl. cbn [negb map]. by rewrite <- app_assoc.
      + destruct (Hgo (rl ++ [out x]) rp) as (bs & E & Hrest). exists (x :: bs). split; [|exact Hrest].
        rewrite E. cbn [List.filter]. rewrite Ecl. cbn [negb map]. by rewrite <- app_assoc.
  Qed.
End proofs.
