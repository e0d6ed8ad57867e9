(** C14: the order of walls. *)
From Coq Require Import ZArith Lia.
From stdpp Require Import gmap list relations.
From Verif Require Import Common Inset_Model Inset_Spec Inset_Proofs Inset_Region Inset_Forest Inset_Graph.

Section searches.
  Context (n : nat) (area : nat -> Z) (closed outer : nat -> bool) (inside : nat -> nat -> bool).
  Context (ord : nat -> list nat -> list nat) (ord_perm : forall i l, ord i l ≡ₚ l).
  Notation adjacent := (adjacent n area closed inside).
  Notation adj := (neighbours_of n area closed inside ord).
  Notation walk := (walk n area closed inside).
  Notation A := (fun x y => y ∈ adj x).

  Definition events (w : nat) (E : list event) : Prop :=
    exists v, dfs adj record_event next_event (n + 2) w (None, 0%nat) [] [] = Ok (v, E).
  Definition wd (o d i : nat) : Prop := walk o d i /\ forall k, walk o k i -> (d <= k)%nat.

  Lemma adj_bound x y : y ∈ adj x -> (y < n)%nat.
  Proof. intros H. apply (adj_spec n area closed inside ord ord_perm) in H. by apply adjacent_bound in H as [_ H]. Qed.
  Lemma events_exist w : (w < n)%nat -> exists E, events w E /\ trace A w E /\ closed_in adj E E.
  Proof. intros W. destruct (dfs_root n adj adj_bound w W) as (v & E & H & T & C). exists E. split; [by exists v|]. done. Qed.
  Lemma events_trace w E : (w < n)%nat -> events w E -> trace A w E /\ closed_in adj E E.
  Proof. intros W [v H]. destruct (events_exist w W) as (E' & [v' H'] & T & C). assert (E = E') as -> by congruence. done. Qed.
  Lemma events_wd w E i p d : (w < n)%nat -> events w E -> (i, (p, d)) ∈ E -> wd w d i.
  Proof.
    intros W Ev H. destruct (events_trace w E W Ev) as [T C]. split.
    - exact (trace_walk n area closed inside adj (adj_spec n area closed inside ord ord_perm) w E T i p d H).
    - intros k Wk. destruct (walk_trace n area closed inside adj (adj_spec n area closed inside ord ord_perm) w E T C k i Wk)
        as (p' & d' & H' & L).
      assert (X : (p, d) = (p', d')) by exact (trace_unique adj w E i _ _ T H H').
      injection X as _ ->. done.
  Qed.
  Lemma wd_events w E i d : (w < n)%nat -> events w E -> wd w d i -> exists p, (i, (p, d)) ∈ E.
  Proof.
    intros W Ev [H M]. destruct (events_trace w E W Ev) as [T C].
    destruct (walk_trace n area closed inside adj (adj_spec n area closed inside ord ord_perm) w E T C d i H) as (p & d' & H' & L).
    destruct (events_wd w E i p d' W Ev H') as [H1 _]. specialize (M _ H1). assert (d' = d) as -> by lia. by exists p.
  Qed.

  (** ** Depths *)
  Definition depth_fold (w : nat) (E : list event) (m : gmap nat (nat * nat)) :=
    fold_left (fun m e => update_nodes w e.1 (snd e.2) m) E m.
  Lemma depth_fold_spec w E : NoDup E.*1 -> forall m i,
    (forall p d, (i, (p, d)) ∈ E -> depth_fold w E m !! i =
       Some (match m !! i with None => (d, w) | Some d0 => if (d <? d0.1)%nat then (d, w) else d0 end)) /\
    (i ∉ E.*1 -> depth_fold w E m !! i = m !! i).
  Proof.
    induction E as [| [y [q e]] E IH]; intros N m i.
    - split; [intros p d H; by apply elem_of_nil in H | done].
    - rewrite fmap_cons in N. apply NoDup_cons in N as [N1 N2]. cbn in N1.
      change (depth_fold w ((y, (q, e)) :: E) m) with (depth_fold w E (update_nodes w y e m)).
      destruct (IH N2 (update_nodes w y e m) i) as [IH1 IH2]. 
      assert (U : forall j, j <> y -> update_nodes w y e m !! j = m !! j).
      { intros j J. unfold update_nodes. destruct (m !! y) as [d0 |]; [destruct (e <? d0.1)%nat; [| done]|];
          by rewrite lookup_insert_ne. }
      split.
      + intros p d H. apply elem_of_cons in H as [H | H].
        * injection H as -> -> ->. rewrite IH2 by done. unfold update_nodes.
          destruct (m !! y) as [d0 |] eqn:My; [destruct (e <? d0.1)%nat eqn:X; [by rewrite lookup_insert | done]
            | by rewrite lookup_insert].
        * assert (i <> y). { intros ->. apply N1. apply elem_of_list_fmap. by exists (y, (p, d)). }
          rewrite (IH1 p d H), U by done. done.
      + intros H. rewrite fmap_cons in H. apply not_elem_of_cons in H as [H1 H2]. rewrite IH2 by done. by apply U.
  Qed.

  Definition depths_ok (ws : list nat) (m : gmap nat (nat * nat)) : Prop :=
    (forall i d w, m !! i = Some (d, w) -> w ∈ ws /\ wd w d i /\ forall w' d', w' ∈ ws -> wd w' d' i -> (d <= d')%nat) /\
    (forall i w k, w ∈ ws -> walk w k i -> is_Some (m !! i)).

  Lemma all_depths_spec ws : forall done m, (forall w, w ∈ ws -> (w < n)%nat) -> (forall w, w ∈ done -> (w < n)%nat) ->
    depths_ok done m -> exists m', all_depths n area closed inside ord ws m = Ok m' /\ depths_ok (done ++ ws) m'.
  Proof.
    induction ws as [| w ws IH]; intros dn m B Bd D; cbn [all_depths].
    - exists m. by rewrite app_nil_r.
    - assert (W : (w < n)%nat) by (apply B; left).
      destruct (events_exist w W) as (E & Ev & T & C). destruct Ev as [v Ev].
      assert (R : dfs adj (update_nodes w) (fun _ d => S d) (n + 2) w 0%nat [] m = Ok (v, depth_fold w E m)).
      { exact (dfs_sim_ok adj (update_nodes w) (fun _ d => S d) snd m (n + 2) w (None, 0%nat) v E ltac:(done) Ev). }
      rewrite R. cbn [rbind snd].
      assert (Ev' : events w E) by by exists v.
      pose proof (trace_nodup adj w E T) as ND.
      destruct (IH (dn ++ [w]) (depth_fold w E m)) as (m' & R' & D').
      + intros w' H. apply B. by right.
      + intros w' H. apply elem_of_app in H as [H | H]; [by apply Bd|]. apply elem_of_list_singleton in H as ->. done.
      + destruct D as [D1 D2]. split.
        * intros i d w' H. destruct (decide (i ∈ E.*1)) as [I | I].
          -- apply elem_of_list_fmap in I as ([i' [p e]] & X & I). cbn in X. subst i'.
             rewrite (proj1 (depth_fold_spec w E ND m i) p e I) in H.
             pose proof (events_wd w E i p e W Ev' I) as We.
             assert (Uniq : forall d', wd w d' i -> d' = e).
             { intros d' [W1 W2]. destruct We as [W3 W4]. specialize (W2 _ W3). specialize (W4 _ W1). lia. }
             destruct (m !! i) as [[d0 w0] |] eqn:Mi.
             ++ destruct (D1 i d0 w0 Mi) as (H1 & H2 & H3). cbn [fst] in H. destruct (e <? d0)%nat eqn:X.
                ** apply Nat.ltb_lt in X. injection H as <- <-. split; [apply elem_of_app; right; left|]. split; [done|].
                   intros w' d' Hw Wd. apply elem_of_app in Hw as [Hw | Hw]; [specialize (H3 _ _ Hw Wd); lia|].
                   apply elem_of_list_singleton in Hw as ->. rewrite (Uniq _ Wd). done.
                ** apply Nat.ltb_ge in X. injection H as <- <-. split; [apply elem_of_app; by left|]. split; [done|].
                   intros w' d' Hw Wd. apply elem_of_app in Hw as [Hw | Hw]; [exact (H3 _ _ Hw Wd)|].
                   apply elem_of_list_singleton in Hw as ->. rewrite (Uniq _ Wd). done.
             ++ injection H as <- <-. split; [apply elem_of_app; right; left|]. split; [done|].
                intros w' d' Hw Wd. apply elem_of_app in Hw as [Hw | Hw].
                ** destruct Wd as [Wk _]. destruct (D2 i w' d' Hw Wk) as [x X]. congruence.
                ** apply elem_of_list_singleton in Hw as ->. rewrite (Uniq _ Wd). done.
          -- rewrite (proj2 (depth_fold_spec w E ND m i) I) in H. destruct (D1 i d w' H) as (H1 & H2 & H3).
             split; [apply elem_of_app; by left|]. split; [done|]. intros w2 d2 Hw Wd.
             apply elem_of_app in Hw as [Hw | Hw]; [exact (H3 _ _ Hw Wd)|]. apply elem_of_list_singleton in Hw as ->.
             exfalso. apply I. destruct (wd_events w E i d2 W Ev' Wd) as [p Hp]. apply elem_of_list_fmap. by exists (i, (p, d2)).
        * intros i w' k Hw Wk. destruct (decide (i ∈ E.*1)) as [I | I].
          -- apply elem_of_list_fmap in I as ([i' [p e]] & X & I). cbn in X. subst i'.
             rewrite (proj1 (depth_fold_spec w E ND m i) p e I). by eexists.
          -- rewrite (proj2 (depth_fold_spec w E ND m i) I). apply elem_of_app in Hw as [Hw | Hw]; [exact (D2 _ _ _ Hw Wk)|].
             apply elem_of_list_singleton in Hw as ->. exfalso. apply I.
             destruct (walk_trace n area closed inside adj (adj_spec n area closed inside ord ord_perm) w E T C k i Wk)
               as (p & d & H & _). apply elem_of_list_fmap. by exists (i, (p, d)).
      + exists m'. split; [exact R'|]. by rewrite <- app_assoc in D'.
  Qed.

  (** ** Constraints *)
  Section constraints.
    Context (m : gmap nat (nat * nat)) (o2i : bool).
    Definition pair_of (q y : nat) : nat * nat := if o2i then (q, y) else (y, q).
    Lemma far_pair q y : far_of o2i (pair_of q y) = y.
    Proof. unfold far_of, pair_of. by destruct o2i. Qed.
    Lemma near_pair q y : near_of o2i (pair_of q y) = q.
    Proof. unfold near_of, pair_of. by destruct o2i. Qed.
    Definition order_fold (w : nat) (E : list event) (order : list (nat * nat)) :=
      fold_left (fun acc e => set_order_constraints m o2i w e.1 (fst e.2) acc) E order.
    Lemma order_step w y q order : set_order_constraints m o2i w y q order =
      order ++ match m !! y, q with Some d, Some p => if decide (d.2 = w) then [pair_of p y] else [] | _, _ => [] end.
    Proof.
      unfold set_order_constraints. destruct (m !! y) as [d |]; [| by rewrite app_nil_r].
      destruct q; [| by rewrite app_nil_r]. destruct (decide (d.2 = w)); [done | by rewrite app_nil_r].
    Qed.
    Lemma order_fold_elem w E : forall order c, c ∈ order_fold w E order ->
      c ∈ order \/ exists y q d e, (y, (Some q, e)) ∈ E /\ m !! y = Some (d, w) /\ c = pair_of q y.
    Proof.
      induction E as [| [y [q e]] E IH]; intros order c H; [by left|].
      change (order_fold w ((y, (q, e)) :: E) order) with (order_fold w E (set_order_constraints m o2i w y q order)) in H.
      apply IH in H as [H | (y' & q' & d' & e' & H1 & H2 & H3)].
      - rewrite order_step in H. apply elem_of_app in H as [H | H]; [by left|]. right.
        destruct (m !! y) as [[d w'] |] eqn:My; [| by apply elem_of_nil in H].
        destruct q as [q |]; [| by apply elem_of_nil in H]. cbn in H.
        destruct (decide (w' = w)) as [-> |]; [| by apply elem_of_nil in H]. apply elem_of_list_singleton in H as ->.
        exists y, q, d, e. split; [left|]. done.
      - right. exists y', q', d', e'. split; [by right|]. done.
    Qed.
    Lemma order_fold_filter w E y : NoDup E.*1 -> forall order,
      (forall d w', m !! y = Some (d, w') -> w' <> w ->
         filter (fun c => far_of o2i c = y) (order_fold w E order) = filter (fun c => far_of o2i c = y) order) /\
      (y ∉ E.*1 -> filter (fun c => far_of o2i c = y) (order_fold w E order) = filter (fun c => far_of o2i c = y) order) /\
      (forall d q e, m !! y = Some (d, w) -> (y, (Some q, e)) ∈ E ->
         filter (fun c => far_of o2i c = y) (order_fold w E order) = filter (fun c => far_of o2i c = y) order ++ [pair_of q y]).
    Proof.
      induction E as [| [x [q e]] E IH]; intros N order.
      - split; [done|]. split; [done|]. intros d q e _ H. by apply elem_of_nil in H.
      - rewrite fmap_cons in N. apply NoDup_cons in N as [N1 N2]. cbn in N1.
        change (order_fold w ((x, (q, e)) :: E) order) with (order_fold w E (set_order_constraints m o2i w x q order)).
        destruct (IH N2 (set_order_constraints m o2i w x q order)) as (I1 & I2 & I3).
        assert (Oth : x <> y -> filter (fun c => far_of o2i c = y) (set_order_constraints m o2i w x q order) =
          filter (fun c => far_of o2i c = y) order).
        { intros X. rewrite order_step, filter_app. destruct (m !! x) as [[d w'] |]; [| cbn; by rewrite app_nil_r].
          destruct q as [q |]; [| cbn; by rewrite app_nil_r]. destruct (decide _); [| cbn; by rewrite app_nil_r].
          rewrite filter_cons_False by (by rewrite far_pair). by rewrite app_nil_r. }
        split; [| split].
        + intros d w' My Nw. rewrite (I1 d w' My Nw). destruct (decide (x = y)) as [-> | X]; [| by apply Oth].
          rewrite order_step, My. cbn. destruct q; [| by rewrite app_nil_r]. rewrite decide_False by done. by rewrite app_nil_r.
        + intros H. rewrite fmap_cons in H. apply not_elem_of_cons in H as [H1 H2]. rewrite (I2 H2). apply Oth. cbn in H1. congruence.
        + intros d q' e' My H. apply elem_of_cons in H as [H | H].
          * injection H as E1 E2 E3. subst x q e. rewrite (I2 N1), order_step, My. cbn. rewrite decide_True by done.
            rewrite filter_app. rewrite filter_cons_True by apply far_pair. done.
          * rewrite (I3 d q' e' My H). f_equal. apply Oth. intros ->. apply N1. apply elem_of_list_fmap. by exists (y, (Some q', e')).
    Qed.

    Lemma all_orders_spec ws : NoDup ws -> (forall w, w ∈ ws -> (w < n)%nat) -> forall order,
      exists r, all_orders n area closed inside ord m o2i ws order = Ok r /\
        (forall c, c ∈ r -> c ∈ order \/ exists w E y q d e, w ∈ ws /\ events w E /\ (y, (Some q, e)) ∈ E /\
            m !! y = Some (d, w) /\ c = pair_of q y) /\
        (forall y d w, m !! y = Some (d, w) ->
           (w ∉ ws -> filter (fun c => far_of o2i c = y) r = filter (fun c => far_of o2i c = y) order) /\
           (w ∈ ws -> forall E q e, events w E -> (y, (Some q, e)) ∈ E ->
              filter (fun c => far_of o2i c = y) r = filter (fun c => far_of o2i c = y) order ++ [pair_of q y])).
    Proof.
      induction ws as [| w ws IH]; intros N B order; cbn [all_orders].
      - exists order. split; [done|]. split; [by left|]. intros y d w My. split; [done|]. intros H. by apply elem_of_nil in H.
      - apply NoDup_cons in N as [N1 N2]. assert (W : (w < n)%nat) by (apply B; left).
        destruct (events_exist w W) as (E & Ev & T & C). destruct Ev as [v Ev].
        assert (R : dfs adj (set_order_constraints m o2i w) (fun x _ => Some x) (n + 2) w None [] order = Ok (v, order_fold w E order)).
        { exact (dfs_sim_ok adj (set_order_constraints m o2i w) (fun x _ => Some x) fst order (n + 2) w (None, 0%nat) v E ltac:(done) Ev). }
        rewrite R. cbn [rbind snd]. assert (Ev' : events w E) by by exists v.
        pose proof (trace_nodup adj w E T) as ND.
        destruct (IH N2 (fun w' H => B w' (elem_of_list_further _ _ _ H)) (order_fold w E order)) as (r & R' & El & Fi).
        exists r. split; [exact R'|]. split.
        + intros c H. apply El in H as [H | (w' & E' & y & q & d & e & H1 & H2 & H3 & H4 & H5)].
          * apply order_fold_elem in H as [H | (y & q & d & e & H1 & H2 & H3)]; [by left|]. right.
            exists w, E, y, q, d, e. split; [left|]. done.
          * right. exists w', E', y, q, d, e. split; [by right|]. done.
        + intros y d w' My. destruct (Fi y d w' My) as [F1 F2]. destruct (order_fold_filter w E y ND order) as (O1 & O2 & O3).
          split.
          * intros H. apply not_elem_of_cons in H as [H1 H2]. rewrite (F1 H2). by apply (O1 d w').
          * intros H E' q e Ev2 He. apply elem_of_cons in H as [-> | H].
            -- rewrite (F1 N1). assert (E' = E) as -> by (destruct Ev2 as [v2 Ev2]; congruence). by apply (O3 d q e).
            -- rewrite (F2 H E' q e Ev2 He). f_equal. apply (O1 d w' My). intros ->. done.
    Qed.
  End constraints.

  Notation steps := (steps n area closed outer inside).
  Notation distance := (distance n area closed outer inside).
  Lemma steps_walk k i : steps k i <-> exists o, (o < n)%nat /\ outer o = true /\ walk o k i.
  Proof.
    split.
    - induction 1 as [o O1 O2 | k i j S IH Ad]; [exists o; split; [done|]; split; [done | constructor]|].
      destruct IH as (o & O1 & O2 & W). exists o. split; [done|]. split; [done|]. by apply (walk_snoc _ _ _ _ _ _ i).
    - intros (o & O1 & O2 & W). induction W as [| k i j W IH Ad]; [by constructor|]. by apply (steps_next _ _ _ _ _ _ i).
  Qed.

  Lemma region_spec o2i : exists order, getRegionOrder n area closed outer inside ord o2i = Ok order /\
    (forall c, c ∈ order -> exists k, adjacent (near_of o2i c) (far_of o2i c) /\
       distance k (near_of o2i c) /\ distance (S k) (far_of o2i c)) /\
    (forall i k, distance (S k) i -> exists c, filter (fun c => far_of o2i c = i) order = [c]).
  Proof.
    assert (OW : forall w, w ∈ outer_walls n outer <-> (w < n)%nat /\ outer w = true).
    { intros w. unfold outer_walls. rewrite elem_of_list_filter, elem_of_seq. split; [intros [H1 H2]; split; [lia | done]|].
      intros [H1 H2]. split; [done | lia]. }
    assert (OB : forall w, w ∈ outer_walls n outer -> (w < n)%nat) by (intros w H; by apply OW in H as [H _]).
    assert (ON : NoDup (outer_walls n outer)). { unfold outer_walls. apply NoDup_filter, NoDup_seq. }
    unfold getRegionOrder.
    destruct (all_depths_spec (outer_walls n outer) [] ∅ OB) as (m & Rm & D1 & D2).
    { intros w H. by apply elem_of_nil in H. }
    { split; [intros i d w H; by rewrite lookup_empty in H | intros i w k H; by apply elem_of_nil in H]. }
    rewrite Rm. cbn [rbind]. cbn [app] in D1, D2.
    destruct (all_orders_spec m o2i (outer_walls n outer) ON OB []) as (order & Ro & El & Fi).
    exists order. split; [exact Ro|].
    (* The depth in the map is the distance. *)
    assert (Dist : forall i d w, m !! i = Some (d, w) -> distance d i).
    { intros i d w Mi. destruct (D1 i d w Mi) as (Hw & [Wk _] & Min). split.
      - apply steps_walk. exists w. apply OW in Hw as [H1 H2]. done.
      - intros k' S. apply steps_walk in S as (o & O1 & O2 & W).
        destruct (events_exist o O1) as (E & Ev & T & C).
        destruct (walk_trace n area closed inside adj (adj_spec n area closed inside ord ord_perm) o E T C k' i W) as (p & d' & H & L).
        assert (Wd : wd o d' i) by exact (events_wd o E i p d' O1 Ev H).
        assert (Ho : o ∈ outer_walls n outer) by (by apply OW). specialize (Min o d' Ho Wd). lia. }
    assert (DU : forall i d d', distance d i -> distance d' i -> d = d').
    { intros i d d' [S1 M1] [S2 M2]. specialize (M1 _ S2). specialize (M2 _ S1). lia. }
    split.
    - intros c H. apply El in H as [H | (w & E & y & q & d & e & Hw & Ev & He & My & ->)]; [by apply elem_of_nil in H|].
      rewrite near_pair, far_pair. assert (W : (w < n)%nat) by by apply OB.
      destruct (events_trace w E W Ev) as [T C].
      destruct (trace_parent n area closed inside adj (adj_spec n area closed inside ord ord_perm) w E y q e T He) as (p & e' & -> & Hq & Ad).
      assert (We : wd w (S e') y) by exact (events_wd w E y _ _ W Ev He).
      destruct (D1 y d w My) as (_ & Wd & _).
      assert (d = S e') as ->.
      { destruct We as [W1 W2], Wd as [W3 W4]. specialize (W2 _ W3). specialize (W4 _ W1). lia. }
      exists e'. split; [done|]. split; [| by apply (Dist y _ w)].
      split.
      + apply steps_walk. exists w. apply OW in Hw as [H1 H2]. split; [done|]. split; [done|].
        exact (proj1 (events_wd w E q p e' W Ev Hq)).
      + intros k' S. assert (S' : steps (Datatypes.S k') y) by by apply (steps_next _ _ _ _ _ _ q).
        destruct (Dist y _ w My) as [_ M]. specialize (M _ S'). lia.
    - intros i k Hi. destruct Hi as [Si Mi].
      apply steps_walk in Si as (o & O1 & O2 & Wk).
      destruct (D2 i o (S k)) as [[d w] Mw]; [by apply OW | done |].
      assert (d = S k). { apply (DU i); [by apply (Dist i d w)|]. split; [| done]. apply steps_walk. by exists o. }
      subst d. destruct (D1 i (S k) w Mw) as (Hw & Wd & _). assert (W : (w < n)%nat) by by apply OB.
      destruct (events_exist w W) as (E & Ev & T & C). destruct (wd_events w E i (S k) W Ev Wd) as [p Hp].
      destruct p as [q |]; [| by apply (trace_none adj w) in Hp].
      destruct (Fi i (S k) w Mw) as [_ F2]. exists (pair_of o2i q i). by rewrite (F2 Hw E q (S k) Ev Hp).
  Qed.
End searches.

(** C14.  With all walls of an inset together, the constraints are exactly these, each once: a wall and a wall of the next
    inset, in the configured direction, and a gap filler after the walls of the inset around it.  They contain no cycle. *)
Theorem C14_inset_order : forall lines outer_to_inner,
  NoDup (getInsetOrder lines outer_to_inner) /\
  (forall a b, (a, b) ∈ getInsetOrder lines outer_to_inner <->
     exists la lb, lines !! a = Some la /\ lines !! b = Some lb /\ l_odd la = false /\
       ((l_odd lb = false /\ (if outer_to_inner then l_inset lb = S (l_inset la) else l_inset la = S (l_inset lb))) \/
        (l_odd lb = true /\ l_inset lb = S (l_inset la)))) /\
  acyclic (getInsetOrder lines outer_to_inner).
Proof.
  intros lines o2i. split; [apply NoDup_inset_order|]. split; [intros a b; apply elem_of_inset_order|].
  apply (acyclic_rank _ (fun i => match lines !! i with
    | Some l => if o2i then Z.of_nat (l_inset l) else if l_odd l then 1%Z else (- Z.of_nat (l_inset l))%Z
    | None => 0%Z end)).
  intros a b H. apply elem_of_inset_order in H as (la & lb & La & Lb & Oa & H). rewrite La, Lb, Oa.
  destruct H as [[Ob H] | [Ob H]]; rewrite Ob; destruct o2i; lia.
Qed.
Print Assumptions C14_inset_order.

(** C14.  With the walls by region, whatever the nesting of the lines and the iteration order of the hash maps: every
    constraint is between a line and the line directly around or within it that is one step nearer to an outer wall, in the
    configured direction; every line that is not an outer wall but is reached from one has exactly one such constraint. *)
Theorem C14_region_order : forall n area closed outer inside ord, (forall i l, ord i l ≡ₚ l) -> forall outer_to_inner,
  exists order, getRegionOrder n area closed outer inside ord outer_to_inner = Ok order /\
    (forall c, c ∈ order -> exists k, adjacent n area closed inside (near_of outer_to_inner c) (far_of outer_to_inner c) /\
       distance n area closed outer inside k (near_of outer_to_inner c) /\
       distance n area closed outer inside (S k) (far_of outer_to_inner c)) /\
    (forall i k, distance n area closed outer inside (S k) i ->
       exists c, filter (fun c => far_of outer_to_inner c = i) order = [c]) /\
    acyclic order.
Proof.
  intros n area closed outer inside ord P o2i.
  destruct (region_spec n area closed outer inside ord P o2i) as (order & R & H1 & H2).
  exists order. split; [exact R|]. split; [exact H1|]. split; [exact H2|].
  assert (DU : forall i d d', distance n area closed outer inside d i -> distance n area closed outer inside d' i -> d = d').
  { intros i d d' [S1 M1] [S2 M2]. specialize (M1 _ S2). specialize (M2 _ S1). lia. }
  assert (G : forall a b, tc (fun a b => (a, b) ∈ order) a b ->
    exists ka kb, distance n area closed outer inside ka a /\ distance n area closed outer inside kb b /\ ka <> kb /\
      (if o2i then ka < kb else kb < ka)%nat).
  { intros a b T. induction T as [a b T | a b c T _ IH].
    - destruct (H1 _ T) as (k & _ & D1 & D2). unfold near_of, far_of in D1, D2. cbn in D1, D2. destruct o2i.
      + exists k, (S k). split; [done|]. split; [done|]. lia.
      + exists (S k), k. split; [done|]. split; [done|]. lia.
    - destruct (H1 _ T) as (k & _ & D1 & D2). unfold near_of, far_of in D1, D2. cbn in D1, D2.
      destruct IH as (kb & kc & Db & Dc & Ne & L). destruct o2i.
      + assert (kb = S k) as -> by by apply (DU b). exists k, kc. split; [done|]. split; [done|]. lia.
      + assert (kb = k) as -> by by apply (DU b). exists (S k), kc. split; [done|]. split; [done|]. lia. }
  intros i T. destruct (G i i T) as (ka & kb & Da & Db & Ne & _). apply Ne. by apply (DU i).
Qed.
Print Assumptions C14_region_order.

(** C14.  Every wall that has points is printed once: by one extruder, inset by inset in the configured direction, or the
    first inset by one extruder and all others by the other. *)
Theorem C14_walls_once : forall (A : Type) (empty : A -> bool) (paths : list (list A)) outer_to_inner,
  let walls one is_wall_x :=
    getWallsToBeAdded empty paths (shouldReversePath one is_wall_x outer_to_inner) one in
  walls true true = filter (fun l => empty l = false) (concat (if outer_to_inner then paths else reverse paths)) /\
  walls false false = filter (fun l => empty l = false) (default [] (head paths)) /\
  walls false true = filter (fun l => empty l = false) (concat (reverse (tail paths))) /\
  walls false false ++ walls false true ≡ₚ filter (fun l => empty l = false) (concat paths).
Proof.
  intros A empty paths o2i walls. subst walls. cbv beta.
  assert (W1 : getWallsToBeAdded empty paths (shouldReversePath false false o2i) false =
    filter (fun l => empty l = false) (default [] (head paths))).
  { unfold getWallsToBeAdded, shouldReversePath. destruct paths as [| p paths]; [done|]. cbn. rewrite take_0. cbn.
    by rewrite app_nil_r. }
  assert (W2 : getWallsToBeAdded empty paths (shouldReversePath false true o2i) false =
    filter (fun l => empty l = false) (concat (reverse (tail paths)))).
  { unfold getWallsToBeAdded, shouldReversePath. destruct paths as [| p paths]; [done|]. cbn [andb tail].
    rewrite reverse_cons, take_app_alt; [done|]. rewrite reverse_length. cbn. lia. }
  split; [| split; [exact W1 | split; [exact W2|]]].
  - unfold getWallsToBeAdded, shouldReversePath. cbn. destruct paths as [| p paths]; [by destruct o2i|]. by destruct o2i.
  - rewrite W1, W2. destruct paths as [| p paths]; [done|]. cbn [head tail default].
    cbn [concat]. rewrite filter_app. apply Permutation_app_head.
    assert (PC : concat (reverse paths) ≡ₚ concat paths).
    { clear. induction paths as [| q paths IH]; [done|]. rewrite reverse_cons, concat_app. cbn. rewrite app_nil_r, Permutation_app_comm.
      apply Permutation_app; [done | exact IH]. }
    by rewrite PC.
Qed.
Print Assumptions C14_walls_once.

(** Two outer walls: a hole in the middle.  Lines 0 (outer) > 1 > 2 around the hole walls 3 (inset 1) > 4 (outer, the hole),
    and an open line 5 within line 3.  The inner walls 1 and 3 follow the walls 0 and 4 next to them. *)
Definition ex_area (i : nat) : Z := nth i [100; 80; 60; 40; 20; 1]%Z 0%Z.
Definition ex_closed (i : nat) : bool := (i <? 5)%nat.
Definition ex_outer (i : nat) : bool := (i =? 0)%nat || (i =? 4)%nat.
Definition ex_inside (j i : nat) : bool := (j <? i)%nat && negb ((j =? 4)%nat && (i =? 5)%nat).
Example C14_example :
  getRegionOrder 6 ex_area ex_closed ex_outer ex_inside (fun _ l => l) true = Ok [(0, 1); (1, 2); (4, 3); (3, 5)]%nat /\
  getRegionOrder 6 ex_area ex_closed ex_outer ex_inside (fun _ l => rev l) false = Ok [(1, 0); (2, 1); (3, 4); (5, 3)]%nat /\
  getInsetOrder [WLine 0 false; WLine 1 false; WLine 1 true; WLine 2 true; WLine 0 false] true =
    [(0, 1); (4, 1); (0, 2); (4, 2); (1, 3)]%nat /\
  getWallsToBeAdded (fun l => (l =? 0)%nat) [[1; 2]; [3; 0]; [4]]%nat true false = [4; 3]%nat.
Proof. vm_compute. done. Qed.
