(** C11: path ordering prints every path exactly once, from valid start vertices, greedily. *)
From Coq Require Import ZArith Lia Permutation.
From stdpp Require Import list.
From Verif Require Import Common Geo_Model Geo_Spec PathOrder_Model.
Open Scope Z_scope.

(** ** Specification *)
Definition index_of (o : placed) : nat := o.1.1.
(** Coordinates below 2^30 micron (about a kilometre): squared distances fit in 63 bits. *)
Definition small (p : pt) : Prop := Z.abs p.1 < 2 ^ 30 /\ Z.abs p.2 < 2 ^ 30.
(** A path that is closed, given or detected: its ends are less than 10 micron apart. *)
Definition closed_path (detect_loops : bool) (p : opath) : Prop :=
  given_closed p = true \/
  (detect_loops = true /\ exists a b, head (verts p) = Some a /\ last (verts p) = Some b /\ dist2 a b < 100).
(** A printed path starts in one of its vertices. An open one starts in its first vertex, or in its
    last one and is then printed backwards. *)
Definition valid_start (detect_loops : bool) (p : opath) (s : Z) (b : bool) : Prop :=
  0 <= s < Z.of_nat (length (verts p)) /\
  (~ closed_path detect_loops p -> s = if b then Z.of_nat (length (verts p)) - 1 else 0).
(** Where the nozzle is after having printed a path: where it began for a closed one, at the other
    end for an open one. *)
Inductive prints (detect_loops : bool) (paths : list opath) : pt -> list placed -> pt -> Prop :=
| prints_nil pos : prints detect_loops paths pos [] pos
| prints_empty pos i s b p out pos' : paths !! i = Some p -> verts p = [] ->
    prints detect_loops paths pos out pos' -> prints detect_loops paths pos ((i, s, b) :: out) pos'
| prints_closed pos i s b p e out pos' : paths !! i = Some p -> closed_path detect_loops p -> verts p !! Z.to_nat s = Some e ->
    prints detect_loops paths e out pos' -> prints detect_loops paths pos ((i, s, b) :: out) pos'
| prints_open pos i s (b : bool) p e out pos' : paths !! i = Some p -> ~ closed_path detect_loops p ->
    (if b then head (verts p) else last (verts p)) = Some e ->
    prints detect_loops paths e out pos' -> prints detect_loops paths pos ((i, s, b) :: out) pos'.
(** The points where a path may be entered, coming from a position: the ends of an open path, the
    seam of a closed one, which depends on the position unless it was fixed before. *)
Definition entry (detect_loops : bool) (paths : list opath) (seam : nat -> pt -> nat) (seam_pos : pt) (i : nat) (pos q : pt) : Prop :=
  exists p, paths !! i = Some p /\
    ((~ closed_path detect_loops p /\ (head (verts p) = Some q \/ last (verts p) = Some q)) \/
     (closed_path detect_loops p /\ verts p !! seam i (if precomputed_type p then seam_pos else pos) = Some q)).

Lemma dist2_vSize2 a b : vSize2 (psub a b) = dist2 a b.
Proof. reflexivity. Qed.
Lemma small_dist a b : small a -> small b -> dist2 a b < COORD_MAX.
Proof.
  intros [Ha1 Ha2] [Hb1 Hb2]. unfold dist2, COORD_MAX.
  assert (H : forall x y, Z.abs x < 2 ^ 30 -> Z.abs y < 2 ^ 30 -> (x - y) * (x - y) < 2 ^ 62 - 1).
  { intros x y Hx Hy. assert (Z.abs (x - y) <= 2 ^ 31 - 2) by lia.
    assert ((x - y) * (x - y) = Z.abs (x - y) * Z.abs (x - y)) by (destruct (Z.abs_spec (x - y)) as [[_ ->]|[_ ->]]; lia). nia. }
  pose proof (H _ _ Ha1 Hb1). pose proof (H _ _ Ha2 Hb2). lia.
Qed.

Section proofs.
  Variable paths : list opath.
  Variable start_point : pt.
  Variable detect_loops : bool.
  Variable combing : option (pt -> pt -> Z).
  Variable seam : nat -> pt -> nat.
  Variable seam_pos : pt.
  Variable nearby : pt -> list nat.
  Variable path_length : nat -> Z.
  Variable precompute : bool.

  Hypothesis Hstart : small start_point.
  Hypothesis Hsmall : forall i p q, paths !! i = Some p -> q ∈ verts p -> small q.
  Hypothesis Hcomb : forall f a b, combing = Some f -> f a b < COORD_MAX.
  Hypothesis Hseam : forall i p pos, paths !! i = Some p -> verts p <> [] -> (seam i pos < length (verts p))%nat.
  Hypothesis Hnear : forall pos i, i ∈ nearby pos -> (i < length paths)%nat.

  Notation is_closed := (is_closed detect_loops).
  Notation findStartLocation := (findStartLocation detect_loops combing seam).
  Notation findClosestPath := (findClosestPath paths detect_loops combing seam).
  Notation findBestPath := (findBestPath paths detect_loops combing seam path_length).
  Notation order_loop := (order_loop paths detect_loops combing seam nearby path_length).
  Notation initial := (initial_start paths detect_loops seam seam_pos precompute).
  Notation closed_path := (closed_path detect_loops).
  Notation prints := (prints detect_loops paths).

  Lemma is_closed_spec p : is_closed p = true <-> closed_path p.
  Proof.
    unfold PathOrder_Model.is_closed, PathOrder_Props.closed_path. rewrite orb_true_iff, andb_true_iff.
    unfold isLoopingPolyline. split.
    - intros [?|[? H]]; [by left|right]. split; [done|]. destruct (head (verts p)) as [a|], (last (verts p)) as [b|]; try done.
      exists a, b. rewrite Z.ltb_lt, dist2_vSize2 in H. split; [done|]. split; [done|]. unfold dist2 in *. lia.
    - intros [?|[? (a & b & -> & -> & H)]]; [by left|right]. split; [done|]. rewrite Z.ltb_lt, dist2_vSize2. unfold dist2 in *. lia.
  Qed.
  Lemma is_closed_false p : is_closed p = false <-> ~ closed_path p.
  Proof. rewrite <- is_closed_spec. destruct (is_closed p); naive_solver. Qed.

  (** the start vertex that path i is given when coming from pos *)
  Definition start_for (i : nat) (p : opath) (pos : pt) : nat :=
    if negb (is_closed p) || negb (precomputed_type p) then findStartLocation i p pos else initial i.

  Record st_ok (st : pstate) : Prop := {
    ok_empty : forall i p, paths !! i = Some p -> verts p = [] -> starts st i = 0%nat;
    ok_valid : forall i p, paths !! i = Some p -> verts p <> [] -> (starts st i < length (verts p))%nat;
    ok_open : forall i p, paths !! i = Some p -> verts p <> [] -> is_closed p = false ->
      starts st i = if backs st i then (length (verts p) - 1)%nat else 0%nat;
    ok_closed : forall i p, paths !! i = Some p -> verts p = [] \/ is_closed p = true -> backs st i = false;
    ok_fixed : forall i p, paths !! i = Some p -> is_closed p = true -> precomputed_type p = true -> starts st i = initial i }.

  Lemma initial_valid i p : paths !! i = Some p -> verts p <> [] -> (initial i < length (verts p))%nat.
  Proof.
    intros Hp Hne. unfold initial_start. rewrite Hp. destruct (_ && _); [by eapply Hseam|].
    destruct (verts p); [done|simpl; lia].
  Qed.
  Lemma start_for_valid i p pos : paths !! i = Some p -> verts p <> [] -> (start_for i p pos < length (verts p))%nat.
  Proof.
    intros Hp Hne. unfold start_for. destruct (negb _ || _); [|by apply initial_valid].
    unfold PathOrder_Model.findStartLocation. destruct (is_closed p); [by eapply Hseam|].
    destruct (verts p) as [|v vs] eqn:E; [done|]. simpl. destruct (last (v :: vs)); [|lia]. destruct (_ || _); lia.
  Qed.
  Lemma start_for_open i p pos : is_closed p = false -> start_for i p pos = 0%nat \/ start_for i p pos = (length (verts p) - 1)%nat.
  Proof.
    intros Hc. unfold start_for. rewrite Hc. simpl. unfold PathOrder_Model.findStartLocation. rewrite Hc.
    destruct (head (verts p)), (last (verts p)); try by left. destruct (_ || _); auto.
  Qed.

  Lemma initial_ok b : st_ok (PState initial (fun _ => false) b).
  Proof.
    split; simpl; try done.
    - intros i p Hp He. unfold initial_start. rewrite Hp, bool_decide_eq_true_2 by done. simpl. by rewrite andb_false_r.
    - intros. by apply initial_valid.
    - intros i p Hp Hne Hc. unfold initial_start. rewrite Hp, Hc. by rewrite andb_false_r.
  Qed.

  Definition assign (st : pstate) (i : nat) (p : opath) (pos : pt) : pstate :=
    if negb (is_closed p) || negb (precomputed_type p) then
      let s := findStartLocation i p pos in
      PState (upd (starts st) i s) (if is_closed p then backs st else upd (backs st) i (Nat.ltb 0 s)) (longest st)
    else st.
  Lemma assign_self st i p pos : st_ok st -> paths !! i = Some p -> starts (assign st i p pos) i = start_for i p pos.
  Proof.
    intros Hst Hp. unfold assign, start_for. destruct (negb _ || _) eqn:E; simpl.
    - unfold upd. by rewrite Nat.eqb_refl.
    - apply orb_false_iff in E as [E1 E2]. eapply ok_fixed; eauto; [by destruct (is_closed p)|by destruct (precomputed_type p)].
  Qed.
  Lemma assign_other st i p pos j : j <> i -> starts (assign st i p pos) j = starts st j.
  Proof. intros Hj. unfold assign. destruct (_ || _); simpl; [|done]. unfold upd. destruct (Nat.eqb_spec j i); done. Qed.
  Lemma assign_longest st i p pos : longest (assign st i p pos) = longest st.
  Proof. unfold assign. by destruct (_ || _). Qed.
  Lemma assign_ok st i p pos : st_ok st -> paths !! i = Some p -> verts p <> [] -> st_ok (assign st i p pos).
  Proof.
    intros Hst Hp Hne.
    assert (Hs : forall j q, paths !! j = Some q -> j = i -> q = p) by (intros j q Hj ->; congruence).
    split.
    - intros j q Hq He. destruct (decide (j = i)) as [-> |Hj]; [exfalso; congruence|]. rewrite assign_other by done. by eapply ok_empty.
    - intros j q Hq He. destruct (decide (j = i)) as [-> |Hj].
      + assert (q = p) as -> by congruence. rewrite assign_self by done. by apply start_for_valid.
      + rewrite assign_other by done. by eapply ok_valid.
    - intros j q Hq He Hc. destruct (decide (j = i)) as [-> |Hj].
      + assert (q = p) as -> by congruence. rewrite assign_self by done. unfold assign. rewrite Hc. simpl. unfold upd.
        rewrite Nat.eqb_refl. pose proof (start_for_open i p pos Hc) as Ho. unfold start_for in *. rewrite Hc in *. simpl in *.
        destruct (Nat.ltb_spec 0 (findStartLocation i p pos)); lia.
      + rewrite assign_other by done. unfold assign. destruct (_ || _); simpl; [|by eapply ok_open].
        destruct (is_closed p); [by eapply ok_open|]. unfold upd. destruct (Nat.eqb_spec j i); [done|]. by eapply ok_open.
    - intros j q Hq Hc. unfold assign. destruct (_ || _); simpl; [|by eapply ok_closed].
      destruct (is_closed p) eqn:Ec; [by eapply ok_closed|]. unfold upd. destruct (Nat.eqb_spec j i) as [-> |]; [|by eapply ok_closed].
      assert (q = p) as -> by congruence. destruct Hc; congruence.
    - intros j q Hq Hc Hf. destruct (decide (j = i)) as [-> |Hj]; [|rewrite assign_other by done; by eapply ok_fixed].
      assert (q = p) as -> by congruence. rewrite assign_self by done. unfold start_for. by rewrite Hc, Hf.
  Qed.

  Definition entry_dist (pos : pt) (i : nat) (p : opath) (d : Z) : Prop :=
    exists q, verts p !! start_for i p pos = Some q /\ d = dist2 pos q.

  (** what is known of the best candidate so far *)
  Definition best_inv (pos : pt) (bd : Z) (best : option nat) (st : pstate) : Prop :=
    (bd = COORD_MAX /\ forall b, best = Some b -> exists p, paths !! b = Some p /\ verts p = []) \/
    (bd < COORD_MAX /\ exists b p, best = Some b /\ paths !! b = Some p /\ verts p <> [] /\
       starts st b = start_for b p pos /\ (combing = None -> entry_dist pos b p bd)).

  Lemma closest_spec pos cands : forall bd best st, small pos -> st_ok st ->
    (forall i, i ∈ cands -> (i < length paths)%nat) -> best_inv pos bd best st ->
    exists best' bd' st', findClosestPath pos cands bd best st = Ok (best', st') /\ st_ok st' /\ longest st' = longest st /\
      best_inv pos bd' best' st' /\ (best' = best \/ exists i, best' = Some i /\ i ∈ cands) /\
      ((best <> None \/ cands <> []) -> best' <> None) /\
      (combing = None -> bd' <= bd /\ forall j p d, j ∈ cands -> paths !! j = Some p -> entry_dist pos j p d -> bd' <= d) /\
      (bd' = COORD_MAX -> bd = COORD_MAX /\ forall j p, j ∈ cands -> paths !! j = Some p -> verts p = []).
  Proof.
    induction cands as [|i cands IH]; intros bd best st Hpos Hst Hin Hbest; cbn [PathOrder_Model.findClosestPath].
    - exists best, bd, st. split; [done|]. split; [done|]. split; [done|]. split; [done|]. split; [by left|]. split; [naive_solver|].
      split; [intros _; split; [lia|]; intros j p d Hj; by apply elem_of_nil in Hj|].
      intros ?; split; [done|]. intros j p Hj; by apply elem_of_nil in Hj.
    - assert (Hi : (i < length paths)%nat) by (apply Hin; left).
      apply lookup_lt_is_Some_2 in Hi as [p Hp]. unfold get_path. rewrite Hp. cbn [of_opt rbind].
      case_bool_decide as Hemp.
      + destruct (IH bd (if bd =? COORD_MAX then Some i else best) st) as (b' & bd' & st' & He & Hok & Hl & Hb & Hor & Hnn & Hmin & Hmax).
        * done.
        * done.
        * intros j Hj; apply Hin; by right.
        * destruct (Z.eqb_spec bd COORD_MAX) as [Hm|Hm]; [|done]. left. split; [done|]. intros b [= <-]. eauto.
        * exists b', bd', st'. split; [done|]. split; [done|]. split; [done|]. split; [done|]. split.
          { destruct Hor as [-> |(j & -> & Hj)]; [|right; exists j; split; [done|by right]].
            destruct (bd =? COORD_MAX); [|by left]. right. exists i. split; [done|left]. }
          split.
          { intros _. apply Hnn. destruct (Z.eqb_spec bd COORD_MAX) as [Hm|Hm]; [by left|]. left.
            destruct Hbest as [[? _]|(_ & b & q & -> & _)]; done. }
          split.
          { intros Hc. destruct (Hmin Hc) as [Hle Hall]. split; [done|]. intros j q d Hj Hq Hd.
            apply elem_of_cons in Hj as [-> |Hj]; [|by eapply Hall]. rewrite Hp in Hq. injection Hq as <-.
            destruct Hd as (x & Hx & _). by rewrite Hemp in Hx. }
          { intros Hm. destruct (Hmax Hm) as [Hm' Hall]. split; [done|]. intros j q Hj Hq.
            apply elem_of_cons in Hj as [-> |Hj]; [naive_solver|eauto]. }
      + fold (assign st i p pos). set (st1 := assign st i p pos).
        assert (Hst1 : st_ok st1) by by apply assign_ok.
        assert (Hs1 : starts st1 i = start_for i p pos) by by apply assign_self.
        assert (Hv : (start_for i p pos < length (verts p))%nat) by by apply start_for_valid.
        apply lookup_lt_is_Some_2 in Hv as [c Hc]. cbv zeta. rewrite Hs1, Hc. cbn [of_opt rbind].
        unfold getDirectDistance. rewrite dist2_vSize2.
        assert (Hd0 : dist2 pos c < COORD_MAX).
        { apply small_dist; [done|]. eapply Hsmall; [exact Hp|]. by eapply elem_of_list_lookup_2. }
        set (d := match combing with Some f => if dist2 pos c <? bd then f pos c else dist2 pos c | None => dist2 pos c end).
        assert (Hd : d < COORD_MAX).
        { unfold d. destruct combing as [f|] eqn:Ef; [|done]. destruct (_ <? _); [by apply (Hcomb f)|done]. }
        assert (Hdn : combing = None -> d = dist2 pos c) by (unfold d; by intros ->).
        assert (Hkeep : best_inv pos bd best st1).
        { destruct Hbest as [?|(Hbd & b & q & Hb & Hq & Hqn & Hs & Hdd)]; [by left|right]. split; [done|]. exists b, q.
          split; [done|]. split; [done|]. split; [done|]. split; [|done].
          destruct (decide (b = i)) as [-> |Hbi]; [|unfold st1; by rewrite assign_other]. rewrite Hs1. congruence. }
        destruct (Z.ltb_spec d bd) as [Hlt|Hge].
        * destruct (IH d (Some i) st1) as (b' & bd' & st' & He & Hok & Hl & Hb & Hor & Hnn & Hmin & Hmax).
          -- done.
          -- done.
          -- intros j Hj; apply Hin; by right.
          -- right. split; [done|]. exists i, p. split; [done|]. split; [done|]. split; [done|]. split; [done|].
             intros Hcn. exists c. split; [done|]. by apply Hdn.
          -- exists b', bd', st'. split; [done|]. split; [done|]. split; [by rewrite Hl; apply assign_longest|]. split; [done|]. split.
             { destruct Hor as [-> |(j & -> & Hj)]; right; [exists i; split; [done|left]|exists j; split; [done|by right]]. }
             split; [intros _; apply Hnn; by left|]. split.
             { intros Hcn. destruct (Hmin Hcn) as [Hle Hall]. split; [lia|]. intros j q dd Hj Hq Hdd.
               apply elem_of_cons in Hj as [-> |Hj]; [|by eapply Hall]. rewrite Hp in Hq. injection Hq as <-.
               destruct Hdd as (x & Hx & ->). rewrite Hc in Hx. injection Hx as <-. rewrite <- Hdn by done. done. }
             { intros Hm. destruct (Hmax Hm) as [Hm' _]. lia. }
        * assert (Hbs : exists b, best = Some b).
          { destruct Hbest as [[-> _]|(_ & b & q & -> & _)]; [lia|eauto]. }
          assert (Hbd : bd <> COORD_MAX) by lia.
          destruct (IH bd best st1) as (b' & bd' & st' & He & Hok & Hl & Hb & Hor & Hnn & Hmin & Hmax).
          -- done.
          -- done.
          -- intros j Hj; apply Hin; by right.
          -- done.
          -- exists b', bd', st'. split; [done|]. split; [done|]. split; [by rewrite Hl; apply assign_longest|]. split; [done|]. split.
             { destruct Hor as [-> |(j & -> & Hj)]; [by left|right; exists j; split; [done|by right]]. }
             split; [intros _; apply Hnn; left; destruct Hbs as [? ->]; done|]. split.
             { intros Hcn. destruct (Hmin Hcn) as [Hle Hall]. split; [lia|]. intros j q dd Hj Hq Hdd.
               apply elem_of_cons in Hj as [-> |Hj]; [|by eapply Hall]. rewrite Hp in Hq. injection Hq as <-.
               destruct Hdd as (x & Hx & ->). rewrite Hc in Hx. injection Hx as <-. rewrite <- Hdn by done. lia. }
             { intros Hm. destruct (Hmax Hm) as [Hm' _]. done. }
  Qed.

  Lemma longest_spec cands : forall best, (best <> None \/ cands <> []) ->
    exists i, findLongestPath path_length cands best = Some i /\ (best = Some i \/ i ∈ cands) /\
      (forall j, best = Some j \/ j ∈ cands -> path_length j <= path_length i).
  Proof.
    induction cands as [|j cands IH]; intros best Hb; simpl.
    - destruct best as [b|]; [|naive_solver]. exists b. split; [done|]. split; [by left|].
      intros j [[= ->]|Hj]; [lia|by apply elem_of_nil in Hj].
    - destruct (IH (match best with None => Some j | Some b => if path_length b <? path_length j then Some j else best end)) as (i & He & Hor & Hall).
      { left. destruct best; [destruct (_ <? _)|]; done. }
      exists i. split; [done|]. destruct best as [b|].
      + destruct (Z.ltb_spec (path_length b) (path_length j)) as [Hlt|Hge].
        * split; [right; destruct Hor as [[= ->]|?]; [left|by right]|].
          pose proof (Hall j (or_introl eq_refl)).
          intros k [[= ->]|Hk]; [lia|]. apply elem_of_cons in Hk as [-> |Hk]; [done|]. apply Hall. by right.
        * split; [destruct Hor as [[= ->]|?]; [by left|right; by right]|].
          pose proof (Hall b (or_introl eq_refl)).
          intros k [[= ->]|Hk]; [lia|]. apply elem_of_cons in Hk as [-> |Hk]; [lia|]. apply Hall. by right.
      + split; [right; destruct Hor as [[= ->]|?]; [left|by right]|].
        intros k [|Hk]; [done|]. apply elem_of_cons in Hk as [-> |Hk]; apply Hall; [by left|by right].
  Qed.

  Definition cand_set (picked : list nat) (pos : pt) : list nat :=
    match filter (fun i => i ∉ picked) (nearby pos) with
    | [] => filter (fun i => i ∉ picked) (seq 0 (length paths))
    | _ => filter (fun i => i ∉ picked) (nearby pos)
    end.
  Lemma cand_set_in picked pos i : i ∈ cand_set picked pos -> (i < length paths)%nat /\ i ∉ picked.
  Proof.
    unfold cand_set. destruct (filter _ (nearby pos)) as [|x l] eqn:E.
    - intros [? Hi]%elem_of_list_filter. apply elem_of_seq in Hi. split; [lia|done].
    - rewrite <- E. intros [? Hi]%elem_of_list_filter. split; [by eapply Hnear|done].
  Qed.
  Lemma cand_set_ne picked pos : NoDup picked -> (forall i, i ∈ picked -> (i < length paths)%nat) ->
    length picked <> length paths -> cand_set picked pos <> [].
  Proof.
    intros Hnd Hin Hlen. unfold cand_set. destruct (filter _ (nearby pos)) eqn:E; [|done]. intros Hf.
    assert (Hsub : seq 0 (length paths) ⊆+ picked).
    { apply NoDup_submseteq; [apply NoDup_seq|]. intros i Hi. destruct (decide (i ∈ picked)); [done|].
      assert (i ∈ filter (fun i => i ∉ picked) (seq 0 (length paths))) as Hc by (by apply elem_of_list_filter).
      rewrite Hf in Hc. by apply elem_of_nil in Hc. }
    assert (Hsub2 : picked ⊆+ seq 0 (length paths)).
    { apply NoDup_submseteq; [done|]. intros i Hi. apply elem_of_seq. specialize (Hin i Hi). lia. }
    apply submseteq_length in Hsub, Hsub2. rewrite seq_length in *. lia.
  Qed.

  (** The choice made at every step: among the candidates it is the closest, or the longest in the
      very first step if that is asked for. *)
  Definition greedy_choice (lng : bool) (picked : list nat) (pos : pt) (o : placed) : Prop :=
    index_of o ∈ cand_set picked pos /\
    (if lng then forall j, j ∈ cand_set picked pos -> path_length j <= path_length (index_of o)
     else (forall p, paths !! index_of o = Some p -> verts p = [] ->
             forall j q, j ∈ cand_set picked pos -> paths !! j = Some q -> verts q = []) /\
          (forall p, paths !! index_of o = Some p -> verts p <> [] -> o.1.2 = Z.of_nat (start_for (index_of o) p pos)) /\
          (combing = None -> forall p, paths !! index_of o = Some p -> verts p <> [] ->
             exists x, verts p !! Z.to_nat o.1.2 = Some x /\
             forall j q d, j ∈ cand_set picked pos -> paths !! j = Some q -> entry_dist pos j q d -> dist2 pos x <= d)).

  Inductive greedy_run : bool -> list nat -> pt -> list placed -> Prop :=
  | run_nil lng picked pos : greedy_run lng picked pos []
  | run_cons lng picked pos o pos' out : greedy_choice lng picked pos o -> prints pos [o] pos' ->
      greedy_run false (index_of o :: picked) pos' out -> greedy_run lng picked pos (o :: out).

  Definition placed_ok (o : placed) : Prop :=
    exists p, paths !! index_of o = Some p /\
      (verts p <> [] -> valid_start detect_loops p o.1.2 o.2) /\ (verts p = [] -> o.1.2 = 0 /\ o.2 = false) /\
      (closed_path p -> o.2 = false).

  Lemma loop_spec fuel : forall picked pos st, st_ok st -> small pos -> NoDup picked ->
    (forall i, i ∈ picked -> (i < length paths)%nat) -> (length paths <= length picked + fuel)%nat ->
    exists out, order_loop fuel picked pos st = Ok out /\ map index_of out ++ picked ≡ₚ seq 0 (length paths) /\
      Forall placed_ok out /\ greedy_run (longest st) picked pos out.
  Proof.
    assert (Hfull : forall picked, NoDup picked -> (forall i, i ∈ picked -> (i < length paths)%nat) -> length picked = length paths ->
      picked ≡ₚ seq 0 (length paths)).
    { intros picked Hnd Hin Hlen. apply submseteq_Permutation_length_le; [rewrite seq_length; lia|].
      apply NoDup_submseteq; [done|]. intros i Hi. apply elem_of_seq. specialize (Hin i Hi). lia. }
    assert (Hle : forall picked, NoDup picked -> (forall i, i ∈ picked -> (i < length paths)%nat) -> (length picked <= length paths)%nat).
    { intros picked Hnd Hin. rewrite <- (seq_length (length paths) 0). apply submseteq_length, NoDup_submseteq; [done|].
      intros i Hi. apply elem_of_seq. specialize (Hin i Hi). lia. }
    induction fuel as [|fuel IH]; intros picked pos st Hst Hpos Hnd Hin Hfuel; cbn [PathOrder_Model.order_loop].
    - pose proof (Hle _ Hnd Hin). rewrite decide_True by lia. exists []. split; [done|]. split; [simpl; apply Hfull; [done|done|lia]|]. split; constructor.
    - case_decide as Hlen; [exists []; split; [done|]; split; [by apply Hfull|]; split; constructor|].
      cbv zeta. fold (cand_set picked pos).
      pose proof (cand_set_ne picked pos Hnd Hin Hlen) as Hne.
      assert (Hbest : exists i st', findBestPath pos (cand_set picked pos) st = Ok (Some i, st') /\ st_ok st' /\ longest st' = false /\
        greedy_choice (longest st) picked pos (i, Z.of_nat (starts st' i), backs st' i)).
      { unfold PathOrder_Model.findBestPath. destruct (longest st) eqn:El.
        - destruct (longest_spec (cand_set picked pos) None) as (i & -> & Hor & Hall); [by right|].
          eexists i, _. split; [done|]. split; [by destruct Hst; split|]. split; [done|].
          split; [by destruct Hor|]. intros j Hj. apply Hall. by right.
        - destruct (closest_spec pos (cand_set picked pos) COORD_MAX None st) as (b & bd & st' & -> & Hok & Hl & Hb & Hor & Hnn & Hmin & Hmax).
          + done.
          + done.
          + intros i Hi. by apply (cand_set_in picked pos).
          + left. done.
          + destruct Hor as [-> |(i & -> & Hi)]; [by destruct (Hnn (or_intror Hne))|].
            exists i, st'. split; [done|]. split; [done|]. split; [congruence|].
            split; [done|]. cbn [index_of fst snd]. split; [|split].
            * intros p Hp He. destruct Hb as [[Hm _]|(_ & b & q & [= ->] & Hq & Hqn & _)]; [by apply Hmax|congruence].
            * intros p Hp Hpe. destruct Hb as [[_ Hm]|(_ & b & q & [= <-] & Hq & Hqn & Hs & _)].
              { destruct (Hm i eq_refl) as (q & Hq & ?). congruence. }
              rewrite Hs. congruence.
            * intros Hcn p Hp Hpe. destruct Hb as [[_ Hm]|(Hbd & b & q & [= <-] & Hq & Hqn & Hs & Hd)].
              { destruct (Hm i eq_refl) as (q & Hq & ?). congruence. }
              assert (q = p) as -> by congruence. destruct (Hd Hcn) as (x & Hx & ->). exists x.
              rewrite Nat2Z.id, Hs. split; [done|]. destruct (Hmin Hcn) as [_ Hall]. intros j q' d Hj Hq' Hd'. by eapply Hall. }
      destruct Hbest as (i & st' & -> & Hok & Hl & Hg). cbn [rbind fst snd].
      assert (Hic : i ∈ cand_set picked pos) by apply Hg.
      apply cand_set_in in Hic as Hi. destruct Hi as [Hilt Hip].
      pose proof Hilt as Hp. apply lookup_lt_is_Some_2 in Hp as [p Hp]. unfold get_path. rewrite Hp. cbn [of_opt rbind].
      assert (Hafter : exists pos', position_after detect_loops p (starts st' i) pos = Ok pos' /\ small pos' /\
        prints pos [(i, Z.of_nat (starts st' i), backs st' i)] pos').
      { unfold position_after. case_bool_decide as He.
        - exists pos. split; [done|]. split; [done|]. eapply prints_empty; eauto. constructor.
        - pose proof (ok_valid _ Hok i p Hp He) as Hv. destruct (is_closed p) eqn:Ec.
          + apply lookup_lt_is_Some_2 in Hv as [q Hq]. rewrite Hq. exists q. split; [done|].
            split; [eapply Hsmall; [exact Hp|by eapply elem_of_list_lookup_2]|].
            eapply prints_closed; [exact Hp|by apply is_closed_spec|by rewrite Nat2Z.id|constructor].
          + pose proof (ok_open _ Hok i p Hp He Ec) as Ho. apply is_closed_false in Ec.
            destruct (verts p) as [|v vs] eqn:Ev; [done|].
            destruct (last (v :: vs)) as [w|] eqn:Ew; [|by apply last_None in Ew].
            assert (Hw : w ∈ verts p) by (rewrite Ev; apply last_Some in Ew as [l ->]; set_solver).
            assert (Hvv : v ∈ verts p) by (rewrite Ev; left).
            destruct (Nat.eqb_spec (starts st' i) 0) as [H0|H0].
            * exists w. split; [done|]. split; [by eapply Hsmall|]. eapply prints_open; [exact Hp|done| |constructor].
              rewrite Ev. destruct (backs st' i) eqn:Eb; [|done]. simpl in Ho. rewrite H0 in Ho.
              destruct vs; [simpl in *; congruence|simpl in Ho; lia].
            * exists v. split; [done|]. split; [by eapply Hsmall|]. eapply prints_open; [exact Hp|done| |constructor].
              rewrite Ev. destruct (backs st' i) eqn:Eb; [done|]. lia. }
      destruct Hafter as (pos' & -> & Hpos' & Hpr). cbn [rbind].
      destruct (IH (i :: picked) pos' st') as (out & -> & Hperm & Hall & Hrun).
      + done.
      + done.
      + by constructor.
      + intros j [-> |Hj]%elem_of_cons; [done|by apply Hin].
      + simpl. lia.
      + cbn [rbind]. eexists. split; [done|]. split.
        { simpl. rewrite <- Hperm. by rewrite Permutation_middle. }
        split.
        { constructor; [|done]. exists p. cbn [index_of fst snd]. split; [done|]. split; [|split].
          - intros He. pose proof (ok_valid _ Hok i p Hp He). split; [lia|]. intros Ho%is_closed_false.
            rewrite (ok_open _ Hok i p Hp He Ho). destruct (backs st' i); lia.
          - intros He. rewrite (ok_empty _ Hok i p Hp He). split; [done|]. eapply ok_closed; eauto.
          - intros Hc%is_closed_spec. eapply ok_closed; eauto. }
        { rewrite Hl in Hrun. econstructor; eauto. }
  Qed.
End proofs.

(** ** The inputs that are assumed *)
Record well_posed (paths : list opath) (start_point : pt) (combing : option (pt -> pt -> Z)) (seam : nat -> pt -> nat)
    (nearby : pt -> list nat) : Prop := {
  wp_start : small start_point;
  wp_small : forall i p q, paths !! i = Some p -> q ∈ verts p -> small q;
  (** combing distances do not reach the largest 64-bit number *)
  wp_combing : forall f a b, combing = Some f -> f a b < 2 ^ 63 - 1;
  (** the seam of a path is one of its vertices *)
  wp_seam : forall i p pos, paths !! i = Some p -> verts p <> [] -> (seam i pos < length (verts p))%nat;
  (** the grid holds paths of the input *)
  wp_nearby : forall pos i, i ∈ nearby pos -> (i < length paths)%nat }.

Lemma optimize_spec paths start_point detect_loops combing seam seam_pos nearby path_length precompute prefer_longest :
  well_posed paths start_point combing seam nearby ->
  exists out, optimize_paths paths start_point detect_loops combing seam seam_pos nearby path_length precompute prefer_longest false = Ok out /\
    map index_of out ≡ₚ seq 0 (length paths) /\ Forall (placed_ok paths detect_loops) out /\
    greedy_run paths detect_loops combing seam seam_pos nearby path_length precompute prefer_longest [] start_point out.
Proof.
  intros [H1 H2 H3 H4 H5]. unfold optimize_paths.
  destruct (loop_spec paths start_point detect_loops combing seam seam_pos nearby path_length precompute H1 H2 H3 H4 H5
    (length paths) [] start_point (PState (initial_start paths detect_loops seam seam_pos precompute) (fun _ => false) prefer_longest))
    as (out & -> & Hp & Ha & Hg).
  - by apply initial_ok.
  - done.
  - constructor.
  - intros i Hi. by apply elem_of_nil in Hi.
  - simpl. lia.
  - rewrite app_nil_r in Hp. exists out. done.
Qed.

Lemma reverse_placed_index paths detect_loops o : index_of (reverse_placed paths detect_loops o) = index_of o.
Proof. destruct o as [[i s] b]. unfold reverse_placed, index_of. by destruct (paths !! i). Qed.

(** Every path is printed exactly once and starts in a vertex it has; an open path starts at one of
    its ends and is printed towards the other. Whatever the seam strategy, the combing distances,
    the contents of the grid and the options. *)
Theorem C11_every_path_once paths start_point detect_loops combing seam seam_pos nearby path_length precompute prefer_longest reverse_direction :
  well_posed paths start_point combing seam nearby -> Z.of_nat (foldr Nat.max 0%nat (map (fun p => length (verts p)) paths)) < 2 ^ 64 ->
  exists out, optimize_paths paths start_point detect_loops combing seam seam_pos nearby path_length precompute prefer_longest reverse_direction = Ok out /\
    map index_of out ≡ₚ seq 0 (length paths) /\
    forall i s b p, (i, s, b) ∈ out -> paths !! i = Some p -> verts p <> [] -> valid_start detect_loops p s b.
Proof.
  intros Hwp Hlen. destruct (optimize_spec paths start_point detect_loops combing seam seam_pos nearby path_length precompute prefer_longest Hwp)
    as (out & He & Hp & Ha & _).
  assert (Hval : forall i s b p, (i, s, b) ∈ out -> paths !! i = Some p -> verts p <> [] -> valid_start detect_loops p s b).
  { intros i s b p Hin Hpi Hne. rewrite Forall_forall in Ha. destruct (Ha _ Hin) as (q & Hq & Hv & _).
    cbn [index_of fst snd] in Hq. assert (q = p) as -> by congruence. by apply Hv. }
  unfold optimize_paths in *. apply rbind_ok in He as (o & -> & [= ->]). cbn [rbind].
  destruct reverse_direction; [|by eauto].
  exists (map (reverse_placed paths detect_loops) (reverse out)). split; [done|]. split.
  - rewrite map_map. erewrite map_ext by (intros; apply reverse_placed_index). rewrite <- Hp.
    apply fmap_Permutation, reverse_Permutation.
  - intros i s b p Hin Hpi Hne. apply elem_of_list_fmap in Hin as ([[j s0] b0] & Hr & Hin). rewrite elem_of_reverse in Hin.
    unfold reverse_placed in Hr. destruct (paths !! j) as [q|] eqn:Hq.
    2: { injection Hr as -> -> ->. congruence. }
    injection Hr as -> -> ->. assert (q = p) as -> by congruence.
    destruct (Hval _ _ _ _ Hin Hpi Hne) as [Hs Hopen].
    assert (Hl : Z.of_nat (length (verts p)) < 2 ^ 64).
    { assert (H : forall (l : list opath) i, l !! i = Some p -> (length (verts p) <= foldr Nat.max 0 (map (fun p => length (verts p)) l))%nat).
      { intros l. induction l as [|x l IH]; intros [|k] Hk; try done; simpl in *; [injection Hk as ->; lia|]. apply IH in Hk. lia. }
      specialize (H _ _ Hpi). lia. }
    destruct (is_closed detect_loops p) eqn:Ec.
    + apply is_closed_spec in Ec. split; [done|]. tauto.
    + apply is_closed_false in Ec. rewrite Z.mod_small by lia. specialize (Hopen Ec). split; [lia|]. intros _.
      destruct b0; simpl in *; lia.
Qed.

Lemma greedy_run_split paths detect_loops combing seam seam_pos nearby path_length precompute pre : forall lng picked pos o post,
  greedy_run paths detect_loops combing seam seam_pos nearby path_length precompute lng picked pos (pre ++ o :: post) ->
  exists pos', prints detect_loops paths pos pre pos' /\
    greedy_choice paths detect_loops combing seam seam_pos nearby path_length precompute
      (lng && bool_decide (pre = [])) (reverse (map index_of pre) ++ picked) pos' o.
Proof.
  induction pre as [|x pre IH]; intros lng picked pos o post Hr; simpl in Hr; inversion Hr; subst.
  - exists pos. split; [constructor|]. rewrite bool_decide_eq_true_2, andb_true_r by done. done.
  - match goal with H : greedy_run _ _ _ _ _ _ _ _ false _ ?p _ |- _ => rename H into Hrun; rename p into pos1 end.
    destruct (IH _ _ _ _ _ Hrun) as (pos' & Hpr & Hg). exists pos'. split.
    + match goal with H : prints _ _ pos [x] pos1 |- _ => inversion H; subst end;
        match goal with H : prints _ _ _ [] _ |- _ => inversion H; subst end.
      * by eapply prints_empty.
      * by eapply prints_closed.
      * by eapply prints_open.
    + simpl. rewrite reverse_cons, <- app_assoc. simpl. by rewrite andb_false_r.
Qed.

Lemma unprinted_iff (n : nat) (pre post : list placed) (o : placed) i : map index_of (pre ++ o :: post) ≡ₚ seq 0 n -> (i < n)%nat ->
  (i ∉ reverse (map index_of pre) ++ [] <-> i ∈ map index_of (o :: post)).
Proof.
  intros Hp Hi. rewrite app_nil_r, elem_of_reverse.
  assert (Hnd : NoDup (map index_of (pre ++ o :: post))) by (rewrite Hp; apply NoDup_seq).
  assert (Hin : i ∈ map index_of (pre ++ o :: post)) by (rewrite Hp; apply elem_of_seq; lia).
  rewrite map_app in *. apply NoDup_app in Hnd as (_ & Hd & _). rewrite elem_of_app in Hin. split; [tauto|].
  intros H1 H2. by apply (Hd i).
Qed.

(** At every step, the path that is printed next is one of the paths that the grid reports around
    the nozzle, as long as there is any that is not printed yet, and it is entered at a point that
    is at least as close as any entry of the other paths that could be printed next. Paths without
    vertices come last. *)
Theorem C11_greedy_nearest paths start_point detect_loops seam seam_pos nearby path_length out pre i s b post :
  well_posed paths start_point None seam nearby ->
  optimize_paths paths start_point detect_loops None seam seam_pos nearby path_length true false false = Ok out ->
  out = pre ++ (i, s, b) :: post ->
  exists pos, prints detect_loops paths start_point pre pos /\
    let unprinted := map index_of ((i, s, b) :: post) in
    let candidate j := j ∈ unprinted /\ ((exists k, k ∈ unprinted /\ k ∈ nearby pos) -> j ∈ nearby pos) in
    candidate i /\
    forall j q, candidate j -> entry detect_loops paths seam seam_pos j pos q ->
      exists p x, paths !! i = Some p /\ verts p !! Z.to_nat s = Some x /\ dist2 pos x <= dist2 pos q.
Proof.
  intros Hwp He ->. destruct (optimize_spec paths start_point detect_loops None seam seam_pos nearby path_length true false Hwp)
    as (out & He' & Hp & Ha & Hg).
  rewrite He in He'. injection He' as <-.
  apply greedy_run_split in Hg as (pos & Hpr & Hc & Hrest). exists pos. split; [done|].
  cbn [index_of fst snd andb] in Hrest.
  cbn zeta. set (unprinted := map index_of ((i, s, b) :: post)). cbn [index_of fst snd] in Hc.
  set (picked := reverse (map index_of pre) ++ []) in *.
  assert (Hun : forall k, (k < length paths)%nat -> (k ∉ picked <-> k ∈ unprinted)) by (intros; by apply (unprinted_iff (length paths))).
  assert (Hlt : forall k, k ∈ unprinted -> (k < length paths)%nat).
  { intros k Hk. assert (Hk' : k ∈ map index_of (pre ++ (i, s, b) :: post)) by (rewrite map_app; apply elem_of_app; by right).
    rewrite Hp in Hk'. apply elem_of_seq in Hk'. lia. }
  assert (Hcand : forall j, j ∈ cand_set paths nearby picked pos <->
    (j ∈ unprinted /\ ((exists k, k ∈ unprinted /\ k ∈ nearby pos) -> j ∈ nearby pos))).
  { intros j. unfold cand_set. destruct (filter _ (nearby pos)) as [|x l] eqn:E.
    - rewrite elem_of_list_filter, elem_of_seq. split.
      + intros [Hj Hj2]. split; [apply Hun; [lia|done]|]. intros (k & Hk & Hkn). exfalso.
        assert (k ∈ filter (fun i => i ∉ picked) (nearby pos)) as Hf.
        { apply elem_of_list_filter. split; [apply Hun; [by apply Hlt|done]|done]. }
        rewrite E in Hf. by apply elem_of_nil in Hf.
      + intros [Hj _]. split; [apply Hun; [by apply Hlt|done]|]. specialize (Hlt _ Hj). lia.
    - rewrite <- E, elem_of_list_filter. split.
      + intros [Hj Hn]. split; [|done]. apply Hun; [|done]. by eapply (wp_nearby _ _ _ _ _ Hwp).
      + intros [Hj Hn]. split; [apply Hun; [by apply Hlt|done]|]. apply Hn. exists x.
        assert (x ∈ filter (fun i => i ∉ picked) (nearby pos)) as Hx by (rewrite E; left).
        apply elem_of_list_filter in Hx as [Hx1 Hx2]. split; [|done]. apply Hun; [|done]. by eapply (wp_nearby _ _ _ _ _ Hwp). }
  rewrite <- Hcand. split; [done|]. intros j q Hj (pj & Hpj & Hent). apply Hcand in Hj.
  assert (Hpjn : verts pj <> []) by (intros Hn; rewrite Hn in Hent; naive_solver).
  assert (Hi : i ∈ unprinted) by left. specialize (Hlt _ Hi). apply lookup_lt_is_Some_2 in Hlt as [p Hpi].
  assert (Hne : verts p <> []).
  { intros Hn. destruct Hrest as [Hempty _]. by eapply Hpjn, Hempty. }
  destruct Hrest as (_ & _ & Hnear). destruct (Hnear eq_refl p Hpi Hne) as (x & Hx & Hmin). exists p, x. split; [done|]. split; [done|].
  assert (Hd : exists d, entry_dist paths detect_loops None seam seam_pos true pos j pj d /\ d <= dist2 pos q).
  { unfold entry_dist, start_for. destruct (is_closed detect_loops pj) eqn:Ec.
    - apply is_closed_spec in Ec as Hcl. destruct Hent as [[? _]|[_ Hq]]; [done|].
      exists (dist2 pos q). split; [|lia]. exists q. split; [|done]. destruct (precomputed_type pj) eqn:Et; simpl.
      + unfold initial_start. rewrite Hpj, Et, Ec, bool_decide_eq_false_2 by done. done.
      + unfold PathOrder_Model.findStartLocation. by rewrite Ec.
    - apply is_closed_false in Ec as Hop. destruct Hent as [[_ Hq]|[? _]]; [|done]. simpl.
      unfold PathOrder_Model.findStartLocation. rewrite Ec. unfold getDirectDistance.
      destruct (verts pj) as [|v vs] eqn:Ev; [done|].
      destruct (last (v :: vs)) as [w|] eqn:Ew; [|by apply last_None in Ew]. cbn [head] in *. rewrite orb_false_r, !dist2_vSize2.
      assert (Hlast : (v :: vs) !! (length (v :: vs) - 1)%nat = Some w) by (rewrite <- Ew, last_lookup; f_equal; simpl; lia).
      assert (Hsym : forall a b, dist2 a b = dist2 b a) by (intros; unfold dist2; lia).
      destruct (Z.ltb_spec (dist2 w pos) (dist2 v pos)).
      + exists (dist2 pos w). split; [by exists w|]. destruct Hq as [[= <-]|[= <-]]; rewrite !(Hsym pos); lia.
      + exists (dist2 pos v). split; [by exists v|]. destruct Hq as [[= <-]|[= <-]]; rewrite !(Hsym pos); lia. }
  destruct Hd as (d & Hd & Hle). etransitivity; [|exact Hle]. by eapply Hmin.
Qed.

(** If asked for, the first path is the longest of those that the grid reports around the start, or
    of all paths if it reports none. *)
Theorem C11_longest_first paths start_point detect_loops combing seam seam_pos nearby path_length precompute i s b post :
  well_posed paths start_point combing seam nearby ->
  optimize_paths paths start_point detect_loops combing seam seam_pos nearby path_length precompute true false = Ok ((i, s, b) :: post) ->
  forall j, (j < length paths)%nat -> (nearby start_point <> [] -> j ∈ nearby start_point) -> path_length j <= path_length i.
Proof.
  intros Hwp He j Hj Hn. destruct (optimize_spec paths start_point detect_loops combing seam seam_pos nearby path_length precompute true Hwp)
    as (out & He' & _ & _ & Hg).
  rewrite He in He'. injection He' as <-. apply (greedy_run_split _ _ _ _ _ _ _ _ []) in Hg as (pos & Hpr & _ & Hall).
  inversion Hpr; subst. apply Hall. unfold cand_set. simpl.
  assert (Hf : forall l : list nat, filter (fun i => i ∉ ([] : list nat)) l = l).
  { intros l. induction l as [|x l IH]; [done|]. rewrite filter_cons, IH. rewrite decide_True; [done|]. apply not_elem_of_nil. }
  change (reverse [] ++ []) with ([] : list nat).
  rewrite !Hf. destruct (nearby pos) as [|x l] eqn:E; [|by apply Hn]. apply elem_of_seq. lia.
Qed.

(** Printing in the reverse direction prints the same paths in the opposite order, open ones from
    their other end. *)
Theorem C11_reverse paths start_point detect_loops combing seam seam_pos nearby path_length precompute prefer_longest out :
  well_posed paths start_point combing seam nearby -> Z.of_nat (foldr Nat.max 0%nat (map (fun p => length (verts p)) paths)) < 2 ^ 64 ->
  optimize_paths paths start_point detect_loops combing seam seam_pos nearby path_length precompute prefer_longest false = Ok out ->
  exists out', optimize_paths paths start_point detect_loops combing seam seam_pos nearby path_length precompute prefer_longest true = Ok out' /\
    Forall2 (fun o o' => index_of o' = index_of o /\ o'.2 = negb o.2 /\
      forall p, paths !! index_of o = Some p -> verts p <> [] ->
        (closed_path detect_loops p -> o'.1.2 = o.1.2) /\
        (~ closed_path detect_loops p -> o'.1.2 = Z.of_nat (length (verts p)) - 1 - o.1.2)) out (reverse out').
Proof.
  intros Hwp Hlen He.
  destruct (C11_every_path_once _ _ detect_loops _ _ seam_pos _ path_length precompute prefer_longest false Hwp Hlen) as (o & He' & Hp & Hv).
  rewrite He in He'. injection He' as <-.
  unfold optimize_paths in *. apply rbind_ok in He as (o & -> & [= ->]). cbn [rbind].
  eexists. split; [done|]. rewrite <- fmap_reverse. rewrite reverse_involutive.
  assert (Hlt : forall o, o ∈ out -> exists p, paths !! index_of o = Some p).
  { intros o Ho. assert (Hi : index_of o ∈ map index_of out) by (by apply elem_of_list_fmap_1).
    rewrite Hp in Hi. apply elem_of_seq in Hi. apply lookup_lt_is_Some_2. lia. }
  clear Hp. induction out as [|[[i s] b] out IH]; [constructor|]. simpl. constructor.
  2: { apply IH; intros; [eapply Hv; eauto; by right|apply Hlt; by right]. }
  destruct (Hlt (i, s, b)) as [p Hpi]; [left|]. cbn [index_of fst snd] in *.
  rewrite Hpi. cbn [index_of fst snd]. split; [done|]. split; [done|]. intros p' Hp' Hne. assert (p' = p) as -> by congruence.
  destruct (Hv i s b p) as [Hs _]; [left|done|done|].
  assert (Hl : Z.of_nat (length (verts p)) < 2 ^ 64).
  { assert (H : forall (l : list opath) i, l !! i = Some p -> (length (verts p) <= foldr Nat.max 0 (map (fun p => length (verts p)) l))%nat).
    { intros l. induction l as [|x l IHl]; intros [|k] Hk; try done; simpl in *; [injection Hk as ->; lia|]. apply IHl in Hk. lia. }
    specialize (H _ _ Hpi). lia. }
  split.
  - intros ->%is_closed_spec. done.
  - intros ->%is_closed_false. apply Z.mod_small. lia.
Qed.

(** Seams in disallowed areas: the seam is moved to the next vertex that is allowed, if any is. *)
Theorem C11_seam_avoids_disallowed inside path best : (best < length path)%nat ->
  exists r v, pathIfZseamIsInDisallowedArea (S (length path)) inside path best 0 = Ok r /\ path !! r = Some v /\
    ((exists u, u ∈ path /\ inside u = false) -> inside v = false) /\
    (forall u, path !! best = Some u -> inside u = false -> r = best).
Proof.
  intros Hb.
  (** the vertices from [best - analysed] on have been found inside *)
  assert (H : forall fuel n b, (n <= length path)%nat -> (length path < fuel + n)%nat -> (b < length path)%nat ->
    (forall k u, (k < n)%nat -> path !! ((b + length path - n + k) mod length path)%nat = Some u -> inside u = true) ->
    exists r v, pathIfZseamIsInDisallowedArea fuel inside path b n = Ok r /\ path !! r = Some v /\
      ((exists u, u ∈ path /\ inside u = false) -> inside v = false) /\
      (forall u, (n < length path)%nat -> path !! b = Some u -> inside u = false -> r = b)).
  { induction fuel as [|fuel IH]; intros n b Hn Hf Hbl Hall; [lia|]. cbn [pathIfZseamIsInDisallowedArea].
    pose proof Hbl as Hu. apply lookup_lt_is_Some_2 in Hu as [u Hu].
    case_decide as Hlt.
    - rewrite Hu. cbn [of_opt rbind]. destruct (inside u) eqn:Ein; [|by eauto 10].
      destruct (IH (S n) (if decide (b + 1 < length path)%nat then (b + 1)%nat else 0%nat)) as (r & v & He & Hr & Hout & _).
      + lia.
      + lia.
      + case_decide; lia.
      + intros k w Hk Hw.
        destruct (decide (k < n)%nat) as [Hkn|Hkn].
        * apply (Hall k w Hkn). rewrite <- Hw. f_equal. case_decide as Hd.
          -- f_equal. lia.
          -- replace (b + length path - n + k)%nat with (0 + length path - S n + k + 1 * length path)%nat by lia. apply Nat.mod_add. lia.
        * assert (k = n) as -> by lia.
          assert (Hm : (((if decide (b + 1 < length path)%nat then (b + 1)%nat else 0%nat) + length path - S n + n) mod length path = b)%nat).
          { case_decide as Hd.
            - replace (b + 1 + length path - S n + n)%nat with (b + 1 * length path)%nat by lia. rewrite Nat.mod_add by lia. by apply Nat.mod_small.
            - replace (0 + length path - S n + n)%nat with b by lia. by apply Nat.mod_small. }
          rewrite Hm in Hw. congruence.
      + exists r, v. split; [done|]. split; [done|]. split; [done|]. intros u' _ Hu' Hf'. congruence.
    - assert (n = length path) as -> by lia. exists b, u. split; [done|]. split; [done|]. split; [|lia].
      intros (w & (k & Hk)%elem_of_list_lookup_1 & Hw). exfalso.
      assert (Hkl : (k < length path)%nat) by by eapply lookup_lt_Some.
      (** index k is visited *)
      destruct (decide (b <= k)%nat) as [Hle|Hgt].
      + rewrite (Hall (k - b)%nat w) in Hw; [done|lia|]. rewrite <- Hk. f_equal.
        replace (b + length path - length path + (k - b))%nat with k by lia. by apply Nat.mod_small.
      + rewrite (Hall (k + length path - b)%nat w) in Hw; [done|lia|]. rewrite <- Hk. f_equal.
        replace (b + length path - length path + (k + length path - b))%nat with (k + 1 * length path)%nat by lia.
        rewrite Nat.mod_add by lia. by apply Nat.mod_small. }
  destruct (H (S (length path)) 0%nat best) as (r & v & He & Hr & Hout & Hsame).
  - lia.
  - lia.
  - done.
  - intros; lia.
  - exists r, v. split; [done|]. split; [done|]. split; [done|]. intros u Hu Hi. eapply Hsame; eauto. lia.
Qed.

(** A path without vertices gets start vertex 2^64 - 1 when printing in reverse. *)
Theorem C11_empty_reversed_refuted :
  optimize_paths [OPath [] false false] (0, 0) false None (fun _ _ => 0%nat) (0, 0) (fun _ => []) (fun _ => 0) true false true
    = Ok [(0%nat, 2 ^ 64 - 1, true)].
Proof. vm_compute. done. Qed.

(** ** A non-trivial case: three paths, one printed backwards, one closed with a seam *)
Definition example_paths : list opath :=
  [ OPath [(0, 0); (1000, 0)] false false; OPath [(5000, 0); (1000, 100)] false false;
    OPath [(5000, 1000); (6000, 1000); (6000, 2000)] true false ].
Example C11_nonvacuous :
  well_posed example_paths (0, 0) None (fun _ _ => 0%nat) (fun _ => []) /\
  optimize_paths example_paths (0, 0) false None (fun _ _ => 0%nat) (0, 0) (fun _ => []) (fun _ => 0) true false false =
    Ok [(0%nat, 0, false); (1%nat, 1, true); (2%nat, 0, false)] /\
  optimize_paths example_paths (0, 0) false None (fun _ _ => 0%nat) (0, 0) (fun _ => []) (fun _ => 0) true false true =
    Ok [(2%nat, 0, true); (1%nat, 0, false); (0%nat, 1, true)].
Proof.
  split; [|split; vm_compute; done]. split.
  - split; reflexivity.
  - intros i p q Hp Hq. assert (H : forallb (fun p => forallb (fun q => (Z.abs q.1 <? 2 ^ 30) && (Z.abs q.2 <? 2 ^ 30)) (verts p)) example_paths = true) by reflexivity.
    rewrite forallb_forall in H. apply elem_of_list_lookup_2, elem_of_list_In in Hp. specialize (H _ Hp). rewrite forallb_forall in H.
    apply elem_of_list_In in Hq. specialize (H _ Hq). unfold small. lia.
  - done.
  - intros i p pos Hp Hne. destruct (verts p); [done|simpl; lia].
  - intros pos i Hi. by apply elem_of_nil in Hi.
Qed.

Print Assumptions C11_every_path_once.
Print Assumptions C11_greedy_nearest.
Print Assumptions C11_longest_first.
Print Assumptions C11_reverse.
Print Assumptions C11_seam_avoids_disallowed.
Print Assumptions C11_empty_reversed_refuted.
