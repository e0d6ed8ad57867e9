(** C12: path ordering respects order requirements. *)
From Coq Require Import ZArith Lia Permutation Relations.
From stdpp Require Import list relations.
From Verif Require Import Common PathGraph_Model.

(** ** Specification *)
(** Whatever is chosen is one of the candidates. *)
Definition chooses_a_candidate (choose : nat -> list nat -> nat) : Prop := forall t l, l <> [] -> choose t l ∈ l.
(** x is printed before y. *)
Definition before (order : list nat) (x y : nat) : Prop := exists l1 l2, order = l1 ++ y :: l2 /\ x ∈ l1.
Definition requires (reqs : list (nat * nat)) (x y : nat) : Prop := (x, y) ∈ reqs.
Definition acyclic (reqs : list (nat * nat)) : Prop := forall x, ~ tc (requires reqs) x x.

Section proofs.
  Variable choose : nat -> list nat -> nat.
  Variable paths : list nat.
  Variable reqs : list (nat * nat).
  Hypothesis Hchoose : chooses_a_candidate choose.
  Hypothesis Hnodup : NoDup paths.
  Hypothesis Hends : forall u v, (u, v) ∈ reqs -> u ∈ paths /\ v ∈ paths.

  Notation dfs := (dfs choose paths reqs).
  Notation get_neighbours := (get_neighbours choose reqs).
  Notation handle_node := (handle_node paths reqs).
  Notation drain := (drain choose).
  Notation roots := (roots paths reqs).
  Notation leaves := (leaves paths reqs).

  (** the number of requirements for v from paths that are not handled yet *)
  Definition open_reqs (done : list nat) (v : nat) : Z :=
    Z.of_nat (length (filter (fun e => e.2 = v /\ e.1 ∉ done) reqs)).

  Record Inv (blocked : list nat) (st : gstate) : Prop := {
    inv_inc : forall v, incoming st v = open_reqs (handled st) v;
    inv_nodup : NoDup (handled st);
    inv_in : forall x, x ∈ handled st -> x ∈ paths;
    inv_order : forall u v l1 l2, handled st = l1 ++ v :: l2 -> (u, v) ∈ reqs -> u ∈ l1;
    inv_vis : forall x, x ∈ visited st <-> x ∈ handled st \/ x ∈ blocked }.

  Lemma filter_count_split {A} (P Q : A -> Prop) `{!forall x, Decision (P x), !forall x, Decision (Q x)} (l : list A) :
    (forall x, P x -> Q x -> False) ->
    length (filter (fun x => P x \/ Q x) l) = (length (filter P l) + length (filter Q l))%nat.
  Proof.
    intros Hd. induction l as [|x l IH]; [done|]. rewrite !filter_cons.
    destruct (decide (P x)), (decide (Q x)); try (exfalso; by eapply Hd);
      [rewrite decide_True by tauto|rewrite decide_True by tauto|rewrite decide_False by tauto]; simpl; lia.
  Qed.
  Lemma filter_ext_len {A} (P Q : A -> Prop) `{!forall x, Decision (P x), !forall x, Decision (Q x)} (l : list A) :
    (forall x, x ∈ l -> (P x <-> Q x)) -> length (filter P l) = length (filter Q l).
  Proof.
    induction l as [|x l IH]; intros Hex; [done|]. rewrite !filter_cons.
    assert (Hx : P x <-> Q x) by (apply Hex; left).
    assert (IH' : length (filter P l) = length (filter Q l)) by (apply IH; intros; apply Hex; by right).
    destruct (decide (P x)), (decide (Q x)); simpl; try tauto; lia.
  Qed.

  Lemma open_reqs_step done x v : x ∉ done -> open_reqs (done ++ [x]) v = (open_reqs done v - Z.of_nat (edge_count reqs x v))%Z.
  Proof.
    intros Hx. unfold open_reqs, edge_count.
    rewrite (filter_ext_len (fun e => e.2 = v /\ e.1 ∉ done) (fun e => (e.2 = v /\ e.1 ∉ done ++ [x]) \/ (e.1 = x /\ e.2 = v))).
    - rewrite filter_count_split; [lia|]. intros e [_ Ha] [E _]. apply Ha. rewrite E. apply elem_of_app. right. apply elem_of_list_singleton. done.
    - intros [a b] _. simpl. rewrite elem_of_app, elem_of_list_singleton. destruct (decide (a = x)) as [-> |Hne]; tauto.
  Qed.
  Lemma open_reqs_0 done v : open_reqs done v = 0%Z <-> forall u, (u, v) ∈ reqs -> u ∈ done.
  Proof.
    unfold open_reqs. split.
    - intros H u Hu. destruct (decide (u ∈ done)) as [|Hn]; [done|]. exfalso.
      assert (Hin : (u, v) ∈ filter (fun e => e.2 = v /\ e.1 ∉ done) reqs) by (by apply elem_of_list_filter).
      destruct (filter (fun e => e.2 = v /\ e.1 ∉ done) reqs); [by apply elem_of_nil in Hin|simpl in H; lia].
    - intros H. destruct (filter (fun e => e.2 = v /\ e.1 ∉ done) reqs) as [|[a b] l] eqn:E; [done|]. exfalso.
      assert (Hin : (a, b) ∈ filter (fun e => e.2 = v /\ e.1 ∉ done) reqs) by (rewrite E; left).
      apply elem_of_list_filter in Hin as [[Hb Hn] Hin]. simpl in Hb, Hn. subst b. by apply Hn, H.
  Qed.

  (** a path that waits for nothing but has requirements, and is not visited yet *)
  Definition ready (st : gstate) (y : nat) : Prop :=
    y ∉ visited st /\ (exists u, (u, y) ∈ reqs) /\ incoming st y = 0%Z.

  Lemma pick_all_perm n : forall t cands, NoDup cands -> (length cands <= n)%nat -> (pick_all choose n t cands).1 ≡ₚ cands.
  Proof.
    induction n as [|n IH]; intros t cands Hnd Hlen; simpl.
    - destruct cands; [done|simpl in Hlen; lia].
    - destruct cands as [|c cands]; [done|]. set (l := c :: cands) in *. set (x := choose t l).
      assert (Hx : x ∈ l) by (by apply Hchoose).
      assert (Hp : l ≡ₚ x :: filter (fun y => y <> x) l).
      { apply NoDup_Permutation; [done| |].
        - constructor; [|by apply NoDup_filter]. rewrite elem_of_list_filter. tauto.
        - intros y. rewrite elem_of_cons, elem_of_list_filter. destruct (decide (y = x)) as [-> |]; naive_solver. }
      specialize (IH (S t) (filter (fun y => y <> x) l)).
      destruct (pick_all choose n (S t) (filter (fun y => y <> x) l)) as [l' t']. simpl in *.
      rewrite IH; [by symmetry|by apply NoDup_filter|]. apply Permutation_length in Hp. simpl in Hp. lia.
  Qed.
  Lemma get_neighbours_spec x st : let '(l, st') := get_neighbours x st in
    handled st' = handled st /\ visited st' = visited st /\ incoming st' = incoming st /\
    NoDup l /\ forall y, y ∈ l <-> (x, y) ∈ reqs /\ incoming st y = 0%Z.
  Proof.
    unfold PathGraph_Model.get_neighbours. set (cands := remove_dups _).
    pose proof (pick_all_perm (length cands) (ticks st) cands (NoDup_remove_dups _) ltac:(lia)) as Hp.
    destruct (pick_all choose (length cands) (ticks st) cands) as [l t]. simpl in *. do 3 (split; [done|]).
    split; [rewrite Hp; apply NoDup_remove_dups|]. intros y. rewrite Hp. unfold cands, neighbours.
    rewrite elem_of_remove_dups, elem_of_list_filter, elem_of_list_fmap. split.
    - intros [H0 ([a b] & -> & H)]. apply elem_of_list_filter in H as [Ha H]. simpl in *. by subst a.
    - intros [H H0]. split; [done|]. exists (x, y). split; [done|]. by apply elem_of_list_filter.
  Qed.

  Lemma handle_inv blocked x st : Inv blocked st -> x ∈ paths -> x ∉ handled st -> (forall u, (u, x) ∈ reqs -> u ∈ handled st) ->
    forall st1, st1 = handle_node x st -> forall vis, (forall y, y ∈ vis <-> y ∈ handled st ++ [x] \/ y ∈ blocked) ->
    Inv blocked (GState (handled st1) vis (incoming st1) (ticks st1)) /\ handled st1 = handled st ++ [x].
  Proof.
    intros HI Hx Hnh Hpre st1 -> vis Hvis. unfold PathGraph_Model.handle_node. rewrite decide_True by done. simpl. split; [|done].
    split; simpl.
    - intros v. rewrite (inv_inc _ _ HI). symmetry. by apply open_reqs_step.
    - apply NoDup_app. split; [apply HI|]. split; [|apply NoDup_singleton]. intros y Hy Hy2%elem_of_list_singleton. by subst.
    - intros y Hy. apply elem_of_app in Hy as [Hy|Hy%elem_of_list_singleton]; [by apply (inv_in _ _ HI)|by subst].
    - intros u v l1 l2 E Huv. destruct l2 as [|z l2 _] using rev_ind.
      + apply app_inj_tail in E as [<- <-]. by apply Hpre.
      + rewrite app_comm_cons, app_assoc in E. apply app_inj_tail in E as [E _].
        by apply (inv_order _ _ HI u v l1 l2).
    - done.
  Qed.

  Definition ext (st st' : gstate) : Prop :=
    (exists l, handled st' = handled st ++ l /\ forall x, x ∈ l -> x ∉ visited st) /\ (forall x, x ∈ visited st -> x ∈ visited st').
  Lemma ext_refl st : ext st st. Proof. split; [|done]. exists []. split; [by rewrite app_nil_r|]. intros x Hx. by apply elem_of_nil in Hx. Qed.
  Lemma ext_trans a b c : ext a b -> ext b c -> ext a c.
  Proof.
    intros [(l1 & E1 & N1) H1] [(l2 & E2 & N2) H2]. split; [|auto]. exists (l1 ++ l2). split; [by rewrite E2, E1, app_assoc|].
    intros x Hx. apply elem_of_app in Hx as [Hx|Hx]; [by apply N1|]. intros Hv. by apply (N2 x Hx), H1.
  Qed.
  Lemma ext_inc blocked st st' y : Inv blocked st -> Inv blocked st' -> ext st st' -> incoming st y = 0%Z -> incoming st' y = 0%Z.
  Proof.
    intros HI HI' [(l & E & _) _]. rewrite (inv_inc _ _ HI), (inv_inc _ _ HI'), !open_reqs_0, E. intros H u Hu. apply elem_of_app. left. by apply H.
  Qed.

  Definition unvisited (st : gstate) : nat := length (filter (fun y => y ∉ visited st) paths).
  Lemma filter_len_mono {A} (P Q : A -> Prop) `{!forall x, Decision (P x), !forall x, Decision (Q x)} (l : list A) :
    (forall x, P x -> Q x) -> (length (filter P l) <= length (filter Q l))%nat.
  Proof.
    intros Himp. induction l as [|x l IH]; [done|]. rewrite !filter_cons.
    destruct (decide (P x)), (decide (Q x)); simpl; try lia. exfalso. naive_solver.
  Qed.
  Lemma unvisited_mono st st' : (forall x, x ∈ visited st -> x ∈ visited st') -> (unvisited st' <= unvisited st)%nat.
  Proof. intros H. unfold unvisited. apply filter_len_mono. intros x Hx Hv. by apply Hx, H. Qed.
  Lemma unvisited_step st st' x : x ∈ paths -> x ∉ visited st -> x ∈ visited st' -> (forall y, y ∈ visited st -> y ∈ visited st') ->
    (unvisited st' < unvisited st)%nat.
  Proof.
    intros Hx Hn Hv Hm. unfold unvisited. apply elem_of_Permutation in Hx as [l Hp]. rewrite Hp. rewrite !filter_cons.
    rewrite decide_False by tauto. rewrite decide_True by done. simpl.
    assert (length (filter (fun y => y ∉ visited st') l) <= length (filter (fun y => y ∉ visited st) l))%nat; [|lia].
    apply filter_len_mono. intros y Hy Hv'. by apply Hy, Hm.
  Qed.

  (** the postcondition of visiting x *)
  Definition visit_post (blocked : list nat) (x : nat) (st st' : gstate) : Prop :=
    Inv blocked st' /\ ext st st' /\ x ∈ visited st' /\ forall y, ready st' y -> ready st y /\ y <> x.

  Lemma run_list_spec blocked (f : nat -> gstate -> res gstate) k :
    (forall x st, Inv blocked st -> x ∈ paths -> incoming st x = 0%Z -> (unvisited st <= k)%nat ->
       exists st', f x st = Ok st' /\ visit_post blocked x st st') ->
    forall l st, Inv blocked st -> (forall y, y ∈ l -> y ∈ paths /\ incoming st y = 0%Z) -> (unvisited st <= k)%nat ->
    exists st', run_list f l st = Ok st' /\ Inv blocked st' /\ ext st st' /\ (forall y, y ∈ l -> y ∈ visited st') /\
      forall y, ready st' y -> ready st y /\ y ∉ l.
  Proof.
    intros Hf. induction l as [|x l IH]; intros st HI Hl Hk; cbn [run_list].
    - exists st. split; [done|]. split; [done|]. split; [apply ext_refl|]. split; [intros y Hy; by apply elem_of_nil in Hy|].
      intros y Hy. split; [done|apply not_elem_of_nil].
    - destruct (Hl x ltac:(left)) as [Hx H0]. destruct (Hf x st HI Hx H0 Hk) as (st1 & -> & HI1 & Hext1 & Hv1 & Hr1).
      cbn [rbind]. destruct (IH st1 HI1) as (st2 & -> & HI2 & Hext2 & Hv2 & Hr2).
      + intros y Hy. destruct (Hl y ltac:(by right)) as [Hyp Hy0]. split; [done|]. by apply (ext_inc blocked st st1).
      + pose proof (unvisited_mono st st1 (proj2 Hext1)). lia.
      + exists st2. split; [done|]. split; [done|]. split; [by eapply ext_trans|]. split.
        * intros y Hy. apply elem_of_cons in Hy as [-> |Hy]; [|by apply Hv2]. by apply Hext2.
        * intros y Hy. destruct (Hr2 y Hy) as [Hy1 Hnl]. destruct (Hr1 y Hy1) as [Hy0 Hnx]. split; [done|].
          rewrite elem_of_cons. tauto.
  Qed.

  Lemma dfs_spec blocked : forall fuel x st, Inv blocked st -> x ∈ paths -> incoming st x = 0%Z -> (unvisited st < fuel)%nat ->
    exists st', dfs fuel x st = Ok st' /\ visit_post blocked x st st'.
  Proof.
    induction fuel as [|fuel IH]; intros x st HI Hx H0 Hfuel; [lia|]. cbn [PathGraph_Model.dfs].
    destruct (decide (x ∈ visited st)) as [Hv|Hv].
    - exists st. split; [done|]. split; [done|]. split; [apply ext_refl|]. split; [done|].
      intros y Hy. split; [done|]. intros ->. by destruct Hy as [Hy _].
    - assert (Hnh : x ∉ handled st) by (intros Hh; apply Hv, (inv_vis _ _ HI); by left).
      assert (Hpre : forall u, (u, x) ∈ reqs -> u ∈ handled st).
      { apply open_reqs_0. by rewrite <- (inv_inc _ _ HI). }
      set (st0 := GState (handled st) (x :: visited st) (incoming st) (ticks st)).
      assert (Est1 : handle_node x st0 = GState (handled (handle_node x st)) (x :: visited st) (incoming (handle_node x st)) (ticks (handle_node x st))).
      { unfold st0, PathGraph_Model.handle_node. repeat (rewrite decide_True by done). reflexivity. }
      destruct (handle_inv blocked x st HI Hx Hnh Hpre _ eq_refl (x :: visited st)) as [HI1 Hh1].
      { intros y. rewrite elem_of_cons, (inv_vis _ _ HI), elem_of_app, elem_of_list_singleton. tauto. }
      rewrite Est1. set (st1 := GState (handled (handle_node x st)) _ _ _) in *.
      pose proof (get_neighbours_spec x st1) as Hg. destruct (get_neighbours x st1) as [l st2]. destruct Hg as (G1 & G2 & G3 & _ & G5).
      assert (HI2 : Inv blocked st2). { destruct HI1. split; rewrite ?G1, ?G2, ?G3; done. }
      assert (Hext2 : ext st st2).
      { split; [exists [x]; split; [by rewrite G1|]; intros y Hy%elem_of_list_singleton; by subst|]. rewrite G2. intros y Hy. simpl. by right. }
      destruct (run_list_spec blocked (dfs fuel) (unvisited st2)) with (l := l) (st := st2) as (st' & E & HI' & Hext' & Hvl & Hr).
      + intros y st3 HI3 Hy H03 Hu. apply IH; try done.
        pose proof (unvisited_step st st2 x Hx Hv ltac:(rewrite G2; left) (proj2 Hext2)). lia.
      + done.
      + intros y Hy. apply G5 in Hy as [Hy Hy0]. split; [by apply (Hends x y)|by rewrite G3].
      + lia.
      + exists st'. split; [done|]. split; [done|]. split; [by eapply ext_trans|]. split; [apply Hext'; rewrite G2; left|].
        intros y Hy. destruct (Hr y Hy) as [(Hyv & Hyp & Hy0) Hnl]. rewrite G2 in Hyv. simpl in Hyv.
        rewrite elem_of_cons in Hyv. split; [|intros ->; tauto]. split; [tauto|]. split; [done|].
        (* y was not waiting for x *)
        assert (Hxy : (x, y) ∉ reqs). { intros Hxy. apply Hnl, G5. split; [done|by rewrite <- G3]. }
        rewrite G3, (inv_inc _ _ HI1), open_reqs_0, (Hh1 : handled st1 = handled st ++ [x]) in Hy0. rewrite (inv_inc _ _ HI), open_reqs_0.
        intros u Hu. specialize (Hy0 u Hu). apply elem_of_app in Hy0 as [?|Hux%elem_of_list_singleton]; [done|]. by subst.
  Qed.

  (** *** The loops *)
  Lemma erase_perm (x : nat) l : NoDup l -> x ∈ l -> l ≡ₚ x :: filter (fun y => y <> x) l.
  Proof.
    intros Hnd Hx. apply NoDup_Permutation; [done| |].
    - constructor; [|by apply NoDup_filter]. rewrite elem_of_list_filter. tauto.
    - intros y. rewrite elem_of_cons, elem_of_list_filter. destruct (decide (y = x)) as [-> |]; naive_solver.
  Qed.

  Lemma tick_inv blocked st t : Inv blocked st -> Inv blocked (GState (handled st) (visited st) (incoming st) t).
  Proof. intros []. split; done. Qed.

  Lemma drain_dfs blocked fuel : (length paths < fuel)%nat ->
    forall n set st, (length set <= n)%nat -> NoDup set -> Inv blocked st -> (forall y, y ∈ set -> y ∈ paths /\ incoming st y = 0%Z) ->
    exists st', drain n (dfs fuel) set st = Ok st' /\ Inv blocked st' /\ ext st st' /\ (forall y, y ∈ set -> y ∈ visited st') /\
      forall y, ready st' y -> ready st y /\ y ∉ set.
  Proof.
    intros Hfuel. induction n as [|n IH]; intros set st Hlen Hnd HI Hset.
    - destruct set; [|simpl in Hlen; lia]. exists st. split; [done|]. split; [done|]. split; [apply ext_refl|].
      split; [intros y Hy; by apply elem_of_nil in Hy|]. intros y Hy. split; [done|apply not_elem_of_nil].
    - destruct set as [|c set'].
      { exists st. split; [done|]. split; [done|]. split; [apply ext_refl|].
        split; [intros y Hy; by apply elem_of_nil in Hy|]. intros y Hy. split; [done|apply not_elem_of_nil]. }
      cbn [PathGraph_Model.drain]. set (set := c :: set') in *. set (x := choose (ticks st) set).
      assert (Hx : x ∈ set) by (by apply Hchoose). pose proof (erase_perm x set Hnd Hx) as Hp.
      destruct (Hset x Hx) as [Hxp Hx0].
      destruct (dfs_spec blocked fuel x (GState (handled st) (visited st) (incoming st) (S (ticks st)))) as (st1 & -> & HI1 & Hext1 & Hv1 & Hr1).
      + by apply tick_inv.
      + done.
      + done.
      + unfold unvisited. pose proof (filter_length (fun y => y ∉ visited (GState (handled st) (visited st) (incoming st) (S (ticks st)))) paths). lia.
      + cbn [rbind]. assert (Hext1' : ext st st1) by exact Hext1.
        destruct (IH (filter (fun y => y <> x) set) st1) as (st2 & -> & HI2 & Hext2 & Hv2 & Hr2).
        * apply Permutation_length in Hp. simpl in *. lia.
        * by apply NoDup_filter.
        * done.
        * intros y Hy. apply elem_of_list_filter in Hy as [_ Hy]. destruct (Hset y Hy) as [? ?]. split; [done|]. by apply (ext_inc blocked st st1).
        * exists st2. split; [done|]. split; [done|]. split; [by eapply ext_trans|]. split.
          -- intros y Hy. destruct (decide (y = x)) as [-> |Hne]; [by apply Hext2|]. apply Hv2, elem_of_list_filter. done.
          -- intros y Hy. destruct (Hr2 y Hy) as [Hy1 Hn1]. destruct (Hr1 y Hy1) as [Hy0 Hn0]. split; [done|].
             intros Hin. apply Hn1, elem_of_list_filter. done.
  Qed.

  (** *** Every path is reached when the requirements are acyclic *)
  Lemma minimal_unhandled (S : list nat) : acyclic reqs -> S <> [] ->
    exists y, y ∈ S /\ forall u, (u, y) ∈ reqs -> u ∉ S.
  Proof.
    intros Hac Hne.
    assert (Hg : forall k chain h, (length S - length chain = k)%nat -> NoDup (h :: chain) -> (forall y, y ∈ h :: chain -> y ∈ S) ->
       (forall y, y ∈ chain -> tc (requires reqs) h y) -> exists y, y ∈ S /\ forall u, (u, y) ∈ reqs -> u ∉ S).
    { intros k. induction k as [k IH] using lt_wf_ind. intros chain h Hk Hnd Hsub Htc.
      destruct (decide (Exists (fun e => e.2 = h /\ e.1 ∈ S) reqs)) as [He|He].
      - apply Exists_exists in He as ([u h'] & Hin & [Eh Hu]). simpl in Eh, Hu. subst h'.
        assert (Hlen : (length (h :: chain) <= length S)%nat) by (by apply submseteq_length, NoDup_submseteq).
        simpl in Hlen.
        apply (IH (length S - length (h :: chain))%nat ltac:(simpl; lia) (h :: chain) u eq_refl).
        + constructor; [|done]. intros Hc. apply (Hac u). apply elem_of_cons in Hc as [-> |Hc]; [by apply tc_once|].
          eapply tc_l; [exact Hin|by apply Htc].
        + intros y Hy. apply elem_of_cons in Hy as [-> |Hy]; [done|by apply Hsub].
        + intros y Hy. apply elem_of_cons in Hy as [-> |Hy]; [by apply tc_once|]. eapply tc_l; [exact Hin|by apply Htc].
      - exists h. split; [apply Hsub; left|]. intros u Hu Hs. apply He, Exists_exists. exists (u, h). done. }
    destruct S as [|h S]; [done|]. eapply (Hg _ [] h eq_refl); [apply NoDup_singleton| |].
    - intros y Hy. apply elem_of_list_singleton in Hy as ->. left.
    - intros y Hy. by apply elem_of_nil in Hy.
  Qed.

  Lemma all_handled blocked st : acyclic reqs -> Inv blocked st -> (forall y, ~ ready st y) -> (forall y, y ∈ roots -> y ∈ visited st) ->
    (forall y, y ∈ blocked -> y ∈ leaves) ->
    forall x, x ∈ paths -> x ∈ handled st \/ x ∈ blocked.
  Proof.
    intros Hac HI Hr Hroots Hbl x Hx. destruct (decide (x ∈ visited st)) as [Hv|Hv]; [by apply (inv_vis _ _ HI)|]. exfalso.
    destruct (minimal_unhandled (filter (fun y => y ∉ visited st) paths) Hac) as (y & Hy & Hmin).
    { intros E. assert (Hin : x ∈ filter (fun y => y ∉ visited st) paths) by (by apply elem_of_list_filter). rewrite E in Hin. by apply elem_of_nil in Hin. }
    apply elem_of_list_filter in Hy as [Hyv Hy].
    assert (Hpre : forall u, (u, y) ∈ reqs -> u ∈ handled st).
    { intros u Hu. destruct (decide (u ∈ visited st)) as [Huv|Huv].
      - apply (inv_vis _ _ HI) in Huv as [?|Hb]; [done|]. exfalso. apply Hbl in Hb. unfold PathGraph_Model.leaves in Hb.
        rewrite elem_of_remove_dups, elem_of_list_filter in Hb. apply (proj1 Hb). apply elem_of_list_fmap. exists (u, y). done.
      - exfalso. apply (Hmin u Hu), elem_of_list_filter. split; [done|]. by apply (Hends u y). }
    destruct (decide (y ∈ map snd reqs)) as [Hs|Hs].
    - apply elem_of_list_fmap in Hs as ([u y'] & -> & Hin). apply (Hr y'). split; [done|]. split; [by exists u|].
      rewrite (inv_inc _ _ HI). by apply open_reqs_0.
    - apply Hyv, Hroots. unfold PathGraph_Model.roots. rewrite elem_of_remove_dups, elem_of_list_filter. done.
  Qed.

  Lemma init_inv blocked : Inv blocked (GState [] blocked (incoming0 reqs) 0).
  Proof.
    split; simpl.
    - intros v. unfold incoming0, open_reqs. f_equal. apply filter_ext_len. intros [a b] _. simpl. set_solver.
    - constructor.
    - intros x Hx. by apply elem_of_nil in Hx.
    - intros u v [|] l2 E; done.
    - intros x. rewrite elem_of_nil. tauto.
  Qed.
  Lemma init_ready vis t y : ~ ready (GState [] vis (incoming0 reqs) t) y.
  Proof.
    intros (_ & (u & Hu) & H0). simpl in H0. pose proof (inv_inc [] _ (init_inv []) y) as E. simpl in E. rewrite E, open_reqs_0 in H0.
    specialize (H0 u Hu). by apply elem_of_nil in H0.
  Qed.
  Lemma roots_spec y : y ∈ roots <-> y ∈ paths /\ forall u, (u, y) ∉ reqs.
  Proof.
    unfold PathGraph_Model.roots. rewrite elem_of_remove_dups, elem_of_list_filter, elem_of_list_fmap. split.
    - intros [H Hy]. split; [done|]. intros u Hu. apply H. exists (u, y). done.
    - intros [Hy H]. split; [|done]. intros ([u y'] & -> & Hin). by apply (H u).
  Qed.
  Lemma leaves_spec y : y ∈ leaves <-> y ∈ paths /\ forall v, (y, v) ∉ reqs.
  Proof.
    unfold PathGraph_Model.leaves. rewrite elem_of_remove_dups, elem_of_list_filter, elem_of_list_fmap. split.
    - intros [H Hy]. split; [done|]. intros v Hv. apply H. exists (y, v). done.
    - intros [Hy H]. split; [|done]. intros ([y' v] & -> & Hin). by apply (H v).
  Qed.
  Lemma roots_ready_set blocked st : Inv blocked st -> forall y, y ∈ roots -> y ∈ paths /\ incoming st y = 0%Z.
  Proof.
    intros HI y Hy. apply roots_spec in Hy as [Hy Hn]. split; [done|]. rewrite (inv_inc _ _ HI), open_reqs_0. intros u Hu. by destruct (Hn u).
  Qed.

  Lemma drain_outer_spec : forall n set st nbs, (length set <= n)%nat -> NoDup set -> Inv [] st -> NoDup nbs ->
    (forall y, y ∈ set -> y ∈ paths /\ y ∉ handled st /\ forall u, (u, y) ∈ reqs -> u ∈ handled st) ->
    (forall y, y ∈ nbs -> y ∈ paths /\ incoming st y = 0%Z) -> (forall y, ready st y -> y ∈ nbs) ->
    exists st' nbs' l, drain_outer choose paths reqs n set st nbs = Ok (st', nbs') /\ Inv [] st' /\ handled st' = handled st ++ l /\ l ≡ₚ set /\
      NoDup nbs' /\ (forall y, y ∈ nbs' -> y ∈ paths /\ incoming st' y = 0%Z) /\ (forall y, ready st' y -> y ∈ nbs').
  Proof.
    induction n as [|n IH]; intros set st nbs Hlen Hnd HI Hndn Hset Hnbs Hready.
    - destruct set; [|simpl in Hlen; lia]. exists st, nbs, []. rewrite app_nil_r. done.
    - destruct set as [|c set']; [exists st, nbs, []; by rewrite app_nil_r|].
      cbn [drain_outer]. set (set := c :: set') in *. set (x := choose (ticks st) set).
      assert (Hx : x ∈ set) by (by apply Hchoose). pose proof (erase_perm x set Hnd Hx) as Hp.
      destruct (Hset x Hx) as (Hxp & Hxh & Hxpre).
      set (st0 := GState (handled st) (visited st) (incoming st) (S (ticks st))).
      destruct (handle_inv [] x st0 (tick_inv _ _ _ HI) Hxp Hxh Hxpre _ eq_refl (x :: visited st)) as [HI1 Hh1].
      { intros y. rewrite elem_of_cons, (inv_vis _ _ HI), elem_of_app, elem_of_list_singleton, elem_of_nil. simpl. tauto. }
      assert (Ev : visited (handle_node x st0) = visited st).
      { unfold st0, PathGraph_Model.handle_node. rewrite decide_True by done. done. }
      rewrite Ev. set (st1 := GState (handled (handle_node x st0)) (x :: visited st) _ _) in *.
      pose proof (get_neighbours_spec x st1) as Hg. destruct (get_neighbours x st1) as [l st2]. destruct Hg as (G1 & G2 & G3 & G4 & G5).
      assert (HI2 : Inv [] st2). { destruct HI1. split; rewrite ?G1, ?G2, ?G3; done. }
      assert (Hh2 : handled st2 = handled st ++ [x]) by (by rewrite G1).
      assert (Hext : ext st st2).
      { split; [exists [x]; split; [done|]; intros y ->%elem_of_list_singleton Hv; apply (inv_vis _ _ HI) in Hv as [?|Hv]; [done|by apply elem_of_nil in Hv]|].
        rewrite G2. intros y Hy. by right. }
      destruct (IH (filter (fun y => y <> x) set) st2 (nbs ++ filter (fun y => y ∉ nbs) l)) as (st' & nbs' & l' & E & HI' & Hh' & Hl' & Hn' & Hb' & Hr').
      + apply Permutation_length in Hp. simpl in *. lia.
      + by apply NoDup_filter.
      + done.
      + apply NoDup_app. split; [done|]. split; [|by apply NoDup_filter]. intros y Hy Hf. apply elem_of_list_filter in Hf. tauto.
      + intros y Hy. apply elem_of_list_filter in Hy as [Hne Hy]. destruct (Hset y Hy) as (? & ? & Hpre). rewrite Hh2.
        split; [done|]. split; [rewrite elem_of_app, elem_of_list_singleton; tauto|]. intros u Hu. apply elem_of_app. left. by apply Hpre.
      + intros y Hy. apply elem_of_app in Hy as [Hy|Hy].
        * destruct (Hnbs y Hy) as [? ?]. split; [done|]. by apply (ext_inc [] st st2).
        * apply elem_of_list_filter in Hy as [_ Hy]. apply G5 in Hy as [Hy Hy0]. split; [by apply (Hends x y)|by rewrite G3].
      + intros y (Hyv & Hyp & Hy0). rewrite G2 in Hyv. simpl in Hyv. rewrite elem_of_cons in Hyv.
        destruct (decide (y ∈ nbs)) as [?|Hnn]; [apply elem_of_app; by left|].
        destruct (decide ((x, y) ∈ reqs)) as [Hxy|Hxy].
        * apply elem_of_app. right. apply elem_of_list_filter. split; [done|]. apply G5. split; [done|]. by rewrite <- G3.
        * exfalso. apply Hnn, Hready. split; [tauto|]. split; [done|].
          rewrite (inv_inc _ _ HI2), open_reqs_0, Hh2 in Hy0. rewrite (inv_inc _ _ HI), open_reqs_0. intros u Hu.
          specialize (Hy0 u Hu). apply elem_of_app in Hy0 as [?|Hux%elem_of_list_singleton]; [done|by subst].
      + exists st', nbs', (x :: l'). split; [done|]. split; [done|]. split; [rewrite Hh', Hh2; by rewrite <- app_assoc|].
        split; [rewrite Hl'; by symmetry|done].
  Qed.

  Lemma inv_before blocked st u v : Inv blocked st -> (u, v) ∈ reqs -> v ∈ handled st -> before (handled st) u v.
  Proof.
    intros HI Huv Hv. apply elem_of_list_split in Hv as (l1 & l2 & E). exists l1, l2. split; [done|]. by apply (inv_order _ _ HI u v l1 l2).
  Qed.

  (** *** The theorem *)
  Lemma main_spec (group reverse : bool) :
    exists order, order_with_constraints choose paths reqs group reverse = Ok order /\
      NoDup order /\ (forall x, x ∈ order -> x ∈ paths) /\
      (acyclic reqs -> order ≡ₚ paths) /\
      ((group = false \/ reverse = false) -> forall u v, (u, v) ∈ reqs -> v ∈ order -> before order u v) /\
      (acyclic reqs -> forall u v, (u, v) ∈ reqs -> before order u v) /\
      (group = true -> reverse = false -> exists rest, exists outer, order = outer ++ rest /\ outer ≡ₚ roots) /\
      (group = true -> reverse = true -> exists rest, exists outer, order = rest ++ outer /\ outer ≡ₚ leaves).
  Proof.
    assert (Hfuel : (length paths < dfs_fuel paths)%nat) by (unfold dfs_fuel; lia).
    assert (Hfin : forall st, Inv [] st -> (forall y, ~ ready st y) -> (forall y, y ∈ roots -> y ∈ visited st) ->
       NoDup (handled st) /\ (forall x, x ∈ handled st -> x ∈ paths) /\ (acyclic reqs -> handled st ≡ₚ paths) /\
       (forall u v, (u, v) ∈ reqs -> v ∈ handled st -> before (handled st) u v) /\
       (acyclic reqs -> forall u v, (u, v) ∈ reqs -> before (handled st) u v)).
    { intros st HI Hr Hroots.
      assert (Hall : acyclic reqs -> forall x, x ∈ paths -> x ∈ handled st).
      { intros Hac x Hx. destruct (all_handled [] st Hac HI Hr Hroots) with (x := x) as [?|?]; [|done|done|by apply elem_of_nil in H].
        intros y Hy. by apply elem_of_nil in Hy. }
      split; [apply HI|]. split; [apply HI|]. split; [|split].
      - intros Hac. apply NoDup_Permutation; [apply HI|done|]. intros x. split; [apply HI|by apply Hall].
      - intros u v Huv Hv. by eapply inv_before.
      - intros Hac u v Huv. eapply inv_before; [done|done|]. apply Hall; [done|]. by apply (Hends u v). }
    unfold order_with_constraints. destruct group; [destruct reverse|].
    - destruct (drain_dfs leaves (dfs_fuel paths) Hfuel (length roots) roots (GState [] leaves (incoming0 reqs) 0)) as (st & -> & HI & Hext & Hv & Hr).
      + done.
      + apply NoDup_remove_dups.
      + apply init_inv.
      + by apply (roots_ready_set leaves), init_inv.
      + cbn [rbind].
        assert (Hnr : forall y, ~ ready st y) by (intros y Hy; by apply Hr, proj1, init_ready in Hy).
        assert (Hnl : forall y, y ∈ handled st -> y ∉ leaves).
        { intros y Hy Hl. destruct Hext as [(l & E & Hn) _]. simpl in E. rewrite E in Hy. by apply (Hn y Hy). }
        assert (Hpl : forall y, y ∈ leaves -> acyclic reqs -> forall u, (u, y) ∈ reqs -> u ∈ handled st).
        { intros y Hy Hac u Hu. destruct (all_handled leaves st Hac HI Hnr Hv ltac:(done)) with (x := u) as [?|Hl]; [by apply (Hends u y)|done|].
          apply leaves_spec in Hl as [_ Hl]. by destruct (Hl y). }
        (* the leaves are handled one after another, whatever they wait for *)
        assert (Hdr : forall n set st, (length set <= n)%nat -> NoDup set -> (forall y, y ∈ set -> y ∈ paths) ->
           exists st' l, drain n (fun x st => Ok (handle_node x st)) set st = Ok st' /\ handled st' = handled st ++ l /\ l ≡ₚ set).
        { clear - Hchoose Hnodup Hends. induction n as [|n IH]; intros set st Hlen Hnd Hset.
          - destruct set; [|simpl in Hlen; lia]. exists st, []. by rewrite app_nil_r.
          - destruct set as [|c set']; [exists st, []; by rewrite app_nil_r|].
            cbn [PathGraph_Model.drain]. set (set := c :: set') in *. set (x := choose (ticks st) set).
            assert (Hx : x ∈ set) by (by apply Hchoose). pose proof (erase_perm x set Hnd Hx) as Hp. cbn [rbind].
            set (st0 := GState (handled st) (visited st) (incoming st) (S (ticks st))).
            destruct (IH (filter (fun y => y <> x) set) (handle_node x st0)) as (st' & l & E & Hh & Hl).
            + apply Permutation_length in Hp. simpl in *. lia.
            + by apply NoDup_filter.
            + intros y Hy. apply elem_of_list_filter in Hy as [_ Hy]. by apply Hset.
            + exists st', (x :: l). split; [done|]. split; [|rewrite Hl; by symmetry].
              rewrite Hh. unfold PathGraph_Model.handle_node. rewrite decide_True by (by apply Hset). simpl. by rewrite <- app_assoc. }
        destruct (Hdr (length leaves) leaves st) as (st' & l & -> & Hh & Hl); [done|apply NoDup_remove_dups|intros y Hy; by apply leaves_spec in Hy as [? _]|].
        cbn [rbind]. exists (handled st'). split; [done|].
        assert (Hall : acyclic reqs -> forall x, x ∈ paths -> x ∈ handled st').
        { intros Hac x Hx. rewrite Hh. apply elem_of_app. destruct (all_handled leaves st Hac HI Hnr Hv ltac:(done) x Hx) as [?|?]; [by left|right; by rewrite Hl]. }
        assert (Hnd' : NoDup (handled st')).
        { rewrite Hh. apply NoDup_app. split; [apply HI|]. split; [|rewrite Hl; apply NoDup_remove_dups]. intros y Hy. rewrite Hl. by apply Hnl. }
        assert (Hin' : forall x, x ∈ handled st' -> x ∈ paths).
        { intros x. rewrite Hh, elem_of_app. intros [Hx|Hx]; [by apply (inv_in _ _ HI)|]. rewrite Hl in Hx. by apply leaves_spec in Hx as [? _]. }
        split; [done|]. split; [done|]. split; [|split; [|split; [|split]]].
        * intros Hac. apply NoDup_Permutation; [done|done|]. intros x. split; [apply Hin'|by apply Hall].
        * intros [?|?]; done.
        * intros Hac u v Huv. destruct (Hends u v Huv) as [Hu Hvp].
          destruct (all_handled leaves st Hac HI Hnr Hv ltac:(done) v Hvp) as [Hvh|Hvl].
          -- destruct (inv_before leaves st u v HI Huv Hvh) as (l1 & l2 & E & Hin). exists l1, (l2 ++ l). split; [|done]. by rewrite Hh, E, <- app_assoc.
          -- rewrite <- Hl in Hvl. apply elem_of_list_split in Hvl as (l1 & l2 & E). exists (handled st ++ l1), l2. split; [by rewrite Hh, E, app_assoc|].
             apply elem_of_app. left. apply (Hpl v); [|done|done]. rewrite <- Hl, E. set_solver.
        * done.
        * intros _ _. exists (handled st), l. done.
    - destruct (drain_outer_spec (length roots) roots (GState [] [] (incoming0 reqs) 0) []) as (st & nbs & l & -> & HI & Hh & Hl & Hn & Hb & Hr).
      + done.
      + apply NoDup_remove_dups.
      + apply init_inv.
      + constructor.
      + intros y Hy. apply roots_spec in Hy as [Hy Hno]. split; [done|]. split; [apply not_elem_of_nil|]. intros u Hu. by destruct (Hno u).
      + intros y Hy. by apply elem_of_nil in Hy.
      + intros y Hy. by apply init_ready in Hy.
      + cbn [rbind fst snd]. simpl in Hh.
        destruct (drain_dfs [] (dfs_fuel paths) Hfuel (length nbs) nbs st) as (st' & -> & HI' & Hext & Hv & Hr'); [done|done|done|done|].
        cbn [rbind]. exists (handled st'). split; [done|].
        destruct (Hfin st' HI') as (F1 & F2 & F3 & F4 & F5).
        * intros y Hy. destruct (Hr' y Hy) as [Hy1 Hy2]. by apply Hy2, Hr.
        * intros y Hy. apply Hext, (inv_vis _ _ HI). left. rewrite Hh. by rewrite Hl.
        * do 3 (split; [done|]). split; [done|]. split; [done|]. split; [|done]. intros _ _.
          destruct Hext as [(l' & E & _) _]. exists l', l. split; [by rewrite E, Hh|done].
    - destruct (drain_dfs [] (dfs_fuel paths) Hfuel (length roots) roots (GState [] [] (incoming0 reqs) 0)) as (st & -> & HI & Hext & Hv & Hr).
      + done.
      + apply NoDup_remove_dups.
      + apply init_inv.
      + by apply (roots_ready_set []), init_inv.
      + cbn [rbind]. exists (handled st). split; [done|].
        destruct (Hfin st HI) as (F1 & F2 & F3 & F4 & F5).
        * intros y Hy. by apply Hr, proj1, init_ready in Hy.
        * done.
        * done.
  Qed.
End proofs.

(** For every choice of next candidates and every set of requirements between the given paths, in all
    grouping modes: the ordering terminates and prints no path twice.  With acyclic requirements every
    path is printed exactly once and no path before one it requires; without grouping, or with the
    outer walls (those without requirements) grouped first, the latter even holds for cyclic ones.
    With grouping, the paths without requirements come first, or those nothing else requires come last. *)
Theorem C12_order_requirements (choose : nat -> list nat -> nat) (paths : list nat) (reqs : list (nat * nat)) (group reverse : bool) :
  chooses_a_candidate choose -> NoDup paths -> (forall u v, (u, v) ∈ reqs -> u ∈ paths /\ v ∈ paths) ->
  exists order, order_with_constraints choose paths reqs group reverse = Ok order /\
    NoDup order /\ (forall x, x ∈ order -> x ∈ paths) /\
    (acyclic reqs -> order ≡ₚ paths /\ forall u v, (u, v) ∈ reqs -> before order u v) /\
    (group = false \/ reverse = false -> forall u v, (u, v) ∈ reqs -> v ∈ order -> before order u v) /\
    (group = true -> reverse = false -> exists outer rest, order = outer ++ rest /\
       forall x, x ∈ outer <-> x ∈ paths /\ forall u, (u, x) ∉ reqs) /\
    (group = true -> reverse = true -> exists rest outer, order = rest ++ outer /\
       forall x, x ∈ outer <-> x ∈ paths /\ forall v, (x, v) ∉ reqs).
Proof.
  intros Hc Hn He. destruct (main_spec choose paths reqs Hc Hn He group reverse) as (order & E & H1 & H2 & H3 & H4 & H5 & H6 & H7).
  exists order. split; [done|]. split; [done|]. split; [done|]. split; [auto|]. split; [done|]. split.
  - intros Hg Hr. destruct (H6 Hg Hr) as (rest & outer & -> & Ho). exists outer, rest. split; [done|]. intros x. rewrite Ho. apply roots_spec.
  - intros Hg Hr. destruct (H7 Hg Hr) as (rest & outer & -> & Ho). exists rest, outer. split; [done|]. intros x. rewrite Ho. apply leaves_spec.
Qed.
Print Assumptions C12_order_requirements.

(** With cyclic requirements paths are silently not printed. *)
Theorem C12_cycle_dropped_refuted : exists paths reqs, NoDup paths /\ (forall u v, (u, v) ∈ reqs -> u ∈ paths /\ v ∈ paths) /\
  forall choose, chooses_a_candidate choose -> exists order, order_with_constraints choose paths reqs false false = Ok order /\ ~ order ≡ₚ paths.
Proof.
  exists [1; 2; 3]%nat, [(1, 2); (2, 1)]%nat. split; [apply NoDup_cons; split; [set_solver|]; apply NoDup_cons; split; [set_solver|]; apply NoDup_singleton|].
  split; [set_solver|]. intros choose Hc. exists [3]%nat. split; [|intros Hp%Permutation_length; done].
  assert (E : choose 0%nat [3]%nat = 3%nat) by (by apply elem_of_list_singleton, Hc).
  unfold order_with_constraints. vm_compute roots. cbn [length drain ticks]. rewrite E. vm_compute. done.
Qed.
Print Assumptions C12_cycle_dropped_refuted.

Definition take_first (t : nat) (l : list nat) : nat := default 0%nat (head l).
Lemma take_first_ok : chooses_a_candidate take_first.
Proof. intros t [|x l] H; [done|]. left. Qed.
Example C12_nonvacuous : order_with_constraints take_first [1; 2; 3; 4; 5]%nat [(1, 3); (2, 3); (3, 4); (3, 4)]%nat false false = Ok [1; 2; 3; 4; 5]%nat /\
  order_with_constraints take_first [1; 2; 3; 4; 5]%nat [(1, 3); (2, 3); (3, 4); (3, 4)]%nat true true = Ok [1; 2; 3; 4; 5]%nat /\
  order_with_constraints take_first [1; 2; 3; 4; 5]%nat [(1, 3); (2, 3); (3, 4); (3, 4)]%nat true false = Ok [1; 2; 5; 3; 4]%nat.
Proof. vm_compute. done. Qed.
