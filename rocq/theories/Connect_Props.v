(** C69: connecting infill lines along the outline. *)
From Coq Require Import ZArith Lia.
From stdpp Require Import prelude list gmap fin_maps.
From Verif Require Import Common Geo_Model Connect_Model Connect_Spec.
Open Scope nat_scope.

(** ** paths through the heap: segments with a direction; true is backwards *)
Notation onode := (nat * bool)%type.
Definition orient (r : bool) (s : seg) : seg := if r then swapDirection s else s.
Definition view (h : heap) (o : onode) : option seg := orient o.2 <$> h !! o.1.
Definition flip (o : onode) : onode := (o.1, negb o.2).
Definition ids (l : list onode) : list nat := map fst l.

Lemma swap_swap s : swapDirection (swapDirection s) = s.
Proof. by destruct s. Qed.
Lemma orient_orient r s : orient r (orient r s) = s.
Proof. destruct r; [apply swap_swap|done]. Qed.
Lemma orient_negb r s : orient (negb r) s = swapDirection (orient r s).
Proof. destruct r; cbn; [by rewrite swap_swap|done]. Qed.
Lemma view_flip h o s : view h o = Some s -> view h (flip o) = Some (swapDirection s).
Proof. unfold view. cbn. destruct (h !! o.1) as [t|]; [|done]. cbn. intros [= <-]. by rewrite orient_negb. Qed.
Lemma view_lookup h i r s : view h (i, r) = Some s <-> h !! i = Some (orient r s).
Proof. unfold view. cbn. split; [destruct (h !! i); cbn; [intros [= <-]; by rewrite orient_orient|done]|intros ->; cbn; by rewrite orient_orient]. Qed.
Lemma flip_flip o : flip (flip o) = o.
Proof. destruct o as [i []]; done. Qed.

Inductive path (h : heap) : option nat -> list onode -> option nat -> Prop :=
| path_one p o q s : view h o = Some s -> previous s = p -> next s = q -> start s <> end_ s -> path h p [o] q
| path_cons p o o' l q s s' : view h o = Some s -> previous s = p -> next s = Some o'.1 -> start s <> end_ s ->
    view h o' = Some s' -> start s' = end_ s -> path h (Some o.1) (o' :: l) q -> path h p (o :: o' :: l) q.

Lemma path_view h p l q : path h p l q -> forall o, o ∈ l -> exists s, view h o = Some s /\ start s <> end_ s.
Proof.
  induction 1 as [p o q s E _ _ Hn|p o o' l q s s' E _ _ Hn _ _ _ IH]; intros x Hx.
  - apply elem_of_list_singleton in Hx as ->. by exists s.
  - apply elem_of_cons in Hx as [->|Hx]; [by exists s|by apply IH].
Qed.
Lemma path_frame h h' p l q : (forall o, o ∈ l -> h' !! o.1 = h !! o.1) -> path h p l q -> path h' p l q.
Proof.
  intros Hf H. induction H as [p o q s E Ep En Hn|p o o' l q s s' E Ep En Hn E' Est Hp IH].
  - econstructor; [|done..]. unfold view. rewrite Hf by left. exact E.
  - econstructor; [|done..| | |]; [unfold view; rewrite Hf by left; exact E|unfold view; rewrite Hf by (right; left); exact E'|done|].
    apply IH. intros x Hx. apply Hf. by right.
Qed.
Lemma path_app h p l1 o1 o2 l2 q s1 s2 : path h p (l1 ++ [o1]) (Some o2.1) -> path h (Some o1.1) (o2 :: l2) q ->
  view h o1 = Some s1 -> view h o2 = Some s2 -> start s2 = end_ s1 -> path h p (l1 ++ o1 :: o2 :: l2) q.
Proof.
  revert p. induction l1 as [|o l1 IH]; intros p H1 H2 E1 E2 Hj; cbn [app] in *.
  - inversion H1 as [? ? ? s E Ep En Hn|]; subst. econstructor; [done..|exact E2| |done]. congruence.
  - destruct l1 as [|o' l1]; cbn [app] in *.
    + inversion H1 as [|? ? ? ? ? s s' E Ep En Hn E' Est Hp]; subst. econstructor; [done..|]. by apply IH.
    + inversion H1 as [|? ? ? ? ? s s' E Ep En Hn E' Est Hp]; subst. econstructor; [done..|]. by apply IH.
Qed.
Lemma path_app_inv h p l1 o1 o2 l2 q : path h p (l1 ++ o1 :: o2 :: l2) q ->
  path h p (l1 ++ [o1]) (Some o2.1) /\ path h (Some o1.1) (o2 :: l2) q /\ exists s1 s2, view h o1 = Some s1 /\ view h o2 = Some s2 /\ start s2 = end_ s1.
Proof.
  revert p. induction l1 as [|o l1 IH]; intros p H; cbn [app] in *.
  - inversion H as [|? ? ? ? ? s s' E Ep En Hn E' Est Hp]; subst. split; [by econstructor|]. split; [done|]. by exists s, s'.
  - destruct l1 as [|o' l1]; cbn [app] in *; inversion H as [|? ? ? ? ? s s' E Ep En Hn E' Est Hp]; subst; destruct (IH _ Hp) as (H1 & H2 & H3);
      (split; [by econstructor|]); split; done.
Qed.
Definition turn (l : list onode) : list onode := map flip (reverse l).
Lemma turn_app l l' : turn (l ++ l') = turn l' ++ turn l.
Proof. unfold turn. by rewrite reverse_app, map_app. Qed.
Lemma turn_turn l : turn (turn l) = l.
Proof. unfold turn. change (map flip ?l) with (flip <$> l). rewrite <- fmap_reverse, reverse_involutive, <- list_fmap_compose. rewrite <- (list_fmap_id l) at 2. apply list_fmap_ext. intros i o _. apply flip_flip. Qed.
Lemma turn_ids l : ids (turn l) ≡ₚ ids l.
Proof.
  unfold ids, turn. rewrite map_map. change (map ?f ?l) with (f <$> l). rewrite (reverse_Permutation l). done.
Qed.
Lemma path_turn h p l q : path h p l q -> path h q (turn l) p.
Proof.
  induction 1 as [p o q s E Ep En Hn|p o o' l q s s' E Ep En Hn E' Est Hp IH].
  - apply (path_one h q (flip o) p (swapDirection s)); [by apply view_flip|done|done|]. cbn. congruence.
  - change (o :: o' :: l) with ([o] ++ [o'] ++ l). rewrite !turn_app. rewrite <- app_assoc. change (turn [o'] ++ turn [o]) with ([flip o'] ++ [flip o]).
    change (turn l ++ [flip o'] ++ [flip o]) with (turn l ++ flip o' :: flip o :: []). eapply path_app.
    + change (o' :: l) with ([o'] ++ l) in IH. rewrite turn_app in IH. exact IH.
    + apply (path_one _ _ _ _ (swapDirection s)); [by apply view_flip|by cbn|done|]. cbn. congruence.
    + by apply view_flip.
    + by apply view_flip.
    + cbn. done.
Qed.
Lemma path_last h p l o q s : path h p (l ++ [o]) q -> view h o = Some s -> next s = q.
Proof.
  revert p. induction l as [|x l IH]; intros p H E; cbn in H.
  - inversion H; subst; congruence.
  - destruct l as [|y l]; cbn in *; inversion H; subst; by eapply IH.
Qed.
(** a free end is the end of the path *)
Lemma path_free h p l o s : path h p l None -> o ∈ l -> view h o = Some s -> next s = None -> exists l', l = l' ++ [o].
Proof.
  intros H. remember None as q eqn:Eq. induction H as [p x q t E Ep En Hn|p x x' l q t t' E Ep En Hn E' Est Hp IH]; intros Ho Es Hnone.
  - apply elem_of_list_singleton in Ho as ->. by exists [].
  - apply elem_of_cons in Ho as [->|Ho]; [congruence|]. destruct (IH Eq Ho Es Hnone) as (l' & E2). exists (x :: l'). cbn. by rewrite E2.
Qed.
Lemma path_head_free h l o s : path h None l None -> o ∈ l -> view h o = Some s -> previous s = None -> exists l', l = o :: l'.
Proof.
  intros H Ho E Hn. apply path_turn in H. destruct (path_free h None (turn l) (flip o) (swapDirection s) H) as (l' & E2); [|by apply view_flip|done|].
  - unfold turn. change (map ?f ?l) with (f <$> l). apply elem_of_list_fmap. exists o. split; [done|]. by apply elem_of_reverse.
  - exists (turn l'). rewrite <- (turn_turn l), E2, turn_app. cbn. by rewrite flip_flip.
Qed.
(** the link at an end *)
Definition link (forward : bool) (s : seg) : option nat := if forward then previous s else next s.
Lemma path_orient h l i s forward : path h None l None -> i ∈ ids l -> h !! i = Some s -> link forward s = None ->
  exists l', path h None (l' ++ [(i, forward)]) None /\ ids (l' ++ [(i, forward)]) ≡ₚ ids l.
Proof.
  intros Hp Hi E Hl. unfold ids in Hi. change (map ?f ?l) with (f <$> l) in Hi. apply elem_of_list_fmap in Hi as ([i' r] & Ei & Ho). cbn in Ei. subst i'.
  assert (Hv : view h (i, r) = Some (orient r s)) by (apply view_lookup; by rewrite orient_orient).
  destruct (decide (r = forward)) as [->|Hne].
  - destruct (path_free h None l (i, forward) _ Hp Ho Hv) as (l' & ->); [by destruct forward|]. by exists l'.
  - assert (r = negb forward) as -> by (destruct r, forward; done). destruct (path_head_free h l _ _ Hp Ho Hv) as (l' & ->); [by destruct forward|].
    exists (turn l'). assert (Et : turn l' ++ [(i, forward)] = turn ((i, negb forward) :: l')).
    { change ((i, negb forward) :: l') with ([(i, negb forward)] ++ l'). rewrite turn_app. cbn. unfold flip. cbn. by rewrite negb_involutive. }
    rewrite Et. split; [by apply path_turn|apply turn_ids].
Qed.
(** changing the free end *)
Lemma path_set_last h h' p l i r q v s s' : path h p (l ++ [(i, r)]) q -> h !! i = Some s -> h' !! i = Some s' ->
  (forall j, j ∈ ids l -> h' !! j = h !! j) ->
  link (negb r) s' = link (negb r) s -> end_at (negb r) s' = end_at (negb r) s -> link r s' = v -> start s' <> end_ s' -> path h' p (l ++ [(i, r)]) v.
Proof.
  intros Hp E E' Hf Hl1 He1 Hl2 Hne. assert (Hv : view h (i, r) = Some (orient r s)) by (apply view_lookup; by rewrite orient_orient).
  assert (Hv' : view h' (i, r) = Some (orient r s')) by (apply view_lookup; by rewrite orient_orient).
  assert (Hprev : previous (orient r s') = previous (orient r s)) by (destruct r; exact Hl1).
  assert (Hst : start (orient r s') = start (orient r s)) by (destruct r; exact He1).
  assert (Hnx : next (orient r s') = v) by (destruct r; exact Hl2).
  assert (Hne2 : start (orient r s') <> end_ (orient r s')) by (destruct r; cbn; congruence).
  destruct l as [|o l] using rev_ind.
  - cbn in *. inversion Hp as [? ? ? t Et Ep En Hn|]; subst. apply (path_one h' _ _ _ (orient r s')); [done| |done|done]. congruence.
  - clear IHl. rewrite <- app_assoc in *. cbn [app] in *. destruct (path_app_inv _ _ _ _ _ _ _ Hp) as (H1 & H2 & s1 & s2 & E1 & E2 & Hj).
    assert (s2 = orient r s) by congruence. subst s2.
    assert (Hfr : forall x, x ∈ l ++ [o] -> h' !! x.1 = h !! x.1).
    { intros x Hx. apply Hf. unfold ids. change (map ?f ?l) with (f <$> l). apply elem_of_list_fmap. by exists x. }
    eapply path_app.
    + eapply path_frame; [exact Hfr|]. exact H1.
    + inversion H2 as [? ? ? t Et Ep En Hn|]; subst. apply (path_one h' _ _ _ (orient r s')); [done| |done|done]. rewrite Hprev. cbn [fst]. congruence.
    + unfold view. rewrite Hfr by (apply elem_of_app; right; left). exact E1.
    + exact Hv'.
    + congruence.
Qed.

Lemma end_orient r s : end_ (orient r s) = end_at r s.
Proof. by destruct r. Qed.
Lemma start_orient r s : start (orient (negb r) s) = end_at r s.
Proof. by destruct r. Qed.
Lemma view_at h i r s : h !! i = Some s -> view h (i, r) = Some (orient r s).
Proof. intros E. apply view_lookup. by rewrite orient_orient. Qed.
Lemma ids_app l l' : ids (l ++ l') = ids l ++ ids l'.
Proof. apply map_app. Qed.
Lemma NoDup_snoc_notin (l : list onode) o : NoDup (ids (l ++ [o])) -> o.1 ∉ ids l.
Proof. rewrite ids_app. intros H. apply NoDup_app in H as (_ & H & _). intros Hin. apply (H _ Hin). left. Qed.

(** the segment that was changed at its end [f], the other end being kept *)
Definition changed (f : bool) (s s' : seg) (v : option nat) : Prop :=
  link (negb f) s' = link (negb f) s /\ end_at (negb f) s' = end_at (negb f) s /\ link f s' = v /\ start s' <> end_ s'.

Lemma path_changed h h' A i f s s' v : path h None A None -> NoDup (ids A) -> i ∈ ids A -> h !! i = Some s -> link f s = None ->
  h' !! i = Some s' -> (forall j, j ∈ ids A -> j <> i -> h' !! j = h !! j) -> changed f s s' v ->
  exists l, path h' None (l ++ [(i, f)]) v /\ ids (l ++ [(i, f)]) ≡ₚ ids A.
Proof.
  intros Hp Hnd Hi E Hl E' Hf (H1 & H2 & H3 & H4). destruct (path_orient h A i s f Hp Hi E Hl) as (l & Hp' & Hids). exists l. split; [|done].
  eapply (path_set_last h h'); [exact Hp'|exact E|exact E'| |done..]. intros j Hj. rewrite <- Hids in Hnd. pose proof (NoDup_snoc_notin _ _ Hnd) as Hn. cbn in Hn. apply Hf.
  - rewrite <- Hids, ids_app. apply elem_of_app. by left.
  - intros ->. done.
Qed.
Lemma turn_snoc (l : list onode) i f : turn (l ++ [(i, f)]) = (i, negb f) :: turn l.
Proof. by rewrite turn_app. Qed.

(** two paths are joined directly *)
Lemma join_direct h h' A B p c f g sp sc sp' sc' :
  path h None A None -> path h None B None -> NoDup (ids A) -> NoDup (ids B) -> p ∈ ids A -> c ∈ ids B ->
  h !! p = Some sp -> h !! c = Some sc -> link f sp = None -> link g sc = None -> h' !! p = Some sp' -> h' !! c = Some sc' ->
  (forall j, j ∈ ids A -> j <> p -> h' !! j = h !! j) -> (forall j, j ∈ ids B -> j <> c -> h' !! j = h !! j) ->
  changed f sp sp' (Some c) -> changed g sc sc' (Some p) -> end_at f sp' = end_at g sc' ->
  exists L, path h' None L None /\ ids L ≡ₚ ids A ++ ids B.
Proof.
  intros HA HB NA NB Hp Hc Ep Ec Lp Lc Ep' Ec' FA FB Cp Cc Hj.
  destruct (path_changed h h' A p f sp sp' _ HA NA Hp Ep Lp Ep' FA Cp) as (lA & PA & IA).
  destruct (path_changed h h' B c g sc sc' _ HB NB Hc Ec Lc Ec' FB Cc) as (lB & PB & IB). apply path_turn in PB. rewrite turn_snoc in PB.
  exists (lA ++ (p, f) :: (c, negb g) :: turn lB). split.
  - eapply path_app; [exact PA|exact PB|by apply view_at|by apply view_at|]. by rewrite start_orient, end_orient.
  - rewrite <- IA, <- IB. replace (lA ++ (p, f) :: (c, negb g) :: turn lB) with ((lA ++ [(p, f)]) ++ turn (lB ++ [(c, g)])) by (rewrite turn_snoc, <- app_assoc; done).
    by rewrite ids_app, turn_ids.
Qed.
(** or by a new segment *)
Lemma join_new h h' A B p c n f g sp sc sp' sc' sn :
  path h None A None -> path h None B None -> NoDup (ids A) -> NoDup (ids B) -> p ∈ ids A -> c ∈ ids B ->
  h !! p = Some sp -> h !! c = Some sc -> link f sp = None -> link g sc = None -> h' !! p = Some sp' -> h' !! c = Some sc' ->
  (forall j, j ∈ ids A -> j <> p -> h' !! j = h !! j) -> (forall j, j ∈ ids B -> j <> c -> h' !! j = h !! j) ->
  changed f sp sp' (Some n) -> changed g sc sc' (Some n) ->
  h' !! n = Some sn -> previous sn = Some p -> next sn = Some c -> start sn = end_at f sp' -> end_ sn = end_at g sc' -> start sn <> end_ sn ->
  exists L, path h' None L None /\ ids L ≡ₚ n :: ids A ++ ids B.
Proof.
  intros HA HB NA NB Hp Hc Ep Ec Lp Lc Ep' Ec' FA FB Cp Cc En Hn1 Hn2 Hn3 Hn4 Hn5.
  destruct (path_changed h h' A p f sp sp' _ HA NA Hp Ep Lp Ep' FA Cp) as (lA & PA & IA).
  destruct (path_changed h h' B c g sc sc' _ HB NB Hc Ec Lc Ec' FB Cc) as (lB & PB & IB). apply path_turn in PB. rewrite turn_snoc in PB.
  exists (lA ++ (p, f) :: (n, false) :: (c, negb g) :: turn lB).
  assert (Hv : view h' (n, false) = Some sn) by (apply (view_at h' n false sn En)). split.
  - eapply path_app; [exact PA| |by apply view_at|exact Hv|by rewrite end_orient].
    econstructor; [exact Hv|done|done|done|by apply view_at| |exact PB]. by rewrite start_orient.
  - rewrite <- IA, <- IB. replace (lA ++ (p, f) :: (n, false) :: (c, negb g) :: turn lB) with ((lA ++ [(p, f)]) ++ (n, false) :: turn (lB ++ [(c, g)])) by (rewrite turn_snoc, <- app_assoc; done).
    rewrite ids_app. cbn [ids map fst]. rewrite <- Permutation_middle. by fold (ids (turn (lB ++ [(c, g)]))); rewrite turn_ids.
Qed.
(** or a new segment is put at the end of one *)
Lemma extend_new h h' A p n f sp sp' sn :
  path h None A None -> NoDup (ids A) -> p ∈ ids A -> h !! p = Some sp -> link f sp = None -> h' !! p = Some sp' ->
  (forall j, j ∈ ids A -> j <> p -> h' !! j = h !! j) -> changed f sp sp' (Some n) ->
  h' !! n = Some sn -> previous sn = Some p -> next sn = None -> start sn = end_at f sp' -> start sn <> end_ sn ->
  exists L, path h' None L None /\ ids L ≡ₚ n :: ids A.
Proof.
  intros HA NA Hp Ep Lp Ep' FA Cp En Hn1 Hn2 Hn3 Hn5.
  destruct (path_changed h h' A p f sp sp' _ HA NA Hp Ep Lp Ep' FA Cp) as (lA & PA & IA).
  assert (Hv : view h' (n, false) = Some sn) by (apply (view_at h' n false sn En)).
  exists (lA ++ (p, f) :: (n, false) :: []). split.
  - eapply path_app; [exact PA| |by apply view_at|exact Hv|by rewrite end_orient]. by econstructor.
  - rewrite <- IA. replace (lA ++ (p, f) :: (n, false) :: []) with ((lA ++ [(p, f)]) ++ [(n, false)]) by (rewrite <- app_assoc; done).
    rewrite (ids_app (lA ++ _)). cbn. by rewrite Permutation_app_comm.
Qed.

(** ** groups *)
Lemma find_unite i a b g : find_group i (unite a b g) = (fun x => if decide (x = a) then b else x) <$> find_group i g.
Proof. induction g as [|[l x] g IH]; [done|]. cbn. destruct (decide (l = i)); [done|]. exact IH. Qed.
Lemma unite_keys a b g : map fst (unite a b g) = map fst g.
Proof. unfold unite. rewrite map_map. done. Qed.
Lemma find_group_elem i g : is_Some (find_group i g) <-> i ∈ map fst g.
Proof.
  induction g as [|[l x] g IH]; cbn; [split; [by intros [? ?]|intros H; by apply elem_of_nil in H]|]. destruct (decide (l = i)) as [->|Hne].
  - split; [intros _; left|intros _; by eexists].
  - rewrite IH, elem_of_cons. split; [by right|intros [?|?]; [congruence|done]].
Qed.
Lemma find_app i g g' : find_group i (g ++ g') = match find_group i g with Some x => Some x | None => find_group i g' end.
Proof. induction g as [|[l x] g IH]; [done|]. cbn. destruct (decide (l = i)); [done|exact IH]. Qed.
Lemma add_lines_ok (l : list nat) g : (forall i x, find_group i g = Some x -> x = i) -> NoDup (map fst g) ->
  let g' := foldl add_line g l in (forall i x, find_group i g' = Some x -> x = i) /\ NoDup (map fst g') /\ (forall i, i ∈ map fst g' <-> i ∈ map fst g \/ i ∈ l).
Proof.
  revert g. induction l as [|c l IH]; intros g Hg Hnd; cbn [foldl].
  - split; [done|]. split; [done|]. intros i. split; [by left|intros [?|H]; [done|by apply elem_of_nil in H]].
  - destruct (find_group c g) as [x|] eqn:E.
    + replace (add_line g c) with g by (unfold add_line; by rewrite E). destruct (IH g Hg Hnd) as (H1 & H2 & H3). split; [done|]. split; [done|]. intros i. rewrite H3, elem_of_cons. split; [tauto|]. intros [?|[->|?]]; [by left| |by right].
      left. apply find_group_elem. by exists x.
    + replace (add_line g c) with (g ++ [(c, c)]) by (unfold add_line; by rewrite E). destruct (IH (g ++ [(c, c)])) as (H1 & H2 & H3).
      * intros i x. rewrite find_app. destruct (find_group i g) as [y|] eqn:Ei; [intros [= <-]; by apply Hg|]. cbn. destruct (decide (c = i)); [intros [= <-]; done|done].
      * rewrite map_app. cbn. apply NoDup_app. split; [done|]. split; [|apply NoDup_singleton]. intros i Hi Hc. apply elem_of_list_singleton in Hc as ->.
        apply find_group_elem in Hi as [y Hy]. congruence.
      * split; [done|]. split; [done|]. intros i. rewrite H3, map_app, elem_of_app. cbn. rewrite elem_of_list_singleton, elem_of_cons. tauto.
Qed.
Lemma insert_line_perm key c l : insert_line key c l ≡ₚ c :: l.
Proof. induction l as [|c' l IH]; [done|]. cbn. destruct (_ <=? _)%Z; [done|]. rewrite IH. apply perm_swap. Qed.
Lemma sort_lines_perm key l : sort_lines key l ≡ₚ l.
Proof. induction l as [|c l IH]; [done|]. cbn. by rewrite insert_line_perm, IH. Qed.

Lemma concat_perm {A} (l l' : list (list A)) : l ≡ₚ l' -> concat l ≡ₚ concat l'.
Proof.
  induction 1 as [|x l l' _ IH|x y l|l1 l2 l3 _ IH1 _ IH2]; cbn; [done|by rewrite IH| |by etrans].
  rewrite !app_assoc. by rewrite (Permutation_app_comm y x).
Qed.
Lemma elem_of_concat {A} (x : A) (l : list (list A)) : x ∈ concat l <-> exists y, y ∈ l /\ x ∈ y.
Proof.
  induction l as [|y l IH]; cbn; [split; [intros H; by apply elem_of_nil in H|intros (? & H & _); by apply elem_of_nil in H]|].
  rewrite elem_of_app, IH. split.
  - intros [H|(z & H1 & H2)]; [exists y; split; [left|done]|exists z; split; [by right|done]].
  - intros (z & H1 & H2). apply elem_of_cons in H1 as [->|H1]; [by left|right; by exists z].
Qed.
Lemma ids_concat i (chains : list (list onode)) : i ∈ ids (concat chains) <-> exists l, l ∈ chains /\ i ∈ ids l.
Proof.
  unfold ids. change (map ?f ?l) with (f <$> l). rewrite elem_of_list_fmap. split.
  - intros (o & -> & Ho). apply elem_of_concat in Ho as (l & Hl & Ho). exists l. split; [done|]. change (map fst l) with (fst <$> l). apply elem_of_list_fmap. by exists o.
  - intros (l & Hl & Hi). change (map fst l) with (fst <$> l) in Hi. apply elem_of_list_fmap in Hi as (o & -> & Ho). exists o. split; [done|]. apply elem_of_concat. by exists l.
Qed.
Lemma ids_cons_concat l chains : ids (concat (l :: chains)) = ids l ++ ids (concat chains).
Proof. cbn. apply ids_app. Qed.
Lemma ids_perm l l' : l ≡ₚ l' -> ids l ≡ₚ ids l'.
Proof. unfold ids. change (map fst ?l) with (fst <$> l). intros H. by rewrite H. Qed.
Lemma chain_unique chains l l' i : NoDup (ids (concat chains)) -> l ∈ chains -> l' ∈ chains -> i ∈ ids l -> i ∈ ids l' -> l = l'.
Proof.
  intros Hnd Hl Hl' Hi Hi'. destruct (decide (l = l')) as [->|Hne]; [done|exfalso]. apply elem_of_Permutation in Hl as [rest Hp].
  rewrite Hp in Hl'. apply elem_of_cons in Hl' as [?|Hl']; [congruence|]. rewrite (ids_perm _ _ (concat_perm _ _ Hp)), ids_cons_concat in Hnd.
  apply NoDup_app in Hnd as (_ & Hd & _). apply (Hd i Hi). apply ids_concat. by exists l'.
Qed.

Lemma at_start_true p v s : at_start p v s = true <-> (p, v) = (start_polygon s, start_segment s).
Proof. unfold at_start. rewrite andb_true_iff, !Nat.eqb_eq. split; [intros [-> ->]; done|intros [= -> ->]; done]. Qed.

Section connect.
  Context (resolve : seg -> seg -> bool -> bool -> resolution) (outline : list (list pt)) (lines : heap) (n0 : nat) (crossings : list (list (list nat))).
  Hypothesis Hvalid : valid_lines outline lines crossings n0.
  Hypothesis Hsane : sane resolve.
  Notation lines_on := (lines_on crossings).
  Notation place_on := (place_on outline lines crossings).

  (** where drawing may be in progress: at the corner before, or at the end of a line *)
  Definition reach (p v : nat) (q : pt) : Prop :=
    exists polygon, outline !! p = Some polygon /\
      ((v <> 0%nat /\ polygon !! (v - 1)%nat = Some q) \/
       exists i s, i ∈ lines_on p v /\ lines !! i = Some s /\ q = if bool_decide ((p, v) = (start_polygon s, start_segment s)) then start s else end_ s).
  Lemma reach_place p v q : reach p v q -> place_on p v q.
  Proof.
    intros (polygon & E & H). exists polygon. split; [done|]. right. destruct H as [[Hv H]|H]; [left|by right]. destruct (v =? 0)%nat eqn:Ev; [apply Nat.eqb_eq in Ev; done|done].
  Qed.
  Definition side (p v c : nat) : bool := match lines !! c with Some s => at_start p v s | None => false end.
  Notation slot := (fun t : nat * nat * nat => (t.2, side t.1.1 t.1.2 t.2)).

  Record inv (st : state) (cp cv : nat) (todo : list (nat * nat * nat)) (chains : list (list onode)) : Prop := Inv {
    i_path : forall l, l ∈ chains -> path (segs st) None l None;
    i_nodup : NoDup (ids (concat chains));
    i_dom : forall i, i ∈ ids (concat chains) <-> is_Some (segs st !! i);
    i_fresh : forall i, is_Some (segs st !! i) -> i < fresh_id st;
    i_keys : forall i, is_Some (find_group i (groups st)) <-> is_Some (lines !! i);
    i_keys2 : NoDup (map fst (groups st));
    i_groups : forall i j gi gj, find_group i (groups st) = Some gi -> find_group j (groups st) = Some gj ->
      (gi = gj <-> exists l, l ∈ chains /\ i ∈ ids l /\ j ∈ ids l);
    i_chain_line : forall l, l ∈ chains -> exists i, i ∈ ids l /\ is_Some (lines !! i);
    i_line : forall i s0, lines !! i = Some s0 -> exists s, segs st !! i = Some s /\ start_segment s = start_segment s0 /\ start_polygon s = start_polygon s0 /\
      (quiet resolve -> start s = start s0 /\ end_ s = end_ s0);
    i_honest : forall i s, segs st !! i = Some s -> altered_start s = start s /\ altered_end s = end_ s /\ ((forall b, start_bend s = Some b -> answer resolve b (start s)) /\ (forall b, end_bend s = Some b -> answer resolve b (end_ s)));
    i_other : forall i s, segs st !! i = Some s -> lines !! i = None -> exists p v, quiet resolve -> place_on p v (start s) /\ place_on p v (end_ s);
    i_todo : forall p v c, (p, v, c) ∈ todo -> c ∈ lines_on p v /\ exists s, segs st !! c = Some s /\ link (side p v c) s = None;
    i_slots : NoDup (map slot todo);
    i_draw : forall pc ps, drawing st = Some (pc, ps) -> is_Some (lines !! pc) /\ (exists l, l ∈ chains /\ pc ∈ ids l /\ ps ∈ ids l) /\
      exists s, segs st !! ps = Some s /\ link (at_start cp cv s) s = None /\ (quiet resolve -> reach cp cv (end_at (at_start cp cv s) s)) /\
        forall t, t ∈ todo -> slot t <> (ps, at_start cp cv s)
  }.

  Lemma inv_todo st cp cv todo todo' chains : inv st cp cv todo chains -> (exists t, todo ≡ₚ t ++ todo') -> inv st cp cv todo' chains.
  Proof.
    intros [] [t Ht]. assert (Hin : forall x, x ∈ todo' -> x ∈ todo) by (intros x Hx; rewrite Ht; apply elem_of_app; by right).
    constructor; try done.
    - intros p v c H. apply i_todo0. by apply Hin.
    - change (map slot todo) with (slot <$> todo) in i_slots0. rewrite Ht, fmap_app in i_slots0. by apply NoDup_app in i_slots0 as (_ & _ & ?).
    - intros pc ps E. destruct (i_draw0 pc ps E) as (H1 & H2 & s & H3 & H4 & H5 & H6). split; [done|]. split; [done|]. exists s. split; [done|]. split; [done|]. split; [done|]. intros x Hx. apply H6. by apply Hin.
  Qed.
  Lemma inv_perm st cp cv todo chains chains' : inv st cp cv todo chains -> chains ≡ₚ chains' -> inv st cp cv todo chains'.
  Proof.
    intros [] Hp. assert (Hin : forall x, x ∈ chains' <-> x ∈ chains) by (intros x; by rewrite Hp). assert (Hi : ids (concat chains) ≡ₚ ids (concat chains')) by (by apply ids_perm, concat_perm).
    constructor; try done.
    - intros l Hl. apply i_path0. by apply Hin.
    - by rewrite <- Hi.
    - intros i. by rewrite <- Hi.
    - intros i j gi gj E1 E2. rewrite (i_groups0 i j gi gj E1 E2). split; intros (l & H & ?); exists l; (split; [by apply Hin|done]).
    - intros l Hl. apply i_chain_line0. by apply Hin.
    - intros pc ps E. destruct (i_draw0 pc ps E) as (H1 & (l & H2 & H3) & H4). split; [done|]. split; [exists l; split; [by apply Hin|done]|done].
  Qed.
  Lemma inv_idle st cp cv cp' cv' todo chains : inv st cp cv todo chains -> inv (State (segs st) (fresh_id st) (groups st) None) cp' cv' todo chains.
  Proof. intros []. constructor; try done. Qed.

  Lemma line_side st cp cv todo chains p v c s : inv st cp cv todo chains -> is_Some (lines !! c) -> segs st !! c = Some s -> side p v c = at_start p v s.
  Proof.
    intros Hinv [s0 E0] E. destruct (i_line _ _ _ _ _ Hinv c s0 E0) as (s' & E' & H1 & H2 & _). assert (s' = s) by congruence. subst s'.
    unfold side, at_start. by rewrite E0, H1, H2.
  Qed.
  Lemma lines_on_line p v c : c ∈ lines_on p v -> is_Some (lines !! c).
  Proof. destruct Hvalid as (_ & _ & _ & H & _). apply H. Qed.
  Lemma lines_on_polygon p v c : c ∈ lines_on p v -> exists polygon, outline !! p = Some polygon.
  Proof.
    intros H. destruct Hvalid as (_ & H2 & _). unfold Connect_Spec.lines_on in H. destruct (crossings !! p ≫= fun on_polygon => on_polygon !! v) as [l|] eqn:E.
    - destruct (H2 p v ltac:(by rewrite E)) as (polygon & E2 & _). by exists polygon.
    - cbn in H. by apply elem_of_nil in H.
  Qed.
  Lemma line_place st cp cv todo chains p v c s : inv st cp cv todo chains -> c ∈ lines_on p v -> segs st !! c = Some s -> quiet resolve -> reach p v (end_at (at_start p v s) s).
  Proof.
    intros Hinv Hc E Hq. destruct (lines_on_line p v c Hc) as [s0 E0]. destruct (i_line _ _ _ _ _ Hinv c s0 E0) as (s' & E' & H1 & H2 & H3). assert (s' = s) by congruence. subst s'.
    destruct (H3 Hq) as [H4 H5]. destruct (lines_on_polygon p v c Hc) as [polygon Ep]. exists polygon. split; [done|]. right. exists c, s0. split; [done|]. split; [done|].
    assert (Ea : at_start p v s = bool_decide ((p, v) = (start_polygon s0, start_segment s0))).
    { apply eq_true_iff_eq. rewrite at_start_true, bool_decide_eq_true, H1, H2. done. }
    rewrite Ea. destruct (bool_decide _); cbn; done.
  Qed.

  Lemma changed_keep f s s' v g : changed f s s' v -> g <> f -> link g s' = link g s.
  Proof. intros (H & _) Hg. assert (g = negb f) as -> by (destruct g, f; done). done. Qed.

  Definition honest (s : seg) : Prop := altered_start s = start s /\ altered_end s = end_ s /\ ((forall b, start_bend s = Some b -> answer resolve b (start s)) /\ (forall b, end_bend s = Some b -> answer resolve b (end_ s))).
  (** a segment is changed at its end [f] only *)
  Definition tweak (f : bool) (s s' : seg) (v : option nat) : Prop :=
    changed f s s' v /\ start_segment s' = start_segment s /\ start_polygon s' = start_polygon s /\ honest s' /\ (quiet resolve -> start s' = start s /\ end_ s' = end_ s).
  Record evolves (h h' : heap) (news : list nat) (touched : list (nat * bool)) : Prop := Evolves {
    e_old : forall i s, h !! i = Some s -> exists s', h' !! i = Some s' /\ (s' = s \/ exists f v, (i, f) ∈ touched /\ tweak f s s' v);
    e_one : forall i f g, (i, f) ∈ touched -> (i, g) ∈ touched -> f = g;
    e_new : forall i, h !! i = None -> (is_Some (h' !! i) <-> i ∈ news);
    e_news : forall i s, i ∈ news -> h' !! i = Some s -> h !! i = None /\ honest s /\ exists p v, quiet resolve -> place_on p v (start s) /\ place_on p v (end_ s)
  }.

  Lemma inv_evolve st h' fresh' groups' drawing' cp cv cp' cv' todo olds rest L news touched :
    inv st cp cv todo (olds ++ rest) -> evolves (segs st) h' news touched -> olds <> [] ->
    path h' None L None -> ids L ≡ₚ news ++ ids (concat olds) -> NoDup news -> (forall i, i ∈ news -> segs st !! i = None) ->
    (forall i f, (i, f) ∈ touched -> i ∈ ids (concat olds)) -> (fresh_id st <= fresh')%nat -> (forall i, i ∈ news -> (i < fresh')%nat) ->
    (forall t, t ∈ todo -> slot t ∉ touched) ->
    map fst groups' = map fst (groups st) ->
    (forall i j gi gj, find_group i groups' = Some gi -> find_group j groups' = Some gj -> (gi = gj <-> exists l, l ∈ L :: rest /\ i ∈ ids l /\ j ∈ ids l)) ->
    (forall pc ps, drawing' = Some (pc, ps) -> is_Some (lines !! pc) /\ (exists l, l ∈ L :: rest /\ pc ∈ ids l /\ ps ∈ ids l) /\
      exists s, h' !! ps = Some s /\ link (at_start cp' cv' s) s = None /\ (quiet resolve -> reach cp' cv' (end_at (at_start cp' cv' s) s)) /\
        forall t, t ∈ todo -> slot t <> (ps, at_start cp' cv' s)) ->
    inv (State h' fresh' groups' drawing') cp' cv' todo (L :: rest).
  Proof.
    intros Hinv Hev Hne HL HidsL Hnews Hfr Htouched Hf1 Hf2 Htodo Hkeys Hgroups Hdraw.
    assert (Hids : ids (concat (L :: rest)) ≡ₚ news ++ ids (concat (olds ++ rest))).
    { rewrite ids_cons_concat, concat_app, ids_app, HidsL. by rewrite app_assoc. }
    assert (Hcomm : forall i, is_Some (h' !! i) <-> i ∈ news \/ is_Some (segs st !! i)).
    { intros i. destruct (segs st !! i) as [s|] eqn:E.
      - destruct (e_old _ _ _ _ Hev i s E) as (s' & E' & _). rewrite E'. split; [by right|done].
      - rewrite (e_new _ _ _ _ Hev i E). split; [by left|intros [?|[? ?]]; done]. }
    constructor; cbn [segs fresh_id groups drawing].
    - intros l Hl. apply elem_of_cons in Hl as [->|Hl]; [done|]. apply (path_frame (segs st)); [|apply (i_path _ _ _ _ _ Hinv); apply elem_of_app; by right].
      intros o Ho. assert (Hin : o.1 ∈ ids (concat rest)). { apply ids_concat. exists l. split; [done|]. unfold ids. change (map fst l) with (fst <$> l). by apply elem_of_list_fmap_1. }
      assert (is_Some (segs st !! o.1)) as [s E]. { apply (i_dom _ _ _ _ _ Hinv). rewrite concat_app, ids_app. apply elem_of_app. by right. }
      destruct (e_old _ _ _ _ Hev _ s E) as (s' & E' & [->|(f & v & Ht & _)]); [congruence|]. exfalso. pose proof (i_nodup _ _ _ _ _ Hinv) as Hnd.
      rewrite concat_app, ids_app in Hnd. apply NoDup_app in Hnd as (_ & Hd & _). by apply (Hd o.1 (Htouched _ _ Ht)).
    - rewrite Hids. apply NoDup_app. split; [done|]. split; [|apply (i_nodup _ _ _ _ _ Hinv)]. intros i Hi Hi2. apply (i_dom _ _ _ _ _ Hinv) in Hi2. rewrite Hfr in Hi2 by done. by destruct Hi2.
    - intros i. rewrite Hids, elem_of_app, (i_dom _ _ _ _ _ Hinv), Hcomm. done.
    - intros i Hi. apply Hcomm in Hi as [Hi|Hi]; [by apply Hf2|]. pose proof (i_fresh _ _ _ _ _ Hinv i Hi). lia.
    - intros i. rewrite <- (i_keys _ _ _ _ _ Hinv i). rewrite !find_group_elem, Hkeys. done.
    - rewrite Hkeys. apply (i_keys2 _ _ _ _ _ Hinv).
    - done.
    - intros l Hl. apply elem_of_cons in Hl as [->|Hl]; [|apply (i_chain_line _ _ _ _ _ Hinv); apply elem_of_app; by right].
      destruct olds as [|o olds]; [done|]. destruct (i_chain_line _ _ _ _ _ Hinv o ltac:(left)) as (i & Hi & Hl). exists i. split; [|done]. rewrite HidsL. apply elem_of_app. right. apply ids_concat. exists o. split; [left|done].
    - intros i s0 E0. destruct (i_line _ _ _ _ _ Hinv i s0 E0) as (s & E & H1 & H2 & H3). destruct (e_old _ _ _ _ Hev i s E) as (s' & E' & [->|(f & v & _ & Hch & T1 & T2 & _ & T3)]); [by exists s|].
      exists s'. split; [done|]. split; [congruence|]. split; [congruence|]. intros Hq. destruct (H3 Hq), (T3 Hq). split; congruence.
    - intros i s E'. destruct (segs st !! i) as [s1|] eqn:E.
      + destruct (e_old _ _ _ _ Hev i s1 E) as (s' & E2 & [->|(f & v & _ & Hch & T1 & T2 & T4 & T3)]).
        * replace s with s1 by congruence. by apply (i_honest _ _ _ _ _ Hinv i).
        * replace s with s' by congruence. exact T4.
      + assert (Hi : i ∈ news) by (apply (e_new _ _ _ _ Hev i E); by rewrite E'). by apply (e_news _ _ _ _ Hev i s Hi E').
    - intros i s E' Hl. destruct (segs st !! i) as [s1|] eqn:E.
      + destruct (i_other _ _ _ _ _ Hinv i s1 E Hl) as (p & v & Hpv). exists p, v. intros Hq. destruct (Hpv Hq) as [P1 P2].
        destruct (e_old _ _ _ _ Hev i s1 E) as (s' & E2 & [->|(f & w & _ & Hch & T1 & T2 & T4 & T3)]); [replace s with s1 by congruence; done|].
        replace s with s' by congruence. destruct (T3 Hq) as [-> ->]. done.
      + assert (Hi : i ∈ news) by (apply (e_new _ _ _ _ Hev i E); by rewrite E'). destruct (e_news _ _ _ _ Hev i s Hi E') as (_ & _ & p & v & Hpv). by exists p, v.
    - intros p v c Ht. destruct (i_todo _ _ _ _ _ Hinv p v c Ht) as (Hc & s & E & Hfree). split; [done|].
      destruct (e_old _ _ _ _ Hev c s E) as (s' & E2 & [->|(f & w & Hin & Hch & T)]); [by exists s|]. exists s'. split; [done|]. rewrite (changed_keep f s s' w); [done|done|].
      intros Heq. apply (Htodo _ Ht). cbn. rewrite Heq. done.
    - apply (i_slots _ _ _ _ _ Hinv).
    - done.
  Qed.

  Lemma seg_ends st cp cv todo chains i s : inv st cp cv todo chains -> segs st !! i = Some s -> start s <> end_ s.
  Proof.
    intros Hinv E. assert (Hi : i ∈ ids (concat chains)) by (apply (i_dom _ _ _ _ _ Hinv); by rewrite E). apply ids_concat in Hi as (l & Hl & Hi).
    unfold ids in Hi. change (map fst l) with (fst <$> l) in Hi. apply elem_of_list_fmap in Hi as (o & -> & Ho).
    destruct (path_view _ _ _ _ (i_path _ _ _ _ _ Hinv l Hl) o Ho) as (t & Et & Hn). unfold view in Et. rewrite E in Et. cbn in Et. injection Et as <-. destruct o.2; cbn in Hn; congruence.
  Qed.
  Lemma tweak_link f (s : seg) v : honest s -> start s <> end_ s -> tweak f s (set_link f v s) v.
  Proof. intros (H1 & H2 & H3) Hn. destruct f; (split; [by repeat split|]); (split; [done|]); (split; [done|]); (split; [by split|done]). Qed.
  Lemma tweak_move f s bend (e : pt) v : ~ quiet resolve -> answer resolve bend e -> honest s -> e <> end_at (negb f) s -> tweak f s (set_link f v (move_end f bend e s)) v.
  Proof.
    intros Hq Han (H1 & H2 & H3 & H4) Hn. destruct f; cbn in *; (split; [split; [done|split; [done|split; [done|]]]; cbn; congruence|]); (split; [done|]); (split; [done|]); (split; [|done]);
    (split; [done|]); (split; [done|]); (split; cbn; first [done | intros b [= <-]; done]).
  Qed.
  Lemma tweak_spoil (f : bool) (s : seg) (e : pt) v : honest s -> start s <> end_ s -> e = (if f then altered_start s else altered_end s) -> tweak f s (set_link f v (spoil_end f e s)) v.
  Proof.
    intros (H1 & H2 & H3) Hn ->. destruct f; cbn in *; (split; [by repeat split|]); (split; [done|]); (split; [done|]); (split; [|done]);
    (split; [done|]); (split; [done|]); cbn; destruct H3; by split.
  Qed.

  Lemma evolves_join (h : gmap nat seg) p c sp sc sp' sc' f g vp vc : h !! p = Some sp -> h !! c = Some sc -> p <> c -> tweak f sp sp' vp -> tweak g sc sc' vc ->
    evolves h (<[c := sc']> (<[p := sp']> h)) [] [(p, f); (c, g)].
  Proof.
    intros Ep Ec Hne Tp Tc. constructor.
    - intros i s E. destruct (decide (i = c)) as [->|Hic]; [|destruct (decide (i = p)) as [->|Hip]].
      + exists sc'. rewrite (lookup_insert (<[p := sp']> h) c sc'). split; [done|]. right. exists g, vc. split; [right; left|]. by replace s with sc by congruence.
      + exists sp'. rewrite (lookup_insert_ne (<[p := sp']> h) c p) by congruence. rewrite (lookup_insert h p sp'). split; [done|]. right. exists f, vp. split; [left|]. by replace s with sp by congruence.
      + exists s. rewrite !lookup_insert_ne by done. split; [done|by left].
    - intros i f' g' H1 H2. rewrite !elem_of_cons, elem_of_nil in H1, H2. destruct H1 as [H1|[H1|[]]], H2 as [H2|[H2|[]]]; congruence.
    - intros i E. rewrite !lookup_insert_ne by congruence. rewrite E. split; [by intros [? ?]|intros H; by apply elem_of_nil in H].
    - intros i s H. by apply elem_of_nil in H.
  Qed.
  Lemma evolves_new (h h2 : gmap nat seg) p n touched sn : evolves h h2 [] touched -> h !! n = None -> h2 !! p <> None -> honest sn ->
    (exists p v, quiet resolve -> place_on p v (start sn) /\ place_on p v (end_ sn)) -> evolves h (<[n := sn]> h2) [n] touched.
  Proof.
    intros [E1 E2 E3 E4] Hn _ Hh Hp. constructor.
    - intros i s E. rewrite lookup_insert_ne by congruence. by apply E1.
    - done.
    - intros i E. destruct (decide (i = n)) as [->|Hne]; [rewrite lookup_insert; split; [intros _; left|done]|]. rewrite lookup_insert_ne by done. rewrite (E3 i E).
      split; [intros H; by apply elem_of_nil in H|intros H; apply elem_of_list_singleton in H; congruence].
    - intros i s Hi E. apply elem_of_list_singleton in Hi as ->. rewrite lookup_insert in E. injection E as <-. done.
  Qed.

  (** the groups of the lines of two chains that are joined *)
  Lemma groups_join st cp cv todo A B rest L gc gp pc c :
    inv st cp cv todo (A :: B :: rest) -> (forall i, is_Some (lines !! i) -> (i ∈ ids L <-> i ∈ ids A \/ i ∈ ids B)) ->
    pc ∈ ids A -> c ∈ ids B -> find_group pc (groups st) = Some gp -> find_group c (groups st) = Some gc ->
    forall i j gi gj, find_group i (unite gc gp (groups st)) = Some gi -> find_group j (unite gc gp (groups st)) = Some gj ->
      (gi = gj <-> exists l, l ∈ L :: rest /\ i ∈ ids l /\ j ∈ ids l).
  Proof.
    intros Hinv HL Hpc Hc Egp Egc i j gi gj Ei Ej. rewrite find_unite in Ei, Ej.
    destruct (find_group i (groups st)) as [hi|] eqn:Fi; [|done]. destruct (find_group j (groups st)) as [hj|] eqn:Fj; [|done]. cbn in Ei, Ej. injection Ei as <-. injection Ej as <-.
    pose proof (i_nodup _ _ _ _ _ Hinv) as Hnd.
    assert (HA : forall x hx, find_group x (groups st) = Some hx -> (hx = gp <-> x ∈ ids A)).
    { intros x hx Fx. rewrite (i_groups _ _ _ _ _ Hinv x pc hx gp Fx Egp). split.
      - intros (l & Hl & Hx & Hp). assert (l = A) as -> by (eapply (chain_unique (A :: B :: rest)); [exact Hnd|exact Hl|left|exact Hp|exact Hpc]). done.
      - intros Hx. exists A. split; [left|done]. }
    assert (HB : forall x hx, find_group x (groups st) = Some hx -> (hx = gc <-> x ∈ ids B)).
    { intros x hx Fx. rewrite (i_groups _ _ _ _ _ Hinv x c hx gc Fx Egc). split.
      - intros (l & Hl & Hx & Hp). assert (l = B) as -> by (eapply (chain_unique (A :: B :: rest)); [exact Hnd|exact Hl|right; left|exact Hp|exact Hc]). done.
      - intros Hx. exists B. split; [right; left|done]. }
    assert (Hlx : forall x hx, find_group x (groups st) = Some hx -> (x ∈ ids L <-> hx = gp \/ hx = gc)).
    { intros x hx Fx. rewrite (HA x hx Fx), (HB x hx Fx). apply HL. apply (i_keys _ _ _ _ _ Hinv). by rewrite Fx. }
    assert (Hrest : forall x hx l, find_group x (groups st) = Some hx -> l ∈ rest -> x ∈ ids l -> x ∈ ids L -> False).
    { intros x hx l Fx Hl Hx HxL. apply (Hlx x hx Fx) in HxL. rewrite (HA x hx Fx), (HB x hx Fx) in HxL. rewrite !ids_cons_concat in Hnd.
      assert (Hin : x ∈ ids (concat rest)) by (apply ids_concat; by exists l).
      apply NoDup_app in Hnd as (_ & HdA & Hnd). apply NoDup_app in Hnd as (_ & HdB & _). destruct HxL as [Hx1|Hx1]; [apply (HdA x Hx1); apply elem_of_app; by right|by apply (HdB x Hx1)]. }
    pose proof (Hlx i hi Fi) as Li. pose proof (Hlx j hj Fj) as Lj. pose proof (i_groups _ _ _ _ _ Hinv i j hi hj Fi Fj) as Gij.
    destruct (decide (i ∈ ids L)) as [Hi|Hi], (decide (j ∈ ids L)) as [Hj|Hj].
    - split; [intros _; exists L; split; [left|done]|]. intros _. apply Li in Hi. apply Lj in Hj. destruct (decide (hi = gc)), (decide (hj = gc)); destruct Hi, Hj; congruence.
    - split.
      + intros Heq. exfalso. apply Hj. apply Lj. apply Li in Hi. destruct (decide (hi = gc)), (decide (hj = gc)); destruct Hi; subst; auto.
      + intros (l & Hl & H1 & H2). exfalso. apply elem_of_cons in Hl as [->|Hl]; [done|]. by apply (Hrest i hi l).
    - split.
      + intros Heq. exfalso. apply Hi. apply Li. apply Lj in Hj. destruct (decide (hi = gc)), (decide (hj = gc)); destruct Hj; subst; auto.
      + intros (l & Hl & H1 & H2). exfalso. apply elem_of_cons in Hl as [->|Hl]; [done|]. by apply (Hrest j hj l).
    - assert (hi <> gc) by (intros ->; apply Hi, Li; by right). assert (hj <> gc) by (intros ->; apply Hj, Lj; by right). rewrite !decide_False by done. rewrite Gij. split.
      + intros (l & Hl & H1 & H2). exists l. split; [|done]. rewrite !elem_of_cons in Hl. destruct Hl as [->|[->|Hl]]; [| |by right].
        * exfalso. apply Hi, Li. left. by apply (HA i hi Fi).
        * exfalso. apply Hi, Li. right. by apply (HB i hi Fi).
      + intros (l & Hl & H1 & H2). exists l. split; [|done]. apply elem_of_cons in Hl as [->|Hl]; [done|]. by right; right.
  Qed.

  Lemma at_start_link p v f w s : at_start p v (set_link f w s) = at_start p v s.
  Proof. by destruct f. Qed.
  Lemma end_at_link f g w s : end_at g (set_link f w s) = end_at g s.
  Proof. by destruct f. Qed.

  Lemma step_inv st p v c todo chains : inv st p v ((p, v, c) :: todo) chains -> exists st' chains', step resolve p v st c = Ok st' /\ inv st' p v todo chains'.
  Proof.
    intros Hinv. unfold step. destruct (i_todo _ _ _ _ _ Hinv p v c ltac:(left)) as (Hc & sc & Ec & Hfree). pose proof (lines_on_line p v c Hc) as Hcl.
    assert (Hinv2 : inv st p v todo chains) by (apply (inv_todo _ _ _ _ _ _ Hinv); exists [(p, v, c)]; done).
    pose proof (line_side _ _ _ _ _ p v c sc Hinv Hcl Ec) as Hside. pose proof (i_slots _ _ _ _ _ Hinv) as Hslots. cbn [map] in Hslots. apply NoDup_cons in Hslots as [Hslot _]. cbn [fst snd] in Hslot.
    assert (Hcslot : forall t, t ∈ todo -> slot t <> (c, at_start p v sc)).
    { intros t Ht Heq. apply Hslot. rewrite Hside, <- Heq. change (map slot todo) with (slot <$> todo). apply elem_of_list_fmap. by exists t. }
    destruct (drawing st) as [[pc ps]|] eqn:Ed.
    2:{ exists (State (segs st) (fresh_id st) (groups st) (Some (c, c))), chains. split; [done|]. destruct Hinv2. constructor; try done. cbn [drawing segs]. intros ? ? [= <- <-]. split; [done|]. split.
        - assert (Hi : c ∈ ids (concat chains)) by (apply i_dom0; by rewrite Ec). apply ids_concat in Hi as (l & Hl & Hi). by exists l.
        - exists sc. split; [done|]. split; [by rewrite <- Hside|]. split; [|done]. by apply (line_place _ _ _ _ _ p v c sc Hinv). }
    destruct (i_draw _ _ _ _ _ Hinv pc ps Ed) as (Hpcl & (A & HA & HpcA & HpsA) & sp & Ep & Hpfree & Hpplace & Hpslot).
    destruct (proj2 (i_keys _ _ _ _ _ Hinv c) Hcl) as [gc Egc]. destruct (proj2 (i_keys _ _ _ _ _ Hinv pc) Hpcl) as [gp Egp].
    rewrite Egc, Egp. cbn [of_opt rbind]. destruct (decide (gc = gp)) as [_|Hg]; [by exists st, chains|].
    assert (Hi : c ∈ ids (concat chains)) by (apply (i_dom _ _ _ _ _ Hinv); by rewrite Ec). apply ids_concat in Hi as (B & HB & HcB).
    assert (HAB : B <> A). { intros ->. apply Hg. apply (i_groups _ _ _ _ _ Hinv c pc gc gp Egc Egp). by exists A. }
    apply elem_of_Permutation in HA as [rest0 Hperm]. rewrite Hperm in HB. apply elem_of_cons in HB as [?|HB]; [congruence|]. apply elem_of_Permutation in HB as [rest Hperm2].
    assert (Hp : chains ≡ₚ A :: B :: rest) by (by rewrite Hperm, Hperm2). pose proof (inv_perm _ _ _ _ _ _ Hinv2 Hp) as Hinv3. clear Hperm Hperm2 rest0.
    assert (PA : path (segs st) None A None) by (apply (i_path _ _ _ _ _ Hinv3); left). assert (PB : path (segs st) None B None) by (apply (i_path _ _ _ _ _ Hinv3); right; left).
    pose proof (i_nodup _ _ _ _ _ Hinv3) as Hnd. rewrite !ids_cons_concat in Hnd. apply NoDup_app in Hnd as (NA & DA & Hnd). apply NoDup_app in Hnd as (NB & _ & _).
    assert (DAB : forall i, i ∈ ids A -> i ∈ ids B -> False) by (intros i H1 H2; apply (DA i H1); apply elem_of_app; by left).
    assert (Hne : ps <> c) by (intros ->; by apply (DAB c)).
    pose proof (i_honest _ _ _ _ _ Hinv ps sp Ep) as Hhp. pose proof (i_honest _ _ _ _ _ Hinv c sc Ec) as Hhc. fold (honest sp) in Hhp. fold (honest sc) in Hhc.
    pose proof (seg_ends _ _ _ _ _ ps sp Hinv Ep) as Hep. pose proof (seg_ends _ _ _ _ _ c sc Hinv Ec) as Hec.
    assert (Hnf : segs st !! fresh_id st = None). { destruct (segs st !! fresh_id st) eqn:E; [|done]. pose proof (i_fresh _ _ _ _ _ Hinv (fresh_id st) ltac:(by rewrite E)). lia. }
    unfold join. rewrite Ep, Ec. cbn [of_opt rbind]. rewrite Hside in Hfree. set (f := at_start p v sp) in *. set (g := at_start p v sc) in *.
    (* what is common to both ways of joining *)
    assert (Hfinish : forall h' fresh' news L, evolves (segs st) h' news [(ps, f); (c, g)] -> path h' None L None -> ids L ≡ₚ news ++ ids A ++ ids B -> NoDup news ->
      (forall i, i ∈ news -> segs st !! i = None) -> (fresh_id st <= fresh')%nat -> (forall i, i ∈ news -> (i < fresh')%nat) ->
      inv (State h' fresh' (unite gc gp (groups st)) None) p v todo (L :: rest)).
    { intros h' fresh' news L Hev HL HidL Hn1 Hn2 Hf1 Hf2. apply (inv_evolve st h' fresh' _ None p v p v todo [A; B] rest L news [(ps, f); (c, g)]); try done.
      - cbn. by rewrite app_nil_r, ids_app.
      - intros i f' Hin. cbn. rewrite app_nil_r, ids_app, elem_of_app. rewrite !elem_of_cons, elem_of_nil in Hin. destruct Hin as [[= -> _]|[[= -> _]|[]]]; [by left|by right].
      - intros t Ht Hin. rewrite !elem_of_cons, elem_of_nil in Hin. destruct Hin as [Hin|[Hin|[]]]; [by apply (Hpslot t ltac:(by right))|by apply (Hcslot t Ht)].
      - apply unite_keys.
      - apply (groups_join st p v todo A B rest L gc gp pc c Hinv3); try done. intros i [s0 E0]. rewrite HidL, !elem_of_app. split; [|by right]. intros [Hi|?]; [|done].
        exfalso. destruct (i_line _ _ _ _ _ Hinv i s0 E0) as (s & E & _). rewrite Hn2 in E by done. done. }
    destruct (decide (end_at f sp = end_at g sc)) as [Heq|Hneq].
    - cbn [rbind fst snd]. pose proof (tweak_link f sp (Some c) Hhp Hep) as Tp. pose proof (tweak_link g sc (Some ps) Hhc Hec) as Tc.
      pose proof (evolves_join _ ps c sp sc _ _ f g _ _ Ep Ec Hne Tp Tc) as Hev. set (h' := <[c := _]> _) in *.
      destruct (join_direct (segs st) h' A B ps c f g sp sc (set_link f (Some c) sp) (set_link g (Some ps) sc)) as (L & HL & HidL); try done.
      + unfold h'. by rewrite lookup_insert_ne, lookup_insert.
      + unfold h'. by rewrite lookup_insert.
      + intros j Hj Hjp. unfold h'. rewrite !lookup_insert_ne; [done|done|]. intros ->. by apply (DAB j).
      + intros j Hj Hjp. unfold h'. rewrite !lookup_insert_ne; [done| |done]. intros ->. by apply (DAB j).
      + apply Tp.
      + apply Tc.
      + by rewrite !end_at_link.
      + eexists _, (L :: rest). split; [done|]. apply (Hfinish h' (fresh_id st) []); try done; [apply NoDup_nil_2|intros i H; by apply elem_of_nil in H..].
    - set (n := fresh_id st) in *.
      set (pc' := match resolve sp sc f g with NotTried => (sp, sc) | Resolved _ _ _ _ => _ | Failed _ _ => _ end).
      assert (Hres : tweak f sp (set_link f (Some n) pc'.1) (Some n) /\ tweak g sc (set_link g (Some n) pc'.2) (Some n) /\ end_at f pc'.1 <> end_at g pc'.2 /\
        (quiet resolve -> pc' = (sp, sc))).
      { pose proof (Hsane sp sc f g) as Hs. unfold pc'. destruct (resolve sp sc f g) as [|ba bb ea eb|ea eb] eqn:Er; cbn [fst snd].
        - split; [by apply tweak_link|]. split; [by apply tweak_link|]. done.
        - destruct Hs as (S1 & S2 & S3). assert (Hnq : ~ quiet resolve) by (intros Hq; specialize (Hq sp sc f g); congruence).
          split; [apply tweak_move; [done|by exists sp, sc, f, g, ba, bb, ea, eb; auto|done|]; by destruct f|]. split; [apply tweak_move; [done|by exists sp, sc, f, g, ba, bb, ea, eb; auto|done|]; by destruct g|]. split; [by destruct f, g|]. intros Hq. done.
        - destruct Hs as (S1 & S2). assert (Hnq : ~ quiet resolve) by (intros Hq; specialize (Hq sp sc f g); congruence).
          split; [by apply tweak_spoil|]. split; [by apply tweak_spoil|]. split; [by destruct f, g|]. intros Hq. done. }
      clearbody pc'. destruct pc' as [sp1 sc1]. cbn [fst snd] in Hres |- *. destruct Hres as (Tp & Tc & Hends & Hquiet). cbn [rbind fst snd].
      pose proof (evolves_join _ ps c sp sc _ _ f g _ _ Ep Ec Hne Tp Tc) as Hev.
      set (sn := set_link false (Some c) (set_link true (Some ps) (new_seg (end_at f sp1) v p (end_at g sc1)))).
      assert (Hcn : n <> c) by congruence. assert (Hpn : n <> ps) by congruence.
      apply (evolves_new _ _ ps n _ sn) in Hev; [|done|by rewrite lookup_insert_ne, lookup_insert|by repeat split|].
      2:{ exists p, v. intros Hq. specialize (Hquiet Hq). injection Hquiet as -> ->. cbn. split; [by apply reach_place, Hpplace|]. by apply reach_place, (line_place _ _ _ _ _ p v c sc Hinv). }
      rewrite (insert_commute _ n c), (insert_commute _ n ps) in Hev by done. set (h' := <[c := _]> _) in *.
      destruct (join_new (segs st) h' A B ps c n f g sp sc (set_link f (Some n) sp1) (set_link g (Some n) sc1) sn) as (L & HL & HidL); try done.
      + unfold h'. by rewrite lookup_insert_ne, lookup_insert.
      + unfold h'. by rewrite lookup_insert.
      + intros j Hj Hjp. assert (n <> j). { intros <-. assert (is_Some (segs st !! n)) as [? ?] by (apply (i_dom _ _ _ _ _ Hinv3); rewrite ids_cons_concat; apply elem_of_app; by left). congruence. }
        unfold h'. rewrite !lookup_insert_ne; [done|done|done|]. intros ->. by apply (DAB j).
      + intros j Hj Hjp. assert (n <> j). { intros <-. assert (is_Some (segs st !! n)) as [? ?] by (apply (i_dom _ _ _ _ _ Hinv3); rewrite !ids_cons_concat, !elem_of_app; by right; left). congruence. }
        unfold h'. rewrite !lookup_insert_ne; [done|done| |done]. intros ->. by apply (DAB j).
      + apply Tp.
      + apply Tc.
      + unfold h'. by rewrite lookup_insert_ne, lookup_insert_ne, lookup_insert.
      + by rewrite end_at_link.
      + by rewrite end_at_link.
      + eexists _, (L :: rest). split; [done|]. apply (Hfinish h' (S n) [n]); try done; [apply NoDup_singleton|intros i H; by apply elem_of_list_singleton in H as ->|lia|].
        intros i H. apply elem_of_list_singleton in H as ->. lia.
  Qed.

  Definition same (st : state) (x y : nat) : Prop := exists g, find_group x (groups st) = Some g /\ find_group y (groups st) = Some g.
  Definition paired (st : state) (x : nat) : Prop := exists y, y <> x /\ same st x y.
  (** the lines in the list are connected to others, but for the one at which drawing is in progress *)
  Definition loose (st : state) (V : list nat) : Prop := forall x, x ∈ V -> paired st x \/ exists ps, drawing st = Some (x, ps).
  Definition grows (st st' : state) : Prop := forall x y, same st x y -> same st' x y.
  Lemma grows_same st h' n' d' : grows st (State h' n' (groups st) d').
  Proof. intros x y H. exact H. Qed.
  Lemma grows_id st : grows st st.
  Proof. intros x y H. exact H. Qed.
  Hint Resolve grows_same grows_id : core.
  Lemma grows_paired st st' x : grows st st' -> paired st x -> paired st' x.
  Proof. intros Hg (y & Hy & Hs). exists y. split; [done|]. by apply Hg. Qed.
  Lemma step_pairs p v st c st' : is_Some (find_group c (groups st)) -> step resolve p v st c = Ok st' -> grows st st' /\ forall V, loose st V -> loose st' (c :: V).
  Proof.
    intros [gc Egc] E. unfold step in E. destruct (drawing st) as [[pc ps]|] eqn:Ed.
    - rewrite Egc in E. cbn [of_opt rbind] in E. destruct (find_group pc (groups st)) as [gp|] eqn:Egp; [|done]. cbn [of_opt rbind] in E. destruct (decide (gc = gp)) as [->|Hg].
      + injection E as <-. split; [done|]. intros V HV x Hx. apply elem_of_cons in Hx as [->|Hx]; [|by apply HV]. destruct (decide (pc = c)) as [->|Hne]; [right; by exists ps|]. left. exists pc. split; [done|]. by exists gp.
      + destruct (join resolve p v ps c (segs st) (fresh_id st)) as [r| |]; [|done|done]. cbn [rbind] in E. injection E as <-.
        assert (Hgrow : grows st (State r.1 r.2 (unite gc gp (groups st)) None)).
        { intros x y (g & Ex & Ey). unfold same. cbn [groups]. rewrite !find_unite, Ex, Ey. cbn. by eexists. }
        assert (Hs : same (State r.1 r.2 (unite gc gp (groups st)) None) c pc).
        { exists gp. cbn [groups]. rewrite !find_unite, Egc, Egp. cbn. rewrite decide_True by done. split; [done|]. by destruct (decide (gp = gc)). }
        assert (Hne : pc <> c) by congruence. split; [done|]. intros V HV x Hx. left. apply elem_of_cons in Hx as [->|Hx]; [by exists pc|].
        destruct (HV x Hx) as [Hp|[ps' Hd]]; [by apply (grows_paired st)|]. assert (x = pc) as -> by congruence. exists c. split; [done|]. destruct Hs as (g & H1 & H2). by exists g.
    - injection E as <-. split; [done|]. intros V HV x Hx. apply elem_of_cons in Hx as [->|Hx]; [right; by exists c|]. destruct (HV x Hx) as [Hp|[ps' Hd]]; [left; exact Hp|congruence].
  Qed.

  Lemma steps_inv p v cs st todo chains : inv st p v (map (fun c => (p, v, c)) cs ++ todo) chains ->
    exists st' chains', steps resolve p v st cs = Ok st' /\ inv st' p v todo chains' /\ grows st st' /\ forall V, loose st V -> loose st' (cs ++ V).
  Proof.
    revert st chains. induction cs as [|c cs IH]; intros st chains Hinv; cbn in *; [exists st, chains; done|].
    destruct (step_inv _ _ _ _ _ _ Hinv) as (st1 & ch1 & E1 & Hinv1). rewrite E1. cbn. destruct (IH st1 ch1 Hinv1) as (st2 & ch2 & E2 & Hinv2 & G2 & L2).
    assert (Hgc : is_Some (find_group c (groups st))). { apply (i_keys _ _ _ _ _ Hinv). destruct (i_todo _ _ _ _ _ Hinv p v c ltac:(left)) as (Hc & _). by apply (lines_on_line p v). }
    destruct (step_pairs p v st c st1 Hgc E1) as [G1 L1].
    exists st2, ch2. split; [done|]. split; [done|]. split; [intros x y H; by apply G2, G1|]. intros V HV x Hx. apply (L2 (c :: V) (L1 V HV)). rewrite elem_of_app, elem_of_cons. apply elem_of_cons in Hx as [->|Hx]; [by right; left|].
    apply elem_of_app in Hx as [?|?]; [by left|by right; right].
  Qed.

  Lemma corner_inv p v after polygon st todo chains : outline !! p = Some polygon -> polygon !! v = Some after -> inv st p v todo chains ->
    exists st' chains', corner p v after st = Ok st' /\ inv st' p (S v) todo chains' /\ grows st st' /\ (quiet resolve -> corners_apart outline lines crossings -> forall V, loose st V -> loose st' V).
  Proof.
    intros Epol Eafter Hinv. unfold corner. destruct (drawing st) as [[pc ps]|] eqn:Ed.
    2:{ exists st, chains. split; [done|]. split; [|done]. pose proof (inv_idle _ _ _ p (S v) _ _ Hinv) as H. destruct st as [h n g d]. cbn in *. by rewrite Ed. }
    destruct (i_draw _ _ _ _ _ Hinv pc ps Ed) as (Hpcl & (A & HA & HpcA & HpsA) & sp & Ep & Hpfree & Hpplace & Hpslot). rewrite Ep. cbn [of_opt rbind].
    destruct (decide (end_at (at_start p v sp) sp = after)) as [Hend|Hneq].
    { eexists _, chains. split; [done|]. split; [by apply (inv_idle _ p v)|]. split; [done|]. intros Hq Hapart. exfalso. destruct (Hpplace Hq) as (polygon' & E' & H). assert (polygon' = polygon) by congruence. subst polygon'.
      rewrite Hend in H. destruct (Hapart p polygon v after Epol Eafter) as [_ Ha]. destruct H as [[Hv H]|(i & s & H1 & H2 & H3)]; [|by apply (Ha i s H1 H2)].
      destruct (Hapart p polygon (v - 1)%nat after Epol H) as [Ha2 _]. apply Ha2. by replace (S (v - 1)) with v by lia. }
    apply elem_of_Permutation in HA as [rest Hperm]. pose proof (inv_perm _ _ _ _ _ _ Hinv Hperm) as Hinv3. clear Hinv Hperm chains.
    assert (PA : path (segs st) None A None) by (apply (i_path _ _ _ _ _ Hinv3); left).
    pose proof (i_nodup _ _ _ _ _ Hinv3) as Hnd. rewrite !ids_cons_concat in Hnd. apply NoDup_app in Hnd as (NA & DA & Hnd).
    pose proof (i_honest _ _ _ _ _ Hinv3 ps sp Ep) as Hhp. fold (honest sp) in Hhp. pose proof (seg_ends _ _ _ _ _ ps sp Hinv3 Ep) as Hep.
    assert (Hnf : segs st !! fresh_id st = None). { destruct (segs st !! fresh_id st) eqn:E; [|done]. pose proof (i_fresh _ _ _ _ _ Hinv3 (fresh_id st) ltac:(by rewrite E)). lia. }
    set (f := at_start p v sp) in *. set (n := fresh_id st) in *. set (sn := set_link true (Some ps) _). set (h' := <[ps := _]> _).
    pose proof (tweak_link f sp (Some n) Hhp Hep) as Tp. assert (Hpn : n <> ps) by congruence.
    assert (HnA : forall j, j ∈ ids A -> n <> j). { intros j Hj <-. assert (is_Some (segs st !! n)) as [? ?] by (apply (i_dom _ _ _ _ _ Hinv3); rewrite ids_cons_concat; apply elem_of_app; by left). congruence. }
    destruct (extend_new (segs st) h' A ps n f sp (set_link f (Some n) sp) sn) as (L & HL & HidL); try done.
    - unfold h'. by rewrite lookup_insert.
    - intros j Hj Hjp. unfold h'. rewrite !lookup_insert_ne; [done|by apply HnA|done].
    - apply Tp.
    - unfold h'. by rewrite lookup_insert_ne, lookup_insert.
    - by rewrite end_at_link.
    - eexists _, (L :: rest). split; [done|]. split.
      2:{ split; [done|]. intros _ _ V HV x Hx. destruct (HV x Hx) as [Hp|[ps' Hd]]; [by left|]. right. exists n. cbn. congruence. }
      apply (inv_evolve st h' (S n) _ _ p v p (S v) todo [A] rest L [n] [(ps, f)]); try done.
      + constructor.
        * intros i s E. destruct (decide (i = ps)) as [->|Hne].
          -- exists (set_link f (Some n) sp). unfold h'. rewrite lookup_insert. split; [done|]. right. exists f, (Some n). split; [left|]. by replace s with sp by congruence.
          -- exists s. unfold h'. rewrite !lookup_insert_ne by congruence. split; [done|by left].
        * intros i f' g' H1 H2. apply elem_of_list_singleton in H1, H2. congruence.
        * intros i E. unfold h'. rewrite lookup_insert_ne by congruence. rewrite elem_of_list_singleton. destruct (decide (i = n)) as [->|Hne]; [by rewrite lookup_insert|].
          rewrite lookup_insert_ne by done. rewrite E. split; [by intros [? ?]|done].
        * intros i s Hi E. apply elem_of_list_singleton in Hi as ->. unfold h' in E. rewrite lookup_insert_ne, lookup_insert in E by done. injection E as <-.
          split; [done|]. split; [by repeat split|]. exists p, v. intros Hq. cbn. split; [by apply reach_place, Hpplace|]. exists polygon. split; [done|]. by left.
      + cbn. by rewrite app_nil_r.
      + apply NoDup_singleton.
      + intros i Hi. by apply elem_of_list_singleton in Hi as ->.
      + intros i f' Hi. apply elem_of_list_singleton in Hi. injection Hi as -> _. cbn. by rewrite app_nil_r.
      + lia.
      + intros i Hi. apply elem_of_list_singleton in Hi as ->. lia.
      + intros t Ht Hin. apply elem_of_list_singleton in Hin. by apply (Hpslot t Ht).
      + intros i j gi gj Ei Ej. rewrite (i_groups _ _ _ _ _ Hinv3 i j gi gj Ei Ej).
        assert (Hl : forall x gx, find_group x (groups st) = Some gx -> (x ∈ ids L <-> x ∈ ids A)).
        { intros x gx Ex. rewrite HidL, elem_of_cons. split; [intros [->|?]; [|done]|by right]. exfalso. assert (is_Some (lines !! n)) as [s0 E0] by (apply (i_keys _ _ _ _ _ Hinv3); by rewrite Ex).
          destruct (i_line _ _ _ _ _ Hinv3 n s0 E0) as (s & E & _). congruence. }
        pose proof (Hl i gi Ei) as Li. pose proof (Hl j gj Ej) as Lj. split.
        * intros (l & Hl1 & H1 & H2). apply elem_of_cons in Hl1 as [->|Hl1]; [exists L; split; [left|]; by rewrite Li, Lj|]. exists l. split; [by right|done].
        * intros (l & Hl1 & H1 & H2). apply elem_of_cons in Hl1 as [->|Hl1]; [exists A; split; [left|]; by rewrite <- Li, <- Lj|]. exists l. split; [by right|done].
      + intros ? ? [= <- <-]. split; [done|]. split; [exists L; split; [left|]; rewrite HidL; split; [by right|left]|].
        exists sn. split; [unfold h'; by rewrite lookup_insert_ne, lookup_insert|]. assert (Ha : at_start p (S v) sn = false).
        { destruct (at_start p (S v) sn) eqn:E; [|done]. apply at_start_true in E. cbn in E. injection E. lia. }
        rewrite Ha. split; [done|]. split.
        * intros Hq. exists polygon. split; [done|]. left. cbn. by rewrite Nat.sub_0_r.
        * intros [[p' v'] c'] Ht Heq. cbn in Heq. injection Heq as -> _. destruct (i_todo _ _ _ _ _ Hinv3 p' v' n Ht) as (_ & s & E & _). congruence.
  Qed.

  (** the crossings that are still to be visited *)
  Fixpoint todo_vertices (p v : nat) (cs : list (list nat)) : list (nat * nat * nat) :=
    match cs with [] => [] | c :: cs => map (fun c => (p, v, c)) c ++ todo_vertices p (S v) cs end.
  Fixpoint todo_polygons (p : nat) (crs : list (list (list nat))) : list (nat * nat * nat) :=
    match crs with [] => [] | cs :: crs => todo_vertices p 0 cs ++ todo_polygons (S p) crs end.

  Lemma vertices_inv p polygon done_ suffix v before cs st todo chains : outline !! p = Some polygon -> polygon = done_ ++ suffix -> v = length done_ -> length cs = length suffix ->
    inv st p v (todo_vertices p v cs ++ todo) chains -> exists st' cv' chains', vertices resolve p v before suffix cs st = Ok st' /\ inv st' p cv' todo chains' /\ grows st st' /\
      (quiet resolve -> corners_apart outline lines crossings -> forall V, loose st V -> loose st' (concat cs ++ V)).
  Proof.
    intros Epol. revert done_ v before cs st chains. induction suffix as [|after suffix IH]; intros done_ v before cs st chains Epre -> Hlen Hinv.
    - destruct cs; [|done]. cbn in *. by exists st, (length done_), chains.
    - destruct cs as [|c cs]; [done|]. cbn [vertices head of_opt rbind tail todo_vertices] in *. injection Hlen as Hlen.
      set (key := crossing_key _ _ _ _). rewrite <- app_assoc in Hinv.
      destruct (steps_inv p (length done_) (sort_lines key c) st (todo_vertices p (S (length done_)) cs ++ todo) chains) as (st1 & ch1 & E1 & Hinv1 & G1 & L1).
      { apply (inv_todo _ _ _ _ _ _ Hinv). exists []. cbn. change (map ?f ?l) with (f <$> l). by rewrite (sort_lines_perm key c). }
      rewrite E1. cbn [rbind]. destruct (corner_inv p (length done_) after polygon st1 (todo_vertices p (S (length done_)) cs ++ todo) ch1 Epol) as (st2 & ch2 & E2 & Hinv2 & G2 & L2); [|exact Hinv1|].
      { rewrite Epre. by rewrite list_lookup_middle. }
      rewrite E2. cbn [rbind]. destruct (IH (done_ ++ [after]) (S (length done_)) after cs st2 ch2) as (st3 & cv3 & ch3 & E3 & Hinv3 & G3 & L3); [by rewrite <- app_assoc|rewrite app_length; cbn; lia|done|done|].
      exists st3, cv3, ch3. split; [done|]. split; [done|]. split; [intros x y H; by apply G3, G2, G1|]. intros Hq Ha V HV x Hx. cbn [concat] in Hx.
      apply (L3 Hq Ha (sort_lines key c ++ V)); [by apply (L2 Hq Ha), L1|]. rewrite !elem_of_app in *. rewrite (sort_lines_perm key c). destruct Hx as [[Hx|Hx]|Hx]; auto.
  Qed.

  (** of two lines that end on the polygon, one is connected to another line *)
  Definition lone (st : state) (p : nat) : Prop := forall i j v w, i <> j -> i ∈ lines_on p v -> j ∈ lines_on p w -> paired st i \/ paired st j.
  Lemma polygons_inv p rest_outline crs st cp cv chains : rest_outline = drop p outline -> crs = drop p crossings ->
    inv st cp cv (todo_polygons p crs) chains -> exists st' cp' cv' chains', polygons resolve p rest_outline crs st = Ok st' /\ inv st' cp' cv' [] chains' /\ grows st st' /\
      (quiet resolve -> corners_apart outline lines crossings -> forall p', (p <= p')%nat -> lone st' p').
  Proof.
    revert p crs st cp cv chains. induction rest_outline as [|polygon rest_outline IH]; intros p crs st cp cv chains Eo Ec Hinv.
    - exists st, cp, cv, chains. split; [done|]. split; [apply (inv_todo _ _ _ _ _ _ Hinv); exists (todo_polygons p crs); by rewrite app_nil_r|]. split; [done|].
      intros _ _ p' Hp' i j v w _ Hi _. exfalso. destruct (lines_on_polygon p' v i Hi) as [polygon Epol]. apply lookup_lt_Some in Epol. symmetry in Eo. apply (f_equal length) in Eo. rewrite drop_length in Eo. cbn in Eo. lia.
    - cbn [polygons].
      assert (Epol : outline !! p = Some polygon). { replace p with (p + 0)%nat by lia. rewrite <- lookup_drop, <- Eo. done. }
      destruct Hvalid as (V1 & _). destruct (V1 p polygon Epol) as (cs & Ecs & Hlen).
      assert (Ecrs : crs = cs :: drop (S p) crossings). { rewrite Ec. by apply drop_S. } rewrite Ecrs in *. cbn [head tail of_opt rbind todo_polygons] in *.
      assert (Eo2 : rest_outline = drop (S p) outline). { apply (drop_S _ _ p) in Epol. rewrite Epol in Eo. by injection Eo. }
      apply (inv_idle _ _ _ p 0%nat) in Hinv. set (st0 := State _ _ _ None) in *.
      assert (exists st' cv' chains', match last polygon with None => Ok st0 | Some vertex_before => vertices resolve p 0 vertex_before polygon cs st0 end = Ok st' /\
        inv st' p cv' (todo_polygons (S p) (drop (S p) crossings)) chains' /\ grows st0 st' /\
        (quiet resolve -> corners_apart outline lines crossings -> loose st' (concat cs))) as (st1 & cv1 & ch1 & E1 & Hinv1 & G1 & L1).
      { destruct (last polygon) as [before|] eqn:El.
        - destruct (vertices_inv p polygon [] polygon 0%nat before cs st0 (todo_polygons (S p) (drop (S p) crossings)) chains) as (st1 & cv1 & ch1 & H1 & H2 & H3 & H4); [done..|]. exists st1, cv1, ch1. split; [done|]. split; [done|]. split; [done|].
          intros Hq Ha. specialize (H4 Hq Ha []). rewrite app_nil_r in H4. apply H4. intros x Hx. by apply elem_of_nil in Hx.
        - apply last_None in El as ->. destruct cs; [|done]. cbn in Hinv. exists st0, 0%nat, chains. split; [done|]. split; [done|]. split; [done|]. intros _ _ x Hx. by apply elem_of_nil in Hx. }
      rewrite E1. cbn [rbind]. destruct (IH (S p) _ st1 p cv1 ch1 Eo2 eq_refl Hinv1) as (st2 & cp2 & cv2 & ch2 & E2 & Hinv2 & G2 & L2). exists st2, cp2, cv2, ch2. split; [done|]. split; [done|].
      split; [intros x y H; apply G2, G1; exact H|]. intros Hq Ha p' Hp'. destruct (decide (p' = p)) as [->|Hne]; [|apply (L2 Hq Ha); lia].
      intros i j v w Hij Hi Hj. specialize (L1 Hq Ha).
      assert (Hon : forall k u, k ∈ lines_on p u -> k ∈ concat cs).
      { intros k u Hk. unfold Connect_Spec.lines_on in Hk. rewrite Ecs in Hk. cbn in Hk. destruct (cs !! u) as [row|] eqn:E; cbn in Hk; [|by apply elem_of_nil in Hk]. apply elem_of_concat. exists row. split; [by eapply elem_of_list_lookup_2|done]. }
      destruct (L1 i (Hon i v Hi)) as [H|[ps1 D1]]; [left; by apply (grows_paired st1)|]. destruct (L1 j (Hon j w Hj)) as [H|[ps2 D2]]; [right; by apply (grows_paired st1)|]. congruence.
  Qed.

  Lemma todo_vertices_elem p v cs p' v' c : (p', v', c) ∈ todo_vertices p v cs <-> p' = p /\ exists k row, cs !! k = Some row /\ v' = (v + k)%nat /\ c ∈ row.
  Proof.
    revert v. induction cs as [|row cs IH]; intros v; cbn.
    - rewrite elem_of_nil. split; [done|intros (_ & k & row & H & _); by rewrite lookup_nil in H].
    - rewrite elem_of_app, IH. change (map ?f ?l) with (f <$> l). rewrite elem_of_list_fmap. split.
      + intros [(x & [= -> -> ->] & Hx)|(-> & k & row' & H1 & -> & H2)]; (split; [done|]); [exists 0%nat, row; split; [done|]; split; [lia|done]|exists (S k), row'; split; [done|]; split; [lia|done]].
      + intros (-> & [|k] & row' & H1 & -> & H2); cbn in H1; [injection H1 as ->; left; exists c; split; [f_equal; f_equal; lia|done]|right; split; [done|]; exists k, row'; split; [done|]; split; [lia|done]].
  Qed.
  Lemma todo_polygons_elem p crs p' v' c : (p', v', c) ∈ todo_polygons p crs <-> exists k cs row, crs !! k = Some cs /\ p' = (p + k)%nat /\ cs !! v' = Some row /\ c ∈ row.
  Proof.
    revert p. induction crs as [|cs crs IH]; intros p; cbn.
    - rewrite elem_of_nil. split; [done|intros (k & cs & row & H & _); by rewrite lookup_nil in H].
    - rewrite elem_of_app, IH, todo_vertices_elem. split.
      + intros [(-> & k & row & H1 & -> & H2)|(k & cs' & row & H1 & -> & H2 & H3)]; [exists 0%nat, cs, row|exists (S k), cs', row]; (split; [done|]); (split; [lia|done]).
      + intros ([|k] & cs' & row & H1 & -> & H2 & H3); cbn in H1; [injection H1 as ->; left; split; [lia|]; exists v', row; done|right; exists k, cs', row; split; [done|]; split; [lia|done]].
  Qed.
  Lemma todo_vertices_nodup p v cs : (forall row, row ∈ cs -> NoDup row) -> NoDup (todo_vertices p v cs).
  Proof.
    revert v. induction cs as [|row cs IH]; intros v Hrow; cbn; [apply NoDup_nil_2|]. apply NoDup_app. split; [|split].
    - change (map ?f ?l) with (f <$> l). apply NoDup_fmap_2; [intros x y [= ->]; done|]. apply Hrow. left.
    - intros [[p' v'] c] H1 H2. change (map ?f ?l) with (f <$> l) in H1. apply elem_of_list_fmap in H1 as (x & [= -> -> ->] & Hx). apply todo_vertices_elem in H2 as (_ & k & row' & _ & Hk & _). lia.
    - apply IH. intros row' H. apply Hrow. by right.
  Qed.
  Lemma todo_polygons_nodup p crs : (forall cs row, cs ∈ crs -> row ∈ cs -> NoDup row) -> NoDup (todo_polygons p crs).
  Proof.
    revert p. induction crs as [|cs crs IH]; intros p Hrow; cbn; [apply NoDup_nil_2|]. apply NoDup_app. split; [|split].
    - apply todo_vertices_nodup. intros row. apply Hrow. left.
    - intros [[p' v'] c] H1 H2. apply todo_vertices_elem in H1 as (-> & _). apply todo_polygons_elem in H2 as (k & ? & ? & _ & Hk & _). lia.
    - apply IH. intros cs' row' H. apply Hrow. by right.
  Qed.
  Lemma todo_lines_on p v c : (p, v, c) ∈ todo_polygons 0 crossings -> c ∈ lines_on p v.
  Proof. intros H. apply todo_polygons_elem in H as (k & cs & row & E1 & -> & E2 & Hc). unfold Connect_Spec.lines_on. cbn. rewrite E1. cbn. rewrite E2. done. Qed.

  Lemma line_listed i : is_Some (lines !! i) <-> i ∈ concat (concat crossings).
  Proof.
    split.
    - intros [s E]. destruct Hvalid as (_ & _ & _ & _ & V). destruct (V i s E) as (_ & _ & _ & p & v & _ & Hon). pose proof (proj2 (Hon (start_polygon s) (start_segment s)) (or_introl eq_refl)) as Hi.
      unfold Connect_Spec.lines_on in Hi. destruct (crossings !! start_polygon s) as [cs|] eqn:E1; cbn in Hi; [|by apply elem_of_nil in Hi]. destruct (cs !! start_segment s) as [row|] eqn:E2; cbn in Hi; [|by apply elem_of_nil in Hi].
      apply elem_of_concat. exists row. split; [|done]. apply elem_of_concat. exists cs. split; by eapply elem_of_list_lookup_2.
    - intros Hi. apply elem_of_concat in Hi as (row & Hr & Hi). apply elem_of_concat in Hr as (cs & Hc & Hr). apply elem_of_list_lookup in Hc as [p Hp]. apply elem_of_list_lookup in Hr as [v Hv].
      apply (lines_on_line p v). unfold Connect_Spec.lines_on. rewrite Hp. cbn. by rewrite Hv.
  Qed.

  Lemma init_inv : inv (State lines n0 (add_lines crossings) None) 0 0 (todo_polygons 0 crossings) (map (fun x => [(x.1, false)]) (add_lines crossings)).
  Proof.
    destruct (add_lines_ok (concat (concat crossings)) [] ltac:(done) ltac:(apply NoDup_nil_2)) as (Hg & Hnd & Hkeys). fold (add_lines crossings) in *.
    assert (Hk : forall i, i ∈ map fst (add_lines crossings) <-> is_Some (lines !! i)).
    { intros i. unfold add_lines. rewrite Hkeys, line_listed. split; [intros [H|H]; [by apply elem_of_nil in H|done]|by right]. }
    fold (add_lines crossings) in Hg, Hnd. clear Hkeys. revert Hg Hnd Hk. generalize (add_lines crossings) as g. intros g Hg Hnd Hk.
    assert (Hids : ids (concat (map (fun x : nat * nat => [(x.1, false)]) g)) = map fst g). { clear. induction g as [|x g IH]; [done|]. cbn in *. by rewrite <- IH. }
    assert (Hline : forall i s, lines !! i = Some s -> (i < n0)%nat /\ start s <> end_ s /\ s = new_seg (start s) (start_segment s) (start_polygon s) (end_ s)).
    { intros i s E. destruct Hvalid as (_ & _ & _ & _ & V). destruct (V i s E) as (H1 & H2 & H3 & _). done. }
    assert (Hchain : forall l, l ∈ map (fun x : nat * nat => [(x.1, false)]) g -> exists i, l = [(i, false)] /\ is_Some (lines !! i)).
    { intros l Hl. change (map ?f ?l) with (f <$> l) in Hl. apply elem_of_list_fmap in Hl as (x & -> & Hx). exists x.1. split; [done|]. apply Hk. change (map fst g) with (fst <$> g). by apply elem_of_list_fmap_1. }
    constructor; cbn [segs fresh_id groups drawing].
    - intros l Hl. destruct (Hchain l Hl) as (i & -> & s & E). destruct (Hline i s E) as (_ & Hn & Es). apply (path_one _ _ _ _ s); [by apply (view_at _ _ false)|by rewrite Es|by rewrite Es|done].
    - by rewrite Hids.
    - intros i. by rewrite Hids.
    - intros i [s E]. by apply (Hline i s).
    - intros i. by rewrite find_group_elem.
    - done.
    - intros i j gi gj Ei Ej. pose proof (Hg i gi Ei) as ->. pose proof (Hg j gj Ej) as ->. split.
      + intros <-. exists [(i, false)]. split; [|split; left]. assert (Hi : i ∈ map fst g) by (apply find_group_elem; by rewrite Ei). change (map fst g) with (fst <$> g) in Hi.
        apply elem_of_list_fmap in Hi as (x & -> & Hx). change (map ?f ?l) with (f <$> l). apply elem_of_list_fmap. by exists x.
      + intros (l & Hl & H1 & H2). destruct (Hchain l Hl) as (k & -> & _). cbn in H1, H2. apply elem_of_list_singleton in H1, H2. congruence.
    - intros l Hl. destruct (Hchain l Hl) as (i & -> & s & E). exists i. split; [left|by exists s].
    - intros i s E. exists s. done.
    - intros i s E. destruct (Hline i s E) as (_ & _ & ->). done.
    - intros i s E E2. congruence.
    - intros p v c Ht. pose proof (todo_lines_on p v c Ht) as Hc. split; [done|]. destruct (lines_on_line p v c Hc) as [s E]. exists s. split; [done|]. destruct (Hline c s E) as (_ & _ & ->). by destruct (side p v c).
    - change (map ?f ?l) with (f <$> l). apply NoDup_fmap_2_strong.
      + intros [[p v] c] [[p' v'] c'] H1 H2 Heq. cbn in Heq. injection Heq as -> Hs. apply todo_lines_on in H1, H2. destruct (lines_on_line p v c' H1) as [s E]. unfold side in Hs. rewrite E in Hs.
        destruct Hvalid as (_ & _ & _ & _ & V). destruct (V c' s E) as (_ & _ & _ & pe & ve & Hne & Hon). apply Hon in H1, H2.
        assert (Hpv : (p, v) = (p', v')).
        { pose proof (at_start_true p v s) as T1. pose proof (at_start_true p' v' s) as T2. destruct (at_start p v s) eqn:A1.
          - rewrite (proj1 T1 eq_refl). symmetry. apply T2. done.
          - destruct H1 as [H1|H1]; [apply T1 in H1; done|]. destruct H2 as [H2|H2]; [apply T2 in H2; congruence|]. congruence. }
        congruence.
      + apply todo_polygons_nodup. intros cs row Hcs Hrow. destruct Hvalid as (_ & _ & V & _). apply elem_of_list_lookup in Hcs as [p Hp]. apply elem_of_list_lookup in Hrow as [v Hv].
        specialize (V p v). unfold Connect_Spec.lines_on in V. rewrite Hp in V. cbn in V. by rewrite Hv in V.
    - done.
  Qed.
End connect.

(** ** Printing the chains *)
Definition points (h : heap) (l : list onode) : list pt := concat (map (fun o => match view h o with Some s => appendTo false s | None => [] end) l).

Lemma to_end_path h p o l (fuel : nat) s : path h p (o :: l) None -> view h o = Some s -> (length l < fuel)%nat ->
  exists j t, to_end fuel h o.1 (start s) = Ok j /\ j ∈ ids (o :: l) /\ h !! j = Some t /\ (previous t = None \/ next t = None).
Proof.
  revert p o s fuel. induction l as [|o' l IH]; intros p [i r] s fuel Hp Hv Hfuel; (destruct fuel as [|fuel]; [cbn in Hfuel; lia|]); cbn [to_end fst];
  pose proof (proj1 (view_lookup h i r s) Hv) as E; rewrite E; cbn [of_opt rbind].
  - inversion Hp as [? ? ? s1 E1 P1 N1 Hn|]; subst. assert (s1 = s) by congruence. subst s1.
    exists i, (orient r s). split; [|split; [left|split; [done|]]].
    + destruct r; cbn; rewrite N1; [by destruct (previous s)|done].
    + destruct r; cbn; [by left|by right].
  - inversion Hp as [|? ? ? ? ? s1 s' E1 P1 N1 Hn E' Hj Hp']; subst. assert (s1 = s) by congruence. subst s1.
    destruct (previous s) as [q|] eqn:Ep.
    + assert (Hgo : exists j t, to_end fuel h o'.1 (start s') = Ok j /\ j ∈ ids (o' :: l) /\ h !! j = Some t /\ (previous t = None \/ next t = None)).
      { eapply IH; [exact Hp'|done|]. cbn in Hfuel. lia. }
      destruct Hgo as (j & t & G1 & G2 & G3). exists j, t. split; [|split; [by right|done]].
      destruct r; cbn; rewrite Ep, N1.
      * rewrite bool_decide_eq_false_2 by congruence. by rewrite <- Hj.
      * rewrite bool_decide_eq_true_2 by done. by rewrite <- Hj.
    + exists i, (orient r s). split; [|split; [left|split; [done|]]].
      * destruct r; cbn; rewrite ?N1, Ep; done.
      * destruct r; cbn; [by right|by left].
Qed.

Lemma trace_path h p l h' (fuel : nat) : path h p l None -> NoDup (ids l) -> (forall i, i ∈ ids l -> h' !! i = h !! i) -> (length l <= fuel)%nat ->
  forall o s, head l = Some o -> view h o = Some s ->
  exists h'', trace fuel h' (Some o.1) (start s) = Ok (h'', points h l) /\ (forall i, i ∈ ids l -> h'' !! i = None) /\ (forall i, i ∉ ids l -> h'' !! i = h' !! i).
Proof.
  intros Hp. remember None as q eqn:Eq. revert h' fuel. induction Hp as [p [i r] q s E Ep En Hn|p [i r] o' l q s s' E Ep En Hn E' Hj Hp IH];
  intros h' fuel Hnd Hf Hfuel o1 s1 Ho Hv; cbn in Ho; injection Ho as <-; assert (s1 = s) by congruence; subst s1; (destruct fuel as [|fuel]; [cbn in Hfuel; lia|]); cbn [trace fst];
  pose proof (proj1 (view_lookup h i r s) E) as Ei; rewrite Hf by left; rewrite Ei; cbn [of_opt rbind];
  (replace (if decide (start s = start (orient r s)) then orient r s else swapDirection (orient r s)) with s
    by (destruct r; cbn; [rewrite decide_False by congruence; by rewrite swap_swap|by rewrite decide_True])).
  - rewrite En, Eq. destruct fuel; cbn; (exists (delete i h'); split; [unfold points; cbn [map concat]; rewrite E; done|]); (split; [intros j Hj; apply elem_of_list_singleton in Hj as ->; apply lookup_delete|]);
    intros j Hj; apply lookup_delete_ne; intros ->; apply Hj; left.
  - rewrite En. cbn [ids map fst] in Hnd. apply NoDup_cons in Hnd as [Hni Hnd]. fold (ids (o' :: l)) in Hni. rewrite <- Hj.
    destruct (IH Eq (delete i h') fuel Hnd) with (o := o') (s := s') as (h'' & T & D1 & D2); [|cbn in *; lia|done|done|].
    { intros j Hjj. rewrite lookup_delete_ne; [apply Hf; by right|]. intros ->. done. }
    rewrite T. cbn [rbind fst snd]. exists h''. split; [unfold points at 2; cbn [map concat]; rewrite E; done|]. split.
    + intros j Hjj. cbn [ids map fst] in Hjj. apply elem_of_cons in Hjj as [->|Hjj]; [|by apply D1]. rewrite D2 by done. apply lookup_delete.
    + intros j Hjj. cbn [ids map fst] in Hjj. rewrite D2; [|intros H; apply Hjj; by right]. apply lookup_delete_ne. intros ->. apply Hjj. left.
Qed.

Lemma trace_mono (fuel fuel' : nat) h c v r : (fuel <= fuel')%nat -> trace fuel h c v = Ok r -> trace fuel' h c v = Ok r.
Proof.
  revert fuel' h c v r. induction fuel as [|fuel IH]; intros fuel' h [i|] v r Hle E; [done|by destruct fuel'| |by destruct fuel']. destruct fuel' as [|fuel']; [lia|]. cbn in E |- *.
  destruct (h !! i) as [s|]; [|done]. cbn in E |- *. set (s1 := if decide _ then _ else _) in *. destruct (trace fuel (delete i h) (next s1) (end_ s1)) as [r1| |] eqn:E1; [|done|done]. cbn in E.
  rewrite (IH fuel' _ _ _ _ ltac:(lia) E1). done.
Qed.

(** a chain is printed from one of its ends to the other *)
Lemma output_path h h0 l i (fuel : nat) : path h None l None -> NoDup (ids l) -> i ∈ ids l -> (forall j, j ∈ ids l -> h0 !! j = h !! j) -> (length l < fuel)%nat ->
  exists h'' l' o s, output fuel h0 i = Ok (h'', altered_start s :: points h l') /\ path h None l' None /\ ids l' ≡ₚ ids l /\ head l' = Some o /\ view h o = Some s /\
    (forall i, i ∈ ids l -> h'' !! i = None) /\ (forall i, i ∉ ids l -> h'' !! i = h0 !! i).
Proof.
  intros Hp Hnd Hi Hf Hfuel. unfold output.
  assert (Hp0 : path h0 None l None). { apply (path_frame h); [|done]. intros o Ho. apply Hf. unfold ids. change (map fst l) with (fst <$> l). by apply elem_of_list_fmap_1. }
  (* the chain in the direction in which the line lies in it *)
  assert (exists l2, path h0 None l2 None /\ ids l2 ≡ₚ ids l /\ length l2 = length l /\ (i, false) ∈ l2) as (l2 & Hp2 & Hids2 & Hlen2 & Hi2).
  { unfold ids in Hi. change (map fst l) with (fst <$> l) in Hi. apply elem_of_list_fmap in Hi as ([i' r] & Ei & Ho). cbn in Ei. subst i'. destruct r; [|by exists l].
    exists (turn l). split; [by apply path_turn|]. split; [apply turn_ids|]. split; [unfold turn; rewrite map_length; apply reverse_length|].
    unfold turn. change (map ?f ?l) with (f <$> l). apply elem_of_list_fmap. exists (i, true). split; [done|]. by apply elem_of_reverse. }
  apply elem_of_list_split in Hi2 as (l3 & l4 & E2).
  assert (exists p', path h0 p' ((i, false) :: l4) None) as [p' Hsuf].
  { destruct l3 as [|x l3]; [exists None; cbn in E2; by rewrite E2 in Hp2|]. assert (x :: l3 <> []) as [l5 [y Ey]]%exists_last by done. rewrite E2, Ey, <- app_assoc in Hp2. cbn in Hp2.
    apply path_app_inv in Hp2 as (_ & H & _). by eexists. }
  destruct (path_view _ _ _ _ Hsuf (i, false) ltac:(left)) as (si & Evi & _). pose proof (proj1 (view_lookup h0 i false si) Evi) as Ei. cbn in Ei. rewrite Ei. cbn [of_opt rbind].
  destruct (to_end_path h0 p' (i, false) l4 fuel si Hsuf Evi) as (j & t & T1 & T2 & T3 & T4).
  { rewrite E2, app_length in Hlen2. cbn in Hlen2. lia. }
  cbn [fst] in T1. rewrite T1. cbn [rbind]. rewrite T3. cbn [of_opt rbind].
  assert (Hj : j ∈ ids l2). { rewrite E2, ids_app. apply elem_of_app. by right. }
  (* the free side of the last segment *)
  set (f := match previous t with Some _ => false | None => true end).
  assert (Hfree : link f t = None). { unfold f. destruct (previous t) eqn:Ept; cbn; [destruct T4; congruence|done]. }
  destruct (path_orient h0 l2 j t f Hp2 Hj T3 Hfree) as (l5 & Hp5 & Hids5). apply path_turn in Hp5. rewrite turn_snoc in Hp5.
  set (l' := (j, negb f) :: turn l5) in *.
  assert (Hids' : ids l' ≡ₚ ids l). { unfold l'. rewrite <- turn_snoc, turn_ids, Hids5. done. }
  assert (Hv : view h0 (j, negb f) = Some (orient (negb f) t)) by (by apply view_at).
  replace (match previous t with Some _ => swapDirection t | None => t end) with (orient (negb f) t) by (unfold f; by destruct (previous t)).
  assert (Hnd' : NoDup (ids l')) by (by rewrite Hids').
  assert (Hlen' : length l' = length l). { apply Permutation_length in Hids'. unfold ids in Hids'. by rewrite !map_length in Hids'. }
  assert (Hviews : forall o, o ∈ l' -> view h o = view h0 o). { intros o Ho. unfold view. rewrite Hf; [done|]. rewrite <- Hids'. unfold ids. change (map fst l') with (fst <$> l'). by apply elem_of_list_fmap_1. }
  assert (Hpts : points h l' = points h0 l'). { unfold points. f_equal. apply map_ext_in. intros o Ho. apply elem_of_list_In in Ho. by rewrite Hviews. }
  (* tracing from the first segment on is tracing the whole *)
  destruct fuel as [|fuel]; [lia|].
  destruct (trace_path h0 None l' h0 (S fuel) Hp5 Hnd' ltac:(done) ltac:(lia) (j, negb f) _ eq_refl Hv) as (h'' & Ht & D1 & D2).
  cbn [trace fst] in Ht. rewrite T3 in Ht. cbn [of_opt rbind] in Ht.
  replace (if decide (start (orient (negb f) t) = start t) then t else swapDirection t) with (orient (negb f) t) in Ht.
  2:{ destruct (path_view _ _ _ _ Hp5 (j, negb f) ltac:(left)) as (s2 & Es2 & Hs2). assert (s2 = orient (negb f) t) by congruence. subst s2. destruct f; cbn in *; [by rewrite decide_True|by rewrite decide_False]. }
  destruct (trace fuel (delete j h0) (next (orient (negb f) t)) (end_ (orient (negb f) t))) as [r| |] eqn:Etr; cbn [rbind] in Ht; [|done|done].
  assert (Hr1 : r.1 = h'') by congruence. assert (Hr2 : appendTo false (orient (negb f) t) ++ r.2 = points h0 l') by congruence.
  assert (Etr2 : trace (S fuel) (delete j h0) (next (orient (negb f) t)) (end_ (orient (negb f) t)) = Ok r).
  { apply (trace_mono fuel (S fuel)); [lia|done]. }
  rewrite Etr2. cbn [rbind]. exists r.1, l', (j, negb f), (orient (negb f) t). split.
  { f_equal. f_equal. rewrite Hpts. unfold appendTo at 1. cbn [app]. f_equal. rewrite <- Hr2. done. }
  split; [apply (path_frame h0); [|exact Hp5]; intros o Ho; symmetry; apply Hf; rewrite <- Hids'; unfold ids; change (map fst l') with (fst <$> l'); by apply elem_of_list_fmap_1|].
  split; [done|]. split; [done|]. split; [rewrite Hviews; [done|left]|]. rewrite Hr1. split; [intros k Hk; apply D1; by rewrite Hids'|intros k Hk; apply D2; by rewrite Hids'].
Qed.

Lemma to_end_mono (fuel fuel' : nat) h c v r : (fuel <= fuel')%nat -> to_end fuel h c v = Ok r -> to_end fuel' h c v = Ok r.
Proof.
  revert fuel' h c v r. induction fuel as [|fuel IH]; intros fuel' h i v r Hle E; [done|]. destruct fuel' as [|fuel']; [lia|]. cbn in E |- *.
  destruct (h !! i) as [s|]; [|done]. cbn in E |- *. destruct (next s), (previous s); [|done..]. apply IH; [lia|done].
Qed.
Lemma output_mono (fuel fuel' : nat) h c r : (fuel <= fuel')%nat -> output fuel h c = Ok r -> output fuel' h c = Ok r.
Proof.
  intros Hle E. unfold output in *. destruct (h !! c) as [s|]; [|done]. cbn [of_opt rbind] in *. destruct (to_end fuel h c (start s)) as [i| |] eqn:E1; [|done|done].
  rewrite (to_end_mono fuel fuel' _ _ _ _ Hle E1). cbn [rbind] in *. destruct (h !! i) as [t|]; [|done]. cbn [of_opt rbind] in *. set (t1 := match previous t with Some _ => _ | None => _ end) in *.
  destruct (trace fuel (delete i h) (next t1) (end_ t1)) as [r1| |] eqn:E2; [|done|done]. by rewrite (trace_mono fuel fuel' _ _ _ _ Hle E2).
Qed.
Lemma outputs_mono (fuel fuel' : nat) gs C h r : (fuel <= fuel')%nat -> outputs fuel gs C h = Ok r -> outputs fuel' gs C h = Ok r.
Proof.
  intros Hle. revert C h r. induction gs as [|[i g] gs IH]; intros C h r E; cbn in *; [done|]. destruct (decide (g ∈ C)); [by apply IH|].
  destruct (output fuel h i) as [r1| |] eqn:E1; [|done|done]. rewrite (output_mono fuel fuel' _ _ _ Hle E1). cbn in *.
  destruct (outputs fuel gs (g :: C) r1.1) as [r2| |] eqn:E2; [|done|done]. by rewrite (IH _ _ _ E2).
Qed.

Section printing.
  Context (h : heap) (chains : list (list onode)) (G : list (nat * nat)) (fuel : nat).
  Hypothesis Hpath : forall l, l ∈ chains -> path h None l None.
  Hypothesis Hnodup : NoDup (ids (concat chains)).
  Hypothesis Hall : forall i, is_Some (find_group i G) -> i ∈ ids (concat chains).
  Hypothesis HG : NoDup (map fst G).
  Hypothesis Hgroups : forall i j gi gj, find_group i G = Some gi -> find_group j G = Some gj -> (gi = gj <-> exists l, l ∈ chains /\ i ∈ ids l /\ j ∈ ids l).
  Hypothesis Hfuel : forall l, l ∈ chains -> (length l < fuel)%nat.

  Definition printed (l : list onode) : list pt := match l with o :: _ => (match view h o with Some s => [altered_start s] | None => [] end) ++ points h l | [] => [] end.

  Lemma outputs_chains gs C h0 :
    (forall i g, (i, g) ∈ gs -> find_group i G = Some g) ->
    (forall l, l ∈ chains -> (exists i g, i ∈ ids l /\ find_group i G = Some g /\ g ∈ C) \/ forall j, j ∈ ids l -> h0 !! j = h !! j) ->
    exists L sel, outputs fuel gs C h0 = Ok (map printed L) /\ Forall2 (fun l' l => path h None l' None /\ ids l' ≡ₚ ids l) L sel /\ NoDup sel /\
      forall l, l ∈ sel <-> l ∈ chains /\ exists i g, i ∈ ids l /\ (i, g) ∈ gs /\ g ∉ C.
  Proof.
    revert C h0. induction gs as [|[i g] gs IH]; intros C h0 Hgs HC.
    - exists [], []. split; [done|]. split; [constructor|]. split; [apply NoDup_nil_2|]. intros l. rewrite elem_of_nil. split; [done|intros (_ & i & g & _ & H & _); by apply elem_of_nil in H].
    - cbn [outputs]. pose proof (Hgs i g ltac:(left)) as Eg. destruct (decide (g ∈ C)) as [Hin|Hnin].
      + destruct (IH C h0) as (L & sel & H1 & H2 & H3 & H4); [intros x y Hx; apply Hgs; by right|done|]. exists L, sel. split; [done|]. split; [done|]. split; [done|].
        intros l. rewrite H4. split; (intros (Hl & x & y & Hx & Hy & Hz); split; [done|exists x, y; split; [done|]; split; [|done]]); [by right|]. apply elem_of_cons in Hy as [[= -> ->]|Hy]; done.
      + pose proof (Hall i ltac:(by rewrite Eg)) as Hi. apply ids_concat in Hi as (l & Hl & Hi).
        assert (Hl0 : forall j, j ∈ ids l -> h0 !! j = h !! j).
        { destruct (HC l Hl) as [(k & gk & Hk & Ek & Hgk)|H]; [|done]. exfalso. apply Hnin. replace g with gk; [done|]. apply (Hgroups k i gk g Ek Eg). by exists l. }
        assert (Hndl : NoDup (ids l)). { apply elem_of_Permutation in Hl as [rest Hp]. rewrite (ids_perm _ _ (concat_perm _ _ Hp)), ids_cons_concat in Hnodup. by apply NoDup_app in Hnodup as (? & _). }
        destruct (output_path h h0 l i fuel (Hpath l Hl) Hndl Hi Hl0 (Hfuel l Hl)) as (h1 & l' & o & s & Eo & Hp' & Hids' & Ho & Hv & D1 & D2). rewrite Eo. cbn [rbind fst snd].
        destruct (IH (g :: C) h1) as (L & sel & H1 & H2 & H3 & H4); [intros x y Hx; apply Hgs; by right| |].
        { intros l2 Hl2. destruct (decide (l2 = l)) as [->|Hne]; [left; exists i, g; split; [done|]; split; [done|left]|].
          destruct (HC l2 Hl2) as [(k & gk & Hk & Ek & Hgk)|H]; [left; exists k, gk; split; [done|]; split; [done|by right]|]. right. intros j Hj. rewrite D2; [by apply H|].
          intros Hjl. apply Hne. by apply (chain_unique chains l2 l j). }
        rewrite H1. cbn [rbind]. exists (l' :: L), (l :: sel). split.
        { cbn [map]. do 2 f_equal. destruct l' as [|o' l']; [done|]. injection Ho as ->. cbn [printed]. by rewrite Hv. }
        split; [constructor; done|]. split.
        { constructor; [|done]. intros Hin. apply H4 in Hin as (_ & k & gk & Hk & Hkg & Hn). apply Hn. replace gk with g; [left|]. apply (Hgroups i k g gk Eg); [apply Hgs; by right|]. by exists l. }
        intros l2. rewrite elem_of_cons, H4. split.
        * intros [->|(Hl2 & k & gk & Hk & Hkg & Hn)]; (split; [done|]); [exists i, g; split; [done|]; split; [left|done]|exists k, gk]. split; [done|]. split; [by right|]. intros Hin. apply Hn. by right.
        * intros (Hl2 & k & gk & Hk & Hkg & Hn). destruct (decide (gk = g)) as [->|Hne].
          -- left. destruct (proj1 (Hgroups i k g g Eg (Hgs _ _ Hkg)) eq_refl) as (l3 & Hl3 & Hi3 & Hk3). rewrite (chain_unique chains l2 l3 k) by done. by apply (chain_unique chains l3 l i).
          -- right. split; [done|]. exists k, gk. split; [done|]. apply elem_of_cons in Hkg as [Heq|Hkg]; [congruence|]. split; [done|]. intros Hin. apply elem_of_cons in Hin as [?|?]; done.
  Qed.

  Lemma outputs_all : (forall l, l ∈ chains -> exists i, i ∈ ids l /\ is_Some (find_group i G)) ->
    exists L, outputs fuel G [] h = Ok (map printed L) /\ (forall l, l ∈ L -> path h None l None /\ exists l2, l2 ∈ chains /\ ids l ≡ₚ ids l2) /\ ids (concat L) ≡ₚ ids (concat chains) /\
      (forall l2, l2 ∈ chains -> exists l, l ∈ L /\ ids l ≡ₚ ids l2).
  Proof.
    intros Hline.
    assert (Hfind : forall i g, (i, g) ∈ G <-> find_group i G = Some g).
    { revert HG. clear. induction G as [|[x y] G' IH]; intros HG i g; cbn in *; [rewrite elem_of_nil; done|]. apply NoDup_cons in HG as [Hn HG]. rewrite elem_of_cons, (IH HG). destruct (decide (x = i)) as [->|Hne].
      - split; [intros [[= ->]|H]; [done|]|intros [= ->]; by left]. exfalso. apply Hn. apply find_group_elem. by rewrite H.
      - split; [intros [[= -> ->]|H]; done|by right]. }
    destruct (outputs_chains G [] h) as (L & sel & H1 & H2 & H3 & H4); [intros i g; apply Hfind|intros l Hl; by right|]. exists L. split; [done|].
    assert (Hperm : sel ≡ₚ chains).
    { apply NoDup_Permutation; [done| |].
      - clear -Hnodup Hline. induction chains as [|l ch IH]; [apply NoDup_nil_2|]. rewrite ids_cons_concat in Hnodup. apply NoDup_app in Hnodup as (_ & Hd & Hnd). constructor.
        + intros Hin. destruct (Hline l ltac:(left)) as (i & Hi & _). apply (Hd i Hi). apply ids_concat. by exists l.
        + apply IH; [done|]. intros l' Hl'. apply Hline. by right.
      - intros l. rewrite H4. split; [by intros [? _]|]. intros Hl. split; [done|]. destruct (Hline l Hl) as (i & Hi & [g Eg]). exists i, g. split; [done|]. split; [by apply Hfind|]. intros H; by apply elem_of_nil in H. }
    split; [|split].
    - intros l Hl. apply elem_of_list_lookup in Hl as [k Hk]. destruct (Forall2_lookup_l _ _ _ _ _ H2 Hk) as (l2 & Hl2 & Hp & Hi). split; [done|]. exists l2. split; [|done]. rewrite <- Hperm. by eapply elem_of_list_lookup_2.
    - rewrite <- (ids_perm _ _ (concat_perm _ _ Hperm)). clear -H2. induction H2 as [|l' l L sel [_ Hp] _ IH]; [done|]. by rewrite !ids_cons_concat, Hp, IH.
    - intros l2 Hl2. rewrite <- Hperm in Hl2. apply elem_of_list_lookup in Hl2 as [k Hk]. destruct (Forall2_lookup_r _ _ _ _ _ H2 Hk) as (l & Hl & _ & Hi). exists l. split; [by eapply elem_of_list_lookup_2|done].
  Qed.
End printing.

(** the pieces of a chain *)
Definition piece_of (lines h : heap) (o : onode) : piece :=
  let s := default (new_seg (0, 0)%Z 0 0 (0, 0)%Z) (view h o) in
  Piece (if decide (is_Some (lines !! o.1)) then Some o.1 else None) (altered_start s) (option_list (start_bend s) ++ option_list (end_bend s)) (altered_end s).
Lemma piece_view lines h o s : view h o = Some s ->
  piece_of lines h o = Piece (if decide (is_Some (lines !! o.1)) then Some o.1 else None) (altered_start s) (option_list (start_bend s) ++ option_list (end_bend s)) (altered_end s).
Proof. intros E. unfold piece_of. by rewrite E. Qed.
Lemma printed_polyline lines h p l q : path h p l q -> printed h l = polyline (map (piece_of lines h) l).
Proof.
  intros Hp. assert (Hpts : points h l = concat (map (fun q => via q ++ [to q]) (map (piece_of lines h) l))).
  { unfold points. rewrite map_map. f_equal. apply map_ext_in. intros o Ho. apply elem_of_list_In in Ho. destruct (path_view _ _ _ _ Hp o Ho) as (s & E & _).
    rewrite E, (piece_view lines h o s E). unfold appendTo. cbn [via to app]. by rewrite app_assoc. }
  destruct l as [|o l]; [done|]. unfold printed, polyline. rewrite Hpts. cbn [map]. destruct (path_view _ _ _ _ Hp o ltac:(left)) as (s & E & _). rewrite E, (piece_view lines h o s E). done.
Qed.
Lemma path_contiguous lines h p l q : (forall o s, o ∈ l -> view h o = Some s -> altered_start s = start s /\ altered_end s = end_ s) -> path h p l q -> contiguous (map (piece_of lines h) l).
Proof.
  intros Hh Hp. induction Hp as [p o q s E _ _ _|p o o' l q s s' E _ _ _ E' Hj Hp IH].
  - intros [|i] x y Hx Hy; [done|done].
  - intros [|i] x y Hx Hy; [|by apply (IH ltac:(intros x' s1 Hx'; apply Hh; by right) i)]. cbn in Hx, Hy. injection Hx as <-. injection Hy as <-. rewrite (piece_view _ _ _ _ E), (piece_view _ _ _ _ E'). cbn [to from].
    destruct (Hh o s ltac:(left) E) as [_ ->]. destruct (Hh o' s' ltac:(right; left) E') as [-> _]. congruence.
Qed.

(** C69: the lines are connected to polylines; each line is in exactly one of them, once, and each piece begins where the one before ends.
    Where no lines cross near the outline, the lines are printed from end to end, and the connections each follow one edge of the outline.
    If moreover no line ends in a corner, then of the lines that end on one polygon of the outline at most one stays alone. *)
Theorem C69_connected resolve outline lines n crossings : valid_lines outline lines crossings n -> sane resolve ->
  exists fuel0 chains, (forall fuel, (fuel0 <= fuel)%nat -> connectLines resolve fuel outline lines n crossings = Ok (map polyline chains)) /\
    (forall c, c ∈ chains -> contiguous c /\ exists q i, q ∈ c /\ line q = Some i) /\
    (forall q, q ∈ concat chains -> from q <> to q) /\
    NoDup (omap line (concat chains)) /\
    (forall i, i ∈ omap line (concat chains) <-> is_Some (lines !! i)) /\
    (quiet resolve -> forall q, q ∈ concat chains -> via q = [] /\
      match line q with
      | Some i => exists s, lines !! i = Some s /\ ((from q = start s /\ to q = end_ s) \/ (from q = end_ s /\ to q = start s))
      | None => exists p v, place_on outline lines crossings p v (from q) /\ place_on outline lines crossings p v (to q)
      end) /\
    (forall q, q ∈ concat chains -> exists b b', via q = option_list b ++ option_list b' /\
      (forall x, b = Some x -> answer resolve x (from q)) /\ (forall x, b' = Some x -> answer resolve x (to q))) /\
    (quiet resolve -> corners_apart outline lines crossings -> forall p v w i j, i <> j -> i ∈ lines_on crossings p v -> j ∈ lines_on crossings p w ->
      exists c k k', c ∈ chains /\ (k = i \/ k = j) /\ k' <> k /\ k ∈ omap line c /\ k' ∈ omap line c).
Proof.
  intros Hvalid Hsane. pose proof (init_inv resolve outline lines n crossings Hvalid) as Hinit.
  destruct (polygons_inv resolve outline lines n crossings Hvalid Hsane 0 outline crossings _ _ _ _ (eq_sym (drop_0 _)) (eq_sym (drop_0 _)) Hinit) as (st & cp & cv & chains & Est & Hinv & _ & Hlone).
  set (fuel0 := S (max_list (map length chains))).
  assert (Hfuel : forall l, l ∈ chains -> (length l < fuel0)%nat).
  { intros l Hl. unfold fuel0. apply Nat.lt_succ_r. apply max_list_elem_of_le. change (map ?f ?l) with (f <$> l). by apply elem_of_list_fmap_1. }
  destruct (outputs_all (segs st) chains (groups st) fuel0) as (L & HL & HLpath & HLids & HLall).
  - apply (i_path _ _ _ _ _ _ _ _ _ Hinv).
  - apply (i_nodup _ _ _ _ _ _ _ _ _ Hinv).
  - intros i Hi. apply (i_dom _ _ _ _ _ _ _ _ _ Hinv). apply (i_keys _ _ _ _ _ _ _ _ _ Hinv) in Hi as [s0 E0]. destruct (i_line _ _ _ _ _ _ _ _ _ Hinv i s0 E0) as (s & -> & _). done.
  - apply (i_keys2 _ _ _ _ _ _ _ _ _ Hinv).
  - apply (i_groups _ _ _ _ _ _ _ _ _ Hinv).
  - exact Hfuel.
  - intros l Hl. destruct (i_chain_line _ _ _ _ _ _ _ _ _ Hinv l Hl) as (i & Hi & Hline). exists i. split; [done|]. by apply (i_keys _ _ _ _ _ _ _ _ _ Hinv).
  - assert (Hhb : forall o s, view (segs st) o = Some s -> (forall b, start_bend s = Some b -> answer resolve b (start s)) /\ (forall b, end_bend s = Some b -> answer resolve b (end_ s))).
    { intros [i r] s E. apply view_lookup in E. destruct (i_honest _ _ _ _ _ _ _ _ _ Hinv i _ E) as (_ & _ & H3 & H4). by destruct r. }
    assert (Hh : forall o s, view (segs st) o = Some s -> altered_start s = start s /\ altered_end s = end_ s /\ (quiet resolve -> start_bend s = None /\ end_bend s = None)).
    { intros o s E. destruct (Hhb o s E) as [B1 B2]. assert (Halt : altered_start s = start s /\ altered_end s = end_ s).
      { destruct o as [i r]. apply view_lookup in E. destruct (i_honest _ _ _ _ _ _ _ _ _ Hinv i _ E) as (H1 & H2 & _). by destruct r. }
      destruct Halt. split; [done|]. split; [done|]. intros Hq. assert (Hno : forall b e, ~ answer resolve b e). { intros b e (x & y & f & g & ba & bb & ea & eb & Er & _). rewrite (Hq x y f g) in Er. done. }
      split; [destruct (start_bend s) as [b|]|destruct (end_bend s) as [b|]]; try done; exfalso; [apply (Hno b (start s))|apply (Hno b (end_ s))]; auto. }
    assert (Hin : forall q, q ∈ concat (map (map (piece_of lines (segs st))) L) -> exists o s, q = piece_of lines (segs st) o /\ view (segs st) o = Some s /\ start s <> end_ s).
    { intros q Hq. apply elem_of_concat in Hq as (c & Hc & Hq). change (map ?f ?l) with (f <$> l) in Hc. apply elem_of_list_fmap in Hc as (l & -> & Hl). change (map ?f ?l) with (f <$> l) in Hq. apply elem_of_list_fmap in Hq as (o & -> & Ho).
      destruct (HLpath l Hl) as [Hp _]. destruct (path_view _ _ _ _ Hp o Ho) as (s & E & Hn). by exists o, s. }
    assert (Hlines : omap line (concat (map (map (piece_of lines (segs st))) L)) = filter (fun i => is_Some (lines !! i)) (ids (concat L))).
    { rewrite <- concat_map. clear. induction (concat L) as [|o l IH]; [done|]. cbn [map ids]. cbn [omap list_omap]. cbn [piece_of line]. rewrite filter_cons. fold (ids l). destruct (decide (is_Some (lines !! o.1))); [f_equal|]; exact IH. }
    exists fuel0, (map (map (piece_of lines (segs st))) L). split; [|split; [|split; [|split; [|split; [|split; [|split]]]]]].
    + intros fuel Hle. unfold connectLines. rewrite Est. cbn [rbind]. apply (outputs_mono fuel0 fuel); [done|]. rewrite HL. f_equal. rewrite map_map. apply map_ext_in. intros l Hl. apply elem_of_list_In in Hl.
      destruct (HLpath l Hl) as [Hp _]. by eapply printed_polyline.
    + intros c Hc. change (map ?f ?l) with (f <$> l) in Hc. apply elem_of_list_fmap in Hc as (l & -> & Hl). destruct (HLpath l Hl) as (Hp & l2 & Hl2 & Hids). split.
      * eapply path_contiguous; [|exact Hp]. intros o s _ E. by destruct (Hh o s E) as (? & ? & _).
      * destruct (i_chain_line _ _ _ _ _ _ _ _ _ Hinv l2 Hl2) as (i & Hi & Hline). rewrite <- Hids in Hi. unfold ids in Hi. change (map fst l) with (fst <$> l) in Hi. apply elem_of_list_fmap in Hi as (o & -> & Ho).
        exists (piece_of lines (segs st) o), o.1. split; [change (map ?f ?l) with (f <$> l); by apply elem_of_list_fmap_1|]. unfold piece_of. cbn [line]. by rewrite decide_True.
    + intros q Hq. destruct (Hin q Hq) as (o & s & -> & E & Hn). rewrite (piece_view _ _ _ _ E). cbn [from to]. destruct (Hh o s E) as (-> & -> & _). done.
    + rewrite Hlines. apply NoDup_filter. rewrite HLids. apply (i_nodup _ _ _ _ _ _ _ _ _ Hinv).
    + intros i. rewrite Hlines, elem_of_list_filter, HLids. split; [by intros [? _]|]. intros Hi. split; [done|]. apply (i_dom _ _ _ _ _ _ _ _ _ Hinv). destruct Hi as [s0 E0]. destruct (i_line _ _ _ _ _ _ _ _ _ Hinv i s0 E0) as (s & -> & _). done.
    + intros Hquiet q Hq. destruct (Hin q Hq) as ([i r] & s & -> & E & Hn). rewrite (piece_view _ _ _ _ E). cbn [from to via line fst]. destruct (Hh _ s E) as (-> & -> & Hb). destruct (Hb Hquiet) as [-> ->]. split; [done|].
      apply view_lookup in E. destruct (decide (is_Some (lines !! i))) as [[s0 E0]|Hnone].
      * exists s0. split; [done|]. destruct (i_line _ _ _ _ _ _ _ _ _ Hinv i s0 E0) as (s' & E' & _ & _ & H3). destruct (H3 Hquiet) as [H1 H2]. assert (s' = orient r s) by congruence. subst s'. destruct r; cbn in H1, H2; [right|left]; by rewrite H1, H2.
      * assert (E0 : lines !! i = None) by (destruct (lines !! i) eqn:X; [exfalso; apply Hnone; by eexists|done]). destruct (i_other _ _ _ _ _ _ _ _ _ Hinv i _ E E0) as (p & v & Hpv). exists p, v. destruct (Hpv Hquiet) as [P1 P2]. destruct r; done.
    + intros q Hq. destruct (Hin q Hq) as (o & s & -> & E & Hn). rewrite (piece_view _ _ _ _ E). cbn [from to via]. destruct (Hh o s E) as (-> & -> & _). destruct (Hhb o s E) as [B1 B2].
      exists (start_bend s), (end_bend s). done.
    + intros Hq Ha p v w i j Hij Hi Hj.
      assert (Hpair : forall k, paired st k -> exists c k', c ∈ map (map (piece_of lines (segs st))) L /\ k' <> k /\ k ∈ omap line c /\ k' ∈ omap line c).
      { intros k (k' & Hne & g & Ek & Ek'). destruct (proj1 (i_groups _ _ _ _ _ _ _ _ _ Hinv k k' g g Ek Ek') eq_refl) as (l2 & Hl2 & H1 & H2). destruct (HLall l2 Hl2) as (l & Hl & Hids). rewrite <- Hids in H1, H2.
        exists (map (piece_of lines (segs st)) l), k'. split; [change (map ?f ?l) with (f <$> l); by apply elem_of_list_fmap_1|]. split; [done|].
        assert (Hom : forall x, is_Some (lines !! x) -> x ∈ ids l -> x ∈ omap line (map (piece_of lines (segs st)) l)).
        { intros x Hx Hxl. unfold ids in Hxl. change (map fst l) with (fst <$> l) in Hxl. apply elem_of_list_fmap in Hxl as (o & -> & Ho). apply elem_of_list_omap. exists (piece_of lines (segs st) o).
          split; [change (map ?f ?l) with (f <$> l); by apply elem_of_list_fmap_1|]. unfold piece_of. cbn [line]. by rewrite decide_True. }
        split; (apply Hom; [|done]); apply (i_keys _ _ _ _ _ _ _ _ _ Hinv); by eexists. }
      destruct (Hlone Hq Ha p ltac:(lia) i j v w Hij Hi Hj) as [H|H]; destruct (Hpair _ H) as (c & k' & H1 & H2 & H3 & H4); [exists c, i, k'|exists c, j, k']; (split; [done|]); (split; [auto|]); done.
Qed.
Print Assumptions C69_connected.

(** A square with three upright lines. *)
Definition square : list (list pt) := [[(0, 0); (100, 0); (100, 100); (0, 100)]]%Z.
Definition upright (x : Z) : seg := new_seg (x, 0%Z) 1 0 (x, 100%Z).
Definition three : heap := <[0%nat := upright 20]> (<[1%nat := upright 40]> (<[2%nat := upright 60]> ∅)).
Definition three_crossings : list (list (list nat)) := [[[]; [0; 1; 2]; []; [2; 0; 1]]]%nat.
Definition one : heap := <[0%nat := upright 20]> ∅.
Definition one_crossings : list (list (list nat)) := [[[]; [0]; []; [0]]]%nat.

Ltac listed := match goal with |- ?i ∈ lines_on _ ?p ?v <-> _ =>
  destruct p as [|p]; [destruct v as [|[|[|[|v]]]]|]; cbn; rewrite ?lookup_nil; cbn; rewrite ?elem_of_cons, ?elem_of_nil; split; intros H; naive_solver end.
Example three_valid : valid_lines square three three_crossings 3.
Proof.
  split; [|split; [|split; [|split]]].
  - intros [|p] polygon [= <-]. by eexists.
  - intros [|p] v [l E]; [|done]. eexists. split; [done|]. cbn in E. by apply lookup_lt_Some in E.
  - intros [|p] v; [|by apply NoDup_nil_2]. destruct v as [|[|[|[|v]]]]; cbn; try (apply NoDup_nil_2); repeat constructor; set_solver.
  - intros [|p] v i Hi; [|by apply elem_of_nil in Hi]. destruct v as [|[|[|[|v]]]]; cbn in Hi; rewrite ?elem_of_cons, ?elem_of_nil in Hi; naive_solver.
  - intros i s E. unfold three in E. rewrite !lookup_insert_Some, lookup_empty in E. destruct E as [[<- <-]|[_ [[<- <-]|[_ [[<- <-]|[_ E]]]]]]; [| | |done];
    (split; [lia|]); (split; [done|]); (split; [done|]); exists 0%nat, 3%nat; (split; [done|]); intros p' v'; cbn [upright new_seg start_polygon start_segment]; listed.
Qed.
Example one_valid : valid_lines square one one_crossings 1.
Proof.
  split; [|split; [|split; [|split]]].
  - intros [|p] polygon [= <-]. by eexists.
  - intros [|p] v [l E]; [|done]. eexists. split; [done|]. cbn in E. by apply lookup_lt_Some in E.
  - intros [|p] v; [|by apply NoDup_nil_2]. destruct v as [|[|[|[|v]]]]; cbn; try (apply NoDup_nil_2); repeat constructor; set_solver.
  - intros [|p] v i Hi; [|by apply elem_of_nil in Hi]. destruct v as [|[|[|[|v]]]]; cbn in Hi; rewrite ?elem_of_cons, ?elem_of_nil in Hi; naive_solver.
  - intros i s E. unfold one in E. rewrite !lookup_insert_Some, lookup_empty in E. destruct E as [[<- <-]|[_ E]]; [|done];
    (split; [lia|]); (split; [done|]); (split; [done|]); exists 0%nat, 3%nat; (split; [done|]); intros p' v'; cbn [upright new_seg start_polygon start_segment]; listed.
Qed.
Definition never : seg -> seg -> bool -> bool -> resolution := fun _ _ _ _ => NotTried.
Lemma never_quiet : quiet never. Proof. done. Qed.
Lemma never_sane : sane never. Proof. done. Qed.
Example three_apart : corners_apart square three three_crossings.
Proof.
  intros [|p] polygon v corner [= <-] Ev. destruct v as [|[|[|[|v]]]]; cbn in Ev; [injection Ev as <-..|done]; (split; [done|]); intros i s Hi E; cbn in Hi; rewrite ?elem_of_cons, ?elem_of_nil in Hi;
  unfold three in E; rewrite !lookup_insert_Some, lookup_empty in E; destruct E as [[<- <-]|[_ [[<- <-]|[_ [[<- <-]|[_ E]]]]]]; try done; cbn; naive_solver.
Qed.
(** The first two are connected at the bottom; what began at the bottom of the third goes round two corners to the top of the second; what
    began at the top of the first ends in the last corner. *)
Example C69_nonvacuous : valid_lines square three three_crossings 3 /\ sane never /\ quiet never /\ corners_apart square three three_crossings /\
  connectLines never 10 square three 3 three_crossings =
  Ok [[(0, 100); (20, 100); (20, 0); (40, 0); (40, 100); (100, 100); (100, 0); (60, 0); (60, 100)]]%Z.
Proof. split; [apply three_valid|]. split; [done|]. split; [done|]. split; [apply three_apart|]. vm_compute. reflexivity. Qed.

(** A polyline need not begin and end with a line: the last connection that was begun on a polygon is printed although it leads nowhere. *)
Theorem C69_tail_refuted : ~ forall resolve outline lines n crossings, valid_lines outline lines crossings n -> quiet resolve ->
  forall fuel result pl q, connectLines resolve fuel outline lines n crossings = Ok result -> pl ∈ result -> (head pl = Some q \/ last pl = Some q) ->
  exists i s, lines !! i = Some s /\ (q = start s \/ q = end_ s).
Proof.
  intros H. assert (E : connectLines never 10 square one 1 one_crossings = Ok [[(20, 100); (20, 0); (100, 0); (100, 100); (0, 100)]]%Z) by (vm_compute; reflexivity).
  destruct (H never square one 1%nat one_crossings one_valid never_quiet 10%nat _ _ (0, 100)%Z E ltac:(left) ltac:(by right)) as (i & s & Es & Hq).
  unfold one in Es. apply lookup_insert_Some in Es as [[<- <-]|[_ Es]]; [|by rewrite lookup_empty in Es]. cbn in Hq. destruct Hq; congruence.
Qed.
Print Assumptions C69_tail_refuted.

(** When the resolving of an intersection is given up, the bends are put back but not the altered ends, which are then printed. *)
Theorem C69_given_up_refuted : ~ forall resolve outline lines n crossings, valid_lines outline lines crossings n ->
  (forall a b f g, resolve a b f g = NotTried \/ exists x y, resolve a b f g = Failed x y) ->
  forall fuel result pl q, connectLines resolve fuel outline lines n crossings = Ok result -> pl ∈ result -> q ∈ pl -> exists p v, place_on outline lines crossings p v q.
Proof.
  intros H. set (failing := fun (_ _ : seg) (_ _ : bool) => Failed (7, 7)%Z (9, 9)%Z).
  assert (E : connectLines failing 10 square three 3 three_crossings = Ok [[(0, 100); (20, 100); (7, 7); (40, 0); (9, 9); (100, 100); (100, 0); (60, 0); (60, 100)]]%Z) by (vm_compute; reflexivity).
  destruct (H failing square three 3%nat three_crossings three_valid ltac:(intros; right; by eexists _, _) 10%nat _ _ (7, 7)%Z E ltac:(left) ltac:(do 2 right; left)) as (p & v & polygon & Ep & Hp).
  destruct p as [|p]; [|done]. injection Ep as <-. destruct Hp as [Hp|[Hp|(i & s & _ & Es & Hq)]].
  - destruct v as [|[|[|[|v]]]]; done.
  - destruct v as [|[|[|[|[|v]]]]]; done.
  - unfold three in Es. rewrite !lookup_insert_Some, lookup_empty in Es. destruct Es as [[<- <-]|[_ [[<- <-]|[_ [[<- <-]|[_ Es]]]]]]; [| | |done]; destruct (bool_decide _); done.
Qed.
Print Assumptions C69_given_up_refuted.
