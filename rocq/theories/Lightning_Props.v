(** C72-C74: lightning infill. *)
From Coq Require Import ZArith Lia.
From stdpp Require Import prelude list.
From Verif Require Import Common Geo_Model Combing_Model Combing_Spec Combing_Props Lightning_Model Lightning_Spec.
Open Scope Z_scope.

Lemma tree_ind' (P : tree -> Prop) : (forall p g cs, Forall P cs -> P (Node p g cs)) -> forall t, P t.
Proof. intros H. fix IH 1. intros [p g cs]. apply H. induction cs as [|c cs IHcs]; constructor; [apply IH|exact IHcs]. Qed.

(** ** pruning *)
Lemma height_nonneg : forall t, 0 <= height t.
Proof. intros [p g cs]. cbn [height]. induction (map _ cs) as [|h hs IH]; cbn; lia. Qed.
Lemma foldl_max (l : list (option tree * Z)) : forall m, foldl (fun m r => Z.max m r.2) m l = Z.max m (foldr Z.max m (map snd l)).
Proof. induction l as [|r l IH]; intros m; cbn [foldl map foldr]; [lia|]. rewrite IH. clear IH. assert (H : forall k, foldr Z.max (Z.max m k) (map snd l) = Z.max k (foldr Z.max m (map snd l))). { intros k. induction (map snd l) as [|x l' IH]; cbn; lia. } rewrite H. lia. Qed.
Lemma prune_ok d : 0 < d -> forall t, pruned d t (prune d t).1 /\ (prune d t).2 = Z.min d (height t) /\ (height t < d -> children_of (prune d t).1 = []) /\ loc_of (prune d t).1 = loc_of t /\ ground_of (prune d t).1 = ground_of t.
Proof.
  intros Hd. induction t as [p g cs IH] using tree_ind'. cbn [prune]. destruct (Z.leb_spec d 0); [lia|]. cbn [fst snd].
  set (rs := map (fun c => let r := prune d c in prune_child d p r.1 r.2) cs).
  assert (H1 : pruned_children d p cs (omap fst rs) /\ foldr Z.max 0 (map snd rs) = Z.min d (height (Node p g cs)) /\ (height (Node p g cs) < d -> omap fst rs = [])).
  { unfold rs. cbn [height]. clear rs. induction IH as [|c cs Hc HF IHcs]; [split; [constructor|]; split; [cbn; lia|done]|]. destruct IHcs as (I1 & I2 & I3). cbn [map foldr]. set (rest := foldr Z.max 0 (map (fun c => height c + vSize (psub p (loc_of c))) cs)) in *.
    destruct Hc as (Hp & Hr & Hch & Hl & Hg). unfold prune_child at 1 3 5. rewrite Hr, Hl. pose proof (vSize_nonneg (psub p (loc_of c))). assert (Hrest : 0 <= rest) by (unfold rest; clear; induction (map _ cs); cbn; lia). pose proof (height_nonneg c).
    set (v := vSize (psub p (loc_of c))) in *.
    destruct (Z.leb_spec d (Z.min d (height c))).
    - cbn [omap list_omap fst map snd foldr]. split; [apply kept; [lia|done|done]|]. split; [rewrite I2; lia|]. intros Hlt. lia.
    - replace (Z.min d (height c)) with (height c) in * by lia. destruct (Z.leb_spec (height c + v) d).
      + cbn [omap list_omap fst map snd foldr]. split; [apply gone; [lia|done|done]|]. split; [rewrite I2; lia|]. intros Hlt. apply I3. lia.
      + cbn [omap list_omap fst map snd foldr]. split; [|split; [rewrite I2; lia|intros Hlt; lia]]. rewrite Hch by lia.
        assert (En : padd (loc_of c) (normal (psub p (loc_of c)) (d - height c)) = along (loc_of c) p (d - height c)).
        { unfold normal, along. fold v. destruct (Z.ltb_spec v 1); [lia|done]. }
        rewrite En. apply cut; [lia|unfold v in *; lia|done]. }
  destruct H1 as (H1 & H2 & H3). split; [by constructor|]. split; [|split; [done|done]]. rewrite foldl_max, H2. pose proof (height_nonneg (Node p g cs)). lia.
Qed.

(** ** straightening *)
Lemma vSize_upper p : vSize2 p <= vSize p * vSize p + vSize p.
Proof.
  unfold vSize. destruct (Z.sqrt_spec (vSize2 p) ltac:(unfold vSize2; nia)) as [H1 H2]. pose proof (Z.sqrt_nonneg (vSize2 p)). set (r := Z.sqrt (vSize2 p)) in *. set (n := vSize2 p) in *. clearbody r n.
  destruct (Z.leb_spec n (r * r + r)); lia.
Qed.
Lemma quot_sq a b : b <> 0 -> (a ÷ b) * (a ÷ b) * (b * b) <= a * a.
Proof.
  intros Hb. pose proof (Z.quot_rem' a b). set (q := a ÷ b) in *. 
  assert (Hs : Z.abs (q * b) <= Z.abs a).
  { unfold q. pose proof (Z.quot_abs a b Hb) as Hq. rewrite Z.abs_mul, <- Hq. pose proof (Z.mul_quot_le (Z.abs a) (Z.abs b) ltac:(lia) ltac:(lia)). lia. }
  nia.
Qed.
(** a vector scaled to length [m] at most is at most a half longer than that *)
Lemma scaled_ok v m : 0 <= m -> m <= vSize v -> 0 < vSize v -> vSize2 (pdiv (pscale v m) (vSize v)) <= (m + 1) * (m + 1).
Proof.
  intros Hm Hle Hpos. pose proof (vSize_upper v) as Hu. set (len := vSize v) in *. unfold vSize2, pdiv, pscale in *. cbn [fst snd].
  pose proof (quot_sq (v.1 * m) len ltac:(lia)) as H1. pose proof (quot_sq (v.2 * m) len ltac:(lia)) as H2. set (x := v.1 * m ÷ len) in *. set (y := v.2 * m ÷ len) in *. clearbody x y len.
  assert (H : (x * x + y * y) * (len * len) <= (len * len + len) * (m * m)) by nia.
  destruct (Z.le_gt_cases (x * x + y * y) ((m + 1) * (m + 1))); [done|]. exfalso.
  assert ((m * m + 2 * m + 2) * (len * len) <= (x * x + y * y) * (len * len)) by nia. nia.
Qed.
Lemma near_refl p m : 0 <= m -> vSize2 (psub p p) <= (m + 1) * (m + 1).
Proof. intros. unfold vSize2, psub. cbn [fst snd]. rewrite !Z.sub_diag. nia. Qed.
Lemma psub_padd p v : psub (padd p v) p = v.
Proof. destruct p, v. unfold psub, padd. cbn. f_equal; lia. Qed.
Lemma straight_place_ok m p above below acc total : 0 <= m -> vSize2 (psub (straight_place m p above below acc total) p) <= (m + 1) * (m + 1).
Proof.
  intros Hm. unfold straight_place. case_decide; [by apply near_refl|]. set (dest := padd above _). destruct (shorterThen (psub dest p) m) eqn:Es.
  - unfold shorterThen in Es. destruct (_ || _) in Es; [done|]. destruct (_ || _) in Es; [done|]. apply Z.leb_le in Es. nia.
  - rewrite psub_padd. unfold normal. set (v := psub dest p) in *. destruct (Z.ltb_spec (vSize v) 1).
    + cbn. unfold vSize2. cbn. nia.
    + apply scaled_ok; [done| |lia]. destruct (Z.le_gt_cases m (vSize v)); [done|]. exfalso. pose proof (vSize_upper v) as Hu. assert (Hlt : vSize2 v <= m * m) by nia. unfold shorterThen in Es.
      assert (Hv : v.1 * v.1 + v.2 * v.2 <= m * m) by exact Hlt.
      assert (Hx : - m <= v.1 <= m) by nia. assert (Hy : - m <= v.2 <= m) by nia.
      destruct (Z.ltb_spec m v.1); [lia|]. destruct (Z.ltb_spec v.1 (- m)); [lia|]. destruct (Z.ltb_spec m v.2); [lia|]. destruct (Z.ltb_spec v.2 (- m)); [lia|]. cbn [orb] in Es. apply Z.leb_gt in Es. lia.
Qed.
Lemma junction_move_ok m dir : 0 <= m -> vSize2 (junction_move m dir) <= (m + 1) * (m + 1).
Proof.
  intros Hm. unfold junction_move, junction_magnitude. assert (Hq : 0 <= m * 3 ÷ 4 <= m). { rewrite Z.quot_div_nonneg by lia. split; [apply Z.div_pos; lia|]. apply Z.div_le_upper_bound; lia. } set (j := m * 3 ÷ 4) in *.
  destruct (Z.ltb_spec j (vSize dir)).
  - pose proof (scaled_ok dir j ltac:(lia) ltac:(lia) ltac:(lia)). nia.
  - pose proof (vSize_upper dir). pose proof (vSize_nonneg dir). nia.
Qed.

Lemma straighten_ok dist2 m max2 : 0 <= m -> forall t parent above acc,
  let t' := (straighten dist2 m max2 parent above acc t).1 in straightened m t t' /\ tips t' = tips t /\ (parent = None -> ground_of t' = ground_of t /\ (above = loc_of t -> acc = 0 -> loc_of t' = loc_of t)).
Proof.
  intros Hm. induction t as [p g cs IH] using tree_ind'. intros parent above acc t'.
  assert (Hmany : length cs <> 1%nat -> t' = (let rs := map (fun c => straighten dist2 m max2 (Some p) p (vSize (psub p (loc_of c))) c) cs in
        let dir := foldl (fun d r => padd d (normal (psub r.2.2 p) 1000)) (normal (psub above p) 1000) rs in
        let moves := bool_decide (dir <> (0, 0)) && bool_decide (cs <> []) && bool_decide (parent <> None) && negb (existsb (fun r => r.2.1 <? m) rs) in
        Node (if moves then padd p (junction_move m dir) else p) g (map fst rs))).
  { intros Hl. unfold t'. destruct cs as [|c [|c2 cs]]; [done|cbn in Hl; lia|done]. }
  destruct (decide (length cs = 1%nat)) as [Hone|Hn1].
  - clear Hmany. destruct cs as [|c [|c2 cs]]; try (cbn in Hone; lia). inversion IH as [|? ? Hc _]; subst. unfold t'. cbn [straighten]. clear t'.
    destruct (Hc (Some p) above (acc + vSize (psub p (loc_of c)))) as (S1 & S2 & _). set (r := straighten _ _ _ (Some p) above _ c) in *. cbn [fst snd].
    assert (Hkeep : forall p', vSize2 (psub p' p) <= (m + 1) * (m + 1) -> straightened m (Node p g [c]) (Node p' g [r.1]) /\ tips (Node p' g [r.1]) = tips (Node p g [c])).
    { intros p' Hp'. split; [apply moved; [done|by repeat constructor]|]. cbn. by rewrite S2. }
    set (p' := straight_place m p above r.2.2 acc r.2.1). pose proof (straight_place_ok m p above r.2.2 acc r.2.1 Hm) as Hp'. fold p' in Hp'. destruct (Hkeep p' Hp') as [K1 K2].
    destruct parent as [q|].
    + destruct (_ && _); cbn [fst snd]; [|split; [done|]; split; [done|]; intros; done]. split; [by apply left_out|]. split; [cbn; by rewrite S2, app_nil_r|done].
    + cbn [fst snd]. split; [done|]. split; [done|]. intros _. split; [done|]. cbn [loc_of]. intros -> ->. unfold p', straight_place. case_decide; [done|]. cbn [loc_of].
      assert (Ed : padd p (pdiv (pscale (psub r.2.2 p) 0) (Z.max 1 r.2.1)) = p). { unfold padd, pdiv, pscale. cbn [fst snd]. rewrite !Z.mul_0_r, !Z.quot_0_l by lia. destruct p. cbn. f_equal; lia. }
      rewrite Ed. assert (Es : shorterThen (psub p p) m = true).
      { unfold shorterThen, psub, vSize2. cbn [fst snd]. rewrite !Z.sub_diag. destruct (Z.ltb_spec m 0); [lia|]. destruct (Z.ltb_spec 0 (- m)); [lia|]. cbn [orb]. apply Z.leb_le. nia. }
      by rewrite Es.
  - specialize (Hmany Hn1). cbn zeta in Hmany. set (rs := map _ cs) in Hmany. set (dir := foldl _ _ rs) in Hmany. set (moves := _ && _ && _ && _) in Hmany. clearbody t'. subst t'.
    assert (Hrs : Forall2 (straightened m) cs (map fst rs) /\ concat (map tips (map fst rs)) = concat (map tips cs)).
    { unfold rs. clear -IH. assert (G : forall q, Forall2 (straightened m) cs (map fst (map (fun c => straighten dist2 m max2 (Some q) q (vSize (psub q (loc_of c))) c) cs)) /\
        concat (map tips (map fst (map (fun c => straighten dist2 m max2 (Some q) q (vSize (psub q (loc_of c))) c) cs))) = concat (map tips cs)); [|apply G]. intros q.
      induction IH as [|c cs Hc HF IHcs]; [split; [constructor|done]|]. destruct IHcs as [I1 I2]. destruct (Hc (Some q) q (vSize (psub q (loc_of c)))) as (S1 & S2 & _). cbn [map concat]. split; [by constructor|]. by rewrite S2, I2. }
    destruct Hrs as [R1 R2]. split; [|split].
    + apply moved; [|done]. destruct moves; [rewrite psub_padd; by apply junction_move_ok|by apply near_refl].
    + cbn [tips]. destruct cs as [|c cs]; [|unfold rs in *; cbn [map] in *; exact R2]. cbn. unfold moves. by rewrite (bool_decide_eq_false_2 (([] : list tree) <> [])) by auto; rewrite andb_false_r.
    + intros ->. split; [done|]. intros _ _. cbn [loc_of]. unfold moves. rewrite (bool_decide_eq_false_2 ((None : option pt) <> None)) by auto. rewrite andb_false_r. done.
Qed.

(** ** realigning *)
Section perm.
  Context {A : Type} `{EqDecision A}.
  Definition cnt (l : list A) (x : A) : nat := count_occ (fun a b => decide (a = b)) l x.
  Lemma perm_cnt l l' : l ≡ₚ l' <-> forall x, cnt l x = cnt l' x.
  Proof. apply (Permutation_count_occ (fun a b => decide (a = b))). Qed.
  Lemma cnt_app l l' x : cnt (l ++ l') x = (cnt l x + cnt l' x)%nat.
  Proof. apply count_occ_app. Qed.
  Lemma cnt_cons a l x : cnt (a :: l) x = (cnt [a] x + cnt l x)%nat.
  Proof. change (a :: l) with ([a] ++ l). apply cnt_app. Qed.
  Lemma cnt_nil x : cnt [] x = 0%nat.
  Proof. done. Qed.
End perm.
Lemma forest_nodes_app a b : forest_nodes (a ++ b) = forest_nodes a ++ forest_nodes b.
Proof. unfold forest_nodes. by rewrite map_app, concat_app. Qed.
Lemma forest_branches_app a b : forest_branches (a ++ b) = forest_branches a ++ forest_branches b.
Proof. unfold forest_branches. by rewrite map_app, concat_app. Qed.
Lemma forest_nodes_one t : forest_nodes [t] = nodes t.
Proof. unfold forest_nodes. cbn. by rewrite app_nil_r. Qed.
Lemma forest_branches_one t : forest_branches [t] = branches t.
Proof. unfold forest_branches. cbn. by rewrite app_nil_r. Qed.
Definition roots (ts : list tree) : list (pt * option pt) := map (fun t => (loc_of t, ground_of t)) ts.
Definition down (p : pt) (cs : list tree) : list (pt * pt) := map (fun c => (loc_of c, p)) cs.
Lemma branches_node p g cs : branches (Node p g cs) ≡ₚ down p cs ++ forest_branches cs.
Proof.
  unfold forest_branches. induction cs as [|c cs IH]; [done|]. cbn [branches map concat down] in *. rewrite IH. cbn [app]. apply perm_skip. fold (down p cs).
  rewrite perm_cnt. intros x. rewrite !cnt_app. lia.
Qed.
Lemma nodes_reground t g : nodes (Node (loc_of t) g (children_of t)) = nodes t.
Proof. by destruct t. Qed.
Lemma branches_reground t g : branches (Node (loc_of t) g (children_of t)) = branches t.
Proof. by destruct t. Qed.

Section realign.
  Context (inside : pt -> bool) (blocked : pt -> pt -> bool).
  Notation realign := (realign false inside blocked).
  Notation intact := (intact inside blocked).
  Notation broken := (broken inside blocked).
  Notation new_root := (new_root inside).
  Definition stays (t t' : tree) (ps : list tree) : Prop :=
    loc_of t' = loc_of t /\
    forest_nodes ((if inside (loc_of t) then [t'] else []) ++ ps) ≡ₚ List.filter inside (nodes t) /\
    forest_branches ((if inside (loc_of t) then [t'] else []) ++ ps) ≡ₚ List.filter intact (branches t) /\
    roots ps ≡ₚ map new_root (List.filter broken (branches t)) /\
    (inside (loc_of t) = true -> ground_of t' = if existsb (fun c => inside (loc_of c) && blocked (loc_of c) (loc_of t)) (children_of t) then None else ground_of t).

  Definition in_step (p : pt) := fun (s : list tree * bool * list tree) (realigned : list tree -> bool * tree * list tree) =>
    let r := realigned s.2 in
    let child := r.1.2 in
    if r.1.1 then
      if blocked (loc_of child) p then (s.1.1, true, r.2 ++ [Node (loc_of child) None (children_of child)])
      else (s.1.1 ++ [child], s.1.2, r.2)
    else (s.1.1, s.1.2, r.2).
  Definition out_step (p : pt) := fun (parts : list tree) (realigned : list tree -> bool * tree * list tree) =>
    let r := realigned parts in
    let child := r.1.2 in
    if r.1.1 then r.2 ++ [Node (loc_of child) (Some p) (children_of child)] else r.2.

  Definition fine (c : tree) : Prop := exists t' ps, (forall parts, realign c parts = (inside (loc_of c), t', parts ++ ps)) /\ stays c t' ps.
  Definition ways (p : pt) (cs : list tree) : list (pt * pt) := concat (map (fun c => (loc_of c, p) :: branches c) cs).

  Lemma in_children p cs : inside p = true -> Forall fine cs -> exists K B PS,
    (forall k b parts, foldl (in_step p) (k, b, parts) (map realign cs) = (k ++ K, b || B, parts ++ PS)) /\
    forest_nodes (K ++ PS) ≡ₚ List.filter inside (forest_nodes cs) /\
    down p K ++ forest_branches (K ++ PS) ≡ₚ List.filter intact (ways p cs) /\
    roots PS ≡ₚ map new_root (List.filter broken (ways p cs)) /\
    B = existsb (fun c => inside (loc_of c) && blocked (loc_of c) p) cs.
  Proof.
    intros Hp. induction 1 as [|c cs (t' & ps & Hr & Hl & Hn & Hb & Hro & _) HF IH].
    - exists [], false, []. split; [|done]. intros k b parts. cbn. by rewrite !app_nil_r, orb_false_r.
    - destruct IH as (K & B & PS & H1 & H2 & H3 & H4 & H5).
      assert (Hfold : forall k b parts, foldl (in_step p) (k, b, parts) (map realign (c :: cs)) = foldl (in_step p) (in_step p (k, b, parts) (realign c)) (map realign cs)) by done.
      assert (Hfn : forest_nodes (c :: cs) = nodes c ++ forest_nodes cs) by done. assert (Hw : ways p (c :: cs) = [(loc_of c, p)] ++ branches c ++ ways p cs) by done.
      assert (Hone : List.filter intact [(loc_of c, p)] = if inside (loc_of c) && negb (blocked (loc_of c) p) then [(loc_of c, p)] else []).
      { cbn [List.filter]. unfold Lightning_Spec.intact. cbn [fst snd]. rewrite Hp, andb_true_r. done. }
      assert (Hone2 : map new_root (List.filter broken [(loc_of c, p)]) = if inside (loc_of c) && blocked (loc_of c) p then [(loc_of c, None)] else []).
      { cbn [List.filter]. unfold Lightning_Spec.broken, Lightning_Spec.intact. cbn [fst snd]. rewrite Hp. destruct (inside (loc_of c)), (blocked (loc_of c) p); cbn; try done. unfold Lightning_Spec.new_root. cbn. by rewrite Hp. }
      rewrite Hfn, Hw. cbn [existsb]. destruct (inside (loc_of c)) eqn:Ei; [destruct (blocked (loc_of c) p) eqn:Ebl|]; cbn [andb negb orb] in *.
      + exists K, true, (ps ++ [Node (loc_of t') None (children_of t')] ++ PS). split; [|split; [|split; [|split; [|done]]]].
        * intros k b parts. rewrite Hfold. unfold in_step at 2. cbn [fst snd]. rewrite Hr. cbn [fst snd]. rewrite Hl, Ebl, H1. rewrite !app_assoc, orb_true_r. done.
        * rewrite List.filter_app. rewrite !forest_nodes_app, !forest_nodes_one in *. rewrite nodes_reground. rewrite <- Hn, <- H2. rewrite perm_cnt. intros x. rewrite !cnt_app. lia.
        * rewrite !List.filter_app, Hone. rewrite !forest_branches_app, !forest_branches_one in *. rewrite branches_reground. rewrite <- Hb, <- H3. rewrite perm_cnt. intros x. rewrite !cnt_app, ?cnt_nil. lia.
        * rewrite !List.filter_app, !map_app, Hone2. unfold roots in *. rewrite !map_app. cbn [map loc_of ground_of]. rewrite Hl. rewrite <- Hro, <- H4. rewrite perm_cnt. intros x. rewrite !cnt_app. lia.
      + exists (t' :: K), B, (ps ++ PS). split; [|split; [|split; [|split; [|done]]]].
        * intros k b parts. rewrite Hfold. unfold in_step at 2. cbn [fst snd]. rewrite Hr. cbn [fst snd]. rewrite Hl, Ebl, H1. by rewrite <- !app_assoc.
        * rewrite List.filter_app. change (t' :: K) with ([t'] ++ K). rewrite !forest_nodes_app, !forest_nodes_one in *. rewrite <- Hn, <- H2. rewrite perm_cnt. intros x. rewrite !cnt_app. lia.
        * rewrite !List.filter_app, Hone. change (t' :: K) with ([t'] ++ K). unfold down in *. rewrite map_app. rewrite !forest_branches_app, !forest_branches_one in *. cbn [map]. rewrite Hl. rewrite <- Hb, <- H3. rewrite perm_cnt. intros x. rewrite !cnt_app. lia.
        * rewrite !List.filter_app, !map_app, Hone2. unfold roots in *. rewrite !map_app. rewrite <- Hro, <- H4. done.
      + exists K, B, (ps ++ PS). split; [|split; [|split; [|split; [|done]]]].
        * intros k b parts. rewrite Hfold. unfold in_step at 2. cbn [fst snd]. rewrite Hr. cbn [fst snd]. rewrite H1. by rewrite <- !app_assoc.
        * rewrite List.filter_app. rewrite app_nil_l in *. rewrite !forest_nodes_app in *. rewrite <- Hn, <- H2. rewrite perm_cnt. intros x. rewrite !cnt_app. lia.
        * rewrite !List.filter_app, Hone. rewrite app_nil_l in *. rewrite !forest_branches_app in *. rewrite <- Hb, <- H3. rewrite perm_cnt. intros x. rewrite !cnt_app, ?cnt_nil. lia.
        * rewrite !List.filter_app, !map_app, Hone2. unfold roots in *. rewrite !map_app. rewrite <- Hro, <- H4. done.
  Qed.
  Lemma out_children p cs : inside p = false -> Forall fine cs -> exists PS,
    (forall parts, foldl (out_step p) parts (map realign cs) = parts ++ PS) /\
    forest_nodes PS ≡ₚ List.filter inside (forest_nodes cs) /\
    forest_branches PS ≡ₚ List.filter intact (ways p cs) /\
    roots PS ≡ₚ map new_root (List.filter broken (ways p cs)).
  Proof.
    intros Hp. induction 1 as [|c cs (t' & ps & Hr & Hl & Hn & Hb & Hro & _) HF IH].
    - exists []. split; [|done]. intros parts. cbn. by rewrite app_nil_r.
    - destruct IH as (PS & H1 & H2 & H3 & H4).
      assert (Hfold : forall parts, foldl (out_step p) parts (map realign (c :: cs)) = foldl (out_step p) (out_step p parts (realign c)) (map realign cs)) by done.
      assert (Hfn : forest_nodes (c :: cs) = nodes c ++ forest_nodes cs) by done. assert (Hw : ways p (c :: cs) = [(loc_of c, p)] ++ branches c ++ ways p cs) by done.
      assert (Hone : List.filter intact [(loc_of c, p)] = []).
      { cbn [List.filter]. unfold Lightning_Spec.intact. cbn [fst snd]. by rewrite Hp, andb_false_r. }
      assert (Hone2 : map new_root (List.filter broken [(loc_of c, p)]) = if inside (loc_of c) then [(loc_of c, Some p)] else []).
      { cbn [List.filter]. unfold Lightning_Spec.broken, Lightning_Spec.intact. cbn [fst snd]. rewrite Hp. destruct (inside (loc_of c)); cbn; try done. unfold Lightning_Spec.new_root. cbn. by rewrite Hp. }
      rewrite Hfn, Hw. destruct (inside (loc_of c)) eqn:Ei; cbv iota in *.
      + exists (ps ++ [Node (loc_of t') (Some p) (children_of t')] ++ PS). split; [|split; [|split]].
        * intros parts. rewrite Hfold. unfold out_step at 2. cbn [fst snd]. rewrite Hr. cbn [fst snd]. rewrite H1. by rewrite !app_assoc.
        * rewrite List.filter_app. rewrite !forest_nodes_app, !forest_nodes_one in *. rewrite nodes_reground. rewrite <- Hn, <- H2. rewrite perm_cnt. intros x. rewrite !cnt_app. lia.
        * rewrite !List.filter_app, Hone. rewrite !forest_branches_app, !forest_branches_one in *. rewrite branches_reground. rewrite <- Hb, <- H3. rewrite perm_cnt. intros x. rewrite !cnt_app, ?cnt_nil. lia.
        * rewrite !List.filter_app, !map_app, Hone2. unfold roots in *. rewrite !map_app. cbn [map loc_of ground_of]. rewrite Hl. rewrite <- Hro, <- H4. rewrite perm_cnt. intros x. rewrite !cnt_app. lia.
      + exists (ps ++ PS). split; [|split; [|split]].
        * intros parts. rewrite Hfold. unfold out_step at 2. cbn [fst snd]. rewrite Hr. cbn [fst snd]. rewrite H1. by rewrite <- !app_assoc.
        * rewrite List.filter_app. rewrite app_nil_l in *. rewrite !forest_nodes_app in *. by rewrite <- Hn, <- H2.
        * rewrite !List.filter_app, Hone. rewrite app_nil_l in *. rewrite !forest_branches_app in *. by rewrite <- Hb, <- H3.
        * rewrite !List.filter_app, !map_app, Hone2. unfold roots in *. rewrite !map_app. by rewrite <- Hro, <- H4.
  Qed.
  Lemma realign_ok : forall t, fine t.
  Proof.
    induction t as [p g cs IH] using tree_ind'. unfold fine. cbn [Lightning_Model.realign loc_of]. fold (in_step p). fold (out_step p). destruct (inside p) eqn:Ei.
    - destruct (in_children p cs Ei IH) as (K & B & PS & H1 & H2 & H3 & H4 & H5). exists (Node p (if B then None else g) K), PS. split.
      + intros parts. rewrite H1. done.
      + split; [done|]. cbn [loc_of]. rewrite Ei. split; [|split; [|split]].
        * rewrite forest_nodes_app, forest_nodes_one in *. cbn [nodes List.filter]. rewrite Ei. cbn [app]. apply perm_skip. change (concat (map nodes K)) with (forest_nodes K). by rewrite H2.
        * rewrite forest_branches_app, forest_branches_one in *. rewrite branches_node, <- app_assoc. by rewrite H3.
        * done.
        * intros _. cbn [ground_of children_of]. by rewrite <- H5.
    - destruct (out_children p cs Ei IH) as (PS & H1 & H2 & H3 & H4). exists (Node p g []), PS. split; [intros parts; by rewrite H1|].
      split; [done|]. cbn [loc_of]. rewrite Ei. cbn [app]. split; [|split; [|split; [done|done]]].
      + cbn [nodes List.filter]. rewrite Ei. by rewrite H2.
      + by rewrite H3.
  Qed.
End realign.

Lemma copy_loc t : loc_of (copy_below t) = loc_of t.
Proof. by destruct t. Qed.
(** copying only changes what is remembered about grounding *)
Inductive alike : tree -> tree -> Prop := Alike p g g' cs cs' : Forall2 alike cs cs' -> alike (Node p g cs) (Node p g' cs').
Lemma copy_alike : forall t, alike (copy_below t) t.
Proof. induction t as [p g cs IH] using tree_ind'. cbn. constructor. induction IH; constructor; done. Qed.
Lemma deepCopy_alike t : alike (deepCopy t) t.
Proof. destruct t as [p g cs]. cbn. constructor. induction cs; constructor; [apply copy_alike|done]. Qed.
Lemma alike_height : forall t t', alike t t' -> height t = height t' /\ loc_of t = loc_of t'.
Proof.
  induction t as [p g cs IH] using tree_ind'. intros t' Ha. inversion Ha as [? ? ? ? cs' HF]; subst. split; [|done]. cbn [height]. clear Ha. revert cs' HF. induction IH as [|c cs Hc HFc IHcs]; intros cs' HF; inversion HF; subst; [done|]. cbn [map foldr].
  destruct (Hc _ H1) as [-> ->]. by rewrite (IHcs _ H3).
Qed.
Lemma alike_pruned d : forall t t' t2, alike t t' -> pruned d t t2 -> pruned d t' t2.
Proof.
  induction t as [p g cs IH] using tree_ind'. intros t' t2 Ha Hp. inversion Ha as [? ? ? ? cs' HF]; subst. inversion Hp as [? ? ? ? cs2 Hc]; subst. constructor. clear Ha Hp. revert cs' cs2 HF Hc. induction IH as [|c cs Hcc HFc IHcs]; intros cs' cs2 HF Hc; inversion HF as [|? c' ? cs1 Hcc' HF']; subst; [inversion Hc; subst; constructor|].
  destruct (alike_height _ _ Hcc') as [Eh El]. inversion Hc; subst; try rewrite !Eh in *; try rewrite !El in *.
  - apply gone; [done|done|]. by eapply IHcs.
  - apply cut; [done|done|]. by eapply IHcs.
  - apply kept; [done| |by eapply IHcs]. by eapply Hcc.
Qed.

Theorem C72_propagate dist2 no_outlines inside blocked prune_distance magnitude max_colinear next_trees t : 0 < prune_distance -> 0 <= magnitude ->
  let result := propagateToNextLayer dist2 no_outlines inside blocked prune_distance magnitude max_colinear next_trees t in
  if no_outlines then result = next_trees
  else exists t1 t2 parts,
    pruned prune_distance t t1 /\
    straightened magnitude t1 t2 /\ tips t2 = tips t1 /\ loc_of t2 = loc_of t /\
    result = next_trees ++ parts /\
    forest_nodes parts ≡ₚ List.filter inside (nodes t2) /\
    forest_branches parts ≡ₚ List.filter (intact inside blocked) (branches t2) /\
    map (fun part => (loc_of part, ground_of part)) parts ≡ₚ
      map (new_root inside) (List.filter (broken inside blocked) (branches t2)) ++
      (if inside (loc_of t) then [(loc_of t, if existsb (fun c => inside (loc_of c) && blocked (loc_of c) (loc_of t)) (children_of t2) then None else Some (default (loc_of t) (ground_of t)))] else []).
Proof.
  intros Hd Hm result. unfold result, propagateToNextLayer. destruct (prune_ok prune_distance Hd (deepCopy t)) as (P1 & _ & _ & P2 & P3). set (t1 := (prune prune_distance (deepCopy t)).1) in *.
  unfold straighten_root. destruct (straighten_ok dist2 magnitude (max_colinear * max_colinear) Hm t1 None (loc_of t1) 0) as (S1 & S2 & S3). set (t2 := (straighten _ _ _ _ _ _ t1).1) in *.
  destruct (S3 eq_refl) as [S4 S5]. specialize (S5 eq_refl eq_refl). rewrite P2 in S5. rewrite P3 in S4. assert (El : loc_of (deepCopy t) = loc_of t) by (by destruct t). rewrite El in S5. assert (Eg : ground_of (deepCopy t) = Some (default (loc_of t) (ground_of t))) by (by destruct t). rewrite Eg in S4.
  destruct no_outlines.
  - clearbody t2. destruct t2 as [p g cs]. done.
  - destruct (realign_ok inside blocked t2) as (t' & ps & Hr & Hl & Hn & Hb & Hro & Hg). rewrite Hr. cbn [fst snd]. rewrite S5 in *.
    exists t1, t2, (ps ++ (if inside (loc_of t) then [t'] else [])). split; [eapply alike_pruned; [apply deepCopy_alike|done]|]. split; [done|]. split; [done|]. split; [done|]. split; [|split; [|split]].
    + destruct (inside (loc_of t)); [by rewrite app_assoc|by rewrite app_nil_r].
    + rewrite <- Hn. rewrite !forest_nodes_app. apply Permutation_app_comm.
    + rewrite <- Hb. rewrite !forest_branches_app. apply Permutation_app_comm.
    + rewrite map_app. unfold roots in Hro. rewrite Hro. apply Permutation_app_head. destruct (inside (loc_of t)); [|done]. cbn [map]. rewrite Hl, (Hg eq_refl), S4. done.
Qed.
Print Assumptions C72_propagate.

(** ** lines *)
Definition all_hops (ls : list (list pt)) : list (pt * pt) := concat (map hops ls).
Lemma hops_cons a b l : hops (a :: b :: l) = (a, b) :: hops (b :: l).
Proof. done. Qed.
Lemma hops_snoc l : forall a p, last l = Some a -> hops (l ++ [p]) = hops l ++ [(a, p)].
Proof.
  induction l as [|x [|y l] IH]; intros a p Hl; [done|cbn in Hl; injection Hl as ->; done|]. cbn [app]. rewrite !hops_cons. cbn [app]. f_equal. apply (IH a p). done.
Qed.
Lemma all_hops_app a b : all_hops (a ++ b) = all_hops a ++ all_hops b.
Proof. unfold all_hops. by rewrite map_app, concat_app. Qed.
Lemma all_hops_cons l ls : all_hops (l :: ls) = hops l ++ all_hops ls.
Proof. done. Qed.
Lemma put_app l (a : list (list pt)) b p : put (length a) p (a ++ l :: b) = a ++ (l ++ [p]) :: b.
Proof. unfold put. induction a as [|x a IH]; [done|]. cbn. f_equal. exact IH. Qed.
Lemma rotate_perm {A} k (l : list A) : drop k l ++ take k l ≡ₚ l.
Proof. rewrite Permutation_app_comm. by rewrite take_drop. Qed.

Section convert.
  Context (rand : nat -> nat).
  (** what converting a tree puts at the end of its line, and the lines put behind *)
  Definition converts (f : nat -> nat * list (list pt) -> nat * list (list pt)) (t : tree) : Prop :=
    forall n before l after, exists n' long others,
      f (length before) (n, before ++ l :: after) = (n', before ++ (l ++ long) :: after ++ others) /\
      last long = Some (loc_of t) /\ all_hops (long :: others) ≡ₚ branches t /\ omap head (long :: others) ≡ₚ tips t.

  Definition rest_step (p : pt) := fun (s : nat * list (list pt)) (f : nat -> nat * list (list pt) -> nat * list (list pt)) =>
    let child_line_idx := length s.2 in
    let s := f child_line_idx (s.1, s.2 ++ [[]]) in
    (s.1, put child_line_idx p s.2).
  Lemma rest_children p cs : Forall (fun c => converts (convert rand c) c) cs -> forall n out, exists n' lines,
    foldl (rest_step p) (n, out) (map (convert rand) cs) = (n', out ++ lines) /\
    all_hops lines ≡ₚ down p cs ++ forest_branches cs /\ omap head lines ≡ₚ concat (map tips cs).
  Proof.
    induction 1 as [|c cs Hc HF IH]; intros n out.
    - exists n, []. split; [cbn; by rewrite app_nil_r|]. done.
    - cbn [map foldl]. unfold rest_step at 2. cbn [fst snd]. destruct (Hc n out [] []) as (n1 & long & others & E & Hl & Hh & Ht). rewrite E. cbn [fst snd app]. rewrite put_app.
      destruct (IH n1 (out ++ (long ++ [p]) :: others)) as (n2 & lines & E2 & Hh2 & Ht2). exists n2, ((long ++ [p]) :: others ++ lines). split; [|split].
      + rewrite E2. by rewrite <- app_assoc.
      + rewrite all_hops_cons, all_hops_app, (hops_snoc _ _ _ Hl), Hh2. rewrite all_hops_cons in Hh. unfold down, forest_branches. cbn [map concat]. rewrite <- Hh. rewrite perm_cnt. intros x. cbn [app]. rewrite ?(cnt_cons _ (_ ++ _)), !cnt_app, ?(cnt_cons _ (map _ _)). lia.
      + cbn [omap list_omap map concat] in *. change (list_omap _ _ head (others ++ lines)) with (omap head (others ++ lines)). rewrite omap_app. destruct long as [|x long]; [done|]. cbn [app head] in *. rewrite Ht2. change (list_omap _ _ head others) with (omap head others) in Ht. rewrite <- Ht. done.
  Qed.

  Lemma convert_node p g c0 cs0 idx s : convert rand (Node p g (c0 :: cs0)) idx s =
    let cs := c0 :: cs0 in
    let k := (rand s.1 mod length cs)%nat in
    match drop k cs ++ take k cs with
    | [] => s
    | c :: rest => let s := convert rand c idx (S s.1, s.2) in foldl (rest_step p) (s.1, put idx p s.2) (map (convert rand) rest)
    end.
  Proof.
    assert (H : forall fs cs, fs = map (convert rand) cs -> forall k,
      match drop k fs ++ take k fs with [] => s | f :: rotated => let s := f idx (S s.1, s.2) in foldl (rest_step p) (s.1, put idx p s.2) rotated end =
      match drop k cs ++ take k cs with [] => s | c :: rest => let s := convert rand c idx (S s.1, s.2) in foldl (rest_step p) (s.1, put idx p s.2) (map (convert rand) rest) end).
    { intros fs cs -> k. rewrite skipn_map, firstn_map, <- map_app. by destruct (drop k cs ++ take k cs). }
    specialize (H _ (c0 :: cs0) eq_refl (rand s.1 mod length (c0 :: cs0))%nat). cbv zeta. cbv zeta in H. rewrite <- H. cbn [convert map length]. by rewrite map_length.
  Qed.
  Lemma convert_ok : forall t, converts (convert rand t) t.
  Proof.
    induction t as [p g cs IH] using tree_ind'. intros n before l after.
    destruct cs as [|c0 cs0].
    - cbn [convert map fst snd]. rewrite put_app. exists n, [p], []. split; [by rewrite app_nil_r|]. split; [done|]. split; done.
    - rewrite convert_node. set (cs := c0 :: cs0) in *. cbn [fst snd].
      set (k := (rand n mod length cs)%nat). assert (Hk : (k < length cs)%nat) by (apply Nat.mod_upper_bound; done).
      destruct (drop k cs ++ take k cs) as [|c rest] eqn:Er.
      { exfalso. apply (f_equal length) in Er. rewrite app_length, drop_length, take_length in Er. cbn [length] in Er. lia. }
      assert (Hperm : c :: rest ≡ₚ cs) by (rewrite <- Er; apply rotate_perm).
      assert (HF : Forall (fun c => converts (convert rand c) c) (c :: rest)) by (by rewrite Hperm).
      inversion HF as [|? ? Hc HFr]; subst. destruct (Hc (S n) before l after) as (n1 & long & others & E & Hl & Hh & Ht). rewrite E. cbn [fst snd]. rewrite put_app.
      destruct (rest_children p rest HFr n1 (before ++ ((l ++ long) ++ [p]) :: after ++ others)) as (n2 & lines & E2 & Hh2 & Ht2). rewrite E2. exists n2, (long ++ [p]), (others ++ lines). split; [|split; [|split]].
      + f_equal. rewrite <- !app_assoc. cbn [app]. by rewrite <- !app_assoc.
      + by rewrite last_snoc.
      + rewrite branches_node. unfold down, forest_branches. rewrite <- Hperm. cbn [map concat]. rewrite all_hops_cons, all_hops_app, (hops_snoc _ _ _ Hl), Hh2. rewrite all_hops_cons in Hh. rewrite <- Hh. unfold down, forest_branches. rewrite perm_cnt. intros x. cbn [app]. rewrite ?(cnt_cons _ (_ ++ _)), !cnt_app, ?(cnt_cons _ (map _ _)). lia.
      + assert (Htips : tips (Node p g cs) = concat (map tips cs)) by done. rewrite Htips. rewrite <- Hperm. cbn [map concat omap list_omap] in *. change (list_omap _ _ head (others ++ lines)) with (omap head (others ++ lines)). rewrite omap_app. destruct long as [|x long]; [done|]. cbn [app head] in *. rewrite Ht2. change (list_omap _ _ head others) with (omap head others) in Ht. rewrite <- Ht. done.
  Qed.
End convert.

Lemma rev_snoc2 {A} (l : list A) a : rev (l ++ [a]) = a :: rev l.
Proof. by rewrite rev_app_distr. Qed.
Lemma way_length_app_cons l : forall a l', way_length (l ++ a :: l') = way_length (l ++ [a]) + way_length (a :: l').
Proof. induction l as [|x [|y l] IH]; intros a l'; [cbn; lia|cbn [app]; rewrite !way_length_cons; cbn; lia|]. cbn [app] in *. rewrite !way_length_cons. rewrite IH. lia. Qed.
Lemma reduce_ok : forall rest a r back, 0 < r \/ (0 <= r /\ back = []) -> (r = 0 -> match rest with b :: _ => vSize (psub b a) <> 0 | [] => True end) ->
  let r0 := r + way_length (a :: back) in
  exists reduced, reduce r a rest = Ok reduced /\
    ((length reduced = 1%nat /\ (rest = [] \/ way_length (rev (a :: rest) ++ back) < r0)) \/ ((1 < length reduced)%nat /\ shortened r0 (rev (a :: rest) ++ back) (rev reduced))).
Proof.
  induction rest as [|b rest IH]; intros a r back Hr Hz r0; cbn [reduce].
  - exists [a]. split; [done|]. left. split; [done|]. by left.
  - destruct (Z.leb_spec r (vSize (psub b a))) as [Hle|Hgt].
    + destruct (Z.eqb_spec (vSize (psub b a)) 0) as [E0|E0]; [exfalso; destruct Hr as [Hr|[Hr _]]; [lia|]; assert (r = 0) as -> by lia; by apply Hz|].
      eexists. split; [done|]. right. split; [cbn; lia|]. exists (rev rest), b, a, back, r. split; [cbn [rev]; by rewrite <- !app_assoc|]. split; [cbn [rev]; by rewrite <- app_assoc|]. split; [unfold r0; lia|]. destruct Hr; lia.
    + assert (H0 : 0 <= vSize (psub b a)) by apply vSize_nonneg. destruct (IH b (r - vSize (psub b a)) (a :: back)) as (red & E & Hred); [left; lia|lia|].
      exists red. split; [done|]. assert (Er0 : r - vSize (psub b a) + way_length (b :: a :: back) = r0). { rewrite way_length_cons. unfold r0. assert (vSize (psub a b) = vSize (psub b a)) as ->; [|lia]. unfold vSize. assert (vSize2 (psub a b) = vSize2 (psub b a)) as ->; [|done]. unfold vSize2, psub. cbn. lia. }
      rewrite Er0 in Hred. assert (El : rev (b :: rest) ++ a :: back = rev (a :: b :: rest) ++ back) by (cbn [rev]; by rewrite <- !app_assoc). rewrite El in Hred.
      destruct Hred as [[H1 H2]|H2]; [|by right]. left. split; [done|]. right. destruct H2 as [->|H2]; [|done]. cbn. cbn in Er0. lia.
Qed.

Lemma overlap_ok r : 0 < r -> forall fuel before lines, (length lines < fuel)%nat -> exists K G R,
  removeJunctionOverlap fuel r before lines = Ok (before ++ R) /\ lines ≡ₚ K ++ G /\ Forall2 (shortened r) K R /\ Forall (too_short r) G.
Proof.
  intros Hr. induction fuel as [|fuel IH]; intros before lines Hf; [lia|]. cbn [removeJunctionOverlap]. destruct lines as [|l lines]; [exists [], [], []; split; [by rewrite app_nil_r|]; by repeat split|].
  set (replaced := match last lines with Some l => l :: removelast lines | None => [] end).
  assert (Hrep : replaced ≡ₚ lines /\ length replaced = length lines).
  { assert (Hp : replaced ≡ₚ lines); [|split; [done|by apply Permutation_length]]. unfold replaced. destruct (last lines) as [z|] eqn:El; [|by apply last_None in El as ->]. apply last_Some in El as (l' & ->). rewrite removelast_app by done. cbn. rewrite app_nil_r. apply Permutation_cons_append. }
  destruct Hrep as [Hrep Hlen]. cbn [length] in Hf.
  assert (Hdrop : too_short r l -> exists K G R, removeJunctionOverlap fuel r before replaced = Ok (before ++ R) /\ l :: lines ≡ₚ K ++ G /\ Forall2 (shortened r) K R /\ Forall (too_short r) G).
  { intros Hs. destruct (IH before replaced ltac:(lia)) as (K & G & R & E & Hp & HK & HG). exists K, (l :: G), R. split; [done|]. split; [|split; [done|by constructor]]. rewrite <- Permutation_middle. apply perm_skip. by rewrite <- Hp. }
  destruct (Nat.leb_spec (length l) 1) as [Hl|Hl]; [apply Hdrop; by left|].
  destruct (rev l) as [|a rest] eqn:Erev; [apply (f_equal length) in Erev; rewrite rev_length in Erev; cbn in Erev; lia|].
  assert (El : l = rev (a :: rest)) by (rewrite <- Erev, rev_involutive; done).
  destruct (reduce_ok rest a r [] (or_introl Hr) ltac:(lia)) as (red & E & Hred). rewrite E. cbn [rbind]. rewrite app_nil_r, <- El in Hred. replace (r + way_length [a]) with r in Hred by (cbn; lia).
  destruct Hred as [[H1 H2]|[H1 H2]].
  - destruct (Nat.leb_spec (length red) 1); [|lia]. apply Hdrop. destruct H2 as [->|H2]; [left; by rewrite El|by right].
  - destruct (Nat.leb_spec (length red) 1); [lia|]. destruct (IH (before ++ [rev red]) lines ltac:(lia)) as (K & G & R & E2 & Hp & HK & HG). exists (l :: K), G, (rev red :: R). split; [rewrite E2; by rewrite <- app_assoc|]. split; [by rewrite Hp|]. split; [by constructor|done].
Qed.

Theorem C73_lines rand line_width t : 2 <= line_width -> exists lines K G R enough,
  concat (map hops lines) ≡ₚ branches t /\ omap head lines ≡ₚ tips t /\
  lines ≡ₚ K ++ G /\ Forall2 (shortened (line_width ÷ 2)) K R /\ Forall (too_short (line_width ÷ 2)) G /\
  forall fuel, (enough <= fuel)%nat -> convertToPolylines fuel rand line_width t = Ok R.
Proof.
  intros Hw. assert (Hr : 0 < line_width ÷ 2) by (rewrite Z.quot_div_nonneg by lia; pose proof (Z.div_le_lower_bound line_width 2 1); lia).
  destruct (convert_ok rand t 0%nat [] [] []) as (n & long & others & E & Hl & Hh & Ht). cbn [length app] in E.
  destruct (overlap_ok _ Hr (S (length (long :: others))) [] (long :: others) ltac:(lia)) as (K & G & R & Eo & Hp & HK & HG).
  exists (long :: others), K, G, R, (S (length (long :: others))). split; [done|]. split; [done|]. split; [done|]. split; [done|]. split; [done|].
  intros fuel Hf. unfold convertToPolylines. rewrite E. cbn [snd]. revert Eo Hf. generalize (S (length (long :: others))) as f0. generalize (long :: others) as ls. generalize ([] : list (list pt)) at 1 3 as before. clear. intros before ls f0.
  cbn [app]. revert before ls fuel. induction f0 as [|f0 IH]; intros before ls fuel E Hf; [done|]. destruct fuel as [|fuel]; [lia|]. cbn [removeJunctionOverlap] in E |- *. destruct ls as [|l ls]; [done|]. destruct (_ <=? 1)%nat; [apply IH; [done|lia]|]. destruct (rev l) as [|a rest]; [apply IH; [done|lia]|]. apply rbind_ok in E as (red & E1 & E). rewrite E1. cbn [rbind]. destruct (_ <=? 1)%nat; (apply IH; [done|lia]).
Qed.
Print Assumptions C73_lines.

(** ** changing the root *)
Lemma forest_delete cs i c : cs !! i = Some c ->
  forest_nodes cs ≡ₚ nodes c ++ forest_nodes (delete i cs) /\ forest_branches cs ≡ₚ branches c ++ forest_branches (delete i cs) /\
  (forall p, down p cs ≡ₚ (loc_of c, p) :: down p (delete i cs)).
Proof.
  intros H. assert (Hp : cs ≡ₚ c :: delete i cs) by (by apply delete_Permutation). unfold forest_nodes, forest_branches, down. split; [|split].
  - by rewrite Hp at 1.
  - by rewrite Hp at 1.
  - intros p. by rewrite Hp at 1.
Qed.
Lemma down_app p a b : down p (a ++ b) = down p a ++ down p b.
Proof. unfold down. by rewrite map_app. Qed.
Lemma nodes_node p g cs : nodes (Node p g cs) = p :: forest_nodes cs.
Proof. done. Qed.

Lemma reroot_ok : forall path t up q, node_at t path = Some q -> exists t' E1 E2,
  reroot up t path = Ok t' /\ loc_of t' = q /\ nodes t' ≡ₚ nodes t ++ forest_nodes up /\
  branches t ≡ₚ E1 ++ E2 /\ branches t' ≡ₚ E1 ++ map swap E2 ++ down (loc_of t) up ++ forest_branches up.
Proof.
  induction path as [|i path IH]; intros [p g cs] up q Hq; cbn [node_at] in Hq.
  - injection Hq as <-. exists (Node p g (cs ++ up)), (branches (Node p g cs)), []. split; [done|]. split; [done|]. split; [|split].
    + rewrite !nodes_node, forest_nodes_app. done.
    + by rewrite app_nil_r.
    + rewrite !branches_node, down_app, forest_branches_app. cbn [map app loc_of]. rewrite perm_cnt. intros x. rewrite !cnt_app. lia.
  - destruct (cs !! i) as [c|] eqn:Ec; [|done]. destruct (IH c [Node p g (delete i cs ++ up)] q Hq) as (t' & E1 & E2 & E & Hl & Hn & Hb & Hb').
    destruct (forest_delete _ _ _ Ec) as (Dn & Db & Dd). exists t', (E1 ++ down p (delete i cs) ++ forest_branches (delete i cs)), (E2 ++ [(loc_of c, p)]).
    split; [cbn [reroot]; rewrite Ec; exact E|]. split; [done|]. split; [|split].
    + rewrite Hn, nodes_node, forest_nodes_one, nodes_node, forest_nodes_app, Dn. rewrite perm_cnt. intros x. cbn [app]. rewrite ?cnt_app, !(cnt_cons p (_ ++ _)), ?cnt_app. lia.
    + rewrite branches_node, Dd, Db, Hb. rewrite perm_cnt. intros x. cbn [app]. rewrite ?(cnt_cons _ (down _ _ ++ _)), !cnt_app. lia.
    + rewrite Hb', forest_branches_one, branches_node, down_app, forest_branches_app, map_app. cbn [map loc_of]. unfold swap at 3. cbn [fst snd]. unfold down at 1. cbn [map loc_of]. rewrite perm_cnt. intros x. rewrite !cnt_app. lia.
Qed.

Lemma closest_ok loc : forall t, exists q, node_at t (closestNode loc t).1 = Some q /\ vSize2 (psub q loc) = (closestNode loc t).2 /\ Forall (fun x => (closestNode loc t).2 <= vSize2 (psub x loc)) (nodes t).
Proof.
  induction t as [p g cs IH] using tree_ind'. cbn [closestNode]. rewrite nodes_node.
  set (step := fun (s : nat * (list nat * Z)) (candidate : list nat * Z) => (S s.1, if candidate.2 <? s.2.2 then (s.1 :: candidate.1, candidate.2) else s.2)).
  assert (H : forall before after s, cs = before ++ after -> s.1 = length before ->
    (exists q, node_at (Node p g cs) s.2.1 = Some q /\ vSize2 (psub q loc) = s.2.2) -> Forall (fun x => s.2.2 <= vSize2 (psub x loc)) (p :: forest_nodes before) ->
    let r := foldl step s (map (closestNode loc) after) in
    (exists q, node_at (Node p g cs) r.2.1 = Some q /\ vSize2 (psub q loc) = r.2.2) /\ Forall (fun x => r.2.2 <= vSize2 (psub x loc)) (p :: forest_nodes cs)).
  { intros before after. revert before. induction after as [|c after IHa]; intros before s Ecs Hlen Hq HF; [rewrite app_nil_r in Ecs; subst; by split|].
    cbn [map foldl]. apply (IHa (before ++ [c])); [by rewrite <- app_assoc|unfold step; cbn [fst]; rewrite Hlen, app_length; cbn; lia| |].
    - unfold step. cbn [fst snd]. destruct (_ <? _); [|done]. assert (Hc : cs !! length before = Some c) by (rewrite Ecs; by apply list_lookup_middle). cbn [fst snd node_at]. rewrite Hlen, Hc.
      assert (Hin : c ∈ cs) by (by eapply elem_of_list_lookup_2). rewrite Forall_forall in IH. destruct (IH c Hin) as (q & H1 & H2 & _). by exists q.
    - assert (Hin : c ∈ cs) by (rewrite Ecs; set_solver). rewrite Forall_forall in IH. destruct (IH c Hin) as (q & _ & _ & H3). rewrite forest_nodes_app, forest_nodes_one. unfold step. cbn [fst snd].
      change (p :: forest_nodes before ++ nodes c) with ((p :: forest_nodes before) ++ nodes c). rewrite Forall_app. destruct (Z.ltb_spec (closestNode loc c).2 s.2.2) as [Hlt|Hge]; cbn [snd].
      + split; [|done]. eapply Forall_impl; [exact HF|]. cbn. intros x Hx. lia.
      + split; [done|]. eapply Forall_impl; [exact H3|]. cbn. intros x Hx. lia. }
  destruct (H [] cs (0%nat, ([], vSize2 (psub p loc))) eq_refl eq_refl) as [(q & H1 & H2) H3].
  - by exists p.
  - constructor; [cbn; lia|constructor].
  - by exists q.
Qed.

Theorem C74_reroot t loc : exists q t' E1 E2,
  node_at t (closestNode loc t).1 = Some q /\ Forall (fun x => vSize2 (psub q loc) <= vSize2 (psub x loc)) (nodes t) /\
  reroot [] t (closestNode loc t).1 = Ok t' /\ loc_of t' = q /\ nodes t' ≡ₚ nodes t /\
  branches t ≡ₚ E1 ++ E2 /\ branches t' ≡ₚ E1 ++ map swap E2.
Proof.
  destruct (closest_ok loc t) as (q & H1 & H2 & H3). destruct (reroot_ok _ _ [] _ H1) as (t' & E1 & E2 & E & Hl & Hn & Hb & Hb'). exists q, t', E1, E2. split; [done|]. split; [by rewrite H2|]. split; [done|]. split; [done|].
  split; [rewrite Hn; cbn; by rewrite app_nil_r|]. split; [done|]. rewrite Hb'. cbn. by rewrite app_nil_r.
Qed.
Print Assumptions C74_reroot.
Theorem C74_reroot_any path t q : node_at t path = Some q -> exists t' E1 E2,
  reroot [] t path = Ok t' /\ loc_of t' = q /\ nodes t' ≡ₚ nodes t /\ branches t ≡ₚ E1 ++ E2 /\ branches t' ≡ₚ E1 ++ map swap E2.
Proof.
  intros H1. destruct (reroot_ok _ _ [] _ H1) as (t' & E1 & E2 & E & Hl & Hn & Hb & Hb'). exists t', E1, E2. split; [done|]. split; [done|].
  split; [rewrite Hn; cbn; by rewrite app_nil_r|]. split; [done|]. rewrite Hb'. cbn. by rewrite app_nil_r.
Qed.
Print Assumptions C74_reroot_any.

(** ** a tree with a fork; the second branch leaves the outlines, a half plane, on the next layer *)
Definition oak : tree := Node (0, 0) None [Node (1000, 0) None [Node (2000, 0) None [Node (3000, 1000) None []; Node (3000, -1000) None []]]; Node (0, 3000) None []].
Example prune_oak : prune 500 (deepCopy oak) = (Node (0, 0) (Some (0, 0)) [Node (1000, 0) None [Node (2000, 0) None [Node (2647, 647) None []; Node (2647, -647) None []]]; Node (0, 2500) None []], 500).
Proof. vm_compute. reflexivity. Qed.
Example propagate_oak : propagateToNextLayer (fun _ _ _ => 1000) false (fun p => p.2 <=? 600) (fun a b => b.1 <? 600) 500 100 0 [] oak =
  [Node (1037, 0) None [Node (2075, 0) None [Node (2647, -647) None []]]; Node (0, 0) None []].
Proof. vm_compute. reflexivity. Qed.
Example lines_oak : convertToPolylines 10 (fun n => n) 400 oak = Ok [[(3000, 1000); (2000, 0); (1000, 0); (200, 0)]; [(3000, -1000); (2141, -141)]; [(0, 3000); (0, 200)]].
Proof. vm_compute. reflexivity. Qed.
Example reroot_oak : closestNode (2900, 800) oak = ([0; 0; 0]%nat, 50000) /\ reroot [] oak [0; 0; 0]%nat =
  Ok (Node (3000, 1000) None [Node (2000, 0) None [Node (3000, -1000) None []; Node (1000, 0) None [Node (0, 0) None [Node (0, 3000) None []]]]]).
Proof. vm_compute. split; reflexivity. Qed.
