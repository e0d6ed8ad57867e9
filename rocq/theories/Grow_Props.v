(** Proofs of C75 (all points are supported), C76 (grounding), C77 (reconnecting roots). *)
From Coq Require Import ZArith Lia.
From stdpp Require Import prelude list.
From Verif Require Import Common Geo_Model Grid_Model Grid_Proofs Grid_Props Combing_Model Combing_Props Lightning_Model Lightning_Spec Lightning_Props Grow_Model Grow_Spec.
Open Scope Z_scope.

(** ** dots *)
Lemma dots_from_ok g x lo hi : 0 < g -> forall fuel y, (Z.to_nat (hi - y) <= fuel)%nat -> exists dots, dots_from fuel g x lo hi y = Ok dots /\
  NoDup dots /\ forall p, p ∈ dots <-> p.1 = x /\ lo <= p.2 < hi /\ exists k, 0 <= k /\ p.2 = y + k * g.
Proof.
  intros Hg. induction fuel as [|fuel IH]; intros y Hf; cbn [dots_from]; destruct (Z.ltb_spec y hi) as [Hy|Hy]; [lia| | |].
  2: { destruct (IH (y + g) ltac:(lia)) as (dots & E & Hn & Hd). rewrite E. cbn [rbind]. eexists. split; [done|]. 
       assert (Hnew : forall p, p ∈ dots -> y < p.2) by (intros p Hp; apply Hd in Hp as (_ & _ & k & Hk & ->); nia).
       destruct (Z.ltb_spec y lo) as [Hlo|Hlo].
       - split; [done|]. intros p. rewrite Hd. split; intros (-> & H2 & k & Hk & E2); (split; [done|]; split; [done|]).
         + exists (k + 1). lia.
         + exists (k - 1). split; [|lia]. destruct (Z.eq_dec k 0) as [-> |]; lia.
       - split; [constructor; [|done]; intros Hin; apply Hnew in Hin; cbn in Hin; lia|]. intros p. rewrite elem_of_cons, Hd. split.
         + intros [-> |(-> & H2 & k & Hk & E2)]; [split; [done|]; split; [cbn; lia|]; exists 0; cbn; lia|]. split; [done|]. split; [done|]. exists (k + 1). lia.
         + intros (E1 & H2 & k & Hk & E2). destruct (Z.eq_dec k 0) as [-> |]; [left; destruct p; cbn in *; f_equal; lia|]. right. split; [done|]. split; [done|]. exists (k - 1). lia. }
  all: exists []; split; [done|]; split; [constructor|]; intros p; rewrite elem_of_nil; split; [done|]; intros (_ & H2 & k & Hk & E2); nia.
Qed.

Lemma spread_ok c lines : 0 < c -> vertical_lines c lines -> exists dots, spreadDots c lines = Ok dots /\ NoDup dots /\ forall p, p ∈ dots <-> to_support c lines p.
Proof.
  intros Hc. induction lines as [|line lines IH]; intros [Hv Ha]; cbn [spreadDots].
  - exists []. split; [done|]. split; [constructor|]. intros p. rewrite elem_of_nil. split; [done|]. intros (line & Hin & _). by apply elem_of_nil in Hin.
  - destruct IH as (r & Er & Nr & Hr); [split; [intros l Hl; apply Hv; by right|]; intros i j l1 l2 Hij H1 H2; apply (Ha (S i) (S j)); [lia|done|done]|].
    destruct (Hv line ltac:(left)) as [Hx Hdx].
    assert (Hab : exists a b, (if line.2.2 <? line.1.2 then (line.2, line.1) else (line.1, line.2)) = (a, b) /\ a.2 = lower line /\ b.2 = upper line /\ a.1 = line.1.1).
    { unfold lower, upper. destruct (Z.ltb_spec line.2.2 line.1.2); [exists line.2, line.1|exists line.1, line.2]; (split; [done|]); (split; [lia|]); (split; [lia|]); done. }
    destruct Hab as (a & b & -> & Ea & Eb & Eax). cbn [fst snd]. rewrite Ea, Eb, Eax.
    set (first := lower line - Z.rem (lower line) c - c).
    assert (Hfirst : (c | first) /\ first <= lower line).
    { unfold first. pose proof (Z.quot_rem' (lower line) c) as Hq. pose proof (Z.rem_bound_abs (lower line) c ltac:(lia)). split; [exists (lower line ÷ c - 1); lia|lia]. }
    destruct Hfirst as [[f0 Hf0] Hfl].
    destruct (dots_from_ok c line.1.1 (lower line) (upper line) Hc (Z.to_nat (upper line - first)) first ltac:(lia)) as (dots & E & Nd & Hd). rewrite E, Er. cbn [rbind].
    assert (Hd' : forall p, p ∈ dots <-> p.1 = line.1.1 /\ lower line <= p.2 < upper line /\ (c | p.2)).
    { intros p. rewrite Hd. split; intros (E1 & H2 & H3); (split; [done|]; split; [done|]).
      - destruct H3 as (k & _ & ->). exists (f0 + k). lia.
      - destruct H3 as (k & Hk). exists (k - f0). split; [|lia]. nia. }
    eexists. split; [done|]. split.
    + apply NoDup_app. split; [done|]. split; [|done]. intros p H1 H2. apply Hd' in H1 as (E1 & H1 & _). apply Hr in H2 as (l2 & Hl2 & E2 & H2 & _).
      apply elem_of_list_lookup in Hl2 as (j & Hj). destruct (Ha 0%nat (S j) line l2 ltac:(lia) eq_refl Hj (eq_trans (eq_sym E1) E2)); lia.
    + intros p. rewrite elem_of_app, Hd', Hr. unfold to_support. split.
      * intros [H|(l & Hl & H)]; [exists line; split; [left|done]|exists l; split; [by right|done]].
      * intros (l & Hl & H). apply elem_of_cons in Hl as [-> |Hl]; [by left|]. right. by exists l.
Qed.

(** ** the field *)
Section field.
  Context (c r : Z) (Hc : 0 < c) (Hr : 0 <= r).
  Definition nearb (leaf p : pt) : bool := shorterThen (psub p leaf) r.
  Lemma nearb_near leaf p : nearb leaf p = true <-> near r p leaf.
  Proof.
    unfold nearb, near, shorterThen. set (q := psub p leaf). split.
    - destruct (_ || _); [done|]. destruct (_ || _); [done|]. apply Z.leb_le.
    - intros H. assert (H1 : Z.abs q.1 <= r /\ Z.abs q.2 <= r). { unfold vSize2 in H. split; apply Z.square_le_simpl_nonneg; try done; rewrite Z.abs_square; nia. }
      destruct (Z.ltb_spec r q.1); [lia|]. destruct (Z.ltb_spec q.1 (- r)); [lia|]. destruct (Z.ltb_spec r q.2); [lia|]. destruct (Z.ltb_spec q.2 (- r)); [lia|]. cbn. by apply Z.leb_le.
  Qed.
  Definition valid (s : field) : Prop :=
    NoDup (map (toGridPoint c) s.1) /\ forall cell loc, at_cell s.2 cell = Some loc <-> loc ∈ s.1 /\ toGridPoint c loc = cell.
  Lemma at_cell_filter g cell cell' : at_cell (filter (fun e : pt * pt => e.1 <> cell) g) cell' = if decide (cell' = cell) then None else at_cell g cell'.
  Proof.
    induction g as [|e g IH]; [by destruct (decide _)|]. rewrite filter_cons. cbn [at_cell]. destruct (decide (e.1 <> cell)) as [H|H].
    - cbn [at_cell]. rewrite IH. destruct (decide (e.1 = cell')), (decide (cell' = cell)); congruence.
    - rewrite IH. apply dec_stable in H. destruct (decide (e.1 = cell')), (decide (cell' = cell)); congruence.
  Qed.
  Lemma at_cell_snoc g e cell : at_cell (g ++ [e]) cell = match at_cell g cell with Some l => Some l | None => if decide (e.1 = cell) then Some e.2 else None end.
  Proof. induction g as [|x g IH]; [done|]. cbn [app at_cell]. rewrite IH. by destruct (decide (x.1 = cell)). Qed.
  Lemma field_of_ok dots : NoDup (map (toGridPoint c) dots) -> valid (field_of c dots) /\ (field_of c dots).1 = dots.
  Proof.
    intros Hn. split; [|done]. split; [done|]. unfold field_of. cbn [fst snd].
    induction dots as [|p dots IH] using rev_ind; intros cell loc; [cbn; rewrite elem_of_nil; split; [done|by intros [? _]]|].
    rewrite map_app in Hn. apply NoDup_app in Hn as (Hn & Hx & _). specialize (IH Hn). rewrite foldl_app. cbn [foldl]. set (G := foldl _ [] dots) in *. clearbody G.
    assert (Hnone : at_cell G (toGridPoint c p) = None).
    { destruct (at_cell _ _) as [l|] eqn:E; [|done]. exfalso. apply IH in E as [E1 E2]. apply (Hx (toGridPoint c p)); [|cbn; left]. rewrite <- E2. by apply (elem_of_list_fmap_1 (toGridPoint c)). }
    rewrite Hnone, at_cell_snoc. cbn [fst snd]. rewrite elem_of_app, elem_of_list_singleton. destruct (at_cell G cell) as [l|] eqn:E.
    - pose proof (proj1 (IH _ _) E) as [E1 E2]. split; [intros [= ->]; split; [by left|done]|]. intros [[H1| ->] H2]; [|congruence]. rewrite <- E. by apply IH.
    - destruct (decide (toGridPoint c p = cell)) as [Hp|Hp]; split.
      + intros [= <-]. split; [by right|done].
      + intros [[H1| ->] H2]; [|done]. exfalso. assert (at_cell G cell = Some loc) by (by apply IH). congruence.
      + done.
      + intros [[H1| ->] H2]; [|done]. exfalso. assert (at_cell G cell = Some loc) by (by apply IH). congruence.
  Qed.
  Lemma filter_all {A} (f : A -> bool) l : (forall x, x ∈ l -> f x = true) -> List.filter f l = l.
  Proof. induction l as [|a l IH]; intros H; [done|]. cbn. rewrite (H a) by left. f_equal. apply IH. intros x Hx. apply H. by right. Qed.
  Lemma filter_filter_b {A} (f g : A -> bool) l : List.filter f (List.filter g l) = List.filter (fun x => g x && f x) l.
  Proof. induction l as [|a l IH]; [done|]. cbn. destruct (g a); cbn; [destruct (f a); by rewrite IH|done]. Qed.
  Lemma filter_ext_in {A} (f g : A -> bool) l : (forall x, x ∈ l -> f x = g x) -> List.filter f l = List.filter g l.
  Proof. induction l as [|a l IH]; intros H; [done|]. cbn. rewrite (H a) by left. rewrite IH; [done|]. intros x Hx. apply H. by right. Qed.
  Lemma erase_ok l x : NoDup l -> erase_point x l = List.filter (fun p => negb (bool_decide (p = x))) l.
  Proof.
    induction l as [|a l IH]; intros Hn; [done|]. apply NoDup_cons in Hn as [Hna Hn]. cbn [erase_point List.filter]. destruct (decide (a = x)) as [-> |Hax].
    - rewrite bool_decide_eq_true_2 by done. cbn. symmetry. apply filter_all. intros y Hy. rewrite bool_decide_eq_false_2; [done|]. by intros ->.
    - rewrite bool_decide_eq_false_2 by done. cbn. f_equal. by apply IH.
  Qed.
  Lemma NoDup_map_inj {A B} (f : A -> B) l x y : NoDup (map f l) -> x ∈ l -> y ∈ l -> f x = f y -> x = y.
  Proof.
    induction l as [|a l IH]; intros Hn Hx Hy E; [by apply elem_of_nil in Hx|]. cbn in Hn. apply NoDup_cons in Hn as [Ha Hn].
    apply elem_of_cons in Hx as [-> |Hx], Hy as [-> |Hy]; [done| | |by apply IH]; exfalso; apply Ha.
    - rewrite E. by apply (elem_of_list_fmap_1 f).
    - rewrite <- E. by apply (elem_of_list_fmap_1 f).
  Qed.
  Lemma NoDup_map_filter {A B} (f : A -> B) (q : A -> bool) l : NoDup (map f l) -> NoDup (map f (List.filter q l)).
  Proof.
    induction l as [|a l IH]; intros Hn; [done|]. cbn in Hn. apply NoDup_cons in Hn as [Ha Hn]. cbn. destruct (q a); [|by apply IH]. cbn. constructor; [|by apply IH].
    intros Hin. apply Ha. change (map f (List.filter q l)) with (f <$> List.filter q l) in Hin. apply elem_of_list_fmap in Hin as (y & -> & Hy). apply elem_of_list_In, filter_In in Hy as [Hy _]. apply (elem_of_list_fmap_1 f). by apply elem_of_list_In.
  Qed.
  Definition stays (leaf : pt) (cells : list pt) (p : pt) : bool := negb (bool_decide (toGridPoint c p ∈ cells) && nearb leaf p).
  Lemma process_ok leaf s cell : valid s -> valid (process_cell r leaf s cell).1 /\ (process_cell r leaf s cell).1.1 = List.filter (stays leaf [cell]) s.1.
  Proof.
    intros [Hn Hg]. unfold process_cell. cbn [fst]. destruct (at_cell s.2 cell) as [loc|] eqn:E.
    - pose proof (proj1 (Hg _ _) E) as [Hl Hcell].
      assert (Hone : forall p, p ∈ s.1 -> toGridPoint c p = cell -> p = loc) by (intros p Hp Ep; apply (NoDup_map_inj _ _ p loc Hn Hp Hl); congruence).
      fold (nearb leaf loc). destruct (nearb leaf loc) eqn:En.
      + assert (Ef : erase_point loc s.1 = List.filter (stays leaf [cell]) s.1).
        { rewrite erase_ok by (by eapply NoDup_fmap_1). apply filter_ext_in. intros p Hp. unfold stays. destruct (decide (p = loc)) as [-> |Hpl].
          - rewrite bool_decide_eq_true_2, bool_decide_eq_true_2 by set_solver. by rewrite En.
          - rewrite bool_decide_eq_false_2, bool_decide_eq_false_2; [done| |done]. rewrite elem_of_list_singleton. intros Ep. by apply Hpl, Hone. }
        split; [|cbn; done]. split; cbn [fst snd]; [rewrite Ef; by apply NoDup_map_filter|]. intros cell' loc'. rewrite at_cell_filter, Ef. rewrite elem_of_list_In, filter_In, <- elem_of_list_In. destruct (decide (cell' = cell)) as [-> |Hne].
        * split; [done|]. intros [[H1 H2] H3]. exfalso. pose proof (Hone _ H1 H3) as ->. unfold stays in H2. rewrite bool_decide_eq_true_2 in H2 by set_solver. by rewrite En in H2.
        * rewrite Hg. split; [|naive_solver]. intros [H1 H2]. split; [split; [done|]|done]. unfold stays. rewrite bool_decide_eq_false_2; [done|]. rewrite elem_of_list_singleton. congruence.
      + split; [done|]. symmetry. apply filter_all. intros p Hp. unfold stays. destruct (decide (toGridPoint c p = cell)) as [Ep|Ep]; [rewrite (Hone _ Hp Ep), En; by rewrite andb_false_r|]. rewrite bool_decide_eq_false_2; [done|]. by rewrite elem_of_list_singleton.
    - split; [done|]. symmetry. apply filter_all. intros p Hp. unfold stays. rewrite bool_decide_eq_false_2; [done|]. rewrite elem_of_list_singleton. intros Ep. assert (at_cell s.2 cell = Some p) by (by apply Hg). congruence.
  Qed.
  Lemma run_process leaf : forall cells s, valid s -> valid (run (process_cell r leaf) s cells).1 /\ (run (process_cell r leaf) s cells).1.1 = List.filter (stays leaf cells) s.1.
  Proof.
    induction cells as [|cell cells IH]; intros s Hs; [split; [done|]; symmetry; apply filter_all; intros p _; unfold stays; by rewrite bool_decide_eq_false_2 by apply not_elem_of_nil|].
    cbn [run]. destruct (process_cell r leaf s cell) as [s' b] eqn:E. destruct (process_ok leaf s cell Hs) as [H1 H2]. rewrite E in H1, H2. cbn [fst] in H1, H2. assert (b = true) as -> by (unfold process_cell in E; congruence).
    destruct (IH s' H1) as [H3 H4]. split; [done|]. rewrite H4, H2, filter_filter_b. apply filter_ext_in. intros p _. unfold stays. destruct (nearb leaf p); [|by rewrite !andb_false_r]. rewrite !andb_true_r. rewrite <- negb_orb. f_equal. rewrite <- bool_decide_or. apply bool_decide_ext. set_solver.
  Qed.
  Lemma update_ok to_node leaf s : valid s -> exists s', update c r to_node leaf s = Ok s' /\ valid s' /\ s'.1 = List.filter (fun p => negb (nearb leaf p)) s.1.
  Proof.
    intros Hs. unfold update. set (ab := psub leaf to_node). set (ext := normal _ _).
    destruct (C20_line_cells c (padd to_node ext) (psub to_node ext) Hc) as (outer & Ho & _). rewrite Ho. cbn [rbind].
    set (f := fun (s : res field) p => _).
    assert (Hrun : forall cells s, valid s -> exists s' q, (run f (Ok s) cells).1 = Ok s' /\ valid s' /\ s'.1 = List.filter q s.1 /\ forall p, nearb leaf p = false -> q p = true).
    { induction cells as [|cell cells IH]; intros s0 Hs0.
      - exists s0, (fun _ => true). split; [done|]. split; [done|]. split; [symmetry; by apply filter_all|done].
      - cbn [run]. unfold f at 1. cbn [rbind]. destruct (C20_line_cells c cell (padd cell ab) Hc) as (inner & Hi & _). rewrite Hi. cbn [rbind]. destruct (run_process leaf inner s0 Hs0) as [H1 H2].
        destruct (IH _ H1) as (s' & q & E & Hv & Hq & Hq2). exists s', (fun p => stays leaf inner p && q p). split; [exact E|]. split; [done|]. split; [rewrite Hq, H2; apply filter_filter_b|]. intros p Hp. rewrite (Hq2 p Hp). unfold stays. rewrite Hp. by rewrite andb_false_r. }
    destruct (Hrun outer s Hs) as (s' & q & E & Hv & Hq & Hq2). rewrite E. cbn [rbind]. destruct (run_process leaf (nearby_cells c leaf r) s' Hv) as [H1 H2]. eexists. split; [done|]. split; [done|]. rewrite H2, Hq, filter_filter_b. apply filter_ext_in. intros p _.
    destruct (nearb leaf p) eqn:En; [|unfold stays; rewrite En, (Hq2 p En); by rewrite andb_false_r]. unfold stays. rewrite En. rewrite bool_decide_eq_true_2; [by rewrite andb_false_r|].
    apply nearb_near in En. unfold near in En. destruct (disc_in_square p leaf r Hr En) as [A1 A2]. by apply within_cell.
  Qed.
End field.

(** ** grounding *)
Section ground.
  Context (closest : pt -> pt) (collides : pt -> pt -> bool) (nearby : list tree -> pt -> Z -> list place) (r wall : Z).
  Lemma weighted_cost pl t u : weighted_distance t (is_root pl) u r = cost r pl t u.
  Proof.
    unfold weighted_distance, cost, neighbours, is_root. f_equal. destruct pl as [k [|x l]]; cbn [fst snd].
    - destruct (Nat.ltb_spec 0 (0 + length (children_of t))), (Nat.ltb_spec (0 + length (children_of t)) 4); cbn [andb]; repeat case_decide; try done; lia.
    - destruct (Nat.ltb_spec 0 (1 + length (children_of t))), (Nat.ltb_spec (1 + length (children_of t)) 4); cbn [andb]; repeat case_decide; try done; lia.
  Qed.
  Theorem C76_grounding trees excluded u :
    let dist := vSize (psub (closest u) u) in
    match getBestGroundingLocation closest collides nearby r wall trees excluded u with
    | Boundary p => p = closest u /\
        (dist < wall \/ forall pl t, pl ∈ nearby trees u dist -> eligible collides trees excluded u pl t -> dist <= cost r pl t u)
    | TreeNode pl p => wall <= dist /\ exists t, pl ∈ nearby trees u dist /\ eligible collides trees excluded u pl t /\ p = loc_of t /\
        cost r pl t u < dist /\ forall pl' t', pl' ∈ nearby trees u dist -> eligible collides trees excluded u pl' t' -> cost r pl t u <= cost r pl' t' u
    end.
  Proof.
    cbv zeta. unfold getBestGroundingLocation. rewrite Z.min_id. set (dist := vSize (psub (closest u) u)).
    destruct (Z.leb_spec wall dist) as [Hw|Hw]; [|split; [done|by left]].
    set (step := fun (s : option (place * pt) * Z) candidate => _).
    assert (H : forall l s, 
      let s' := foldl step s l in
      s'.2 <= s.2 /\ (forall pl t, pl ∈ l -> eligible collides trees excluded u pl t -> s'.2 <= cost r pl t u) /\
      (s' = s \/ exists pl t, s'.1 = Some (pl, loc_of t) /\ pl ∈ l /\ eligible collides trees excluded u pl t /\ s'.2 = cost r pl t u /\ cost r pl t u < s.2)).
    { induction l as [|pl l IH]; intros s; [cbn; split; [lia|]; split; [intros pl t Hin; by apply elem_of_nil in Hin|by left]|].
      cbn [foldl]. specialize (IH (step s pl)). cbv zeta in IH. set (s' := foldl step (step s pl) l) in *. destruct IH as (I1 & I2 & I3).
      assert (Hstep : (step s pl = s /\ (forall t, eligible collides trees excluded u pl t -> s.2 <= cost r pl t u)) \/
        exists t, eligible collides trees excluded u pl t /\ step s pl = (Some (pl, loc_of t), cost r pl t u) /\ cost r pl t u < s.2).
      { unfold step, eligible. destruct (node_of trees pl) as [t|]; [|left; split; [done|]; by intros t [? _]].
        destruct (decide (excluded = Some pl.1)) as [He|He]; [rewrite bool_decide_eq_true_2 by done; left; split; [done|]; by intros t' (_ & ? & _)|]. rewrite bool_decide_eq_false_2 by done. cbn [negb andb].
        destruct (collides u (loc_of t)) eqn:Ec; cbn [negb]; [left; split; [done|]; intros t' ([= <-] & _ & ?); congruence|]. rewrite weighted_cost.
        destruct (Z.ltb_spec (cost r pl t u) s.2) as [Hlt|Hge]; [right; by exists t|]. left. split; [done|]. intros t' ([= <-] & _). done. }
      destruct Hstep as [[Es Hs]|(t & He & Es & Hlt)].
      - rewrite Es in *. split; [done|]. split.
        + intros pl' t Hin Hel. apply elem_of_cons in Hin as [-> |Hin]; [specialize (Hs _ Hel); lia|by apply I2].
        + destruct I3 as [I3|(pl' & t & H1 & H2 & H3)]; [by left|]. right. exists pl', t. split; [done|]. split; [by right|done].
      - rewrite Es in I1, I3. cbn [fst snd] in *. split; [lia|]. split.
        + intros pl' t' Hin Hel. apply elem_of_cons in Hin as [-> |Hin]; [|by apply I2]. destruct He as (E1 & _), Hel as (E2 & _). assert (t' = t) as -> by congruence. done.
        + right. destruct I3 as [I3|(pl' & t' & H1 & H2 & H3 & H4 & H5)].
          * exists pl, t. rewrite I3. split; [done|]. split; [left|]. done.
          * exists pl', t'. split; [done|]. split; [by right|]. split; [done|]. split; [done|]. lia. }
    destruct (H (nearby trees u dist) (None, dist)) as (H1 & H2 & H3). cbn [fst snd] in *. destruct (foldl step (None, dist) (nearby trees u dist)) as [o d] eqn:E. cbn [fst snd] in *.
    destruct H3 as [H3|(pl & t & -> & H4 & H5 & -> & H6)]; [injection H3 as -> ->; split; [done|by right]|]. cbn [fst snd]. split; [done|]. exists t. done.
  Qed.

  Lemma subtree_node t path : node_at t path = loc_of <$> subtree_at t path.
  Proof. revert t. induction path as [|i path IH]; intros [p g cs]; [done|]. cbn. destruct (cs !! i); [apply IH|done]. Qed.
  Lemma forest_insert cs i a b : cs !! i = Some a -> forall p,
    forest_nodes (<[i := b]> cs) ≡ₚ nodes b ++ forest_nodes (delete i cs) /\ forest_branches (<[i := b]> cs) ≡ₚ branches b ++ forest_branches (delete i cs) /\
    down p (<[i := b]> cs) ≡ₚ (loc_of b, p) :: down p (delete i cs).
  Proof.
    intros H p. assert (Hi : <[i := b]> cs !! i = Some b) by (apply list_lookup_insert; by eapply lookup_lt_Some).
    destruct (forest_delete _ _ _ Hi) as (H1 & H2 & H3). assert (E : delete i (<[i := b]> cs) = delete i cs).
    { rewrite !delete_take_drop. rewrite take_insert by lia. rewrite drop_insert_gt by lia. done. }
    rewrite E in *. split; [done|]. split; [done|]. apply H3.
  Qed.
  Lemma add_child_ok child : forall path t s, subtree_at t path = Some s -> exists t', add_child t path child = Ok t' /\ loc_of t' = loc_of t /\
    nodes t' ≡ₚ nodes t ++ nodes child /\ branches t' ≡ₚ branches t ++ (loc_of child, loc_of s) :: branches child.
  Proof.
    induction path as [|i path IH]; intros [p g cs] s Hs; cbn [subtree_at] in Hs.
    - injection Hs as <-. eexists. split; [done|]. split; [done|]. rewrite !nodes_node, !branches_node, forest_nodes_app, forest_nodes_one, down_app, forest_branches_app, forest_branches_one. cbn [loc_of]. split; [done|].
      rewrite perm_cnt. intros x. unfold down at 2. cbn [map]. rewrite !cnt_app, (cnt_cons _ (branches child)). lia.
    - destruct (cs !! i) as [c|] eqn:Ec; [|done]. destruct (IH c s Hs) as (c' & E & Hl & Hn & Hb). cbn [add_child]. rewrite Ec. cbn [of_opt rbind]. rewrite E. cbn [rbind]. eexists. split; [done|]. split; [done|].
      destruct (forest_delete _ _ _ Ec) as (D1 & D2 & D3). destruct (forest_insert _ _ _ c' Ec p) as (I1 & I2 & I3). rewrite !nodes_node, !branches_node. rewrite I1, I2, I3, D1, D2, D3, Hn, Hb, Hl. split.
      + rewrite perm_cnt. intros x. cbn [app]. rewrite !(cnt_cons p (_ ++ _)), !cnt_app. lia.
      + rewrite perm_cnt. intros x. cbn [app]. rewrite !(cnt_cons _ (_ ++ _)), !cnt_app, !(cnt_cons _ (branches child)). lia.
  Qed.
  Lemma attach_at_ok trees pl t child : node_of trees pl = Some t -> exists trees', add_child_at trees pl child = Ok trees' /\ length trees' = length trees /\
    forest_nodes trees' ≡ₚ forest_nodes trees ++ nodes child /\ forest_branches trees' ≡ₚ forest_branches trees ++ (loc_of child, loc_of t) :: branches child.
  Proof.
    unfold node_of, add_child_at. intros H. destruct (trees !! pl.1) as [t0|] eqn:E0; [|done]. cbn in H. destruct (add_child_ok child _ _ _ H) as (t' & E & Hl & Hn & Hb). cbn [of_opt rbind]. rewrite E. cbn [rbind]. eexists. split; [done|]. split; [apply insert_length|].
    destruct (forest_delete _ _ _ E0) as (D1 & D2 & _). destruct (forest_insert _ _ _ t' E0 (0, 0)) as (I1 & I2 & _). rewrite I1, I2, D1, D2, Hn, Hb. split; rewrite perm_cnt; intros x; rewrite ?cnt_app, ?(cnt_cons _ (branches child)), ?cnt_app; lia.
  Qed.

  Context (c : Z) (Hc : 0 < c) (Hr : 0 <= r).
  Lemma grow_ok : forall n trees s, valid c s -> (length s.1 <= n)%nat -> exists trees' leaves grounds roots,
    (forall fuel, (n <= fuel)%nat -> grow closest collides nearby r wall fuel c trees s = Ok trees') /\
    (forall p, p ∈ s.1 -> exists leaf, leaf ∈ leaves /\ near r p leaf) /\ (forall leaf, leaf ∈ leaves -> leaf ∈ s.1) /\
    (forall i j a b, (i < j)%nat -> leaves !! i = Some a -> leaves !! j = Some b -> ~ near r b a) /\
    length trees' = (length trees + length roots)%nat /\
    forest_nodes trees' ≡ₚ forest_nodes trees ++ leaves ++ roots /\ forest_branches trees' ≡ₚ forest_branches trees ++ zip leaves grounds /\
    roots ⊆ map closest leaves /\
    Forall2 (fun leaf ground => ground ∈ roots /\ ground = closest leaf \/ ground ∈ forest_nodes trees' /\ collides leaf ground = false) leaves grounds.
  Proof.
    induction n as [|n IH]; intros trees s Hs Hn.
    { exists trees, [], [], []. destruct s as [[|p ps] g]; cbn in *; [|lia]. split; [intros [|fuel] _; done|]. split; [intros p Hp; by apply elem_of_nil in Hp|]. split; [done|]. split; [done|]. split; [lia|]. rewrite !app_nil_r. split; [done|]. split; [done|]. split; [set_solver|constructor]. }
    destruct (s.1) as [|u ps] eqn:Eps.
    { exists trees, [], [], []. split; [intros [|fuel] _; cbn [grow]; by rewrite Eps|]. split; [intros p Hp; by apply elem_of_nil in Hp|]. split; [done|]. split; [done|]. cbn [length]. split; [lia|]. cbn [app zip]. rewrite !app_nil_r. split; [done|]. split; [done|]. split; [set_solver|constructor]. }
    set (g := getBestGroundingLocation closest collides nearby r wall trees None u).
    destruct (update_ok c r Hc Hr (ground_p g) u s Hs) as (s' & Eu & Hs' & Hf).
    assert (Hu : nearb r u u = true) by (apply nearb_near; [done|]; unfold near, vSize2, psub; cbn; nia).
    assert (Hlen : (length s'.1 <= n)%nat). { rewrite Hf, Eps. cbn [List.filter]. rewrite Hu. cbn [negb]. cbn [length] in Hn. assert (Hle : forall (q : pt -> bool) l, (length (List.filter q l) <= length l)%nat) by (intros q l; induction l as [|a l IHl]; cbn; [lia|]; destruct (q a); cbn; lia); etrans; [apply Hle|lia]. }
    assert (Hatt : exists trees1 new, attach u g trees = Ok trees1 /\ length trees1 = (length trees + length new)%nat /\ forest_nodes trees1 ≡ₚ forest_nodes trees ++ [u] ++ new /\ forest_branches trees1 ≡ₚ forest_branches trees ++ [(u, ground_p g)] /\
        new ⊆ [closest u] /\ (ground_p g ∈ new /\ ground_p g = closest u \/ ground_p g ∈ forest_nodes trees1 /\ collides u (ground_p g) = false)).
    { pose proof (C76_grounding trees None u) as Hg. cbv zeta in Hg. fold g in Hg. destruct g as [p|pl p].
      - destruct Hg as [-> _]. eexists _, [closest u]. split; [done|]. rewrite app_length, forest_nodes_app, forest_nodes_one, forest_branches_app, forest_branches_one. split; [done|]. split; [apply Permutation_app_head, Permutation_swap|]. split; [done|]. split; [done|]. left. cbn [ground_p]. split; [left|done].
      - destruct Hg as (_ & t & _ & (Hnode & _ & Hcol) & -> & _). destruct (attach_at_ok trees pl t (Node u None []) Hnode) as (trees1 & E & Hl & Hno & Hb). exists trees1, []. split; [done|]. cbn [length]. split; [lia|]. split; [by rewrite app_nil_r|]. split; [done|]. split; [set_solver|]. right. cbn [ground_p]. split; [|done].
        rewrite Hno. apply elem_of_app. left. clear -Hnode. unfold node_of in Hnode. destruct (trees !! pl.1) as [t0|] eqn:E0; [|done]. cbn in Hnode. destruct (forest_delete _ _ _ E0) as (D1 & _). rewrite D1. apply elem_of_app. left. clear D1 E0.
        revert t0 Hnode. induction pl.2 as [|i path IHp]; intros [p g cs] H; cbn [subtree_at] in H; [injection H as <-; left|]. destruct (cs !! i) as [c0|] eqn:E; [|done]. rewrite nodes_node. right. destruct (forest_delete _ _ _ E) as (D1 & _). rewrite D1. apply elem_of_app. left. by apply IHp. }
    destruct Hatt as (trees1 & new & Ea & Hl1 & Hno1 & Hb1 & Hnew & Hg1).
    destruct (IH trees1 s' Hs' Hlen) as (trees' & leaves & grounds & roots & Hgrow & H1 & H2 & H3 & H4 & H5 & H6 & H7 & H8).
    exists trees', (u :: leaves), (ground_p g :: grounds), (new ++ roots). split; [|split; [|split; [|split; [|split; [|split; [|split; [|split]]]]]]].
    - intros [|fuel] Hfuel; [lia|]. cbn [grow]. rewrite Eps. fold g. rewrite Ea. cbn [rbind]. rewrite Eu. cbn [rbind]. apply Hgrow. lia.
    - intros p Hp. rewrite <- Eps in Hp. destruct (nearb r u p) eqn:En; [exists u; split; [left|by apply nearb_near in En]|].
      destruct (H1 p) as (leaf & Hin & Hnear); [rewrite Hf; apply elem_of_list_In, filter_In; split; [by apply elem_of_list_In|by rewrite En]|]. exists leaf. split; [by right|done].
    - intros leaf Hin. apply elem_of_cons in Hin as [-> |Hin]; [left|]. specialize (H2 _ Hin). rewrite Hf in H2. apply elem_of_list_In, filter_In in H2 as [H2 _]. rewrite <- Eps. by apply elem_of_list_In.
    - intros [|i] [|j] a b Hij Hi Hj; [lia| |lia|apply (H3 i j); [lia|done|done]]. injection Hi as <-. cbn in Hj. apply elem_of_list_lookup_2, H2 in Hj. rewrite Hf in Hj. apply elem_of_list_In, filter_In in Hj as [_ Hj]. intros Hnear. apply (nearb_near r Hr) in Hnear. by rewrite Hnear in Hj.
    - rewrite app_length. lia.
    - rewrite H5, Hno1. rewrite perm_cnt. intros x. rewrite !cnt_app. cbn [app]. rewrite (cnt_cons u leaves). rewrite ?(cnt_cons u new), ?cnt_app. lia.
    - rewrite H6, Hb1. cbn [zip_with]. by rewrite <- app_assoc.
    - intros x Hx. cbn [map]. apply elem_of_app in Hx as [Hx|Hx]; [apply Hnew in Hx; apply elem_of_list_singleton in Hx as ->; left|right; by apply H7].
    - constructor.
      + destruct Hg1 as [[Hg1 Hg2]|[Hg1 Hg2]]; [left; split; [apply elem_of_app; by left|done]|right]. split; [|done]. rewrite H5. apply elem_of_app. by left.
      + eapply Forall2_impl; [exact H8|]. cbn. intros leaf gr [[Hx Hy]|Hx]; [left; split; [apply elem_of_app; by right|done]|by right].
  Qed.
End ground.
Print Assumptions C76_grounding.

Lemma cells_apart c dots : 0 < c -> NoDup dots -> (forall p : pt, p ∈ dots -> (c | p.1) /\ (c | p.2)) -> NoDup (map (toGridPoint c) dots).
Proof.
  intros Hc. induction dots as [|p dots IH]; intros Hn Hd; [constructor|]. apply NoDup_cons in Hn as [Hp Hn]. cbn. constructor; [|apply IH; [done|]; intros q Hq; apply Hd; by right].
  intros Hin. change (map ?f ?a) with (f <$> a) in Hin. apply elem_of_list_fmap in Hin as (q & E & Hq). apply Hp. assert (p = q) as ->; [|done]. destruct (Hd p ltac:(left)) as [[a Ha] [b Hb]], (Hd q ltac:(by right)) as [[a' Ha'] [b' Hb']].
  destruct p as [px py], q as [qx qy]. cbn [fst snd] in *. unfold toGridPoint, toGridCoord in E. cbn [fst snd] in E. subst. rewrite !Z.quot_mul in E by lia. congruence.
Qed.

Theorem C75_supported closest collides nearby r wall lines trees : 6 <= r -> vertical_lines (r ÷ 6) lines -> exists dots,
  spreadDots (r ÷ 6) lines = Ok dots /\ (forall p, p ∈ dots <-> to_support (r ÷ 6) lines p) /\
  forall sorted, sorted ≡ₚ dots -> exists trees' leaves grounds roots,
    (forall fuel, (length dots <= fuel)%nat -> generateNewTrees closest collides nearby r wall fuel sorted trees = Ok trees') /\
    (forall p, to_support (r ÷ 6) lines p -> exists leaf, leaf ∈ leaves /\ near r p leaf) /\ (forall leaf, leaf ∈ leaves -> to_support (r ÷ 6) lines leaf) /\
    (forall i j a b, (i < j)%nat -> leaves !! i = Some a -> leaves !! j = Some b -> ~ near r b a) /\
    length trees' = (length trees + length roots)%nat /\
    forest_nodes trees' ≡ₚ forest_nodes trees ++ leaves ++ roots /\ forest_branches trees' ≡ₚ forest_branches trees ++ zip leaves grounds /\
    roots ⊆ map closest leaves /\
    Forall2 (fun leaf ground => ground ∈ roots /\ ground = closest leaf \/ ground ∈ forest_nodes trees' /\ collides leaf ground = false) leaves grounds.
Proof.
  intros Hr Hl. assert (Hc : 0 < r ÷ 6) by (rewrite Z.quot_div_nonneg by lia; pose proof (Z.div_le_lower_bound r 6 1); lia).
  destruct (spread_ok _ _ Hc Hl) as (dots & E & Hn & Hd). exists dots. split; [done|]. split; [done|]. intros sorted Hs.
  assert (Hcells : NoDup (map (toGridPoint (r ÷ 6)) sorted)).
  { apply cells_apart; [done|by rewrite Hs|]. intros p Hp. rewrite Hs in Hp. apply Hd in Hp as (line & Hin & Ex & _ & Hy). split; [|done]. rewrite Ex. by apply (vertical _ _ Hl). }
  destruct (field_of_ok (r ÷ 6) sorted Hcells) as [Hv Hf].
  destruct (grow_ok closest collides nearby r wall (r ÷ 6) Hc ltac:(lia) (length dots) trees (field_of (r ÷ 6) sorted) Hv) as (trees' & leaves & grounds & roots & Hgrow & H1 & H2 & H3); [rewrite Hf; by rewrite Hs|].
  rewrite Hf in *. exists trees', leaves, grounds, roots. split; [done|]. split; [|split; [|done]].
  - intros p Hp. apply H1. rewrite Hs. by apply Hd.
  - intros leaf Hin. apply Hd. rewrite <- Hs. by apply H2.
Qed.
Print Assumptions C75_supported.

(** ** reconnecting *)
Lemma undirected_swap e : undirected (swap e) = undirected e.
Proof. destruct e as [[a b] [x y]]. unfold undirected, swap. cbn [fst snd]. repeat case_decide; try done; try lia. assert (a = x) as -> by lia. assert (b = y) as -> by lia. done. Qed.
Lemma undirected_swaps l : map undirected (map swap l) = map undirected l.
Proof. induction l as [|e l IH]; [done|]. cbn. by rewrite undirected_swap, IH. Qed.
Definition fn (roots : list numbered) := forest_nodes (map snd roots).
Definition ub (roots : list numbered) := map undirected (forest_branches (map snd roots)).
Definition keys (roots : list numbered) : list (option nat * pt) := map (fun x : numbered => (x.1, loc_of x.2)) roots.
Global Instance fn_perm : Proper ((≡ₚ) ==> (≡ₚ)) fn.
Proof. intros a b H. unfold fn, forest_nodes. by rewrite H. Qed.
Global Instance ub_perm : Proper ((≡ₚ) ==> (≡ₚ)) ub.
Proof. intros a b H. unfold ub, forest_branches. by rewrite H. Qed.
Global Instance keys_perm : Proper ((≡ₚ) ==> (≡ₚ)) keys.
Proof. intros a b H. unfold keys. by rewrite H. Qed.
Lemma roots_cons x roots : fn (x :: roots) = nodes x.2 ++ fn roots /\ ub (x :: roots) = map undirected (branches x.2) ++ ub roots /\ keys (x :: roots) = (x.1, loc_of x.2) :: keys roots.
Proof. split; [done|]. split; [|done]. unfold ub, forest_branches. cbn [map concat]. by rewrite map_app. Qed.
Lemma roots_split roots i x : roots !! i = Some x -> fn roots ≡ₚ nodes x.2 ++ fn (delete i roots) /\ ub roots ≡ₚ map undirected (branches x.2) ++ ub (delete i roots) /\ keys roots ≡ₚ (x.1, loc_of x.2) :: keys (delete i roots).
Proof. intros H. assert (Hp : roots ≡ₚ x :: delete i roots) by (by apply delete_Permutation). destruct (roots_cons x (delete i roots)) as (H1 & H2 & H3). rewrite <- H1, <- H2, <- H3, <- Hp. done. Qed.
Lemma roots_insert roots i x y : roots !! i = Some x -> fn (<[i := y]> roots) ≡ₚ nodes y.2 ++ fn (delete i roots) /\ ub (<[i := y]> roots) ≡ₚ map undirected (branches y.2) ++ ub (delete i roots) /\ keys (<[i := y]> roots) ≡ₚ (y.1, loc_of y.2) :: keys (delete i roots).
Proof.
  intros H. assert (Hi : <[i := y]> roots !! i = Some y) by (apply list_lookup_insert; by eapply lookup_lt_Some). destruct (roots_split _ _ _ Hi) as (H1 & H2 & H3).
  assert (E : delete i (<[i := y]> roots) = delete i roots). { rewrite !delete_take_drop. rewrite take_insert by lia. rewrite drop_insert_gt by lia. done. } rewrite E in *. done.
Qed.
Lemma swap_remove {A} (l : list A) i back : (i < length l)%nat -> last l = Some back -> removelast (<[i := back]> l) ≡ₚ delete i l.
Proof.
  intros Hi Hl. apply last_Some in Hl as (l0 & ->). rewrite app_length in Hi. cbn in Hi. destruct (decide (i = length l0)) as [-> |Hne].
  - rewrite insert_app_r_alt by lia. rewrite Nat.sub_diag. cbn. rewrite removelast_last. rewrite delete_take_drop, take_app, drop_ge by (rewrite app_length; cbn; lia). by rewrite app_nil_r.
  - rewrite insert_app_l by lia. rewrite removelast_last. destruct (lookup_lt_is_Some_2 l0 i ltac:(lia)) as [x Hx].
    rewrite (delete_Permutation (<[i := back]> l0) i back) by (apply list_lookup_insert; lia). assert (E : delete i (<[i := back]> l0) = delete i l0). { rewrite !delete_take_drop. rewrite take_insert by lia. rewrite drop_insert_gt by lia. done. }
    rewrite E. rewrite !delete_take_drop. rewrite take_app_le, drop_app_le by lia. rewrite app_assoc. symmetry. rewrite Permutation_app_comm. done.
Qed.

Section reconnect.
  Context (closest : pt -> pt) (collides : pt -> pt -> bool) (nearby : list tree -> pt -> Z -> list place) (r wall : Z) (intersection : pt -> pt -> option pt).
  Lemma reconnect_root_ok k u K roots : keys roots ≡ₚ (Some k, u) :: K -> Some k ∉ map fst K -> exists roots' stay new N,
    reconnect_root closest collides nearby r wall intersection k roots = Ok roots' /\
    fn roots' ≡ₚ fn roots ++ new /\ ub roots' ≡ₚ ub roots ++ map undirected N /\ keys roots' ≡ₚ map (fun p => (Some k, p)) stay ++ map (fun p => (None, p)) new ++ K /\
    Forall (fun p => p = u /\ closest p = p) stay /\ Forall (on_outlines closest intersection) new /\ (length stay + length N = 1)%nat /\
    Forall (fun e => e.2 ∈ new \/ collides u e.2 = false) N.
  Proof.
    intros HK Hk. unfold reconnect_root. destruct (list_find (fun x : numbered => x.1 = Some k) roots) as [[i [o t]]|] eqn:Ef.
    2: { exfalso. apply list_find_None in Ef. assert (Hin : (Some k, u) ∈ keys roots) by (rewrite HK; left). unfold keys in Hin. change (map ?f ?a) with (f <$> a) in Hin. apply elem_of_list_fmap in Hin as (x & E & Hx). rewrite Forall_forall in Ef. apply (Ef x Hx). congruence. }
    apply list_find_Some in Ef as (Hi & Ho & _). cbn [fst] in Ho. subst o. cbn [of_opt rbind fst snd].
    destruct (roots_split _ _ _ Hi) as (S1 & S2 & S3). cbn [fst snd] in *.
    assert (Hut : u = loc_of t /\ keys (delete i roots) ≡ₚ K).
    { rewrite HK in S3. assert (Hin : (Some k, u) ∈ (Some k, loc_of t) :: keys (delete i roots)) by (rewrite <- S3; left). apply elem_of_cons in Hin as [E|Hin].
      - injection E as ->. split; [done|]. symmetry. by apply Permutation_cons_inv in S3.
      - exfalso. assert (Hin2 : (Some k, loc_of t) ∈ (Some k, u) :: K) by (rewrite S3; left). apply elem_of_cons in Hin2 as [E|Hin2].
        + injection E as E. rewrite E in S3. apply Permutation_cons_inv in S3. apply Hk. rewrite S3. change (Some k) with (Some k, u).1. by apply (elem_of_list_fmap_1 fst).
        + apply Hk. change (Some k) with (Some k, loc_of t).1. by apply (elem_of_list_fmap_1 fst). }
    destruct Hut as [-> HKd].
    set (regrounded := match ground_of t with Some _ => _ | None => None end). destruct regrounded as [q|] eqn:Er.
    - assert (Hq : exists a b, intersection a b = Some q). { unfold regrounded in Er. destruct (ground_of t) as [g|]; [|done]. destruct (decide _); [done|]. by eexists _, _. }
      destruct t as [p g cs]. cbn [children_of add_child rbind reroot]. rewrite (list_lookup_middle cs [] (Node q (Some q) []) (length cs) eq_refl). cbn [of_opt rbind]. eexists _, [], [q], [(p, q)]. split; [done|].
      assert (Ed : delete (length cs) (cs ++ [Node q (Some q) []]) = cs). { rewrite delete_take_drop, take_app, drop_ge by (rewrite app_length; cbn; lia). by rewrite app_nil_r. }
      rewrite Ed. rewrite app_nil_r. destruct (roots_insert roots i _ (None, Node q (Some q) ([] ++ [Node p g cs])) Hi) as (I1 & I2 & I3). rewrite I1, I2, I3, S1, S2, HKd. cbn [snd fst app loc_of] in *.
      split; [|split; [|split; [done|split; [constructor|split; [|split; [done|]]]]]].
      + rewrite (nodes_node q), forest_nodes_one. rewrite perm_cnt. intros x. cbn [app]. rewrite (cnt_cons q (_ ++ _)), !cnt_app. lia.
      + rewrite (branches_node q), forest_branches_one, map_app. unfold down. cbn [map loc_of]. rewrite perm_cnt. intros x. rewrite !cnt_app. lia.
      + constructor; [|constructor]. by right.
      + constructor; [|constructor]. left. cbn. left.
    - clear regrounded Er. pose proof (C76_grounding closest collides nearby r (wall - 100) (map snd roots) (Some i) (loc_of t)) as Hg. cbv zeta in Hg |- *.
      destruct (getBestGroundingLocation _ _ _ _ _ _ _ _) as [p|pl p].
      + destruct Hg as [-> _]. set (p := closest (loc_of t)). destruct (decide (p = loc_of t)) as [Ep|Ep].
        * eexists roots, [loc_of t], [], []. split; [done|]. cbn [map app]. rewrite !app_nil_r. split; [done|]. split; [done|]. split; [by rewrite HK|]. split; [constructor; [done|constructor]|]. split; [constructor|]. split; [done|constructor].
        * destruct (C74_reroot t p) as (q & t' & E1 & E2 & _ & _ & E & Hl & Hn & Hb & Hb'). rewrite E. cbn [rbind]. eexists _, [], [p], [(loc_of t', p)]. split; [done|].
          destruct (roots_insert roots i _ (None, Node p (Some p) [t']) Hi) as (I1 & I2 & I3). rewrite I1, I2, I3, S1, S2, HKd. cbn [snd fst app loc_of] in *.
          split; [|split; [|split; [done|split; [constructor|split; [|split; [done|]]]]]].
          -- rewrite (nodes_node p), forest_nodes_one, Hn. rewrite perm_cnt. intros x. cbn [app]. rewrite (cnt_cons p (_ ++ _)), !cnt_app. lia.
          -- rewrite (branches_node p), forest_branches_one, map_app, Hb', Hb, !map_app, undirected_swaps. unfold down. cbn [map loc_of]. rewrite perm_cnt. intros x. rewrite !cnt_app. lia.
          -- constructor; [|constructor]. left. by exists (loc_of t).
          -- constructor; [|constructor]. left. cbn. left.
      + destruct Hg as (_ & ts & _ & (Hnode & Hex & Hcol) & -> & _). destruct (C74_reroot t (loc_of ts)) as (q & t' & E1 & E2 & _ & _ & E & Hl & Hn & Hb & Hb'). rewrite E. cbn [rbind].
        unfold node_of in Hnode. assert (Hj : exists rj, roots !! pl.1 = Some rj /\ subtree_at rj.2 pl.2 = Some ts). { destruct (map snd roots !! pl.1) as [t0|] eqn:E0; [|discriminate Hnode]. apply list_lookup_fmap_inv in E0 as (rj & -> & E0). exists rj. split; [exact E0|exact Hnode]. } clear Hnode. destruct Hj as (rj & Ej & Hnode). rewrite Ej. cbn [of_opt rbind]. destruct (add_child_ok t' _ _ _ Hnode) as (r' & Ea & Hla & Hna & Hba). rewrite Ea. cbn [rbind].
        set (roots1 := <[pl.1 := (rj.1, r')]> roots). assert (Hij : pl.1 <> i) by congruence. assert (Hi1 : roots1 !! i = Some (Some k, t)) by (unfold roots1; by rewrite list_lookup_insert_ne).
        destruct (last roots1) as [back|] eqn:El; [|apply last_None in El; by rewrite El in Hi1]. cbn [of_opt rbind].
        destruct (roots_insert roots pl.1 _ (rj.1, r') Ej) as (I1 & I2 & I3). fold roots1 in I1, I2, I3. destruct (roots_split _ _ _ Ej) as (J1 & J2 & J3). destruct (roots_split _ _ _ Hi1) as (T1 & T2 & T3). cbn [fst snd] in *.
        assert (Hp : removelast (<[i := back]> roots1) ≡ₚ delete i roots1) by (apply swap_remove; [by eapply lookup_lt_Some|done]).
        eexists _, [], [], [(loc_of t', loc_of ts)]. split; [done|]. rewrite Hp. cbn [app map]. split; [|split; [|split; [|split; [constructor|split; [constructor|split; [done|]]]]]].
        * rewrite app_nil_r. apply (Permutation_app_inv_l (nodes t)). rewrite <- T1, I1, J1, Hna, Hn. rewrite perm_cnt. intros x. rewrite !cnt_app. lia.
        * apply (Permutation_app_inv_l (map undirected (branches t))). rewrite <- T2, I2, J2, Hba, Hb', Hb. rewrite !map_app. cbn [map]. rewrite !map_app, undirected_swaps. rewrite perm_cnt. intros x. rewrite !cnt_app, (cnt_cons _ (_ ++ _)), !cnt_app. lia.
        * rewrite Hla in I3. rewrite <- J3, HK in I3. rewrite I3 in T3. apply Permutation_cons_inv in T3. by rewrite <- T3.
        * constructor; [|constructor]. by right.
  Qed.

  Lemma reconnect_ok : forall ks us K roots, length us = length ks -> NoDup ks -> (forall k, k ∈ ks -> Some k ∉ map fst K) ->
    keys roots ≡ₚ map (fun e => (Some e.1, e.2)) (zip ks us) ++ K -> exists roots' stay new N,
    reconnect closest collides nearby r wall intersection ks roots = Ok roots' /\
    fn roots' ≡ₚ fn roots ++ new /\ ub roots' ≡ₚ ub roots ++ map undirected N /\ map snd (keys roots') ≡ₚ stay ++ new ++ map snd K /\
    Forall (fun p => p ∈ us /\ closest p = p) stay /\ Forall (on_outlines closest intersection) new /\ (length stay + length N = length ks)%nat /\
    Forall (fun e => e.2 ∈ new \/ exists u, u ∈ us /\ collides u e.2 = false) N.
  Proof.
    induction ks as [|k ks IH]; intros us K roots Hlen Hnd HK Hkeys.
    - destruct us; [|done]. exists roots, [], [], []. split; [done|]. cbn [map app]. rewrite !app_nil_r. split; [done|]. split; [done|]. split; [by rewrite Hkeys|]. split; [constructor|]. split; [constructor|]. split; [done|constructor].
    - destruct us as [|u us]; [done|]. cbn [zip_with map app fst snd] in Hkeys. apply NoDup_cons in Hnd as [Hk Hnd]. cbn [length] in Hlen.
      destruct (reconnect_root_ok k u _ roots Hkeys) as (roots1 & stay1 & new1 & N1 & E1 & F1 & U1 & K1 & St1 & On1 & Le1 & Nn1).
      { rewrite map_app, elem_of_app. intros [Hin|Hin]; [|by apply (HK k ltac:(left))]. rewrite map_map in Hin. change (map ?f ?a) with (f <$> a) in Hin. apply elem_of_list_fmap in Hin as ([k' u'] & Ek & Hz). cbn in Ek. injection Ek as <-. apply elem_of_zip_l in Hz. done. }
      assert (K1' : keys roots1 ≡ₚ map (fun e => (Some e.1, e.2)) (zip ks us) ++ (map (fun p => (Some k, p)) stay1 ++ map (fun p => (None, p)) new1 ++ K)).
      { rewrite K1. rewrite perm_cnt. intros x. rewrite !cnt_app. lia. }
      assert (HK1 : forall k', k' ∈ ks -> Some k' ∉ map fst (map (fun p => (Some k, p)) stay1 ++ map (fun p => (None, p)) new1 ++ K)).
      { intros k' Hk'. rewrite !map_app, !map_map, !elem_of_app. intros [Hin|[Hin|Hin]].
        - change (map ?f ?a) with (f <$> a) in Hin. apply elem_of_list_fmap in Hin as (x & Ex & _). cbn in Ex. injection Ex as ->. done.
        - change (map ?f ?a) with (f <$> a) in Hin. apply elem_of_list_fmap in Hin as (x & Ex & _). done.
        - by apply (HK k' ltac:(by right)). }
      destruct (IH us _ roots1 ltac:(lia) Hnd HK1 K1') as (roots' & stay & new & N & E & F & U & Ks & St & On & Le & Nn).
      exists roots', (stay ++ stay1), (new ++ new1), (N1 ++ N). split; [cbn [reconnect]; rewrite E1; exact E|]. split; [|split; [|split; [|split; [|split; [|split]]]]].
      + rewrite F, F1. rewrite perm_cnt. intros x. rewrite !cnt_app. lia.
      + rewrite U, U1. rewrite map_app. by rewrite app_assoc.
      + rewrite Ks. rewrite !map_app, !map_map. cbn [snd]. rewrite !map_id. rewrite perm_cnt. intros x. rewrite !cnt_app. lia.
      + apply Forall_app. split.
        * eapply Forall_impl; [exact St|]. cbn. intros p [H1 H2]. split; [by right|done].
        * eapply Forall_impl; [exact St1|]. cbn. intros p [-> H2]. split; [left|done].
      + apply Forall_app. done.
      + rewrite !app_length. cbn [length]. lia.
      + apply Forall_app. split.
        * eapply Forall_impl; [exact Nn1|]. cbn. intros e [H1|H1]; [left; apply elem_of_app; by right|]. right. exists u. split; [left|done].
        * eapply Forall_impl; [exact Nn|]. cbn. intros e [H1|(v & H1 & H2)]; [left; apply elem_of_app; by left|]. right. exists v. split; [by right|done].
  Qed.

  Theorem C77_reconnect n trees : (n <= length trees)%nat -> exists trees' stay new N,
    reconnectRoots closest collides nearby r wall intersection n trees = Ok trees' /\
    forest_nodes trees' ≡ₚ forest_nodes trees ++ new /\
    map undirected (forest_branches trees') ≡ₚ map undirected (forest_branches trees ++ N) /\
    map loc_of trees' ≡ₚ stay ++ new ++ map loc_of (drop n trees) /\
    Forall (fun p => p ∈ map loc_of (take n trees) /\ closest p = p) stay /\ Forall (on_outlines closest intersection) new /\ (length stay + length N = n)%nat /\
    Forall (fun e => e.2 ∈ new \/ exists u, u ∈ map loc_of (take n trees) /\ collides u e.2 = false) N.
  Proof.
    intros Hn. unfold reconnectRoots. set (roots := number n trees).
    assert (Hsnd : map snd roots = trees). { unfold roots, number. rewrite map_app, !map_map. cbn [snd]. rewrite map_id. change (map (fun x : nat * tree => x.2)) with (fmap (M:=list) (snd (A:=nat) (B:=tree))). rewrite snd_zip by (rewrite take_length, seq_length; lia). apply take_drop. }
    destruct (reconnect_ok (seq 0 n) (map loc_of (take n trees)) (map (fun t => (None, loc_of t)) (drop n trees)) roots) as (roots' & stay & new & N & E & F & U & Ks & St & On & Le & Nn).
    - rewrite map_length, take_length, seq_length. lia.
    - apply NoDup_seq.
    - intros k _. rewrite map_map. cbn. intros Hin. change (map ?f ?a) with (f <$> a) in Hin. by apply elem_of_list_fmap in Hin as (x & Ex & _).
    - unfold roots, number, keys. rewrite map_app, !map_map. cbn [fst snd]. apply reflexive_eq. f_equal. rewrite zip_with_fmap_r || idtac.
      generalize (take n trees) as l. generalize (seq 0 n) as s. clear. induction s as [|a s IH]; intros [|t l]; [done|done|done|]. cbn. f_equal. apply IH.
    - rewrite E. cbn [rbind]. exists (map snd roots'), stay, new, N. split; [done|]. unfold fn, ub in *. rewrite Hsnd in *. split; [done|]. split; [by rewrite map_app|]. split; [|split; [done|split; [done|split; [by rewrite seq_length in Le|done]]]].
      unfold keys in Ks. rewrite !map_map in *. cbn [snd] in *. done.
  Qed.
End reconnect.
Print Assumptions C77_reconnect.

(** The order in which points are handled is not an order: three points can each come before the next one in a circle. *)
Theorem C75_order_refuted : exists radius a b c, 0 < radius /\ comes_before radius a b = true /\ comes_before radius b c = true /\ comes_before radius c a = true.
Proof. exists 1, (2, 0), (1, 1), (0, 2). done. Qed.
Print Assumptions C75_order_refuted.

(** ** examples: the outline is the line x = 0, nothing is in the way *)
Definition ex_lines : list (pt * pt) := [((10, 0), (10, 40)); ((100, 25), (100, -25)); ((100, 30), (100, 60))].
Example C75_nonvacuous : vertical_lines (60 ÷ 6) ex_lines /\
  spreadDots (60 ÷ 6) ex_lines = Ok [(10, 0); (10, 10); (10, 20); (10, 30); (100, -20); (100, -10); (100, 0); (100, 10); (100, 20); (100, 30); (100, 40); (100, 50)] /\
  generateNewTrees (fun p => (0, p.2)) (fun _ _ => false) (fun _ _ _ => [(0, []); (0, [0])]%nat) 60 50 10
    [(10, 0); (100, 50); (10, 10); (10, 20); (10, 30); (100, 0); (100, 10); (100, 20); (100, 30); (100, 40); (100, -20); (100, -10)] [] =
  Ok [Node (0, 0) (Some (0, 0)) [Node (10, 0) None [Node (100, 50) None []; Node (100, -20) None []]]].
Proof.
  split; [split|split; vm_compute; reflexivity].
  - intros line Hin. repeat (apply elem_of_cons in Hin as [-> |Hin]; [split; [done|]; first [by exists 1|by exists 10]|]). by apply elem_of_nil in Hin.
  - intros i j l1 l2 Hij H1 H2. destruct i as [|[|[|i]]], j as [|[|[|j]]]; cbn in *; try done; try lia; injection H1 as <-; injection H2 as <-; unfold upper, lower; cbn; lia.
Qed.
Example C77_nonvacuous : reconnectRoots (fun p => (0, p.2)) (fun _ _ => false) (fun _ _ _ => [(2, []); (2, [0])]%nat) 60 150 (fun a b => None) 2 
  [Node (30, 0) None [Node (40, 10) None []]; Node (200, 70) None []; Node (0, 50) (Some (0, 50)) [Node (100, 50) None []]] =
  Ok [Node (0, 0) (Some (0, 0)) [Node (30, 0) None [Node (40, 10) None []]]; Node (0, 50) (Some (0, 50)) [Node (100, 50) None [Node (200, 70) None []]]].
Proof. vm_compute. reflexivity. Qed.
