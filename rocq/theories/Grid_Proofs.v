(** Lemmas about grids. *)
From Coq Require Import ZArith QArith Lia.
From stdpp Require Import list.
From Verif Require Import Common Geo_Model Grid_Model.
Open Scope Z_scope.

Lemma elem_of_range lo hi x : x ∈ range lo hi <-> lo <= x <= hi.
Proof. unfold range. rewrite elem_of_seqZ. lia. Qed.
Lemma NoDup_range lo hi : NoDup (range lo hi).
Proof. apply NoDup_seqZ. Qed.

Lemma run_app {S A} (f : S -> A -> S * bool) l1 : forall s l2,
  run f s (l1 ++ l2) = let '(s', ok) := run f s l1 in if ok then run f s' l2 else (s', false).
Proof.
  induction l1 as [|a l1 IH]; intros s l2; simpl; [done|].
  destruct (f s a) as [s' [|]]; [apply IH|done].
Qed.
Lemma run_nested {S A B} (f : S -> B -> S * bool) (g : A -> list B) l : forall s,
  run (fun s a => run f s (g a)) s l = run f s (flat_map g l).
Proof.
  induction l as [|a l IH]; intros s; simpl; [done|]. rewrite run_app.
  destruct (run f s (g a)) as [s' [|]]; [apply IH|done].
Qed.
Lemma run_total {S A} (h : S -> A -> S) l : forall s, run (fun s a => (h s a, true)) s l = (fold_left h l s, true).
Proof. induction l as [|a l IH]; intros s; simpl; [done|apply IH]. Qed.
Lemma run_ext {S A} (f g : S -> A -> S * bool) l : (forall s a, f s a = g s a) -> forall s, run f s l = run g s l.
Proof. intros H. induction l as [|a l IH]; intros s; simpl; [done|]. rewrite H. destruct (g s a) as [? []]; [apply IH|done]. Qed.
Lemma fold_push {A} (l : list A) : forall acc, fold_left (fun ret e => ret ++ [e]) l acc = acc ++ l.
Proof. induction l as [|a l IH]; intros acc; simpl; [by rewrite app_nil_r|]. rewrite IH. by rewrite <- app_assoc. Qed.

Lemma elem_of_nearby c q r cell :
  cell ∈ nearby_cells c q r <->
  (toGridCoord c (q.1 - r) <= cell.1 <= toGridCoord c (q.1 + r)) /\
  (toGridCoord c (q.2 - r) <= cell.2 <= toGridCoord c (q.2 + r)).
Proof.
  unfold nearby_cells. simpl. rewrite elem_of_list_In, in_flat_map. split.
  - intros (y & Hy & Hx). apply in_map_iff in Hx as (x & <- & Hx).
    apply elem_of_list_In, elem_of_range in Hx, Hy. simpl. done.
  - intros [Hx Hy]. exists cell.2. split; [by apply elem_of_list_In, elem_of_range|].
    apply in_map_iff. exists cell.1. split; [by destruct cell|]. by apply elem_of_list_In, elem_of_range.
Qed.
Lemma NoDup_rect xs ys : NoDup xs -> NoDup ys -> NoDup (flat_map (fun y : Z => map (fun x : Z => (x, y)) xs) ys).
Proof.
  intros Hx Hy. induction Hy as [|y ys Hn Hy IH]; simpl; [constructor|].
  apply NoDup_app. split_and!; [| |done].
  - assert (Inj (=) (=) (fun x : Z => (x, y))) by (intros a b [= ->]; done).
    by apply (NoDup_fmap_2 (fun x => (x, y))).
  - intros p Hp Hp'. apply elem_of_list_In in Hp, Hp'. apply in_map_iff in Hp as (x & <- & _).
    apply in_flat_map in Hp' as (y' & Hy' & Hp'). apply in_map_iff in Hp' as (x' & [= -> ->] & _).
    apply Hn. by apply elem_of_list_In.
Qed.
Lemma NoDup_nearby c q r : NoDup (nearby_cells c q r).
Proof. unfold nearby_cells. apply NoDup_rect; apply NoDup_range. Qed.

Lemma toGridCoord_mono c a b : 0 < c -> a <= b -> toGridCoord c a <= toGridCoord c b.
Proof. intros. unfold toGridCoord. apply Z.quot_le_mono; lia. Qed.

Section nearby.
  Context {E : Type}.
  Variable c : Z.

  Definition nearby_elems (g : gridmap E) (q : pt) (r : Z) : list E :=
    flat_map (cell_elems g) (nearby_cells c q r).

  Lemma processNearby_run {S} g q r (f : S -> E -> S * bool) s :
    processNearby c g q r f s = run f s (nearby_elems g q r).
  Proof. unfold processNearby, processFromCell. apply run_nested. Qed.

  Lemma elem_of_nearby_elems g q r e :
    e ∈ nearby_elems g q r <-> exists cell, (cell, e) ∈ g /\ cell ∈ nearby_cells c q r.
  Proof.
    unfold nearby_elems, cell_elems. rewrite elem_of_list_In, in_flat_map. split.
    - intros (cell & Hcell & He). apply in_map_iff in He as ((cell' & e') & <- & He).
      apply elem_of_list_In, elem_of_list_filter in He as [E1 He]. simpl in *. subst cell'.
      exists cell. split; [done|]. by apply elem_of_list_In.
    - intros (cell & He & Hcell). exists cell. split; [by apply elem_of_list_In|].
      apply in_map_iff. exists (cell, e). split; [done|]. apply elem_of_list_In, elem_of_list_filter. done.
  Qed.

  (** every cell is visited at most once: the visited elements are exactly the grid's entries in
      those cells, with multiplicity *)
  Lemma nearby_elems_perm g q r :
    nearby_elems g q r ≡ₚ map snd (filter (fun ce : pt * E => ce.1 ∈ nearby_cells c q r) (g : list (pt * E))).
  Proof.
    unfold nearby_elems. pose proof (NoDup_nearby c q r) as Hnd. revert Hnd.
    generalize (nearby_cells c q r) as cells. intros cells Hnd.
    induction g as [|[cell e] g IH].
    - unfold cell_elems. simpl. clear Hnd. induction cells; simpl; [done|]. by rewrite IHcells.
    - rewrite filter_cons. simpl. destruct (decide (cell ∈ cells)) as [Hin|Hin]; simpl.
      + rewrite <- IH. clear IH. apply elem_of_Permutation in Hin as [cells' HP].
        assert (Hn : cell ∉ cells'). { rewrite HP in Hnd. by inversion Hnd. }
        rewrite !(Permutation_flat_map _ HP). simpl. unfold cell_elems at 1 3. rewrite filter_cons. simpl.
        rewrite decide_True by done. simpl. constructor. apply Permutation_app_head.
        apply reflexive_eq. clear HP Hnd. induction cells' as [|a l IHl]; simpl; [done|].
        rewrite IHl by set_solver. f_equal. unfold cell_elems. rewrite filter_cons. simpl.
        rewrite decide_False by set_solver. done.
      + rewrite <- IH. clear IH Hnd. apply reflexive_eq. induction cells as [|a l IHl]; simpl; [done|].
        rewrite IHl by set_solver. f_equal. unfold cell_elems. rewrite filter_cons. simpl.
        rewrite decide_False by set_solver. done.
  Qed.

  Lemma getNearby_elems g q r : getNearby c g q r = nearby_elems g q r.
  Proof. unfold getNearby. rewrite processNearby_run, (run_total (fun ret e => ret ++ [e])). simpl. by rewrite fold_push. Qed.
End nearby.

Lemma point_grid_elems {E} (loc : E -> pt) c es : forall g,
  fold_left (point_insert loc c) es g = g ++ map (fun e => (toGridPoint c (loc e), e)) es.
Proof.
  induction es as [|e es IH]; intros g; simpl; [by rewrite app_nil_r|]. rewrite IH. unfold point_insert.
  by rewrite <- app_assoc.
Qed.

Lemma within_cell c (q p : pt) r : 0 < c -> Z.abs (p.1 - q.1) <= r -> Z.abs (p.2 - q.2) <= r ->
  toGridPoint c p ∈ nearby_cells c q r.
Proof.
  intros Hc H1 H2. apply elem_of_nearby. unfold toGridPoint. simpl.
  repeat split; apply toGridCoord_mono; lia.
Qed.

(** ** Lines *)
Section lines.
  Variable c : Z.
  Hypothesis Hc : 0 < c.
  Variables (start end_ : pt).
  Hypothesis Hx : start.1 <= end_.1.
  Notation yd := (y_diff start end_).
  Notation d := (y_dir start end_).
  Notation sc := (start_cell c start).
  Notation ec := (end_cell c end_).
  Notation ny := (nearest_next_y c start end_).

  Lemma d_pm : d = 1 \/ d = -1.
  Proof. unfold y_dir, nonzeroSign. destruct (Z.leb_spec 0 yd); auto. Qed.
  Lemma d_sign : 0 <= yd * d.
  Proof. unfold y_dir, nonzeroSign. destruct (Z.leb_spec 0 yd); lia. Qed.

  (** bounds of a truncated quotient *)
  Lemma quot_bounds a b : 0 < b -> let g := a ÷ b in
    (0 < g -> g * b <= a < (g + 1) * b) /\ (g < 0 -> (g - 1) * b < a <= g * b) /\ (g = 0 -> - b < a < b).
  Proof.
    intros Hb g. pose proof (Z.quot_rem' a b) as H. fold g in H.
    pose proof (Z.rem_bound_abs a b ltac:(lia)) as Hr. pose proof (Z.rem_sign_nz a b ltac:(lia)) as Hs.
    rewrite (Z.abs_eq b) in Hr by lia.
    destruct (Z.lt_trichotomy a 0) as [Ha|[Ha|Ha]].
    - pose proof (Z.rem_bound_pos_neg a b ltac:(lia) ltac:(lia)).
      assert (g <= 0). { unfold g. apply (Z.quot_le_mono a 0 b) in Hb; [|lia]. by rewrite Z.quot_0_l in Hb by lia. }
      (split; [|split]); intros Hg; try rewrite Hg in H; nia.
    - subst a. assert (g = 0) by (unfold g; apply Z.quot_0_l; lia). repeat split; lia.
    - pose proof (Z.rem_bound_pos a b ltac:(lia) ltac:(lia)).
      assert (0 <= g). { unfold g. apply Z.quot_pos; lia. }
      (split; [|split]); intros Hg; try rewrite Hg in H; nia.
  Qed.

  (** a rational point on the segment: parameter k/n; coordinates times n *)
  Definition Xn (n k : Z) : Z := start.1 * n + k * (end_.1 - start.1).
  Definition Yn (n k : Z) : Z := start.2 * n + k * yd.

  (** next row's boundary lies beyond everything in this row and before everything in the next *)
  Lemma ny_beyond n Y cy : 0 < n -> Y ÷ (n * c) = cy -> 0 <= (ny cy * n - Y) * d.
  Proof.
    intros Hn E. pose proof (quot_bounds Y (n * c) ltac:(lia)) as (A & B & C). rewrite E in A, B, C.
    unfold nearest_next_y, toLowerCoord. unfold y_dir. unfold nonzeroSign.
    destruct (Z.leb_spec 0 yd); destruct (Z.leb_spec 0 cy);
      [replace (1 =? 1) with true by done|replace (-1 =? 1) with false by done
      |replace (1 =? -1) with false by done|replace (-1 =? -1) with true by done]; simpl;
      destruct (Z.eqb_spec cy 0); try lia; nia.
  Qed.
  Lemma ny_before n Y cy : 0 < n -> Y ÷ (n * c) = cy + d -> 0 <= (Y - ny cy * n) * d.
  Proof.
    intros Hn E. pose proof (quot_bounds Y (n * c) ltac:(lia)) as (A & B & C). rewrite E in A, B, C. revert A B C.
    unfold nearest_next_y, toLowerCoord. unfold y_dir. unfold nonzeroSign.
    destruct (Z.leb_spec 0 yd); destruct (Z.leb_spec 0 cy);
      [replace (1 =? 1) with true by done|replace (-1 =? 1) with false by done
      |replace (1 =? -1) with false by done|replace (-1 =? -1) with true by done]; simpl;
      intros A B C; destruct (Z.eqb_spec cy 0); try lia; nia.
  Qed.

  (** the row's last cell is the cell of the exact point at the next row's boundary *)
  Lemma x_cell_end_exact xs cy : yd <> 0 -> 0 <= (ny cy - start.2) * d ->
    x_cell_end c start end_ xs cy =
      (start.1 * Z.abs yd + (end_.1 - start.1) * ((ny cy - start.2) * d)) ÷ (Z.abs yd * c).
  Proof.
    intros Hyd Hny. unfold x_cell_end. destruct (Z.eqb_spec yd 0); [done|].
    set (dx := end_.1 - start.1). assert (Hdx : 0 <= dx) by (unfold dx; lia).
    set (h := ny cy - start.2) in *.
    assert (Habs : Z.abs yd = yd * d).
    { unfold y_dir, nonzeroSign. destruct (Z.leb_spec 0 yd); lia. }
    assert (Eq : dx * h ÷ yd = (dx * (h * d)) ÷ Z.abs yd).
    { rewrite Habs. destruct d_pm as [-> | ->]; rewrite ?Z.mul_1_r; [done|].
      replace (dx * (h * -1)) with (- (dx * h)) by ring. replace (yd * -1) with (- yd) by ring.
      rewrite Z.quot_opp_l, Z.quot_opp_r, Z.opp_involutive by lia. done. }
    assert (Er : (Z.rem (dx * h) yd =? 0) = (Z.rem (dx * (h * d)) (Z.abs yd) =? 0)).
    { rewrite Z.rem_abs_r by done. destruct d_pm as [-> | ->]; rewrite ?Z.mul_1_r; [done|].
      replace (dx * (h * -1)) with (- (dx * h)) by ring. rewrite Z.rem_opp_l by done.
      destruct (Z.eqb_spec (Z.rem (dx * h) yd) 0); destruct (Z.eqb_spec (- Z.rem (dx * h) yd) 0); try done; lia. }
    rewrite Eq, Er. set (D := Z.abs yd) in *. assert (HD : 0 < D) by (unfold D; lia).
    set (A := dx * (h * d)). assert (HA : 0 <= A) by (unfold A; apply Z.mul_nonneg_nonneg; lia).
    set (q := A ÷ D). pose proof (Z.quot_rem' A D) as Hqr. fold q in Hqr.
    pose proof (Z.rem_bound_pos A D HA HD) as Hrb. set (r := Z.rem A D) in *.
    assert (Hq : 0 <= q) by (unfold q; apply Z.quot_pos; lia).
    replace (start.1 * D + dx * (h * d)) with (start.1 * D + A) by done.
    set (X := start.1 * D + A).
    assert (Hmain : toGridCoord c (start.1 + q + (if (start.1 + q <? 0) && negb (r =? 0) then 1 else 0)) = X ÷ (D * c)).
    { unfold toGridCoord. rewrite <- Z.quot_quot by lia. f_equal.
      assert (EX : X = D * (start.1 + q) + r) by (unfold X; lia).
      destruct (Z.ltb_spec (start.1 + q) 0) as [Hneg|Hpos]; simpl.
      - destruct (Z.eqb_spec r 0) as [Hr0|Hr0]; simpl.
        + rewrite EX, Hr0, Z.add_0_r, Z.add_0_r, Z.mul_comm, Z.quot_mul by lia. done.
        + (* X < 0, ceil *)
          symmetry. rewrite <- (Z.opp_involutive X), Z.quot_opp_l by lia.
          rewrite (Z.quot_div_nonneg (- X) D) by nia.
          enough (- X / D = - (start.1 + q + 1)) by lia.
          symmetry. apply (Z.div_unique _ _ _ (D - r)); lia.
      - rewrite Z.add_0_r. rewrite (Z.quot_div_nonneg X D) by nia.
        apply (Z.div_unique _ _ _ r); lia. }
    rewrite Hmain. destruct (Z.ltb_spec (X ÷ (D * c)) sc.1) as [Hlt|]; [|done]. exfalso.
    unfold start_cell, toGridPoint, toGridCoord in Hlt. simpl in Hlt.
    assert (start.1 ÷ c <= X ÷ (D * c)); [|lia].
    rewrite <- (Z.quot_mul_cancel_l start.1 c D) by lia. apply Z.quot_le_mono; [nia|]. unfold X. lia.
  Qed.

  Lemma start_row : 0 <= (ny sc.2 - start.2) * d.
  Proof.
    pose proof (ny_beyond 1 start.2 sc.2 ltac:(lia)) as H. rewrite Z.mul_1_l in H.
    specialize (H eq_refl). rewrite Z.mul_1_r in H. done.
  Qed.

  (** rows from [sc.2] to [ec.2] *)
  Definition row_ok (cy : Z) : Prop := sc.2 * d <= cy * d <= ec.2 * d.

  Lemma ny_step_mono cy cy' : cy * d <= cy' * d -> ny cy * d <= ny cy' * d.
  Proof.
    unfold nearest_next_y, toLowerCoord, y_dir, nonzeroSign. intros H.
    destruct (Z.leb_spec 0 yd); destruct (Z.leb_spec 0 cy); destruct (Z.leb_spec 0 cy');
      simpl; destruct (Z.eqb_spec cy 0); destruct (Z.eqb_spec cy' 0); simpl; nia.
  Qed.
  Lemma row_ny cy : row_ok cy -> 0 <= (ny cy - start.2) * d.
  Proof. intros [H _]. pose proof (ny_step_mono _ _ H). pose proof start_row. lia. Qed.

  (** cells of the segment's points lie in the rows, and within the row between the cells at the
      two boundaries *)
  Lemma seg_row n k : 0 < n -> 0 <= k <= n -> row_ok (Yn n k ÷ (n * c)).
  Proof.
    intros Hn Hk. unfold row_ok, Yn. unfold start_cell, end_cell, toGridPoint, toGridCoord. simpl.
    assert (E1 : start.2 ÷ c = (start.2 * n) ÷ (n * c)) by (rewrite (Z.mul_comm start.2), Z.quot_mul_cancel_l by lia; done).
    assert (E2 : end_.2 ÷ c = (end_.2 * n) ÷ (n * c)) by (rewrite (Z.mul_comm end_.2), Z.quot_mul_cancel_l by lia; done).
    rewrite E1, E2. assert (Hyd : end_.2 = start.2 + yd) by (unfold y_diff; lia). rewrite Hyd. clear Hyd E1 E2.
    pose proof d_sign. destruct d_pm as [E|E]; rewrite E in *.
    - rewrite !Z.mul_1_r in *. split; apply Z.quot_le_mono; nia.
    - assert (forall a b, b <= a -> a * -1 <= b * -1) as Hm by lia. split; apply Hm; apply Z.quot_le_mono; nia.
  Qed.

  Lemma x_upper n k cy xs : 0 < n -> 0 <= k <= n -> row_ok cy -> Yn n k ÷ (n * c) = cy ->
    Xn n k ÷ (n * c) <= x_cell_end c start end_ xs cy.
  Proof.
    intros Hn Hk Hrow E. destruct (Z.eq_dec yd 0) as [Hz|Hz].
    - unfold x_cell_end. rewrite Hz. simpl. unfold end_cell, toGridPoint, toGridCoord. simpl.
      rewrite <- (Z.quot_mul_cancel_l end_.1 c n) by lia. apply Z.quot_le_mono; [lia|]. unfold Xn. nia.
    - rewrite x_cell_end_exact; [|done|by apply row_ny].
      pose proof (ny_beyond n (Yn n k) cy Hn E) as Hny. unfold Yn in Hny.
      set (D := Z.abs yd). assert (HD : 0 < D) by (unfold D; lia).
      rewrite <- (Z.quot_mul_cancel_l (Xn n k) (n * c) D) by lia.
      rewrite <- (Z.quot_mul_cancel_l (start.1 * D + _) (D * c) n) by lia.
      replace (n * (D * c)) with (D * (n * c)) by ring. apply Z.quot_le_mono; [nia|]. unfold Xn.
      assert (HDd : D = yd * d). { unfold D, y_dir, nonzeroSign. destruct (Z.leb_spec 0 yd); lia. }
      assert (k * D <= n * ((ny cy - start.2) * d)) by (rewrite HDd; nia).
      assert ((end_.1 - start.1) * (k * D) <= (end_.1 - start.1) * (n * ((ny cy - start.2) * d)))
        by (apply Z.mul_le_mono_nonneg_l; lia).
      nia.
  Qed.
  Lemma x_lower n k cy xs : 0 < n -> 0 <= k <= n -> row_ok cy -> yd <> 0 -> Yn n k ÷ (n * c) = cy + d ->
    x_cell_end c start end_ xs cy <= Xn n k ÷ (n * c).
  Proof.
    intros Hn Hk Hrow Hz E. rewrite x_cell_end_exact; [|done|by apply row_ny].
    pose proof (ny_before n (Yn n k) cy Hn E) as Hny. unfold Yn in Hny.
    set (D := Z.abs yd). assert (HD : 0 < D) by (unfold D; lia).
    rewrite <- (Z.quot_mul_cancel_l (Xn n k) (n * c) D) by lia.
    rewrite <- (Z.quot_mul_cancel_l (start.1 * D + _) (D * c) n) by lia.
    replace (n * (D * c)) with (D * (n * c)) by ring. apply Z.quot_le_mono; [nia|]. unfold Xn.
    assert (HDd : D = yd * d). { unfold D, y_dir, nonzeroSign. destruct (Z.leb_spec 0 yd); lia. }
    assert (n * ((ny cy - start.2) * d) <= k * D) by (rewrite HDd; nia).
    assert ((end_.1 - start.1) * (n * ((ny cy - start.2) * d)) <= (end_.1 - start.1) * (k * D))
      by (apply Z.mul_le_mono_nonneg_l; lia).
    nia.
  Qed.

  (** closed cells *)
  Definition clos (n X g : Z) : Prop :=
    (if 0 <? g then g else g - 1) * c * n <= X <= (if g <? 0 then g else g + 1) * c * n.
  Lemma clos_quot n X : 0 < n -> clos n X (X ÷ (n * c)).
  Proof.
    intros Hn. pose proof (quot_bounds X (n * c) ltac:(lia)) as (A & B & C). unfold clos.
    set (g := X ÷ (n * c)) in *. destruct (Z.ltb_spec 0 g); destruct (Z.ltb_spec g 0); try lia.
  Qed.
  Definition touch (cell : pt) : Prop :=
    exists n k, 0 < n /\ 0 <= k <= n /\ clos n (Xn n k) cell.1 /\ clos n (Yn n k) cell.2.

  Lemma ny_clos cy n : 0 < n -> clos n (ny cy * n) cy.
  Proof.
    intros Hn. unfold clos, nearest_next_y, toLowerCoord, y_dir, nonzeroSign.
    destruct (Z.leb_spec 0 yd); destruct (Z.leb_spec 0 cy); destruct (Z.eqb_spec cy 0);
      destruct (Z.ltb_spec cy 0); destruct (Z.ltb_spec 0 cy); try lia; simpl; nia.
  Qed.
  Lemma ny_clos_next cy n : 0 < n -> clos n (ny cy * n) (cy + d).
  Proof.
    intros Hn. unfold clos, nearest_next_y, toLowerCoord, y_dir, nonzeroSign.
    destruct (Z.leb_spec 0 yd); destruct (Z.leb_spec 0 cy); destruct (Z.eqb_spec cy 0);
    match goal with |- context [0 <? ?g] => destruct (Z.ltb_spec 0 g); destruct (Z.ltb_spec g 0) end;
    try lia; simpl; nia.
  Qed.

  (** between two points of the segment in the (closed) row, every cell is touched *)
  Lemma between n1 k1 n2 k2 cy g :
    0 < n1 -> 0 <= k1 <= n1 -> 0 < n2 -> 0 <= k2 <= n2 ->
    clos n1 (Yn n1 k1) cy -> clos n2 (Yn n2 k2) cy ->
    Xn n1 k1 ÷ (n1 * c) <= g <= Xn n2 k2 ÷ (n2 * c) -> touch (g, cy).
  Proof.
    intros Hn1 Hk1 Hn2 Hk2 C1 C2 Hg.
    destruct (Z.eq_dec g (Xn n1 k1 ÷ (n1 * c))) as [E1|E1].
    { exists n1, k1. simpl. repeat (split; [done|]). split; [|done]. rewrite E1. by apply clos_quot. }
    destruct (Z.eq_dec g (Xn n2 k2 ÷ (n2 * c))) as [E2|E2].
    { exists n2, k2. simpl. repeat (split; [done|]). split; [|done]. rewrite E2. by apply clos_quot. }
    pose proof (quot_bounds (Xn n1 k1) (n1 * c) ltac:(lia)) as (A1 & B1 & D1).
    pose proof (quot_bounds (Xn n2 k2) (n2 * c) ltac:(lia)) as (A2 & B2 & D2).
    set (g1 := Xn n1 k1 ÷ (n1 * c)) in *. set (g2 := Xn n2 k2 ÷ (n2 * c)) in *.
    assert (L : Xn n1 k1 <= g * c * n1).
    { destruct (Z.lt_trichotomy g1 0) as [Hs|[Hs|Hs]]; [specialize (B1 Hs)|specialize (D1 Hs)|specialize (A1 Hs)]; clear - Hs B1 D1 A1 E1 Hg Hc Hn1; nia. }
    assert (U : g * c * n2 <= Xn n2 k2).
    { destruct (Z.lt_trichotomy g2 0) as [Hs|[Hs|Hs]]; [specialize (B2 Hs)|specialize (D2 Hs)|specialize (A2 Hs)]; clear - Hs B2 D2 A2 E2 Hg Hc Hn2; nia. }
    clear A1 B1 D1 A2 B2 D2. unfold Xn in L, U. set (dx := end_.1 - start.1) in *.
    assert (Hdx0 : 0 <= dx) by (unfold dx; lia).
    destruct (Z.eq_dec dx 0) as [Hz|Hz].
    { exfalso. assert (E : g1 = g2); [|lia]. unfold g1, g2, Xn. fold dx. rewrite Hz, !Z.mul_0_r, !Z.add_0_r.
      rewrite (Z.mul_comm start.1 n1), (Z.mul_comm start.1 n2), !Z.quot_mul_cancel_l by lia. done. }
    set (k := g * c - start.1).
    assert (K1 : k1 * dx <= k * n1) by (unfold k; lia).
    assert (K2 : k * n2 <= k2 * dx) by (unfold k; lia).
    assert (0 <= k) by nia. assert (k <= dx) by nia.
    exists dx, k. simpl. split; [lia|]. split; [lia|]. split.
    - unfold clos, Xn. fold dx. replace (start.1 * dx + k * dx) with (g * c * dx) by (unfold k; ring).
      destruct (Z.ltb_spec 0 g); destruct (Z.ltb_spec g 0); nia.
    - unfold clos in *. set (lo := (if 0 <? cy then cy else cy - 1) * c) in *.
      set (hi := (if cy <? 0 then cy else cy + 1) * c) in *. clearbody lo hi k dx. unfold Yn in *.
      clear L U Hg E1 E2.
      assert (Hlin : forall nn kk, lo * nn <= start.2 * nn + kk * yd <= hi * nn -> (lo - start.2) * nn <= kk * yd <= (hi - start.2) * nn)
        by (intros; lia).
      apply Hlin in C1, C2.
      assert (Hdn : 0 < dx) by lia.
      assert ((lo - start.2) * dx <= k * yd <= (hi - start.2) * dx); [|lia].
      assert (Hcan : forall m a b, 0 < m -> m * a <= m * b -> a <= b) by (intros m a b Hm; apply Z.mul_le_mono_pos_l; done).
      destruct (Z.le_ge_cases 0 yd).
      + split.
        * apply (Hcan n1); [done|]. assert (k1 * dx * yd <= k * n1 * yd) by (apply Z.mul_le_mono_nonneg_r; lia).
          assert (dx * ((lo - start.2) * n1) <= dx * (k1 * yd)) by (apply Z.mul_le_mono_nonneg_l; lia). nia.
        * apply (Hcan n2); [done|]. assert (k * n2 * yd <= k2 * dx * yd) by (apply Z.mul_le_mono_nonneg_r; lia).
          assert (dx * (k2 * yd) <= dx * ((hi - start.2) * n2)) by (apply Z.mul_le_mono_nonneg_l; lia). nia.
      + split.
        * apply (Hcan n2); [done|]. assert (k2 * dx * yd <= k * n2 * yd) by (apply Z.mul_le_mono_nonpos_r; lia).
          assert (dx * ((lo - start.2) * n2) <= dx * (k2 * yd)) by (apply Z.mul_le_mono_nonneg_l; lia). nia.
        * apply (Hcan n1); [done|]. assert (k * n1 * yd <= k1 * dx * yd) by (apply Z.mul_le_mono_nonpos_r; lia).
          assert (dx * (k1 * yd) <= dx * ((hi - start.2) * n1)) by (apply Z.mul_le_mono_nonneg_l; lia). nia.
  Qed.

  (** the loops as one run over a list of cells *)
  Lemma line_row_run {S} (f : S -> pt -> S * bool) xs cy : forall s,
    (forall x, x ∈ xs -> (x, cy) <> ec) ->
    line_row f c end_ s xs cy =
      let '(s', ok) := run f s (map (fun x => (x, cy)) xs) in if ok then inl s' else inr (s', false).
  Proof.
    induction xs as [|x xs IH]; intros s Hne; simpl; [done|].
    destruct (f s (x, cy)) as [s' [|]]; simpl; [|done].
    rewrite bool_decide_eq_false_2 by (apply Hne; set_solver). apply IH. set_solver.
  Qed.
  Lemma line_row_end {S} (f : S -> pt -> S * bool) xs rest cy : forall s,
    (forall x, x ∈ xs -> (x, cy) <> ec) -> cy = ec.2 ->
    line_row f c end_ s (xs ++ ec.1 :: rest) cy = inr (run f s (map (fun x => (x, cy)) (xs ++ [ec.1]))).
  Proof.
    induction xs as [|x xs IH]; intros s Hne Hcy; cbn [line_row app map run].
    - destruct (f s (ec.1, cy)) as [s' [|]] eqn:Ef; cbn [negb]; [|done].
      rewrite bool_decide_eq_true_2 by (rewrite Hcy; symmetry; apply surjective_pairing). done.
    - destruct (f s (x, cy)) as [s' [|]]; simpl; [|done].
      rewrite bool_decide_eq_false_2 by (apply Hne; set_solver). apply IH; [set_solver|done].
  Qed.

  Lemma range_split a b m : a <= m <= b -> range a b = range a (m - 1) ++ m :: range (m + 1) b.
  Proof.
    intros H. unfold range. replace (b - a + 1) with ((m - 1 - a + 1) + (1 + (b - (m + 1) + 1))) by lia.
    rewrite (seqZ_app a) by lia. f_equal. rewrite (seqZ_cons (a + _)) by lia. f_equal; [lia|]. f_equal; lia.
  Qed.
  Lemma range_snoc a m : a <= m -> range a m = range a (m - 1) ++ [m].
  Proof.
    intros H. rewrite (range_split a m m) by lia. f_equal. f_equal. unfold range. rewrite seqZ_nil; [done|lia].
  Qed.

  Definition covers_from (cy : Z) (cells : list pt) : Prop :=
    forall n k, 0 < n -> 0 <= k <= n -> cy * d <= (Yn n k ÷ (n * c)) * d ->
      (Xn n k ÷ (n * c), Yn n k ÷ (n * c)) ∈ cells.

  Lemma ec_X : Xn 1 1 ÷ (1 * c) = ec.1.
  Proof. unfold Xn. replace (start.1 * 1 + 1 * (end_.1 - start.1)) with end_.1 by lia. rewrite Z.mul_1_l. done. Qed.
  Lemma ec_Y : Yn 1 1 ÷ (1 * c) = ec.2.
  Proof. unfold Yn. replace (start.2 * 1 + 1 * yd) with end_.2 by (unfold y_diff; lia). rewrite Z.mul_1_l. done. Qed.

  Lemma ec_row : row_ok ec.2.
  Proof. rewrite <- ec_Y. apply (seg_row 1 1); lia. Qed.

  Lemma ny_end cy : cy * d < ec.2 * d -> 0 <= (end_.2 - ny cy) * d.
  Proof.
    intros H. pose proof (ny_step_mono cy (ec.2 - d)) as Hm. pose proof d_pm as Hd.
    assert (cy * d <= (ec.2 - d) * d) by nia. specialize (Hm ltac:(done)).
    pose proof (ny_before 1 end_.2 (ec.2 - d) ltac:(lia)) as Hb. rewrite Z.mul_1_l in Hb.
    assert (end_.2 ÷ c = ec.2 - d + d) as E by (unfold end_cell, toGridPoint, toGridCoord; simpl; lia).
    specialize (Hb E). lia.
  Qed.

  Lemma rows_cells fuel : forall xs cy n1 k1,
    row_ok cy -> (Z.to_nat ((ec.2 - cy) * d) < fuel)%nat ->
    0 < n1 -> 0 <= k1 <= n1 -> clos n1 (Yn n1 k1) cy -> Xn n1 k1 ÷ (n1 * c) = xs ->
    (forall n k, 0 < n -> 0 <= k <= n -> Yn n k ÷ (n * c) = cy -> xs <= Xn n k ÷ (n * c)) ->
    exists cells,
      (forall S (f : S -> pt -> S * bool) s, line_rows f c start end_ fuel s xs cy = Ok (run f s cells)) /\
      NoDup cells /\ last cells = Some ec /\ covers_from cy cells /\
      (forall cell, cell ∈ cells -> touch cell) /\ (forall cell, cell ∈ cells -> cy * d <= cell.2 * d) /\
      head cells = Some (xs, cy).
  Proof.
    induction fuel as [|fuel IH]; intros xs cy n1 k1 Hrow Hfuel Hn1 Hk1 Hclos HX Hlow; [lia|].
    pose proof d_pm as Hd. pose proof Hrow as [Hr1 Hr2].
    assert (Hinj : forall y : Z, Inj (=) (=) (fun x : Z => (x, y))) by (intros y a b [= ->]; done).
    destruct (Z.eq_dec cy ec.2) as [Ecy|Ncy].
    - (* last row *)
      assert (Hxe : ec.1 <= x_cell_end c start end_ xs cy).
      { rewrite <- ec_X. apply x_upper; try lia; [done|]. rewrite Ecy. apply ec_Y. }
      assert (Hxs : xs <= ec.1). { rewrite <- ec_X. apply Hlow; try lia. rewrite Ecy. apply ec_Y. }
      assert (Hne : forall x, x ∈ range xs (ec.1 - 1) -> (x, cy) <> ec).
      { intros x Hin Heq. apply elem_of_range in Hin. rewrite <- Heq in Hin. simpl in Hin. lia. }
      exists (map (fun x => (x, cy)) (range xs ec.1)). repeat apply conj.
      + intros S f s. cbn [line_rows]. destruct (Z.leb_spec (cy * d) (ec.2 * d)); [|lia].
        rewrite (range_split xs (x_cell_end c start end_ xs cy) ec.1) by lia.
        rewrite line_row_end by done. rewrite <- range_snoc by done. done.
      + apply (NoDup_fmap_2 (fun x => (x, cy))). apply NoDup_range.
      + rewrite (range_snoc xs ec.1) by done. rewrite map_app. simpl. rewrite last_snoc. f_equal. rewrite Ecy. symmetry. apply surjective_pairing.
      + intros n k Hn Hk Hge. pose proof (seg_row n k Hn Hk) as [_ Hle]. rewrite <- Ecy in Hle.
        assert (EY : Yn n k ÷ (n * c) = cy) by nia. rewrite EY.
        apply elem_of_list_In, in_map_iff. eexists. split; [reflexivity|]. apply elem_of_list_In, elem_of_range.
        split; [by apply Hlow|]. unfold end_cell, toGridPoint, toGridCoord. simpl.
        rewrite <- (Z.quot_mul_cancel_l end_.1 c n) by lia. apply Z.quot_le_mono; [lia|]. unfold Xn. nia.
      + intros cell Hin. apply elem_of_list_In, in_map_iff in Hin as (x & <- & Hin). apply elem_of_list_In, elem_of_range in Hin.
        apply (between n1 k1 1 1); try lia; try done.
        * rewrite Ecy, <- ec_Y. apply clos_quot. lia.
        * rewrite HX, ec_X. done.
      + intros cell Hin. apply elem_of_list_In, in_map_iff in Hin as (x & <- & Hin). simpl. lia.
      + unfold range. rewrite seqZ_cons by lia. done.
    - (* not the last row *)
      assert (Hlt : cy * d < ec.2 * d) by nia.
      assert (Hyd : yd <> 0).
      { intros E0. assert (start.2 = end_.2) by (unfold y_diff in E0; lia).
        assert (sc.2 = ec.2) by (unfold start_cell, end_cell, toGridPoint; simpl; congruence). nia. }
      set (xe := x_cell_end c start end_ xs cy).
      pose proof (row_ny cy Hrow) as Hny. pose proof (ny_end cy Hlt) as Hny2.
      set (n2 := Z.abs yd). set (k2 := (ny cy - start.2) * d).
      assert (Habs : n2 = yd * d). { unfold n2, y_dir, nonzeroSign. destruct (Z.leb_spec 0 yd); lia. }
      assert (Hn2 : 0 < n2) by (unfold n2; lia).
      assert (Hk2 : 0 <= k2 <= n2).
      { split; [done|]. rewrite Habs. unfold k2. replace yd with (end_.2 - start.2) by done. lia. }
      assert (EXe : Xn n2 k2 ÷ (n2 * c) = xe).
      { unfold xe. rewrite x_cell_end_exact by done. unfold Xn, k2. f_equal. fold n2. lia. }
      assert (EYe : Yn n2 k2 = ny cy * n2).
      { unfold Yn, k2. rewrite Habs. assert (d * d = 1) by (destruct Hd as [-> | ->]; done). nia. }
      assert (Hrow' : row_ok (cy + d)) by (unfold row_ok; nia).
      assert (Hxse : xs <= xe).
      { unfold xe.
        (* xs is the cell of an earlier point *)
        rewrite <- HX.
        rewrite <- (Z.quot_mul_cancel_l (Xn n1 k1) (n1 * c) n2) by lia.
        rewrite x_cell_end_exact by done. fold n2. fold k2.
        rewrite <- (Z.quot_mul_cancel_l (start.1 * n2 + _) (n2 * c) n1) by lia.
        replace (n1 * (n2 * c)) with (n2 * (n1 * c)) by ring. apply Z.quot_le_mono; [nia|]. unfold Xn.
        assert (Y1 : Yn n1 k1 * d <= ny cy * n1 * d).
        { clear - Hclos Hn1 Hc. revert Hclos. unfold clos, nearest_next_y, toLowerCoord, y_dir, nonzeroSign.
          destruct (Z.leb_spec 0 yd); destruct (Z.leb_spec 0 cy); destruct (Z.eqb_spec cy 0);
          destruct (Z.ltb_spec cy 0); destruct (Z.ltb_spec 0 cy); try lia; simpl; nia. }
        assert (k1 * n2 <= k2 * n1) by (rewrite Habs; unfold k2; unfold Yn in Y1; nia).
        assert ((end_.1 - start.1) * (k1 * n2) <= (end_.1 - start.1) * (k2 * n1)) by (apply Z.mul_le_mono_nonneg_l; lia).
        nia. }
      destruct (IH xe (cy + d) n2 k2) as (cells & Hrun & Hnd & Hlast & Hcov & Htouch & Hrows & Hhead); try done.
      { apply Nat.lt_succ_r in Hfuel. assert ((ec.2 - (cy + d)) * d = (ec.2 - cy) * d - 1) as -> by nia.
        assert (0 < (ec.2 - cy) * d) by nia. lia. }
      { rewrite EYe. by apply ny_clos_next. }
      { intros n k Hn Hk EY. apply x_lower; done. }
      exists (map (fun x => (x, cy)) (range xs xe) ++ cells). repeat apply conj.
      + intros S f s. cbn [line_rows]. destruct (Z.leb_spec (cy * d) (ec.2 * d)); [|lia]. fold xe.
        rewrite line_row_run.
        2: { intros x _ Heq. apply Ncy. rewrite <- Heq. done. }
        rewrite run_app. destruct (run f s (map (fun x => (x, cy)) (range xs xe))) as [s' [|]]; [|done]. apply Hrun.
      + apply NoDup_app. split_and!; [apply (NoDup_fmap_2 (fun x => (x, cy))), NoDup_range| |done].
        intros p Hp Hp'. apply elem_of_list_In, in_map_iff in Hp as (x & <- & _). apply Hrows in Hp'. simpl in Hp'. nia.
      + rewrite last_app. rewrite Hlast. done.
      + intros n k Hn Hk Hge. apply elem_of_app.
        destruct (Z.eq_dec (Yn n k ÷ (n * c)) cy) as [EY|NY].
        * left. rewrite EY. apply elem_of_list_In, in_map_iff. eexists. split; [reflexivity|].
          apply elem_of_list_In, elem_of_range. split; [by apply Hlow|]. by apply x_upper.
        * right. apply Hcov; [done|done|]. nia.
      + intros cell Hin. apply elem_of_app in Hin as [Hin|Hin]; [|by apply Htouch].
        apply elem_of_list_In, in_map_iff in Hin as (x & <- & Hin). apply elem_of_list_In, elem_of_range in Hin.
        apply (between n1 k1 n2 k2); try done.
        * rewrite EYe. by apply ny_clos.
        * rewrite HX, EXe. done.
      + intros cell Hin. apply elem_of_app in Hin as [Hin|Hin].
        * apply elem_of_list_In, in_map_iff in Hin as (x & <- & Hin). simpl. lia.
        * apply Hrows in Hin. nia.
      + unfold range. rewrite seqZ_cons by lia. done.
  Qed.

  Lemma line_cells_spec :
    exists cells,
      (forall S (f : S -> pt -> S * bool) s,
         line_rows f c start end_ (Datatypes.S (Z.to_nat (Z.abs (ec.2 - sc.2)))) s sc.1 sc.2 = Ok (run f s cells)) /\
      NoDup cells /\ head cells = Some sc /\ last cells = Some ec /\
      (forall n k, 0 < n -> 0 <= k <= n -> (Xn n k ÷ (n * c), Yn n k ÷ (n * c)) ∈ cells) /\
      (forall cell, cell ∈ cells -> touch cell).
  Proof.
    pose proof ec_row as [Hr _]. pose proof d_pm as Hd.
    assert (E0X : Xn 1 0 ÷ (1 * c) = sc.1). { unfold Xn. rewrite Z.mul_1_l, Z.mul_0_l, Z.mul_1_r, Z.add_0_r. done. }
    assert (E0Y : Yn 1 0 ÷ (1 * c) = sc.2). { unfold Yn. rewrite Z.mul_1_l, Z.mul_0_l, Z.mul_1_r, Z.add_0_r. done. }
    destruct (rows_cells (Datatypes.S (Z.to_nat (Z.abs (ec.2 - sc.2)))) sc.1 sc.2 1 0)
      as (cells & Hrun & Hnd & Hlast & Hcov & Htouch & _ & Hhead); try done; try lia.
    - rewrite <- E0Y. apply clos_quot. lia.
    - intros n k Hn Hk _. unfold start_cell, toGridPoint, toGridCoord. simpl.
      rewrite <- (Z.quot_mul_cancel_l start.1 c n) by lia. apply Z.quot_le_mono; [lia|]. unfold Xn. nia.
    - exists cells. split; [exact Hrun|]. split; [done|]. split; [rewrite Hhead; f_equal; symmetry; apply surjective_pairing|]. split; [done|].
      split; [|done]. intros n k Hn Hk. apply Hcov; [done|done|]. apply (seg_row n k Hn Hk).
  Qed.
End lines.
