(** C67: the lines of infill. *)
From Coq Require Import ZArith QArith Lia Lqa Sorting.Sorted.
From stdpp Require Import prelude list gmap fin_sets infinite.
From Verif Require Import Common Geo_Model Box_Model Box_Props LineInfill_Model LineInfill_Spec.
Open Scope Z_scope.

(** ** scanlines *)
Lemma scan_idx x w : 0 < w -> computeScanSegmentIdx x w = x / w.
Proof.
  intros Hw. unfold computeScanSegmentIdx. destruct (Z.ltb_spec x 0) as [Hx|Hx].
  - pose proof (Z.quot_opp_l (- (x + 1)) w ltac:(lia)) as H. rewrite Z.opp_involutive in H. rewrite H, (Z.quot_div_nonneg (- (x + 1))) by lia.
    apply (Z.div_unique_pos x w _ (x - w * (- (- (x + 1) / w) - 1))); [|lia].
    pose proof (Z.div_mod (- (x + 1)) w ltac:(lia)). pose proof (Z.mod_pos_bound (- (x + 1)) w Hw). lia.
  - apply Z.quot_div_nonneg; lia.
Qed.
Lemma shift_of_ok d t : 0 < d -> exists k, t = k * d + shift_of d t.
Proof.
  intros Hd. unfold shift_of. destruct (Z.ltb_spec t 0).
  - pose proof (Z.quot_rem (- t) d ltac:(lia)) as H1. exists (- ((- t) ÷ d) - 1). lia.
  - pose proof (Z.quot_rem t d ltac:(lia)) as H1. exists (t ÷ d). lia.
Qed.

Section cut.
  Context (d shift lo : Z) (Hd : 0 < d).
  Notation x_of := (x_of d shift).

  (** the crossing of an edge with a scanline *)
  Definition edge_y (p0 p1 : pt) (x : Z) : Z := p1.2 + (p0.2 - p1.2) * (x - p1.1) ÷ (p0.1 - p1.1).
  Definition row_of (k : Z) (p0 p1 : pt) (poly point : nat) : list crossing :=
    if cuts (x_of k) (p0, p1) then [Crossing (edge_y p0 p1 (x_of k)) poly point] else [].

  Lemma scan_ok p0 p1 poly point dir : dir = 1 \/ dir = -1 -> forall n fuel idx rows, (n < fuel)%nat ->
    (forall i, 0 <= i < Z.of_nat n -> 1 <= idx + dir * i - lo < Z.of_nat (length rows)) ->
    exists rows', scan d shift lo fuel p0 p1 poly point idx (idx + dir * Z.of_nat n) dir rows = Ok rows' /\ length rows' = length rows /\
      forall r c, rows !! r = Some c ->
        ((exists i, 0 <= i < Z.of_nat n /\ lo + Z.of_nat r = idx + dir * i) -> rows' !! r = Some (c ++ [Crossing (edge_y p0 p1 (x_of (lo + Z.of_nat r))) poly point])) /\
        (~ (exists i, 0 <= i < Z.of_nat n /\ lo + Z.of_nat r = idx + dir * i) -> rows' !! r = Some c).
  Proof.
    intros Hdir. induction n as [|n IH]; intros fuel idx rows Hf Hin; (destruct fuel as [|fuel]; [lia|]); cbn [scan].
    - replace (idx =? idx + dir * Z.of_nat 0) with true by (symmetry; apply Z.eqb_eq; lia). exists rows. split; [done|]. split; [done|].
      intros r c E. split; [intros (i & ? & _); lia|done].
    - replace (idx =? idx + dir * Z.of_nat (S n)) with false by (symmetry; apply Z.eqb_neq; lia).
      pose proof (Hin 0 ltac:(lia)) as H0. unfold push. replace (idx - lo <? 1) with false by (symmetry; apply Z.ltb_ge; lia).
      destruct (lookup_lt_is_Some_2 rows (Z.to_nat (idx - lo))) as [c0 E0]; [lia|]. rewrite E0. cbn [of_opt rbind].
      set (rows1 := <[_ := _]> rows). destruct (IH fuel (idx + dir) rows1) as (rows' & E & Hl & Hr); [lia| |].
      { unfold rows1. rewrite insert_length. intros i Hi. specialize (Hin (i + 1) ltac:(lia)). lia. }
      exists rows'. replace (idx + dir * Z.of_nat (S n)) with (idx + dir + dir * Z.of_nat n) by lia. split; [exact E|].
      unfold rows1 in Hl. rewrite insert_length in Hl. split; [done|]. intros r c Ec.
      destruct (decide (r = Z.to_nat (idx - lo))) as [->|Hne].
      + rewrite E0 in Ec. injection Ec as ->. destruct (Hr (Z.to_nat (idx - lo)) (c ++ [Crossing (edge_y p0 p1 (x_of idx)) poly point])) as [_ H2].
        { unfold rows1. apply list_lookup_insert. lia. }
        assert (E3 : rows' !! Z.to_nat (idx - lo) = Some (c ++ [Crossing (edge_y p0 p1 (x_of idx)) poly point])) by (apply H2; intros (i & ? & ?); lia).
        split; intros Hex.
        * rewrite E3. replace (lo + Z.of_nat (Z.to_nat (idx - lo))) with idx by lia. done.
        * exfalso. apply Hex. exists 0. lia.
      + destruct (Hr r c) as [H1 H2]; [unfold rows1; rewrite list_lookup_insert_ne by lia; done|]. split; intros Hex.
        * apply H1. destruct Hex as (i & Hi & Hi2). exists (i - 1). split; [|lia]. destruct (decide (i = 0)); [lia|lia].
        * apply H2. intros (i & Hi & Hi2). apply Hex. exists (i + 1). lia.
  Qed.

  Definition within (n : nat) (p : pt) : Prop := lo <= (p.1 - shift) / d < lo + Z.of_nat n.

  Lemma x_of_lt k x : x_of k <= x <-> k <= (x - shift) / d.
  Proof.
    unfold LineInfill_Model.x_of. pose proof (Z.div_mod (x - shift) d ltac:(lia)). pose proof (Z.mod_pos_bound (x - shift) d Hd).
    set (q := (x - shift) / d) in *. set (r := (x - shift) mod d) in *. clearbody q r. split; intros.
    - destruct (decide (k <= q)); [done|]. assert (q + 1 <= k) by lia. nia.
    - nia.
  Qed.

  Lemma cut_edge_ok fuel p0 p1 poly point rows : within (length rows) p0 -> within (length rows) p1 -> (length rows < fuel)%nat ->
    exists rows', cut_edge d shift lo fuel p0 p1 poly point rows = Ok rows' /\ length rows' = length rows /\
      forall r c, rows !! r = Some c -> rows' !! r = Some (c ++ row_of (lo + Z.of_nat r) p0 p1 poly point).
  Proof.
    intros H0 H1 Hf. unfold cut_edge, within in *. rewrite !scan_idx by done. set (i0 := (p0.1 - shift) / d) in *. set (i1 := (p1.1 - shift) / d) in *.
    assert (Hcut : forall k, cuts (x_of k) (p0, p1) = true <-> i0 < k <= i1 \/ i1 < k <= i0).
    { intros k. unfold cuts. cbn [fst snd]. rewrite orb_true_iff, !andb_true_iff, !Z.ltb_lt, !Z.leb_le, !x_of_lt. fold i0 i1.
      assert (forall p : pt, p.1 < x_of k <-> (p.1 - shift) / d < k) as Hlt.
      { intros p. pose proof (x_of_lt k p.1). lia. }
      rewrite !Hlt. fold i0 i1. lia. }
    destruct (Z.eqb_spec p1.1 p0.1) as [Eq|Hne].
    { exists rows. split; [done|]. split; [done|]. intros r c E. unfold row_of. replace (cuts _ _) with false; [by rewrite app_nil_r|].
      symmetry. apply not_true_iff_false. rewrite Hcut. assert (i0 = i1) by (unfold i0, i1; by rewrite Eq). lia. }
    destruct (Z.ltb_spec p0.1 p1.1) as [Hlt|Hge].
    - assert (i0 <= i1) by (apply Z.div_le_mono; lia).
      destruct (scan_ok p0 p1 poly point 1 ltac:(by left) (Z.to_nat (i1 - i0)) fuel (i0 + 1) rows) as (rows' & E & Hl & Hr); [lia|intros i Hi; lia|].
      replace (i0 + 1 + 1 * Z.of_nat (Z.to_nat (i1 - i0))) with (i1 + 1) in E by lia. exists rows'. split; [done|]. split; [done|].
      intros r c Ec. destruct (Hr r c Ec) as [Ha Hb]. unfold row_of. destruct (cuts (x_of (lo + Z.of_nat r)) (p0, p1)) eqn:Ecut.
      + apply Hcut in Ecut. apply Ha. exists (lo + Z.of_nat r - (i0 + 1)). lia.
      + rewrite app_nil_r. apply Hb. intros (i & Hi & Hi2). apply not_true_iff_false in Ecut. apply Ecut, Hcut. lia.
    - assert (i1 <= i0) by (apply Z.div_le_mono; lia).
      destruct (scan_ok p0 p1 poly point (-1) ltac:(by right) (Z.to_nat (i0 - i1)) fuel i0 rows) as (rows' & E & Hl & Hr); [lia|intros i Hi; lia|].
      replace (i0 + -1 * Z.of_nat (Z.to_nat (i0 - i1))) with (i1 + 1 + -1) in E by lia. exists rows'. split; [done|]. split; [done|].
      intros r c Ec. destruct (Hr r c Ec) as [Ha Hb]. unfold row_of. destruct (cuts (x_of (lo + Z.of_nat r)) (p0, p1)) eqn:Ecut.
      + apply Hcut in Ecut. apply Ha. exists (i0 - (lo + Z.of_nat r)). lia.
      + rewrite app_nil_r. apply Hb. intros (i & Hi & Hi2). apply not_true_iff_false in Ecut. apply Ecut, Hcut. lia.
  Qed.

  (** the heights of the crossings of edges with a scanline *)
  Definition ys (x : Z) (es : list (pt * pt)) : list Z := map (fun e => edge_y e.1 e.2 x) (List.filter (cuts x) es).
  Lemma ys_app x es es' : ys x (es ++ es') = ys x es ++ ys x es'.
  Proof. unfold ys. by rewrite List.filter_app, map_app. Qed.
  Lemma ys_row k p0 p1 poly point : map cy (row_of k p0 p1 poly point) = ys (x_of k) [(p0, p1)].
  Proof. unfold ys, row_of. cbn. destruct (cuts (x_of k) (p0, p1)); done. Qed.

  Fixpoint walk (p0 : pt) (poly : list pt) : list (pt * pt) := match poly with [] => [] | p1 :: poly => (p0, p1) :: walk p1 poly end.

  Lemma cut_polygon_ok fuel poly_idx : forall poly p0 point rows, within (length rows) p0 -> (forall p, p ∈ poly -> within (length rows) p) -> (length rows < fuel)%nat ->
    exists rows', cut_polygon d shift lo fuel p0 poly_idx point poly rows = Ok rows' /\ length rows' = length rows /\
      forall r c, rows !! r = Some c -> exists c', rows' !! r = Some (c ++ c') /\ map cy c' = ys (x_of (lo + Z.of_nat r)) (walk p0 poly).
  Proof.
    induction poly as [|p1 poly IH]; intros p0 point rows H0 Hp Hf; cbn [cut_polygon walk].
    { exists rows. split; [done|]. split; [done|]. intros r c E. exists []. by rewrite app_nil_r. }
    assert (H1 : within (length rows) p1) by (apply Hp; left).
    destruct (cut_edge_ok fuel p0 p1 poly_idx point rows H0 H1 Hf) as (rows1 & E1 & Hl1 & Hr1). rewrite E1. cbn [rbind].
    destruct (IH p1 (S point) rows1) as (rows' & E & Hl & Hr); [by rewrite Hl1|intros p Hq; rewrite Hl1; apply Hp; by right|lia|].
    exists rows'. split; [done|]. split; [lia|]. intros r c Ec. specialize (Hr1 r c Ec). destruct (Hr _ _ Hr1) as (c' & Ec' & Hm).
    exists (row_of (lo + Z.of_nat r) p0 p1 poly_idx point ++ c'). rewrite app_assoc. split; [done|]. rewrite map_app, ys_row, Hm. 
    change ((p0, p1) :: walk p1 poly) with ([(p0, p1)] ++ walk p1 poly). by rewrite ys_app.
  Qed.

  Definition poly_walk (poly : list pt) : list (pt * pt) := match last poly with Some p0 => walk p0 poly | None => [] end.
  Lemma cut_polygons_ok fuel : forall polys poly_idx rows, (forall poly, poly ∈ polys -> poly <> [] /\ forall p, p ∈ poly -> within (length rows) p) -> (length rows < fuel)%nat ->
    exists rows', cut_polygons d shift lo fuel poly_idx polys rows = Ok rows' /\ length rows' = length rows /\
      forall r c, rows !! r = Some c -> exists c', rows' !! r = Some (c ++ c') /\ map cy c' = ys (x_of (lo + Z.of_nat r)) (concat (map poly_walk polys)).
  Proof.
    induction polys as [|poly polys IH]; intros poly_idx rows Hp Hf; cbn [cut_polygons map concat].
    { exists rows. split; [done|]. split; [done|]. intros r c E. exists []. by rewrite app_nil_r. }
    destruct (Hp poly ltac:(left)) as [Hne Hin]. destruct (last poly) as [p0|] eqn:El; [|by apply last_None in El]. cbn [of_opt rbind].
    destruct (cut_polygon_ok fuel poly_idx poly p0 0 rows) as (rows1 & E1 & Hl1 & Hr1); [|done|done|].
    { apply Hin. apply last_Some in El as [l' ->]. apply elem_of_app. right. left. }
    rewrite E1. cbn [rbind]. destruct (IH (S poly_idx) rows1) as (rows' & E & Hl & Hr); [rewrite Hl1; intros q Hq; apply Hp; by right|lia|].
    exists rows'. split; [done|]. split; [lia|]. intros r c Ec. destruct (Hr1 r c Ec) as (c1 & Ec1 & Hm1). destruct (Hr _ _ Ec1) as (c' & Ec' & Hm).
    exists (c1 ++ c'). rewrite app_assoc. split; [done|]. rewrite map_app, ys_app, Hm1, Hm. unfold poly_walk at 2. by rewrite El.
  Qed.
End cut.

(** the order of the edges does not matter *)
Lemma walk_app p0 l l' : walk p0 (l ++ l') = walk p0 l ++ walk (default p0 (last l)) l'.
Proof.
  revert p0. induction l as [|p l IH]; intros p0; [done|]. cbn [app walk]. rewrite IH. f_equal. f_equal. destruct l as [|q l]; [done|]. 
  change (last (p :: q :: l)) with (last (q :: l)). destruct (last (q :: l)) eqn:E; [done|]. by apply last_None in E.
Qed.
Lemma walk_zip p rest q : walk p (rest ++ [q]) = zip (p :: rest) (rest ++ [q]).
Proof. revert p. induction rest as [|r rest IH]; intros p; [done|]. cbn [app walk zip zip_with]. f_equal. apply IH. Qed.
Lemma poly_walk_edges poly : poly_walk poly ≡ₚ edges poly.
Proof.
  unfold poly_walk, edges. destruct poly as [|p rest]; [done|]. destruct (last (p :: rest)) as [p0|] eqn:El; [|by apply last_None in El].
  cbn [walk]. rewrite <- walk_zip, walk_app. cbn [walk]. assert (default p (last rest) = p0) as ->.
  { destruct rest as [|q rest]; [by cbn in El; injection El|]. change (last (p :: q :: rest)) with (last (q :: rest)) in El. by rewrite El. }
  apply Permutation_cons_append.
Qed.
Lemma walks_edges polys : concat (map poly_walk polys) ≡ₚ all_edges polys.
Proof. unfold all_edges. induction polys as [|p polys IH]; [done|]. cbn [map concat]. by rewrite IH, poly_walk_edges. Qed.

(** ** exact heights *)
Lemma quot_close n m : m <> 0 -> (-1 < inject_Z n / inject_Z m - inject_Z (n ÷ m))%Q /\ (inject_Z n / inject_Z m - inject_Z (n ÷ m) < 1)%Q.
Proof.
  intros Hm. pose proof (Z.quot_rem n m Hm) as Hqr. pose proof (Z.rem_bound_abs n m Hm) as Hb. set (q := n ÷ m) in *. set (r := Z.rem n m) in *. clearbody q r.
  assert (Hm' : ~ (inject_Z m == 0)%Q) by (intros H; apply Hm; exact (proj1 (inject_Z_injective m 0) H)).
  assert (E : (inject_Z n / inject_Z m - inject_Z q == inject_Z r / inject_Z m)%Q).
  { rewrite Hqr, inject_Z_plus, inject_Z_mult. field. done. }
  rewrite E. destruct (Z.lt_total m 0) as [Hneg|[?|Hpos]]; [|done|].
  - assert (E2 : (inject_Z r / inject_Z m == inject_Z (- r) / inject_Z (- m))%Q). { rewrite !inject_Z_opp. field. done. }
    rewrite E2. assert (0 < inject_Z (- m))%Q by (change 0%Q with (inject_Z 0); rewrite <- Zlt_Qlt; lia). split.
    + apply Qlt_shift_div_l; [done|]. change (-1)%Q with (inject_Z (-1)). rewrite <- inject_Z_mult, <- Zlt_Qlt. lia.
    + apply Qlt_shift_div_r; [done|]. change 1%Q with (inject_Z 1). rewrite <- inject_Z_mult, <- Zlt_Qlt. lia.
  - assert (0 < inject_Z m)%Q by (change 0%Q with (inject_Z 0); rewrite <- Zlt_Qlt; lia). split.
    + apply Qlt_shift_div_l; [done|]. change (-1)%Q with (inject_Z (-1)). rewrite <- inject_Z_mult, <- Zlt_Qlt. lia.
    + apply Qlt_shift_div_r; [done|]. change 1%Q with (inject_Z 1). rewrite <- inject_Z_mult, <- Zlt_Qlt. lia.
Qed.
Lemma height_close x e : cuts x e = true ->
  (inject_Z (edge_y e.1 e.2 x) - 1 < height x e)%Q /\ (height x e < inject_Z (edge_y e.1 e.2 x) + 1)%Q.
Proof.
  intros H. assert (Hne : e.1.1 - e.2.1 <> 0).
  { unfold cuts in H. rewrite orb_true_iff, !andb_true_iff, !Z.ltb_lt, !Z.leb_le in H. lia. }
  pose proof (quot_close ((e.1.2 - e.2.2) * (x - e.2.1)) (e.1.1 - e.2.1) Hne) as [H1 H2].
  unfold height, edge_y. rewrite inject_Z_plus. lra.
Qed.
Lemma below_exact x y e : cuts x e = true -> edge_y e.1 e.2 x <> y ->
  negb (Qle_bool (inject_Z y) (height x e)) = (edge_y e.1 e.2 x <? y).
Proof.
  intros Hc Hne. destruct (height_close x e Hc) as [H1 H2]. destruct (Z.ltb_spec (edge_y e.1 e.2 x) y) as [Hlt|Hge].
  - apply negb_true_iff, not_true_iff_false. rewrite Qle_bool_iff. intros H. assert (Hle : edge_y e.1 e.2 x + 1 <= y) by lia.
    rewrite Zle_Qle, inject_Z_plus in Hle. change (inject_Z 1) with 1%Q in Hle. lra.
  - apply negb_false_iff. rewrite Qle_bool_iff. assert (Hle : y <= edge_y e.1 e.2 x - 1) by lia.
    unfold Z.sub in Hle. rewrite Zle_Qle, inject_Z_plus in Hle. change (inject_Z (- (1))) with (-1)%Q in Hle. lra.
Qed.

Definition below (y : Z) (l : list Z) : nat := length (List.filter (fun c => c <? y) l).
Lemma inside_below outline x y : y ∉ ys x (all_edges outline) ->
  inside outline x y <-> Nat.odd (below y (ys x (all_edges outline))) = true.
Proof.
  intros Hn. unfold inside. set (es := all_edges outline) in *. clearbody es. clear outline.
  assert (E : length (List.filter (fun e => cuts x e && negb (Qle_bool (inject_Z y) (height x e))) es) = below y (ys x es)); [|by rewrite E].
  induction es as [|e es IH]; [done|]. unfold ys, below in *. cbn [List.filter] in *. destruct (cuts x e) eqn:Ec; cbn [andb map List.filter] in *.
  - rewrite below_exact; [|done|]. 2:{ intros Eq. apply Hn. rewrite Eq. left. }
    destruct (edge_y e.1 e.2 x <? y); cbn [length]; rewrite IH; try done; intros Hin; apply Hn; by right.
  - by apply IH.
Qed.

(** ** closed polygons cross a scanline an even number of times *)
Definition left_of (x : Z) (p : pt) : bool := p.1 <? x.
Lemma cuts_sides x p q : cuts x (p, q) = xorb (left_of x p) (left_of x q).
Proof. unfold cuts, left_of. cbn [fst snd]. destruct (Z.ltb_spec p.1 x), (Z.ltb_spec q.1 x), (Z.leb_spec x q.1), (Z.leb_spec x p.1); cbn; try done; lia. Qed.
Lemma walk_parity x : forall poly p0, Nat.odd (length (List.filter (cuts x) (walk p0 poly))) = xorb (left_of x p0) (left_of x (default p0 (last poly))).
Proof.
  induction poly as [|p1 poly IH]; intros p0; [cbn; by rewrite xorb_nilpotent|]. cbn [walk List.filter].
  assert (E : default p0 (last (p1 :: poly)) = default p1 (last poly)).
  { destruct poly as [|q poly]; [done|]. change (last (p1 :: q :: poly)) with (last (q :: poly)). destruct (last (q :: poly)) eqn:El; [done|]. by apply last_None in El. }
  rewrite E. specialize (IH p1). rewrite cuts_sides. destruct (xorb (left_of x p0) (left_of x p1)) eqn:Ex; cbn [length].
  - rewrite Nat.odd_succ, <- Nat.negb_odd, IH. destruct (left_of x p0), (left_of x p1), (left_of x _); done.
  - rewrite IH. destruct (left_of x p0), (left_of x p1), (left_of x _); done.
Qed.
Lemma even_crossings x polys : Nat.odd (length (List.filter (cuts x) (concat (map poly_walk polys)))) = false.
Proof.
  induction polys as [|poly polys IH]; [done|]. cbn [map concat]. rewrite List.filter_app, app_length, Nat.odd_add, IH, xorb_false_r.
  unfold poly_walk. destruct (last poly) as [p0|] eqn:El; [|done]. rewrite walk_parity, El. cbn. apply xorb_nilpotent.
Qed.

(** ** sorting and pairing *)
Lemma insert_perm c l : insert_crossing c l ≡ₚ c :: l.
Proof. induction l as [|c' l IH]; [done|]. cbn. destruct (cy c <=? cy c'); [done|]. rewrite IH. apply perm_swap. Qed.
Lemma sort_perm l : sort_crossings l ≡ₚ l.
Proof. induction l as [|c l IH]; [done|]. cbn. by rewrite insert_perm, IH. Qed.
Lemma insert_sorted c l : StronglySorted Z.le (map cy l) -> StronglySorted Z.le (map cy (insert_crossing c l)).
Proof.
  induction l as [|c' l IH]; intros Hs; [constructor; [constructor|constructor]|]. cbn [insert_crossing]. destruct (Z.leb_spec (cy c) (cy c')) as [Hle|Hgt].
  - cbn [map]. constructor; [done|]. cbn [map] in Hs. inversion Hs as [|? ? H1 H2]; subst. constructor; [done|]. eapply Forall_impl; [exact H2|]. intros z Hz. cbn in Hz. lia.
  - cbn [map] in *. inversion Hs as [|? ? H1 H2]; subst. constructor; [by apply IH|].
    assert (Hp : map cy (insert_crossing c l) ≡ₚ cy c :: map cy l) by (change (map cy ?l) with (cy <$> l); by rewrite insert_perm).
    rewrite Hp. constructor; [lia|done].
Qed.
Lemma sort_sorted l : StronglySorted Z.le (map cy (sort_crossings l)).
Proof. induction l as [|c l IH]; [constructor|]. cbn [sort_crossings foldr]. by apply insert_sorted. Qed.
Lemma pairs_map {A B} (f : A -> B) l : pairs (map f l) = map (fun c => (f c.1, f c.2)) (pairs l).
Proof. cut (forall n (l : list A), (length l <= n)%nat -> pairs (map f l) = map (fun c => (f c.1, f c.2)) (pairs l)); [intros H; by apply (H (length l))|].
  clear l. induction n as [|n IH]; intros l Hl; [by destruct l; cbn in Hl; [|lia]|]. destruct l as [|a [|b l]]; [done|done|]. cbn [map pairs]. f_equal. apply IH. cbn in Hl. lia.
Qed.

Lemma below_all_gt y l : Forall (fun c => y < c) l -> below y l = 0%nat.
Proof. unfold below. induction 1 as [|c l Hc _ IH]; [done|]. cbn. destruct (Z.ltb_spec c y); [lia|done]. Qed.
Lemma pairs_inside y : forall n l, (length l <= n)%nat -> StronglySorted Z.le l -> y ∉ l ->
  (forall a b, (a, b) ∈ pairs l -> a <= b /\ a ∈ l /\ b ∈ l /\ (a < y < b -> Nat.odd (below y l) = true)) /\
  (Nat.odd (length l) = false -> Nat.odd (below y l) = true -> exists a b, (a, b) ∈ pairs l /\ a < y < b).
Proof.
  induction n as [|n IH]; intros l Hn Hs Hy; (destruct l as [|u [|v l]]; [split; [intros a b H; by apply elem_of_nil in H|done]| |]); cbn [length] in Hn; try lia.
  { split; [intros a b H; by apply elem_of_nil in H|]. cbn. done. }
  inversion Hs as [|? ? Hs1 Hu]; subst. inversion Hs1 as [|? ? Hs2 Hv]; subst. inversion Hu as [|? ? Huv Hu2]; subst.
  destruct (IH l) as [IH1 IH2]; [lia|done|intros H; apply Hy; by do 2 right|]. cbn [pairs].
  assert (Hcount : below y (u :: v :: l) = ((if (u <? y)%Z then 1 else 0) + (if (v <? y)%Z then 1 else 0) + below y l)%nat).
  { unfold below. cbn. destruct (u <? y), (v <? y); cbn; lia. }
  assert (Huy0 : u <> y) by (intros ->; apply Hy; left). assert (Hvy0 : v <> y) by (intros ->; apply Hy; right; left).
  assert (Hzero : y < v -> below y l = 0%nat). { intros Hlt. apply below_all_gt. eapply Forall_impl; [exact Hv|]. cbn. intros z Hz. lia. }
  rewrite Hcount. split.
  - intros a b Hab. apply elem_of_cons in Hab as [[= -> ->]|Hab].
    + split; [done|]. split; [left|]. split; [right; left|]. intros Hy2. rewrite Hzero by lia. destruct (Z.ltb_spec u y); [|lia]. destruct (Z.ltb_spec v y); [lia|]. done.
    + destruct (IH1 a b Hab) as (H1 & H2 & H3 & H4). split; [done|]. split; [by do 2 right|]. split; [by do 2 right|]. intros Hy2. specialize (H4 Hy2).
      rewrite Forall_forall in Hv. specialize (Hv a H2). destruct (Z.ltb_spec u y); [|lia]. destruct (Z.ltb_spec v y); [|lia]. cbn [Nat.add]. by rewrite Nat.odd_succ, Nat.even_succ.
  - cbn [length]. intros He Ho. destruct (Z.ltb_spec v y) as [Hvy|Hvy].
    + destruct (Z.ltb_spec u y); [|lia]. cbn [Nat.add] in Ho. rewrite Nat.odd_succ, Nat.even_succ in Ho. rewrite Nat.odd_succ, Nat.even_succ in He. destruct (IH2 He Ho) as (a & b & H1 & H2).
      exists a, b. split; [by right|done].
    + rewrite Hzero in Ho by lia. destruct (Z.ltb_spec u y); [|done]. exists u, v. split; [left|lia].
Qed.

(** later pairs lie above *)
Lemma pairs_apart : forall n (l : list Z), (length l <= n)%nat -> StronglySorted Z.le l ->
  forall i j s t, (i < j)%nat -> pairs l !! i = Some s -> pairs l !! j = Some t -> s.2 <= t.1.
Proof.
  induction n as [|n IH]; intros l Hn Hs i j s t Hij Ei Ej; (destruct l as [|u [|v l]]; [done|done|]); cbn [length] in Hn; [lia|].
  inversion Hs as [|? ? Hs1 Hu]; subst. inversion Hs1 as [|? ? Hs2 Hv]; subst. destruct j as [|j]; [lia|]. cbn in Ej. destruct i as [|i].
  - cbn in Ei. injection Ei as <-. cbn. assert (Hin : t.1 ∈ l).
    { apply elem_of_list_lookup_2 in Ej. clear - Ej. cut (forall n (l : list Z) (t : Z * Z), (length l <= n)%nat -> t ∈ pairs l -> t.1 ∈ l); [intros H; by apply (H (length l))|].
      clear. induction n as [|n IH]; intros l t Hl Ht; (destruct l as [|a [|b l]]; [by apply elem_of_nil in Ht|by apply elem_of_nil in Ht|]); cbn in Hl; [lia|].
      cbn in Ht. apply elem_of_cons in Ht as [->|Ht]; [left|]. do 2 right. apply IH; [lia|done]. }
    rewrite Forall_forall in Hv. by apply Hv.
  - cbn in Ei. apply (IH l ltac:(lia) Hs2 i j s t); [lia|done|done].
Qed.

Lemma sorted_lookup {A} (R : A -> A -> Prop) (l : list A) : (forall i j s t, (i < j)%nat -> l !! i = Some s -> l !! j = Some t -> R s t) -> StronglySorted R l.
Proof.
  induction l as [|a l IH]; intros H; constructor.
  - apply IH. intros i j s t Hij Ei Ej. apply (H (S i) (S j)); [lia|done|done].
  - apply Forall_forall. intros t Ht. apply elem_of_list_lookup in Ht as [j Hj]. apply (H 0%nat (S j)); [lia|done|done].
Qed.
Lemma sorted_app {A} (R : A -> A -> Prop) (l1 l2 : list A) : StronglySorted R l1 -> StronglySorted R l2 -> (forall a b, a ∈ l1 -> b ∈ l2 -> R a b) -> StronglySorted R (l1 ++ l2).
Proof.
  induction 1 as [|a l1 Hs IH Hf]; intros H2 H; [done|]. cbn. constructor; [apply IH; [done|]; intros x y Hx; apply H; by right|].
  apply Forall_app. split; [done|]. apply Forall_forall. intros b Hb. apply H; [left|done].
Qed.

(** [s] is to the left of [t], or on the same scanline and below *)

Lemma scanline_elem w x c s : s ∈ scanline_lines w x c <->
  exists a b, (a, b) ∈ pairs (sort_crossings c) /\ w ÷ 5 <= cy b - cy a /\ s = ((x, cy a), (x, cy b)).
Proof.
  unfold scanline_lines. induction (pairs (sort_crossings c)) as [|[a b] l IH]; cbn [foldr fst snd].
  - split; [intros H; by apply elem_of_nil in H|intros (? & ? & H & _); by apply elem_of_nil in H].
  - destruct (Z.ltb_spec (cy b - cy a) (w ÷ 5)) as [Hlt|Hge].
    + rewrite IH. split; [intros (a' & b' & H & H1); exists a', b'; split; [by right|done]|]. intros (a' & b' & H & H1 & H2).
      apply elem_of_cons in H as [[= -> ->]|H]; [lia|]. by exists a', b'.
    + rewrite elem_of_cons, IH. split.
      * intros [->|(a' & b' & H & H1)]; [exists a, b; split; [left|done]|exists a', b'; split; [by right|done]].
      * intros (a' & b' & H & H1 & H2). apply elem_of_cons in H as [[= -> ->]|H]; [by left|right]. by exists a', b'.
Qed.
Lemma scanline_sorted w x c : StronglySorted before (scanline_lines w x c).
Proof.
  unfold scanline_lines. assert (H : StronglySorted (fun s t : crossing * crossing => cy s.2 <= cy t.1) (pairs (sort_crossings c))).
  { apply sorted_lookup. intros i j s t Hij Ei Ej. pose proof (pairs_apart _ (map cy (sort_crossings c)) (le_n _) (sort_sorted c) i j (cy s.1, cy s.2) (cy t.1, cy t.2) Hij) as Hp.
    cbn in Hp. apply Hp; rewrite pairs_map; change (map ?f ?l) with (f <$> l); rewrite list_lookup_fmap; [by rewrite Ei|by rewrite Ej]. }
  induction H as [|p l Hs IH Hf]; cbn [foldr]; [constructor|]. destruct (cy p.2 - cy p.1 <? w ÷ 5); [done|]. constructor; [done|].
  apply Forall_forall. intros s Hin. rewrite Forall_forall in Hf.
  assert (exists q, q ∈ l /\ s = ((x, cy q.1), (x, cy q.2))) as (q & Hq & ->).
  { clear - Hin. induction l as [|q l IH]; cbn [foldr] in Hin; [by apply elem_of_nil in Hin|]. destruct (cy q.2 - cy q.1 <? w ÷ 5).
    - destruct (IH Hin) as (r & Hr & E). exists r. split; [by right|done].
    - apply elem_of_cons in Hin as [->|Hin]; [exists q; split; [left|done]|]. destruct (IH Hin) as (r & Hr & E). exists r. split; [by right|done]. }
  right. cbn. split; [done|]. by apply Hf.
Qed.
Lemma add_elem d w max s : 0 < d -> forall rows x, s ∈ addLineInfill d w x max rows <->
  exists r c, rows !! r = Some c /\ x + Z.of_nat r * d < max /\ s ∈ scanline_lines w (x + Z.of_nat r * d) c.
Proof.
  intros Hd. induction rows as [|c rows IH]; intros x; cbn [addLineInfill].
  { split; [intros H; by apply elem_of_nil in H|intros (r & c & H & _); done]. }
  destruct (Z.ltb_spec x max) as [Hlt|Hge].
  - rewrite elem_of_app, IH. split.
    + intros [H|(r & c' & E & H1 & H2)]; [exists 0%nat, c; replace (x + Z.of_nat 0 * d) with x by lia; done|].
      exists (S r), c'. replace (x + Z.of_nat (S r) * d) with (x + d + Z.of_nat r * d) by lia. done.
    + intros (r & c' & E & H1 & H2). destruct r as [|r].
      * left. cbn in E. injection E as <-. by replace (x + Z.of_nat 0 * d) with x in H2 by lia.
      * right. exists r, c'. replace (x + d + Z.of_nat r * d) with (x + Z.of_nat (S r) * d) by lia. done.
  - split; [intros H; by apply elem_of_nil in H|]. intros (r & c' & E & H1 & H2). nia.
Qed.
Lemma add_sorted d w max : 0 < d -> forall rows x, StronglySorted before (addLineInfill d w x max rows).
Proof.
  intros Hd. induction rows as [|c rows IH]; intros x; cbn [addLineInfill]; [constructor|]. destruct (x <? max); [|constructor].
  apply sorted_app; [apply scanline_sorted|apply IH|]. intros a b Ha Hb. apply scanline_elem in Ha as (? & ? & _ & _ & ->).
  apply add_elem in Hb as (r & c' & _ & _ & Hb); [|done]. apply scanline_elem in Hb as (? & ? & _ & _ & ->). left. cbn. nia.
Qed.

Lemma exists_fresh (l : list Z) : exists y, y ∉ l.
Proof. exists (fresh (list_to_set l : gset Z)). intros H. apply (is_fresh (list_to_set l : gset Z)). by apply elem_of_list_to_set. Qed.
Lemma pairs_gap : forall n (l : list Z), (length l <= n)%nat -> StronglySorted Z.le l -> forall u v, (u, v) ∈ pairs l -> forall y, y ∈ l -> ~ (u < y < v).
Proof.
  induction n as [|n IH]; intros l Hn Hs u v Hp y Hy Hlt; (destruct l as [|a [|b l]]; [by apply elem_of_nil in Hp|by apply elem_of_nil in Hp|]); cbn [length] in Hn; [lia|].
  inversion Hs as [|? ? Hs1 Ha]; subst. inversion Hs1 as [|? ? Hs2 Hb]; subst. rewrite Forall_forall in Hb. cbn [pairs] in Hp. apply elem_of_cons in Hp as [[= -> ->]|Hp].
  - apply elem_of_cons in Hy as [->|Hy]; [lia|]. apply elem_of_cons in Hy as [->|Hy]; [lia|]. specialize (Hb y Hy). lia.
  - destruct (exists_fresh l) as [z Hz]. destruct (pairs_inside z (length l) l (le_n _) Hs2 Hz) as [Hpi _]. destruct (Hpi u v Hp) as (_ & Hu & _ & _). specialize (Hb u Hu).
    inversion Ha; subst. apply elem_of_cons in Hy as [->|Hy]; [lia|]. apply elem_of_cons in Hy as [->|Hy]; [lia|]. by apply (IH l ltac:(lia) Hs2 u v Hp y Hy).
Qed.
Lemma edge_ends outline e : e ∈ all_edges outline -> e.1 ∈ concat outline /\ e.2 ∈ concat outline.
Proof.
  intros H. unfold all_edges in H. apply elem_of_list_In, in_concat in H as (es & Hes & He). apply in_map_iff in Hes as (poly & <- & Hpoly).
  assert (Hin : e.1 ∈ poly /\ e.2 ∈ poly).
  { unfold edges in He. destruct poly as [|p rest]; [done|]. apply elem_of_list_In in He. destruct e as [a b]. apply elem_of_zip_l in He as Ha. apply elem_of_zip_r in He as Hb. cbn [fst snd].
    split; [done|]. apply elem_of_app in Hb as [Hb|Hb]; [by right|]. apply elem_of_list_singleton in Hb as ->. left. }
  destruct Hin as [H1 H2]. split; apply elem_of_list_In, in_concat; exists poly; (split; [done|by apply elem_of_list_In]).
Qed.

Section main.
  Context (apply unapply : pt -> pt) (outline : list (list pt)) (d total_shift w : Z).
  Hypothesis Hd : 0 < d.
  Hypothesis Hne : forall poly, poly ∈ outline -> poly <> [].
  Notation transformed := (map (map apply) outline).
  Notation shift := (shift_of d total_shift).

  Lemma crossings_ok fuel : outline <> [] ->
    let box := aabb_calculate_shape transformed in
    let lo := ((bmin box).1 - shift) / d in let n := Z.to_nat (((bmax box).1 - shift) / d + 1 - lo) in (n < fuel)%nat ->
    exists rows, find_crossings apply fuel outline d shift = Ok (rows, lo, box) /\ length rows = n /\
      forall r, (r < n)%nat -> exists c, rows !! r = Some c /\ map cy c = ys (x_of d shift (lo + Z.of_nat r)) (concat (map poly_walk transformed)).
  Proof.
    intros Hout box lo n Hf. unfold find_crossings. cbv zeta. fold box. rewrite !scan_idx by done. fold lo. fold n.
    destruct (cut_polygons_ok d shift lo Hd fuel transformed 0 (replicate n [])) as (rows & E & Hl & Hr).
    - intros poly Hp. change (map ?f ?l) with (f <$> l) in Hp. apply elem_of_list_fmap in Hp as (poly0 & -> & Hp). split.
      + intros H. apply fmap_nil_inv in H. by apply (Hne poly0).
      + intros p Hin. rewrite replicate_length. unfold within.
        assert (Hbox : in_box box p).
        { unfold box. rewrite C24_shape_box. unfold aabb_calculate. apply include_points_spec. apply elem_of_list_In, in_concat. exists (map apply poly0).
          split; [|by apply elem_of_list_In]. apply in_map. by apply elem_of_list_In. }
        destruct Hbox as [[H1 H2] _]. assert (lo <= (p.1 - shift) / d) by (unfold lo; apply Z.div_le_mono; lia).
        assert ((p.1 - shift) / d <= ((bmax box).1 - shift) / d) by (apply Z.div_le_mono; lia). unfold n. lia.
    - by rewrite replicate_length.
    - rewrite E. cbn [rbind]. exists rows. split; [done|]. rewrite replicate_length in Hl. split; [done|].
      intros r Hrn. destruct (Hr r []) as (c & Ec & Hm); [by apply lookup_replicate_2|]. exists c. done.
  Qed.

  Lemma ys_perm x : ys x (concat (map poly_walk transformed)) ≡ₚ ys x (all_edges transformed).
  Proof.
    unfold ys. change (map ?f (List.filter ?g ?l)) with (f <$> List.filter g l). f_equiv.
    generalize (walks_edges transformed). intros H. induction H as [|e l l' H IH|e e' l|l1 l2 l3 _ IH1 _ IH2]; [done| | |by etrans]; cbn [List.filter].
    - destruct (cuts x e); [by f_equiv|done].
    - destruct (cuts x e), (cuts x e'); try done. apply perm_swap.
  Qed.
  Lemma below_perm y l l' : l ≡ₚ l' -> below y l = below y l'.
  Proof.
    intros H. unfold below. induction H as [|e l l' H IH|e e' l|l1 l2 l3 _ IH1 _ IH2]; [done| | |congruence]; cbn [List.filter].
    - destruct (e <? y); cbn; congruence.
    - destruct (e <? y), (e' <? y); done.
  Qed.
  Lemma ys_boundary x y : y ∈ ys x (all_edges transformed) -> at_boundary transformed x y.
  Proof.
    unfold ys. change (map ?f ?l) with (f <$> l). intros H. apply elem_of_list_fmap in H as (e & -> & He). apply elem_of_list_In, filter_In in He as [He Hc].
    exists e. split; [by apply elem_of_list_In|]. split; [done|]. by apply height_close.
  Qed.

  Lemma row_pairs c x : map cy c = ys x (concat (map poly_walk transformed)) ->
    let l := map cy (sort_crossings c) in
    StronglySorted Z.le l /\ Nat.odd (length l) = false /\ (forall y, y ∈ l <-> y ∈ ys x (all_edges transformed)) /\
    (forall y, y ∉ l -> inside transformed x y <-> Nat.odd (below y l) = true).
  Proof.
    intros Hc l. assert (Hp : l ≡ₚ ys x (all_edges transformed)).
    { rewrite <- ys_perm, <- Hc. unfold l. change (map ?f ?l) with (f <$> l). by rewrite sort_perm. }
    split; [apply sort_sorted|]. split; [|split].
    - rewrite Hp, <- ys_perm. unfold ys. rewrite map_length. apply even_crossings.
    - intros y. by rewrite Hp.
    - intros y Hy. rewrite Hp in Hy. rewrite inside_below by done. by rewrite (below_perm y _ _ Hp).
  Qed.

  (** C67: the lines of infill. *)
  Theorem C67_lines fuel :
    (Z.to_nat ((bmax (aabb_calculate_shape transformed)).1 - (bmin (aabb_calculate_shape transformed)).1) + 2 <= fuel)%nat ->
    exists segs, generateLines apply unapply fuel outline d total_shift w = Ok (map (fun s => (unapply s.1, unapply s.2)) segs) /\
      StronglySorted before segs /\
      (** each line is on a scanline, inside of the outline, and ends at its boundary *)
      (forall a b, (a, b) ∈ segs ->
        a.1 = b.1 /\ (exists k, a.1 = k * d + total_shift) /\ a.2 <= b.2 /\ w ÷ 5 <= b.2 - a.2 /\
        (forall y, a.2 < y < b.2 -> inside transformed a.1 y) /\ at_boundary transformed a.1 a.2 /\ at_boundary transformed b.1 b.2) /\
      (** each place of a scanline inside of the outline is on a line, or in a short piece *)
      (forall k y, let x := k * d + total_shift in
        inside transformed x y -> ~ rightmost transformed x ->
        (exists a b, (a, b) ∈ segs /\ a.1 = x /\ a.2 < y < b.2) \/ at_boundary transformed x y \/
        (exists y1 y2, y1 < y < y2 /\ y2 - y1 < w ÷ 5 /\ at_boundary transformed x y1 /\ at_boundary transformed x y2)).
  Proof.
    intros Hfuel. unfold generateLines. replace (d =? 0) with false by (symmetry; apply Z.eqb_neq; lia). cbn [orb].
    destruct outline as [|poly0 rest] eqn:Eout.
    { exists []. split; [done|]. split; [constructor|]. split; [intros a b H; by apply elem_of_nil in H|]. intros k y x H. by cbn in H. }
    rewrite <- Eout in *. cbv zeta. destruct (shift_of_ok d total_shift Hd) as [ks Hks]. fold shift in *.
    set (box := aabb_calculate_shape transformed) in *. set (lo := ((bmin box).1 - shift) / d). set (n := Z.to_nat (((bmax box).1 - shift) / d + 1 - lo)).
    assert (Hn : (n < fuel)%nat).
    { unfold n, lo. pose proof (Z.div_mod ((bmin box).1 - shift) d ltac:(lia)). pose proof (Z.mod_pos_bound ((bmin box).1 - shift) d Hd).
      pose proof (Z.div_mod ((bmax box).1 - shift) d ltac:(lia)). pose proof (Z.mod_pos_bound ((bmax box).1 - shift) d Hd).
      set (q1 := ((bmin box).1 - shift) / d) in *. set (q2 := ((bmax box).1 - shift) / d) in *.
      assert (d * (q2 - q1) < (bmax box).1 - (bmin box).1 + d) by lia.
      destruct (decide (q2 - q1 <= 0)); [lia|]. assert (q2 - q1 - 1 < (bmax box).1 - (bmin box).1 \/ (q2 - q1 - 1 = 0 /\ 0 <= (bmax box).1 - (bmin box).1 )) by nia. lia. }
    destruct (crossings_ok fuel ltac:(by rewrite Eout) Hn) as (rows & E & Hlen & Hrows). fold box lo n in E, Hlen, Hrows. rewrite E. cbn [rbind fst snd].
    exists (addLineInfill d w (lo * d + shift) (bmax box).1 rows). split; [done|]. split; [by apply add_sorted|].
    assert (Hx : forall r, lo * d + shift + Z.of_nat r * d = x_of d shift (lo + Z.of_nat r)) by (intros r; unfold x_of; lia).
    split.
    - intros a b Hab. apply add_elem in Hab as (r & c & Er & Hmax & Hs); [|done]. rewrite Hx in Hmax, Hs. set (x := x_of d shift (lo + Z.of_nat r)) in *.
      destruct (Hrows r) as (c' & Ec' & Hc); [apply lookup_lt_Some in Er; lia|]. assert (c' = c) as -> by congruence. fold x in Hc.
      destruct (row_pairs c x Hc) as (Hsort & Heven & Hmem & Hin). apply scanline_elem in Hs as (ca & cb & Hp & Hw & [= -> ->]). cbn [fst snd].
      assert (Hp' : (cy ca, cy cb) ∈ pairs (map cy (sort_crossings c))).
      { rewrite pairs_map. change (map ?f ?l) with (f <$> l). apply elem_of_list_fmap. by exists (ca, cb). }
      assert (Hab : cy ca <= cy cb /\ cy ca ∈ map cy (sort_crossings c) /\ cy cb ∈ map cy (sort_crossings c)).
      { clear - Hp' Hsort. revert Hp' Hsort. generalize (map cy (sort_crossings c)) (cy ca) (cy cb). intros l u v.
        destruct (exists_fresh l) as [y Hy]. intros Hp Hs. destruct (pairs_inside y (length l) l (le_n _) Hs Hy) as [H _]. destruct (H u v Hp) as (A & B & C & _). done. }
      destruct Hab as (Hle & Ha & Hb). split; [done|]. split; [exists (lo + Z.of_nat r - ks); unfold x, x_of; lia|]. split; [done|]. split; [done|].
      split; [|split; apply ys_boundary, Hmem; done].
      intros y Hy. destruct (decide (y ∈ map cy (sort_crossings c))) as [Hyin|Hyn].
      + exfalso. revert Hp' Hsort Hyin Hy. clear. generalize (map cy (sort_crossings c)) (cy ca) (cy cb). intros l u v Hp Hs Hyin Hy. by apply (pairs_gap (length l) l (le_n _) Hs u v Hp y).
      + apply Hin; [done|]. destruct (pairs_inside y _ _ (le_n _) Hsort Hyn) as [H _]. by apply (H _ _ Hp').
    - intros k y. set (x := k * d + total_shift). intros Hins Hright.
      assert (Hcut : exists e, e ∈ all_edges transformed /\ cuts x e = true).
      { unfold inside in Hins. destruct (List.filter _ _) as [|e es] eqn:Ef; [done|]. assert (He : In e (e :: es)) by (by left). rewrite <- Ef in He.
        apply filter_In in He as [He1 He2]. apply andb_true_iff in He2 as [He2 _]. exists e. split; [by apply elem_of_list_In|done]. }
      destruct Hcut as (e & He & Hcut).
      assert (Hends : in_box box e.1 /\ in_box box e.2).
      { assert (Hbox : forall p, p ∈ concat transformed -> in_box box p).
        { intros p Hp. unfold box. rewrite C24_shape_box. unfold aabb_calculate. by apply include_points_spec. }
        destruct (edge_ends transformed e He) as [H1 H2]. split; by apply Hbox. }
      destruct Hends as [[[H1 H2] _] [[H3 H4] _]].
      assert (Hxb : (bmin box).1 < x <= (bmax box).1).
      { unfold cuts in Hcut. rewrite orb_true_iff, !andb_true_iff, !Z.ltb_lt, !Z.leb_le in Hcut. lia. }
      assert (Hxlt : x < (bmax box).1).
      { destruct (decide (x = (bmax box).1)) as [Hxe|]; [|lia]. exfalso. apply Hright. intros poly p Hpoly Hp.
        assert (Hb : in_box box p). { unfold box. rewrite C24_shape_box. unfold aabb_calculate. apply include_points_spec. apply elem_of_list_In, in_concat. exists poly. split; by apply elem_of_list_In. }
        destruct Hb as [? _]. lia. }
      set (kk := k + ks). assert (Hxk : x = x_of d shift kk) by (unfold x, kk, x_of; lia).
      assert (Hkk : lo <= kk < lo + Z.of_nat n).
      { assert (kk <= ((bmax box).1 - shift) / d) by (apply x_of_lt; [done|lia]). 
        assert (lo <= kk) by (pose proof (x_of_lt d shift Hd kk (bmin box).1) as Hxl; fold lo in Hxl; lia). unfold n. lia. }
      set (r := Z.to_nat (kk - lo)). destruct (Hrows r) as (c & Er & Hc); [unfold r; lia|].
      replace (lo + Z.of_nat r) with kk in Hc by (unfold r; lia). rewrite <- Hxk in Hc.
      destruct (row_pairs c x Hc) as (Hsort & Heven & Hmem & Hin).
      destruct (decide (y ∈ map cy (sort_crossings c))) as [Hyin|Hyn]; [right; left; by apply ys_boundary, Hmem|].
      destruct (pairs_inside y _ _ (le_n _) Hsort Hyn) as [Hpa Hpb]. destruct (Hpb Heven (proj1 (Hin y Hyn) Hins)) as (u & v & Huv & Hy).
      destruct (Hpa u v Huv) as (_ & Hu & Hv & _). rewrite pairs_map in Huv. change (map ?f ?l) with (f <$> l) in Huv. apply elem_of_list_fmap in Huv as ([ca cb] & [= -> ->] & Hp).
      destruct (decide (w ÷ 5 <= cy cb - cy ca)) as [Hw|Hw].
      + left. exists (x, cy ca), (x, cy cb). split; [|done]. apply add_elem; [done|]. exists r, c. rewrite Hx. replace (lo + Z.of_nat r) with kk by (unfold r; lia).
        rewrite <- Hxk. split; [done|]. split; [done|]. apply scanline_elem. by exists ca, cb.
      + right; right. exists (cy ca), (cy cb). split; [done|]. split; [lia|]. split; apply ys_boundary, Hmem; done.
  Qed.
End main.

(** ** an example: an L with a square hole and a slanted side, and lines 30 apart *)
Definition ex_outline : list (list pt) := [[(0, 0); (200, 0); (260, 100); (100, 100); (100, 200); (0, 200)]; [(20, 20); (20, 61); (61, 61); (61, 20)]].
Example C67_nonvacuous :
  (forall poly, poly ∈ ex_outline -> poly <> []) /\
  generateLines id id 300 ex_outline 30 (-50) 10 =
    Ok [((10, 0), (10, 200)); ((40, 0), (40, 20)); ((40, 61), (40, 200)); ((70, 0), (70, 200)); ((100, 0), (100, 200)); ((130, 0), (130, 100));
        ((160, 0), (160, 100)); ((190, 0), (190, 100)); ((220, 34), (220, 100)); ((250, 84), (250, 100))] /\
  inside ex_outline 40 100 /\ ~ inside ex_outline 40 40 /\ inside ex_outline 220 35 /\ ~ inside ex_outline 220 33 /\
  ~ rightmost ex_outline 250.
Proof.
  split; [intros poly H; apply elem_of_cons in H as [->|H]; [done|]; apply elem_of_list_singleton in H as ->; done|].
  split; [vm_compute; reflexivity|]. split; [vm_compute; reflexivity|]. split; [intros H; vm_compute in H; done|].
  split; [vm_compute; reflexivity|]. split; [intros H; vm_compute in H; done|].
  intros H. specialize (H _ (260, 100) (elem_of_list_here _ _)). cbn in H. assert (260 <= 250) by (apply H; set_solver). lia.
Qed.

(** The claim without its exception is false: a scanline which is exactly on the rightmost side of the outline gets no line. *)
Theorem C67_right_side_refuted :
  exists outline fuel d w, 0 < d /\ generateLines id id fuel outline d 0 w = Ok [((30, 0), (30, 90)); ((60, 0), (60, 90))] /\
    inside outline (3 * d) 45 /\ ~ at_boundary outline (3 * d) 45 /\ w < 10.
Proof.
  exists [[(10, 0); (90, 0); (90, 90); (10, 90)]], 100%nat, 30, 5. split; [lia|]. split; [vm_compute; reflexivity|].
  split; [vm_compute; reflexivity|]. split; [|lia]. intros (e & He & Hc & H1 & H2). vm_compute in He.
  repeat (apply elem_of_cons in He as [->|He]; [vm_compute in Hc, H1, H2; congruence|]). by apply elem_of_nil in He.
Qed.

Print Assumptions C67_lines.
Print Assumptions C67_right_side_refuted.
