From Coq Require Import ZArith Lia.
From stdpp Require Import list.
From Verif Require Import Common Geo_Model Geo_Spec Order_Model Grid_Model Grid_Proofs Grid_Props OpenStitch_Model OpenStitch_Spec.
Open Scope Z_scope.

(** *** terminuses *)
Lemma term_idx i b : getPolylineIdx (Terminus i b) = i.
Proof. unfold getPolylineIdx, Terminus. destruct b; [rewrite Nat.div_add_l by lia; change (1 / 2)%nat with 0%nat; lia|rewrite Nat.add_0_r, Nat.div_mul by lia; done]. Qed.
Lemma term_end i b : isEnd (Terminus i b) = b.
Proof. unfold isEnd, Terminus. rewrite Nat.odd_add, Nat.odd_mul. change (Nat.odd 2) with false. rewrite andb_false_r. by destruct b. Qed.
Lemma term_eta t : Terminus (getPolylineIdx t) (isEnd t) = t.
Proof.
  unfold getPolylineIdx, Terminus, isEnd. pose proof (Nat.div_mod t 2 ltac:(lia)) as H.
  destruct (Nat.odd t) eqn:E; [apply Nat.odd_spec in E as [k ->]|].
  - replace (2 * k + 1)%nat with (k * 2 + 1)%nat by lia. rewrite Nat.div_add_l by lia. change (1 / 2)%nat with 0%nat. lia.
  - assert (Ev : Nat.even t = true) by (rewrite <- Nat.negb_odd, E; done). apply Nat.even_spec in Ev as [k ->].
    replace (2 * k)%nat with (k * 2)%nat by lia. rewrite Nat.div_mul by lia. lia.
Qed.
Lemma term_inj i b j c : Terminus i b = Terminus j c -> i = j /\ b = c.
Proof. intros H. split; [rewrite <- (term_idx i b), H; apply term_idx|rewrite <- (term_end i b), H; apply term_end]. Qed.
Lemma term_bound i b n : (i < n)%nat -> (Terminus i b < n * 2)%nat.
Proof. unfold Terminus. destruct b; lia. Qed.
Lemma idx_bound c n : (c < n * 2)%nat -> (getPolylineIdx c < n)%nat.
Proof. intros H. unfold getPolylineIdx. apply Nat.div_lt_upper_bound; lia. Qed.
Global Opaque Terminus getPolylineIdx isEnd.

Lemma elem_of_concat_p {A} (x : A) ls : x ∈ concat ls <-> exists l, x ∈ l /\ l ∈ ls.
Proof.
  induction ls as [|l ls IH]; cbn [concat].
  - split; [intros H; by apply elem_of_nil in H|]. intros (l & _ & H). by apply elem_of_nil in H.
  - rewrite elem_of_app, IH. split.
    + intros [H|(l' & H1 & H2)]; [exists l; split; [done|apply elem_of_list_here]|exists l'; split; [done|by apply elem_of_list_further]].
    + intros (l' & H1 & H2). apply elem_of_cons in H2 as [->|H2]; [by left|right; by exists l'].
Qed.

Lemma head_Some_elem_of {A} (l : list A) x : head l = Some x -> x ∈ l.
Proof. destruct l; [done|]. intros [= ->]. apply elem_of_list_here. Qed.
(** *** pieces *)
Definition flip (x : piece) : piece := (x.1, negb x.2).
Definition orient (r : bool) (pl : list piece) : list piece := if r then reverse (map flip pl) else pl.
Definition front_old (x : piece) : nat := Terminus x.1 x.2.
Definition back_old (x : piece) : nat := Terminus x.1 (negb x.2).
Lemma front_flip x : front_old (flip x) = back_old x. Proof. done. Qed.
Lemma back_flip x : back_old (flip x) = front_old x. Proof. unfold back_old, front_old, flip. cbn. by rewrite negb_involutive. Qed.

Section fixed.
  Variables (L : list (list pt)) (D : Z) (backwards : bool) (P : list (list pt)).
  Let n := length L.

  Definition tpoint (o : nat) : option pt := let l := default [] (L !! getPolylineIdx o) in if isEnd o then last l else head l.
  Lemma piece_head x : head (piece_points L x) = tpoint (front_old x).
  Proof. unfold piece_points, tpoint, front_old. rewrite term_idx, term_end. destruct x.2; [apply head_reverse|done]. Qed.
  Lemma piece_last x : last (piece_points L x) = tpoint (back_old x).
  Proof. unfold piece_points, tpoint, back_old. rewrite term_idx, term_end. destruct x.2; [apply last_reverse|done]. Qed.
  Lemma piece_flip x : piece_points L (flip x) = reverse (piece_points L x).
  Proof. unfold piece_points, flip. cbn. destruct x.2; cbn; [by rewrite reverse_involutive|done]. Qed.
  Lemma assemble_app a b : assemble L (a ++ b) = assemble L a ++ assemble L b.
  Proof. unfold assemble. by rewrite map_app, concat_app. Qed.
  Lemma assemble_reverse pl : assemble L (reverse (map flip pl)) = reverse (assemble L pl).
  Proof.
    induction pl as [|x pl IH]; [done|]. cbn [map]. rewrite reverse_cons, assemble_app, IH. change (assemble L (x :: pl)) with (piece_points L x ++ assemble L pl).
    rewrite reverse_app. f_equal. unfold assemble. cbn [map concat]. by rewrite app_nil_r, piece_flip.
  Qed.
  Lemma assemble_orient r pl : assemble L (orient r pl) = if r then reverse (assemble L pl) else assemble L pl.
  Proof. destruct r; [apply assemble_reverse|done]. Qed.

  Lemma gap_terms a b p q : tpoint (back_old a) = Some p -> tpoint (front_old b) = Some q -> dist2 p q < D * D -> gap_below D L a b.
  Proof. intros. exists p, q. by rewrite piece_last, piece_head. Qed.
  Lemma dist2_sym p q : dist2 p q = dist2 q p.
  Proof. unfold dist2. lia. Qed.
  Lemma gap_flip a b : gap_below D L a b -> gap_below D L (flip b) (flip a).
  Proof.
    intros (p & q & H1 & H2 & H3). exists q, p. rewrite !piece_flip, last_reverse, head_reverse. rewrite dist2_sym. done.
  Qed.
  Lemma linked_app a b : linked D L a -> linked D L b -> (forall x y, last a = Some x -> head b = Some y -> gap_below D L x y) -> linked D L (a ++ b).
  Proof.
    intros Ha Hb Hab i x y Hx Hy. apply lookup_app_Some in Hx as [Hx|[Lx Hx]].
    - apply lookup_app_Some in Hy as [Hy|[Ly Hy]]; [by eapply Ha|]. apply lookup_lt_Some in Hx as Hl. assert (E : S i = length a) by lia.
      apply Hab; [rewrite last_lookup; by rewrite <- E|]. rewrite head_lookup. by rewrite E, Nat.sub_diag in Hy.
    - rewrite lookup_app_r in Hy by lia. replace (S i - length a)%nat with (S (i - length a)) in Hy by lia. by eapply Hb.
  Qed.
  Lemma linked_orient r pl : linked D L pl -> linked D L (orient r pl).
  Proof.
    intros H. destruct r; [|done]. cbn [orient]. intros i a b Ha Hb. assert (Hl : (S i < length pl)%nat) by (apply lookup_lt_Some in Hb; rewrite reverse_length, map_length in Hb; done).
    rewrite reverse_lookup in Ha, Hb by (rewrite map_length; lia). rewrite map_length in Ha, Hb. 
    apply list_lookup_fmap_Some in Ha as (x & Hx & ->). apply list_lookup_fmap_Some in Hb as (y & Hy & ->). apply gap_flip. apply (H (length pl - S (S i))%nat); [done|].
    by replace (S (length pl - S (S i))) with (length pl - S i)%nat by lia.
  Qed.
  Lemma orient_fst r pl : map fst (orient r pl) ≡ₚ map fst pl.
  Proof. destruct r; [|done]. cbn [orient]. rewrite reverse_Permutation. rewrite map_map. done. Qed.
  Lemma orient_nil r pl : orient r pl = [] <-> pl = [].
  Proof. destruct r; [|done]. cbn [orient]. destruct pl; [done|]. split; [|done]. cbn [map]. rewrite reverse_cons. intros H. by apply app_eq_nil in H as [_ ?]. Qed.
  Lemma orient_head r pl : front_old <$> head (orient r pl) = if r then back_old <$> last pl else front_old <$> head pl.
  Proof. destruct r; [|done]. cbn [orient]. rewrite head_reverse. change (map flip pl) with (flip <$> pl). rewrite fmap_last. by destruct (last pl). Qed.
  Lemma orient_last r pl : back_old <$> last (orient r pl) = if r then front_old <$> head pl else back_old <$> last pl.
  Proof. destruct r; [|done]. cbn [orient]. rewrite last_reverse. destruct pl; [done|]. cbn. by rewrite back_flip. Qed.

  (** *** the invariant *)
  Definition cur_old (plans : list (list piece)) (c : nat) : option nat :=
    match plans !! getPolylineIdx c with
    | Some pl => if isEnd c then back_old <$> last pl else front_old <$> head pl
    | None => None
    end.
  Record inv (plans pplans : list (list piece)) (st : state) : Prop := {
    i_lines : open_polylines st = map (assemble L) plans;
    i_polys : polygons st = P ++ map (assemble L) pplans;
    i_once : map fst (concat plans ++ concat pplans) ≡ₚ seq 0 n;
    i_linked : forall pl, pl ∈ plans -> linked D L pl;
    i_closed : forall pl, pl ∈ pplans -> linked D L pl /\ exists a b, head pl = Some a /\ last pl = Some b /\ gap_below D L b a;
    i_forward : backwards = false -> forall a, a ∈ concat plans ++ concat pplans -> a.2 = false;
    i_nonempty : forall pl, pl ∈ plans -> (exists x, pl = [x]) \/ Forall (fun x => piece_points L x <> []) pl;
    i_len : length plans = n;
    i_len_o : length (old_to_cur (tracked st)) = (n * 2)%nat;
    i_len_c : length (cur_to_old (tracked st)) = (n * 2)%nat;
    i_old : forall o c, old_to_cur (tracked st) !! o = Some (Some c) -> cur_old plans c = Some o;
    i_cur : forall c o, cur_old plans c = Some o -> old_to_cur (tracked st) !! o = Some (Some c) /\ cur_to_old (tracked st) !! c = Some (Some o) }.
  Definition dead (st : state) (o : nat) : Prop := old_to_cur (tracked st) !! o = Some None.
  Record valid (s : possible_stitch) : Prop := {
    v_points : exists p q, tpoint (terminus_0 s) = Some p /\ tpoint (terminus_1 s) = Some q /\ dist2 p q < D * D;
    v_differ : terminus_0 s <> terminus_1 s;
    v_order : backwards = false -> isEnd (terminus_0 s) = true /\ isEnd (terminus_1 s) = false }.

  Lemma tpoint_bound o p : tpoint o = Some p -> (o < n * 2)%nat.
  Proof.
    intros H. unfold tpoint in H. destruct (L !! getPolylineIdx o) as [l|] eqn:E; cbn in H; [|by destruct (isEnd o)].
    apply lookup_lt_Some in E. rewrite <- (term_eta o). by apply term_bound.
  Qed.
  Lemma plan_spec lines t0 t1 a b : lines !! getPolylineIdx t0 = Some a -> lines !! getPolylineIdx t1 = Some b ->
    exists u v r0 r1, planPolylineStitch lines t0 t1 = Ok (u, v, (r0, r1)) /\ ((u = t0 /\ v = t1) \/ (u = t1 /\ v = t0)) /\
      isEnd u = negb r0 /\ isEnd v = r1 /\ (isEnd t0 = true -> isEnd t1 = false -> r0 = false /\ r1 = false).
  Proof.
    intros Ha Hb. unfold planPolylineStitch. rewrite Ha, Hb. cbn -[Nat.ltb]. destruct (isEnd t0) eqn:E0, (isEnd t1) eqn:E1.
    - destruct (length a <? length b)%nat; eexists _, _, _, _; (split; [reflexivity|]); (split; [tauto|]); rewrite ?E0, ?E1; done.
    - eexists _, _, _, _; (split; [reflexivity|]); (split; [tauto|]); rewrite ?E0, ?E1; done.
    - eexists _, _, _, _; (split; [reflexivity|]); (split; [tauto|]); rewrite ?E0, ?E1; done.
    - destruct (length b <? length a)%nat; eexists _, _, _, _; (split; [reflexivity|]); (split; [tauto|]); rewrite ?E0, ?E1; done.
  Qed.
  Lemma put_ok m i t : (i < length m)%nat -> put m i t = Ok (<[i := t]> m).
  Proof. intros H. unfold put. by rewrite (proj2 (Nat.ltb_lt _ _) H). Qed.
  Lemma get_ok m i t : m !! i = Some t -> get m i = Ok t.
  Proof. intros H. unfold get. by rewrite H. Qed.

  Lemma update_spec m i j a0 a1 b0 b1 r0 r1 : (i < n)%nat -> (j < n)%nat -> i <> j ->
    length (old_to_cur m) = (n * 2)%nat -> length (cur_to_old m) = (n * 2)%nat ->
    cur_to_old m !! Terminus i false = Some (Some a0) -> cur_to_old m !! Terminus i true = Some (Some a1) ->
    cur_to_old m !! Terminus j false = Some (Some b0) -> cur_to_old m !! Terminus j true = Some (Some b1) ->
    (a0 < n * 2)%nat -> (a1 < n * 2)%nat -> (b0 < n * 2)%nat -> (b1 < n * 2)%nat -> NoDup [a0; a1; b0; b1] ->
    let keep0 := if r0 : bool then a1 else a0 in let drop0 := if r0 then a0 else a1 in
    let keep1 := if r1 : bool then b0 else b1 in let drop1 := if r1 then b1 else b0 in
    exists m', updateMap m [Terminus i false; Terminus i true; Terminus j false; Terminus j true]
        ((if r0 then [None; Some (Terminus i false)] else [Some (Terminus i false); None]) ++
         (if r1 then [Some (Terminus i true); None] else [None; Some (Terminus i true)])) [Terminus j false; Terminus j true] = Ok m' /\
      length (old_to_cur m') = (n * 2)%nat /\ length (cur_to_old m') = (n * 2)%nat /\
      old_to_cur m' !! keep0 = Some (Some (Terminus i false)) /\ old_to_cur m' !! keep1 = Some (Some (Terminus i true)) /\
      old_to_cur m' !! drop0 = Some None /\ old_to_cur m' !! drop1 = Some None /\
      (forall o, o <> a0 -> o <> a1 -> o <> b0 -> o <> b1 -> old_to_cur m' !! o = old_to_cur m !! o) /\
      cur_to_old m' !! Terminus i false = Some (Some keep0) /\ cur_to_old m' !! Terminus i true = Some (Some keep1) /\
      (forall c, getPolylineIdx c <> i -> getPolylineIdx c <> j -> cur_to_old m' !! c = cur_to_old m !! c).
  Proof.
    intros Hi Hj Hij Lo Lc A0 A1 B0 B1 H0 H1 H2 H3 ND keep0 drop0 keep1 drop1. unfold updateMap. cbn [old_terms].
    rewrite (get_ok _ _ _ A0), (get_ok _ _ _ A1), (get_ok _ _ _ B0), (get_ok _ _ _ B1). cbn [rbind].
    apply NoDup_cons in ND as [N1 ND]. apply NoDup_cons in ND as [N2 ND]. apply NoDup_cons in ND as [N3 ND]. rewrite !not_elem_of_cons in *.
    destruct N1 as (N01 & N02 & N03 & _). destruct N2 as (N12 & N13 & _). destruct N3 as (N23 & _).
    pose proof (term_bound i false n Hi) as Ti0. pose proof (term_bound i true n Hi) as Ti1. pose proof (term_bound j false n Hj) as Tj0. pose proof (term_bound j true n Hj) as Tj1.
    assert (D1 : Terminus i false <> Terminus i true) by (intros H; apply term_inj in H as [_ ?]; done).
    assert (D2 : forall x y, Terminus i x <> Terminus j y) by (intros x y H; apply term_inj in H as [? _]; done).
    assert (D3 : forall x y, Terminus j x <> Terminus i y) by (intros x y H; apply term_inj in H as [? _]; done).
    assert (D4 : forall c k x, getPolylineIdx c <> k -> c <> Terminus k x) by (intros c k x H ->; rewrite term_idx in H; done).
    destruct r0, r1; cbn [app zip zip_with update_terms of_opt rbind];
      repeat (rewrite !put_ok by (cbn [old_to_cur cur_to_old]; rewrite ?insert_length; lia); cbn [rbind old_to_cur cur_to_old]);
      cbn [remove_terms];
      repeat (rewrite !put_ok by (rewrite ?insert_length; lia); cbn [rbind]);
      eexists; (split; [reflexivity|]); cbn [old_to_cur cur_to_old]; rewrite !insert_length; (split; [done|]); (split; [done|]); unfold keep0, keep1, drop0, drop1.
    all: split; [repeat (rewrite list_lookup_insert_ne by done); rewrite list_lookup_insert by (rewrite ?insert_length; lia); done|].
    all: split; [repeat (rewrite list_lookup_insert_ne by done); rewrite list_lookup_insert by (rewrite ?insert_length; lia); done|].
    all: split; [repeat (rewrite list_lookup_insert_ne by done); rewrite list_lookup_insert by (rewrite ?insert_length; lia); done|].
    all: split; [repeat (rewrite list_lookup_insert_ne by done); rewrite list_lookup_insert by (rewrite ?insert_length; lia); done|].
    all: split; [intros o ? ? ? ?; repeat (rewrite list_lookup_insert_ne by done); done|].
    all: split; [repeat (rewrite list_lookup_insert_ne by done); rewrite list_lookup_insert by (rewrite ?insert_length; lia); done|].
    all: split; [repeat (rewrite list_lookup_insert_ne by done); rewrite list_lookup_insert by (rewrite ?insert_length; lia); done|].
    all: intros c Hc1 Hc2; repeat (rewrite list_lookup_insert_ne by (apply not_eq_sym; by apply D4)); done.
  Qed.

  (** *** one stitch *)
  Lemma concat_insert (plans : list (list piece)) i pl x : plans !! i = Some pl -> concat (<[i := x]> plans) ++ pl ≡ₚ concat plans ++ x.
  Proof.
    intros H. pose proof (take_drop_middle _ _ _ H) as E. rewrite <- E at 2. rewrite insert_take_drop by (by eapply lookup_lt_Some).
    rewrite !concat_app. cbn [concat]. rewrite <- !app_assoc. apply Permutation_app_head. rewrite (Permutation_app_comm (concat (drop (S i) plans)) pl).
    rewrite (Permutation_app_comm (concat (drop (S i) plans)) x). rewrite !app_assoc. apply Permutation_app_tail. apply Permutation_app_comm.
  Qed.
  Lemma cur_old_plan plans c o : cur_old plans c = Some o -> exists pl a b, plans !! getPolylineIdx c = Some pl /\ head pl = Some a /\ last pl = Some b /\
    cur_old plans (Terminus (getPolylineIdx c) false) = Some (front_old a) /\ cur_old plans (Terminus (getPolylineIdx c) true) = Some (back_old b) /\
    o = if isEnd c then back_old b else front_old a.
  Proof.
    unfold cur_old. rewrite !term_idx, !term_end. destruct (plans !! getPolylineIdx c) as [pl|]; [|done]. destruct pl as [|a pl]; [by destruct (isEnd c)|].
    intros H. destruct (last (a :: pl)) as [b|] eqn:E; [|by apply last_None in E]. exists (a :: pl), a, b. rewrite E. cbn in *.
    split; [done|]. split; [done|]. split; [done|]. split; [done|]. split; [done|]. destruct (isEnd c); cbn in H; congruence.
  Qed.
  Lemma mark_spec m c o : cur_to_old m !! c = Some (Some o) -> (o < length (old_to_cur m))%nat ->
    markRemoved m c = Ok (Tracking (<[o := None]> (old_to_cur m)) (<[c := None]> (cur_to_old m))).
  Proof.
    intros H1 H2. unfold markRemoved. rewrite (get_ok _ _ _ H1). cbn [rbind of_opt]. rewrite put_ok by done. cbn [rbind].
    rewrite put_ok by (by eapply lookup_lt_Some). done.
  Qed.
  Lemma nonempty_piece x p : tpoint (front_old x) = Some p \/ tpoint (back_old x) = Some p -> piece_points L x <> [].
  Proof. rewrite <- piece_head, <- piece_last. intros [H|H] E; rewrite E in H; done. Qed.

  Definition step_goal (st : state) (s : possible_stitch) : Prop := exists st' plans' pplans', connect_step st s = Ok st' /\ inv plans' pplans' st' /\
      (forall o, dead st o -> dead st' o) /\ (dead st' (terminus_0 s) \/ dead st' (terminus_1 s)).

  Lemma step_close plans pplans st s c0 c1 : inv plans pplans st -> valid s ->
    old_to_cur (tracked st) !! terminus_0 s = Some (Some c0) -> old_to_cur (tracked st) !! terminus_1 s = Some (Some c1) ->
    getPolylineIdx c0 = getPolylineIdx c1 -> step_goal st s.
  Proof.
    intros I V H0 H1 E. destruct V as [(p & q & Hp & Hq & Hd) Vd _]. pose proof (i_old _ _ _ I _ _ H0) as O0. pose proof (i_old _ _ _ I _ _ H1) as O1.
    destruct (cur_old_plan _ _ _ O0) as (pl & a & b & Hpl & Ha & Hb & Cf & Cb & E0). destruct (cur_old_plan _ _ _ O1) as (pl' & a' & b' & Hpl' & Ha' & Hb' & _ & _ & E1).
    rewrite <- E in Hpl'. assert (pl' = pl) as -> by congruence. assert (a' = a) as -> by congruence. assert (b' = b) as -> by congruence. clear Hpl' Ha' Hb'.
    set (i := getPolylineIdx c0) in *.
    destruct (i_cur _ _ _ I _ _ Cf) as [Of1 Of2]. destruct (i_cur _ _ _ I _ _ Cb) as [Ob1 Ob2].
    assert (Dab : front_old a <> back_old b). { intros Eq. rewrite Eq in Of1. rewrite Of1 in Ob1. injection Ob1 as Eq2. apply term_inj in Eq2 as [_ ?]. done. }
    assert (Sides : (terminus_0 s = back_old b /\ terminus_1 s = front_old a) \/ (terminus_0 s = front_old a /\ terminus_1 s = back_old b)).
    { destruct (isEnd c0), (isEnd c1); [congruence|tauto|tauto|congruence]. }
    assert (Hi : (i < length plans)%nat) by (by eapply lookup_lt_Some).
    assert (Gap : gap_below D L b a).
    { destruct Sides as [[S0 S1]|[S0 S1]]; rewrite S0 in Hp; rewrite S1 in Hq; [by eapply gap_terms|eapply gap_terms; [exact Hq|exact Hp|by rewrite dist2_sym]]. }
    assert (Perm : concat (<[i := []]> plans) ++ concat (pplans ++ [pl]) ≡ₚ concat plans ++ concat pplans).
    { rewrite concat_app. cbn [concat]. rewrite app_nil_r. rewrite (Permutation_app_comm (concat pplans) pl), app_assoc. apply Permutation_app_tail.
      rewrite (concat_insert plans i pl []) by done. by rewrite app_nil_r. }
    exists (State (<[i := []]> (open_polylines st)) (polygons st ++ [assemble L pl])
              (Tracking (<[back_old b := None]> (<[front_old a := None]> (old_to_cur (tracked st))))
                 (<[Terminus i true := None]> (<[Terminus i false := None]> (cur_to_old (tracked st)))))), (<[i := []]> plans), (pplans ++ [pl]).
    assert (Co : forall c, getPolylineIdx c <> i -> cur_old (<[i := []]> plans) c = cur_old plans c).
    { intros c Hc. unfold cur_old. by rewrite list_lookup_insert_ne by congruence. }
    assert (Cn : forall c, getPolylineIdx c = i -> cur_old (<[i := []]> plans) c = None).
    { intros c Hc. unfold cur_old. rewrite Hc, list_lookup_insert by done. by destruct (isEnd c). }
    assert (Ci : forall c, getPolylineIdx c = i -> cur_old plans c = if isEnd c then Some (back_old b) else Some (front_old a)).
    { intros c Hc. unfold cur_old. rewrite Hc, Hpl, Ha, Hb. by destruct (isEnd c). }
    split; [|split; [|split]].
    - unfold connect_step. rewrite (get_ok _ _ _ H0). cbn [rbind]. rewrite (get_ok _ _ _ H1). cbn [rbind]. rewrite <- E. fold i. rewrite Nat.eqb_refl.
      rewrite (i_lines _ _ _ I). change (map (assemble L) plans) with (assemble L <$> plans). rewrite list_lookup_fmap, Hpl. cbn [fmap option_fmap option_map of_opt rbind].
      rewrite (mark_spec _ _ _ Of2) by (by eapply lookup_lt_Some). cbn [rbind].
      rewrite (mark_spec _ _ (back_old b)); [done| |].
      + cbn [cur_to_old]. rewrite list_lookup_insert_ne; [done|]. intros Eq. apply term_inj in Eq as [_ ?]. done.
      + cbn [old_to_cur]. rewrite insert_length. by eapply lookup_lt_Some.
    - constructor; cbn [open_polylines polygons tracked old_to_cur cur_to_old].
      + rewrite (i_lines _ _ _ I). symmetry. apply (list_fmap_insert (assemble L)).
      + rewrite (i_polys _ _ _ I), map_app, app_assoc. done.
      + rewrite Perm. apply I.
      + intros pl' Hin. apply elem_of_list_lookup in Hin as [k Hk]. destruct (decide (i = k)) as [<-|Hne].
        * rewrite list_lookup_insert in Hk by done. injection Hk as <-. intros k x y Hx; done.
        * rewrite list_lookup_insert_ne in Hk by done. apply (i_linked _ _ _ I). apply elem_of_list_lookup. by exists k.
      + intros pl' Hin. apply elem_of_app in Hin as [Hin|Hin]; [by apply (i_closed _ _ _ I)|]. apply elem_of_list_singleton in Hin as ->.
        split; [apply (i_linked _ _ _ I); apply elem_of_list_lookup; by exists i|]. by exists a, b.
      + intros Hbw x Hx. rewrite Perm in Hx. by apply (i_forward _ _ _ I Hbw).
      + intros pl' Hin. apply elem_of_list_lookup in Hin as [k Hk]. destruct (decide (i = k)) as [<-|Hne].
        * rewrite list_lookup_insert in Hk by done. injection Hk as <-. right. done.
        * rewrite list_lookup_insert_ne in Hk by done. apply (i_nonempty _ _ _ I). apply elem_of_list_lookup. by exists k.
      + rewrite insert_length. apply I.
      + rewrite !insert_length. apply I.
      + rewrite !insert_length. apply I.
      + intros o c Hoc. destruct (decide (o = back_old b)) as [->|N1]; [rewrite list_lookup_insert in Hoc; [done|rewrite insert_length; by eapply lookup_lt_Some]|].
        rewrite list_lookup_insert_ne in Hoc by congruence.
        destruct (decide (o = front_old a)) as [->|N2]; [rewrite list_lookup_insert in Hoc; [done|by eapply lookup_lt_Some]|].
        rewrite list_lookup_insert_ne in Hoc by congruence. pose proof (i_old _ _ _ I _ _ Hoc) as Hc. rewrite Co; [done|].
        intros Eq. rewrite (Ci c Eq) in Hc. destruct (isEnd c); congruence.
      + intros c o Hoc. destruct (decide (getPolylineIdx c = i)) as [Eq|Ne]; [rewrite Cn in Hoc by done; done|]. rewrite Co in Hoc by done.
        destruct (i_cur _ _ _ I _ _ Hoc) as [G1 G2].
        assert (Nf : c <> Terminus i false) by (intros ->; by rewrite term_idx in Ne). assert (Nb : c <> Terminus i true) by (intros ->; by rewrite term_idx in Ne).
        rewrite !list_lookup_insert_ne; [done|congruence|congruence|congruence|congruence].
    - unfold dead. cbn [tracked old_to_cur]. intros o Ho. rewrite !list_lookup_insert_ne; [done|intros <-; congruence|intros <-; congruence].
    - unfold dead. cbn [tracked old_to_cur]. destruct Sides as [[S0 S1]|[S0 S1]]; rewrite S0, S1; [left|right]; apply list_lookup_insert; rewrite insert_length; by eapply lookup_lt_Some.
  Qed.

  Lemma cur_old_some plans i pl a b : plans !! i = Some pl -> head pl = Some a -> last pl = Some b -> forall c, getPolylineIdx c = i ->
    cur_old plans c = Some (if isEnd c then back_old b else front_old a).
  Proof. intros H Ha Hb c <-. unfold cur_old. rewrite H, Ha, Hb. by destruct (isEnd c). Qed.
  Lemma orient_elem r pl x : x ∈ orient r pl -> x ∈ pl \/ (r = true /\ flip x ∈ pl).
  Proof.
    destruct r; [|by left]. cbn [orient]. intros H. rewrite elem_of_reverse in H. change (map flip pl) with (flip <$> pl) in H. apply elem_of_list_fmap in H as (y & -> & Hy). right. split; [done|].
    unfold flip. cbn. rewrite negb_involutive. by destruct y.
  Qed.

  Lemma step_join plans pplans st s c0 c1 : inv plans pplans st -> valid s ->
    old_to_cur (tracked st) !! terminus_0 s = Some (Some c0) -> old_to_cur (tracked st) !! terminus_1 s = Some (Some c1) ->
    getPolylineIdx c0 <> getPolylineIdx c1 -> step_goal st s.
  Proof.
    intros I V H0 H1 E. destruct V as [(p & q & Hp & Hq & Hd) Vd Vo]. pose proof (i_old _ _ _ I _ _ H0) as O0. pose proof (i_old _ _ _ I _ _ H1) as O1.
    (* the ends that are joined, after the plan *)
    assert (X : exists u v r0 r1 ou ov pu pv, planPolylineStitch (open_polylines st) c0 c1 = Ok (u, v, (r0, r1)) /\ isEnd u = negb r0 /\ isEnd v = r1 /\
        getPolylineIdx u <> getPolylineIdx v /\ cur_old plans u = Some ou /\ cur_old plans v = Some ov /\ tpoint ou = Some pu /\ tpoint ov = Some pv /\
        dist2 pu pv < D * D /\ ((ou = terminus_0 s /\ ov = terminus_1 s) \/ (ou = terminus_1 s /\ ov = terminus_0 s)) /\ (backwards = false -> r0 = false /\ r1 = false)).
    { destruct (cur_old_plan _ _ _ O0) as (pl & a & b & Hpl & Ha & Hb & _ & _ & E0). destruct (cur_old_plan _ _ _ O1) as (pl' & a' & b' & Hpl' & Ha' & Hb' & _ & _ & E1).
      destruct (plan_spec (open_polylines st) c0 c1 (assemble L pl) (assemble L pl')) as (u & v & r0 & r1 & Hplan & Huv & Hu & Hv & Hr).
      - rewrite (i_lines _ _ _ I). change (map (assemble L) plans) with (assemble L <$> plans). by rewrite list_lookup_fmap, Hpl.
      - rewrite (i_lines _ _ _ I). change (map (assemble L) plans) with (assemble L <$> plans). by rewrite list_lookup_fmap, Hpl'.
      - assert (Hf : backwards = false -> r0 = false /\ r1 = false).
        { intros Hbw. destruct (Vo Hbw) as [V0 V1]. pose proof (i_forward _ _ _ I Hbw) as F.
          assert (Fm : forall l x k, plans !! k = Some l -> x ∈ l -> x.2 = false).
          { intros l x k Hl Hx. apply F. apply elem_of_app. left. apply elem_of_concat_p. exists l. split; [done|]. apply elem_of_list_lookup. by exists k. }
          apply Hr.
          - destruct (isEnd c0); [done|]. rewrite E0 in V0. unfold front_old in V0. rewrite term_end in V0. rewrite (Fm pl a _ Hpl) in V0; [done|]. by apply head_Some_elem_of.
          - destruct (isEnd c1); [|done]. rewrite E1 in V1. unfold back_old in V1. rewrite term_end in V1. rewrite (Fm pl' b' _ Hpl') in V1; [done|]. by apply last_Some_elem_of. }
        destruct Huv as [[-> ->]|[-> ->]].
        + exists c0, c1, r0, r1, (terminus_0 s), (terminus_1 s), p, q. repeat (split; [done|]). split; [by left|done].
        + exists c1, c0, r0, r1, (terminus_1 s), (terminus_0 s), q, p. repeat (split; [done || congruence|]). rewrite dist2_sym. split; [done|]. split; [by right|done]. }
    destruct X as (u & v & r0 & r1 & ou & ov & pu & pv & Hplan & Hu & Hv & Nuv & Ou & Ov & Tu & Tv & Duv & Sides & Hr).
    clear p q Hp Hq Hd Vo Vd. 
    destruct (cur_old_plan _ _ _ Ou) as (pi & a & b & Hpi & Ha & Hb & Caf & Cab & Eu). destruct (cur_old_plan _ _ _ Ov) as (pj & a' & b' & Hpj & Ha' & Hb' & Cbf & Cbb & Ev).
    set (i := getPolylineIdx u) in *. set (j := getPolylineIdx v) in *.
    destruct (i_cur _ _ _ I _ _ Caf) as [X1 Y1]. destruct (i_cur _ _ _ I _ _ Cab) as [X2 Y2]. destruct (i_cur _ _ _ I _ _ Cbf) as [X3 Y3]. destruct (i_cur _ _ _ I _ _ Cbb) as [X4 Y4].
    assert (Hi : (i < length plans)%nat) by (by eapply lookup_lt_Some). assert (Hj : (j < length plans)%nat) by (by eapply lookup_lt_Some).
    pose proof (i_len _ _ _ I) as Ln. pose proof (i_len_o _ _ _ I) as Lo. pose proof (i_len_c _ _ _ I) as Lc.
    pose proof (lookup_lt_Some _ _ _ X1) as B1. pose proof (lookup_lt_Some _ _ _ X2) as B2. pose proof (lookup_lt_Some _ _ _ X3) as B3. pose proof (lookup_lt_Some _ _ _ X4) as B4.
    rewrite Lo in B1, B2, B3, B4. rewrite Ln in Hi, Hj.
    assert (ND : NoDup [front_old a; back_old b; front_old a'; back_old b']).
    { assert (Ne : forall o1 o2 i1 b1 i2 b2, old_to_cur (tracked st) !! o1 = Some (Some (Terminus i1 b1)) -> old_to_cur (tracked st) !! o2 = Some (Some (Terminus i2 b2)) ->
                 (i1, b1) <> (i2, b2) -> o1 <> o2).
      { intros o1 o2 i1 b1 i2 b2 G1 G2 G3 ->. rewrite G1 in G2. injection G2 as G. apply term_inj in G as [-> ->]. done. }
      repeat (apply NoDup_cons; split); [| | |apply not_elem_of_nil|apply NoDup_nil_2]; rewrite ?not_elem_of_cons.
      - split; [eapply Ne; [exact X1|exact X2|congruence]|]. split; [eapply Ne; [exact X1|exact X3|congruence]|]. split; [eapply Ne; [exact X1|exact X4|congruence]|apply not_elem_of_nil].
      - split; [eapply Ne; [exact X2|exact X3|congruence]|]. split; [eapply Ne; [exact X2|exact X4|congruence]|apply not_elem_of_nil].
      - split; [eapply Ne; [exact X3|exact X4|congruence]|apply not_elem_of_nil]. }
    destruct (update_spec (tracked st) i j _ _ _ _ r0 r1 Hi Hj Nuv Lo Lc Y1 Y2 Y3 Y4 B1 B2 B3 B4 ND) as (m' & Hm & Lo' & Lc' & K0 & K1 & D0 & D1 & Ko & C0 & C1 & Kc).
    set (joined := orient r0 pi ++ orient r1 pj).
    (* the ends of the joined plan *)
    assert (Hend : exists x y z w, head (orient r0 pi) = Some x /\ last (orient r0 pi) = Some y /\ head (orient r1 pj) = Some z /\ last (orient r1 pj) = Some w /\
       back_old y = ou /\ front_old z = ov /\ front_old x = (if r0 then back_old b else front_old a) /\ back_old w = (if r1 then front_old a' else back_old b')).
    { pose proof (orient_head r0 pi) as G1. pose proof (orient_last r0 pi) as G2. pose proof (orient_head r1 pj) as G3. pose proof (orient_last r1 pj) as G4.
      rewrite Ha, Hb in G1, G2. rewrite Ha', Hb' in G3, G4. rewrite Hu in Eu. rewrite Hv in Ev.
      destruct (head (orient r0 pi)) as [x|]; [|by destruct r0]. destruct (last (orient r0 pi)) as [y|]; [|by destruct r0].
      destruct (head (orient r1 pj)) as [z|]; [|by destruct r1]. destruct (last (orient r1 pj)) as [w|]; [|by destruct r1].
      exists x, y, z, w. repeat (split; [done|]). cbn [fmap option_fmap option_map] in *.
      split; [rewrite Eu; destruct r0; cbn; congruence|]. split; [rewrite Ev; destruct r1; congruence|]. split; [destruct r0; congruence|destruct r1; congruence]. }
    destruct Hend as (x & y & z & w & Hx & Hy & Hz & Hw & Ey & Ez & Ex & Ew).
    assert (Jh : head joined = Some x). { unfold joined. destruct (orient r0 pi); [done|]. exact Hx. }
    assert (Jl : last joined = Some w). { unfold joined. rewrite last_app. by rewrite Hw. }
    assert (Drop : dead (State (<[j := []]> (<[i := assemble L joined]> (open_polylines st))) (polygons st) m') ou /\
                   dead (State (<[j := []]> (<[i := assemble L joined]> (open_polylines st))) (polygons st) m') ov).
    { unfold dead. cbn [tracked]. rewrite Eu, Ev, Hu, Hv. split; [destruct r0; exact D0|destruct r1; exact D1]. }
    assert (Perm : concat (<[j := []]> (<[i := joined]> plans)) ++ (pi ++ pj) ≡ₚ concat plans ++ joined).
    { assert (G : (<[i := joined]> plans) !! j = Some pj) by (rewrite list_lookup_insert_ne by congruence; done).
      pose proof (concat_insert _ _ _ [] G) as G1. pose proof (concat_insert _ _ _ joined Hpi) as G2. rewrite app_nil_r in G1.
      rewrite (Permutation_app_comm pi pj), app_assoc, G1. exact G2. }
    exists (State (<[j := []]> (<[i := assemble L joined]> (open_polylines st))) (polygons st) m'), (<[j := []]> (<[i := joined]> plans)), pplans.
    assert (Look : forall k pl, (<[j := []]> (<[i := joined]> plans)) !! k = Some pl -> pl = [] \/ (k = i /\ pl = joined) \/ (k <> i /\ k <> j /\ plans !! k = Some pl)).
    { intros k pl Hk. destruct (decide (j = k)) as [<-|Nj]; [rewrite list_lookup_insert in Hk by (rewrite insert_length; congruence); left; congruence|].
      rewrite list_lookup_insert_ne in Hk by done. destruct (decide (i = k)) as [<-|Ni]; [rewrite list_lookup_insert in Hk by congruence; right; left; split; congruence|].
      rewrite list_lookup_insert_ne in Hk by done. right. right. done. }
    assert (Ino : forall k l, plans !! k = Some l -> l ∈ plans) by (intros k l Hl; apply elem_of_list_lookup; by exists k).
    assert (Cj : forall c, getPolylineIdx c = j -> cur_old (<[j := []]> (<[i := joined]> plans)) c = None).
    { intros c Hc. unfold cur_old. rewrite Hc, list_lookup_insert by (rewrite insert_length; congruence). by destruct (isEnd c). }
    assert (Ci : forall c, getPolylineIdx c = i -> cur_old (<[j := []]> (<[i := joined]> plans)) c = Some (if isEnd c then back_old w else front_old x)).
    { intros c Hc. apply (cur_old_some _ i joined x w); [|done|done|done]. rewrite list_lookup_insert_ne by congruence. by rewrite list_lookup_insert by congruence. }
    assert (Co : forall c, getPolylineIdx c <> i -> getPolylineIdx c <> j -> cur_old (<[j := []]> (<[i := joined]> plans)) c = cur_old plans c).
    { intros c Hc1 Hc2. unfold cur_old. by rewrite !list_lookup_insert_ne by congruence. }
    pose proof (cur_old_some _ _ _ _ _ Hpi Ha Hb) as Pi. pose proof (cur_old_some _ _ _ _ _ Hpj Ha' Hb') as Pj.
    assert (Gap : gap_below D L y z) by (eapply gap_terms; [by rewrite Ey|by rewrite Ez|done]).
    split; [|split; [|split]].
    - unfold connect_step. rewrite (get_ok _ _ _ H0). cbn [rbind]. rewrite (get_ok _ _ _ H1). cbn [rbind]. rewrite (proj2 (Nat.eqb_neq _ _) E).
      rewrite Hplan. cbn [rbind fst snd]. fold i j. rewrite (i_lines _ _ _ I). change (map (assemble L) plans) with (assemble L <$> plans).
      rewrite !list_lookup_fmap, Hpi, Hpj. cbn [fmap option_fmap option_map of_opt rbind].
      change (Nat.add (length pi)) with (Nat.add (length pi)). rewrite Hm. cbn [rbind]. f_equal. f_equal. f_equal. f_equal. unfold joined, joinPolylines. cbn [fst snd].
      by rewrite assemble_app, !assemble_orient.
    - constructor; cbn [open_polylines polygons tracked old_to_cur cur_to_old].
      + rewrite (i_lines _ _ _ I). change (map (assemble L)) with (fmap (M := list) (assemble L)). by rewrite !list_fmap_insert.
      + apply I.
      + rewrite <- (i_once _ _ _ I). rewrite !map_app. apply Permutation_app_tail.
        apply (Permutation_app_inv_r (map fst (pi ++ pj))). rewrite <- map_app, Perm, !map_app. apply Permutation_app_head. unfold joined. rewrite map_app.
        by rewrite !orient_fst.
      + intros pl Hin. apply elem_of_list_lookup in Hin as [k Hk]. destruct (Look _ _ Hk) as [->|[[_ ->]|(_ & _ & Hk')]]; [intros k' ? ? ?; done| |by eapply (i_linked _ _ _ I), Ino].
        unfold joined. apply linked_app; [apply linked_orient; by eapply (i_linked _ _ _ I), Ino|apply linked_orient; by eapply (i_linked _ _ _ I), Ino|].
        intros x' y' Hx' Hy'. rewrite Hy in Hx'. rewrite Hz in Hy'. by simplify_eq.
      + apply I.
      + intros Hbw e He. destruct (Hr Hbw) as [-> ->]. cbn [orient] in *. apply (i_forward _ _ _ I Hbw). apply elem_of_app in He as [He|He]; apply elem_of_app; [|by right].
        left. unfold joined in *. apply elem_of_concat_p in He as (l & Hel & Hl). apply elem_of_list_lookup in Hl as [k Hk]. apply elem_of_concat_p.
        destruct (Look _ _ Hk) as [->|[[_ ->]|(_ & _ & Hk')]]; [by apply elem_of_nil in Hel| |exists l; split; [done|by eapply Ino]].
        apply elem_of_app in Hel as [Hel|Hel]; [exists pi|exists pj]; (split; [done|by eapply Ino]).
      + intros pl Hin. apply elem_of_list_lookup in Hin as [k Hk]. destruct (Look _ _ Hk) as [->|[[_ ->]|(_ & _ & Hk')]]; [by right| |by eapply (i_nonempty _ _ _ I), Ino].
        right. assert (All : forall r l e, l ∈ plans -> (exists y0 p0, (y0 ∈ orient r l) /\ (tpoint (front_old y0) = Some p0 \/ tpoint (back_old y0) = Some p0)) -> e ∈ orient r l -> piece_points L e <> []).
        { intros r l e Hl (y0 & p0 & Hy0 & Tp) He. destruct (i_nonempty _ _ _ I l Hl) as [[x0 ->]|F].
          - assert (Es : orient r [x0] = [if r then flip x0 else x0]) by (by destruct r). rewrite Es in *. apply elem_of_list_singleton in Hy0, He. rewrite He, <- Hy0. by eapply nonempty_piece.
          - rewrite Forall_forall in F. apply orient_elem in He as [He|[_ He]]; [by apply F|]. specialize (F _ He). rewrite piece_flip in F. intros Z. rewrite Z in F. done. }
        unfold joined. apply Forall_forall. intros e He. apply elem_of_app in He as [He|He].
        * eapply (All r0 pi); [by eapply Ino| |done]. exists y, pu. split; [by apply last_Some_elem_of|right; by rewrite Ey].
        * eapply (All r1 pj); [by eapply Ino| |done]. exists z, pv. split; [by apply head_Some_elem_of|left; by rewrite Ez].
      + by rewrite !insert_length.
      + done.
      + done.
      + intros o c Hoc.
        destruct (decide (o = if r0 then back_old b else front_old a)) as [->|N1].
        { rewrite K0 in Hoc. injection Hoc as <-. rewrite Ci by apply term_idx. rewrite term_end. congruence. }
        destruct (decide (o = if r1 then front_old a' else back_old b')) as [->|N2].
        { rewrite K1 in Hoc. injection Hoc as <-. rewrite Ci by apply term_idx. rewrite term_end. congruence. }
        destruct (decide (o = if r0 then front_old a else back_old b)) as [->|N3]; [rewrite D0 in Hoc; done|].
        destruct (decide (o = if r1 then back_old b' else front_old a')) as [->|N4]; [rewrite D1 in Hoc; done|].
        rewrite Ko in Hoc by (destruct r0, r1; congruence). pose proof (i_old _ _ _ I _ _ Hoc) as Hc.
        destruct (decide (getPolylineIdx c = i)) as [Ei|Ni]; [rewrite (Pi c Ei) in Hc; exfalso; destruct r0, (isEnd c); congruence|].
        destruct (decide (getPolylineIdx c = j)) as [Ej|Nj]; [rewrite (Pj c Ej) in Hc; exfalso; destruct r1, (isEnd c); congruence|].
        by rewrite Co.
      + intros c o Hoc. destruct (decide (getPolylineIdx c = i)) as [Ei|Ni].
        * rewrite (Ci c Ei) in Hoc. injection Hoc as <-. rewrite <- (term_eta c), Ei, term_end. destruct (isEnd c); [rewrite Ew; by split|rewrite Ex; by split].
        * destruct (decide (getPolylineIdx c = j)) as [Ej|Nj]; [by rewrite Cj in Hoc|]. rewrite Co in Hoc by done. destruct (i_cur _ _ _ I _ _ Hoc) as [G1 G2].
          assert (Ne : forall k bb o', old_to_cur (tracked st) !! o' = Some (Some (Terminus k bb)) -> getPolylineIdx c <> k -> o <> o').
          { intros k bb o' Z1 Z2 ->. rewrite Z1 in G1. injection G1 as G1. rewrite <- G1, term_idx in Z2. done. }
          split; [rewrite Ko; [done| | | | ]|by rewrite Kc].
          -- by eapply Ne. -- by eapply Ne. -- by eapply Ne. -- by eapply Ne.
    - intros o Ho. unfold dead in *. cbn [tracked]. rewrite Ko; [done|intros ->; congruence|intros ->; congruence|intros ->; congruence|intros ->; congruence].
    - destruct Drop as [Du Dv]. destruct Sides as [[<- <-]|[<- <-]]; tauto.
  Qed.

  Lemma step_inv plans pplans st s : inv plans pplans st -> valid s -> step_goal st s.
  Proof.
    intros I V. destruct (v_points _ V) as (p & q & Hp & Hq & _). pose proof (tpoint_bound _ _ Hp) as B0. pose proof (tpoint_bound _ _ Hq) as B1.
    rewrite <- (i_len_o _ _ _ I) in B0, B1. apply lookup_lt_is_Some_2 in B0 as [[c0|] H0]; [apply lookup_lt_is_Some_2 in B1 as [[c1|] H1]|].
    - destruct (decide (getPolylineIdx c0 = getPolylineIdx c1)); [by eapply step_close|by eapply step_join].
    - exists st, plans, pplans. unfold connect_step. rewrite (get_ok _ _ _ H0). cbn [rbind]. rewrite (get_ok _ _ _ H1). cbn [rbind].
      split; [done|]. split; [done|]. split; [done|]. by right.
    - exists st, plans, pplans. unfold connect_step. rewrite (get_ok _ _ _ H0). cbn [rbind].
      split; [done|]. split; [done|]. split; [done|]. by left.
  Qed.
  Lemma connect_inv queue : Forall valid queue -> forall plans pplans st, inv plans pplans st ->
    exists st' plans' pplans', connect st queue = Ok st' /\ inv plans' pplans' st' /\ (forall o, dead st o -> dead st' o) /\
      forall s, s ∈ queue -> dead st' (terminus_0 s) \/ dead st' (terminus_1 s).
  Proof.
    induction 1 as [|s queue Hs Hq IH]; intros plans pplans st I.
    - exists st, plans, pplans. split; [done|]. split; [done|]. split; [done|]. intros s H. by apply elem_of_nil in H.
    - destruct (step_inv _ _ _ _ I Hs) as (st1 & plans1 & pplans1 & E1 & I1 & K1 & D1). destruct (IH _ _ _ I1) as (st2 & plans2 & pplans2 & E2 & I2 & K2 & D2).
      exists st2, plans2, pplans2. cbn [connect]. rewrite E1. cbn [rbind]. split; [done|]. split; [done|]. split; [naive_solver|].
      intros s' H. apply elem_of_cons in H as [->|H]; [destruct D1 as [D1|D1]; apply K2 in D1; tauto|by apply D2].
  Qed.

  (** *** what is inserted in the grids, and the stitches that are found *)
  Lemma initial_inv : inv (map (fun i => [(i, false)]) (seq 0 n)) [] (initial P L).
  Proof.
    assert (Lk : forall k, (k < n)%nat -> (map (fun i => [(i, false)]) (seq 0 n)) !! k = Some [(k, false)]).
    { intros k Hk. change (map ?f ?l) with (f <$> l). rewrite list_lookup_fmap, (lookup_seq_lt 0 n k Hk). done. }
    assert (Li : forall pl, pl ∈ map (fun i => [(i, false)]) (seq 0 n) -> exists i, pl = [(i, false)]).
    { intros pl H. change (map ?f ?l) with (f <$> l) in H. apply elem_of_list_fmap in H as (i & -> & _). by exists i. }
    assert (Co : forall c, (c < n * 2)%nat -> cur_old (map (fun i => [(i, false)]) (seq 0 n)) c = Some c).
    { intros c Hc. pose proof (idx_bound _ _ Hc) as Hi.
      unfold cur_old. rewrite Lk by done. pose proof (term_eta c) as Hc'. unfold back_old, front_old. destruct (isEnd c); cbn; congruence. }
    assert (Cn : forall c o, cur_old (map (fun i => [(i, false)]) (seq 0 n)) c = Some o -> (c < n * 2)%nat).
    { intros c o H. unfold cur_old in H. destruct (_ !! _) eqn:E; [|done]. apply lookup_lt_Some in E. rewrite map_length, seq_length in E. rewrite <- (term_eta c). by apply term_bound. }
    assert (Ms : forall k, (k < n * 2)%nat -> map Some (seq 0 (n * 2)) !! k = Some (Some k)).
    { intros k Hk. change (map ?f ?l) with (f <$> l). rewrite list_lookup_fmap, (lookup_seq_lt 0 (n * 2) k Hk). done. }
    constructor; cbn [initial open_polylines polygons tracked new_tracking old_to_cur cur_to_old].
    - apply list_eq. intros k. change (map (assemble L) ?l) with (assemble L <$> l). rewrite list_lookup_fmap. destruct (decide (k < n)%nat) as [Hk|Hk].
      + rewrite Lk by done. cbn. unfold assemble, piece_points. cbn. rewrite app_nil_r. destruct (lookup_lt_is_Some_2 _ _ Hk) as [l Hl]. by rewrite Hl.
      + rewrite (lookup_ge_None_2 L) by (unfold n in Hk; lia). rewrite lookup_ge_None_2; [done|]. rewrite map_length, seq_length. lia.
    - cbn. by rewrite app_nil_r.
    - cbn [concat]. rewrite app_nil_r. clear. induction (seq 0 n) as [|x l IH]; [done|]. cbn. by rewrite IH.
    - intros pl H. destruct (Li _ H) as [i ->]. intros k a b _ H2. done.
    - intros pl H. by apply elem_of_nil in H.
    - intros _ a H. cbn [concat] in H. rewrite app_nil_r in H. apply elem_of_concat_p in H as (pl & H1 & H2). destruct (Li _ H2) as [i ->]. apply elem_of_list_singleton in H1 as ->. done.
    - intros pl H. left. destruct (Li _ H) as [i ->]. by eexists.
    - by rewrite map_length, seq_length.
    - by rewrite map_length, seq_length.
    - by rewrite map_length, seq_length.
    - intros o c H. pose proof (lookup_lt_Some _ _ _ H) as B. rewrite map_length, seq_length in B. rewrite Ms in H by done. injection H as <-. by apply Co.
    - intros c o H. pose proof (Cn _ _ H) as B. rewrite Co in H by done. injection H as <-. split; by apply Ms.
  Qed.

  Lemma numbered_elem i l : (i, l) ∈ numbered L <-> L !! i = Some l.
  Proof.
    unfold numbered. split.
    - intros H. apply elem_of_list_lookup in H as [k Hk]. apply lookup_zip_with_Some in Hk as (x & y & Exy & Hx & Hy). injection Exy as -> ->.
      apply lookup_seq in Hx as [-> _]. done.
    - intros H. apply elem_of_list_lookup. exists i. apply lookup_zip_with_Some. exists i, l. split; [done|]. split; [|done]. apply lookup_seq. split; [done|by eapply lookup_lt_Some].
  Qed.
  Lemma elem_flat_map {A B} (f : A -> list B) l x : x ∈ flat_map f l <-> exists y, y ∈ l /\ x ∈ f y.
  Proof. rewrite elem_of_list_In, in_flat_map. by setoid_rewrite elem_of_list_In. Qed.
  Lemma tpoint_term i b l : L !! i = Some l -> tpoint (Terminus i b) = if b then last l else head l.
  Proof. intros H. unfold tpoint. by rewrite term_idx, term_end, H. Qed.
  Definition vals (is_end : bool) : list (nat * pt) := if is_end then end_vals L else start_vals L.
  Lemma vals_elem is_end i p : (i, p) ∈ vals is_end <-> tpoint (Terminus i is_end) = Some p.
  Proof.
    assert (G : forall (f : list pt -> option pt), (forall l, f l = if is_end then last l else head l) ->
              (i, p) ∈ flat_map (fun il : nat * list pt => match f il.2 with Some p => [(il.1, p)] | None => [] end) (numbered L) <-> tpoint (Terminus i is_end) = Some p).
    { intros f Hf. rewrite elem_flat_map. split.
      - intros ([k l] & H1 & H2). apply numbered_elem in H1. cbn in H2. destruct (f l) eqn:E; [|by apply elem_of_nil in H2]. apply elem_of_list_singleton in H2. injection H2 as -> ->.
        rewrite (tpoint_term _ _ _ H1). by rewrite <- Hf.
      - intros H. unfold tpoint in H. rewrite term_idx, term_end in H. destruct (L !! i) as [l|] eqn:E; [|by destruct is_end]. cbn in H. exists (i, l). split; [by apply numbered_elem|].
        cbn. rewrite <- Hf in H. rewrite H. apply elem_of_list_here. }
    destruct is_end; unfold vals, end_vals, start_vals; [apply (G (fun l => last l))|apply (G (fun l => head l))]; done.
  Qed.
  Lemma vSize2_dist2 p q : vSize2 (psub p q) = dist2 p q.
  Proof. unfold vSize2, psub, dist2. cbn. lia. Qed.

  Section found.
    Variables (c : Z) (grid_ends grid_starts : gridmap (nat * pt)).
    Hypothesis Hc : 0 < c.
    Hypothesis HD : 0 <= D.
    Hypothesis Hends : point_grid locator c (end_vals L) grid_ends.
    Hypothesis Hstarts : backwards = true -> point_grid locator c (start_vals L) grid_starts.
    Let stitches := findPossibleStitches grid_ends grid_starts L D c backwards.

    Lemma nearby_elem is_end g skip from t s : point_grid locator c (vals is_end) g ->
      s ∈ nearby_stitches g D c skip from is_end t <-> exists i p, tpoint (Terminus i is_end) = Some p /\ skip i = false /\ dist2 p from < D * D /\ s = Stitch (dist2 p from) (Terminus i is_end) t.
    Proof.
      intros Hg. destruct (C19_nearby_complete locator c (vals is_end) g from D Hc Hg) as (w & Hw & Hin & _). unfold nearby_stitches. rewrite elem_flat_map. split.
      - intros ([i p] & H1 & H2). rewrite Hw, elem_of_list_In, filter_In in H1. destruct H1 as [H1 _]. apply elem_of_list_In in H1. cbn [fst snd] in H2. apply vals_elem in H1.
        destruct (skip i) eqn:Es; [by apply elem_of_nil in H2|]. rewrite vSize2_dist2 in H2. destruct (Z.ltb_spec (dist2 p from) (D * D)); [|by apply elem_of_nil in H2].
        apply elem_of_list_singleton in H2. by exists i, p.
      - intros (i & p & H1 & H2 & H3 & ->). exists (i, p). split.
        + rewrite Hw, elem_of_list_In, filter_In. apply vals_elem in H1. split; [by apply elem_of_list_In|]. apply Hin; [done|done|]. cbn. lia.
        + cbn [fst snd]. rewrite H2, vSize2_dist2. destruct (Z.ltb_spec (dist2 p from) (D * D)); [|lia]. apply elem_of_list_here.
    Qed.
    (** The stitches that are found: all pairs of ends that may be stitched and are less than the distance apart *)
    Lemma stitches_elem s : s ∈ stitches <-> exists i j bi bj p q, tpoint (Terminus i bi) = Some p /\ tpoint (Terminus j bj) = Some q /\ dist2 p q < D * D /\
        s = Stitch (dist2 p q) (Terminus i bi) (Terminus j bj) /\ ((bi = true /\ bj = false) \/ (backwards = true /\ bi = bj /\ i <> j)).
    Proof.
      unfold stitches, findPossibleStitches. rewrite elem_flat_map. split.
      - intros ([j l] & Hj & H). apply numbered_elem in Hj. cbn [fst snd] in H. destruct (head l) as [first|] eqn:Eh; [|by apply elem_of_nil in H]. destruct (last l) as [back|] eqn:El; [|by apply elem_of_nil in H].
        pose proof (tpoint_term j false l Hj) as Tf. pose proof (tpoint_term j true l Hj) as Tb. cbn in Tf, Tb.
        apply elem_of_app in H as [H|H].
        + apply (nearby_elem true) in H as (i & p & H1 & _ & H3 & ->); [|exact Hends]. exists i, j, true, false, p, first. rewrite Tf. split; [done|]. split; [done|]. split; [done|]. split; [done|]. by left.
        + destruct backwards eqn:Hb; [|by apply elem_of_nil in H]. apply elem_of_app in H as [H|H].
          * apply (nearby_elem true) in H as (i & p & H1 & H2 & H3 & ->); [|exact Hends]. apply Nat.eqb_neq in H2. exists i, j, true, true, p, back. rewrite Tb.
            split; [done|]. split; [done|]. split; [done|]. split; [done|]. by right.
          * apply (nearby_elem false) in H as (i & p & H1 & H2 & H3 & ->); [|by apply Hstarts]. apply Nat.eqb_neq in H2. exists i, j, false, false, p, first. rewrite Tf.
            split; [done|]. split; [done|]. split; [done|]. split; [done|]. by right.
      - intros (i & j & bi & bj & p & q & Hp & Hq & Hd & -> & Hor).
        assert (Hl : exists l, L !! j = Some l). { unfold tpoint in Hq. rewrite term_idx in Hq. destruct (L !! j); [by eexists|]. by destruct (isEnd _). }
        destruct Hl as [l Hl]. exists (j, l). split; [by apply numbered_elem|]. cbn [fst snd]. rewrite (tpoint_term _ _ _ Hl) in Hq.
        destruct l as [|x l]; [by destruct bj|]. destruct (last (x :: l)) as [back|] eqn:El; [|by apply last_None in El]. cbn [head].
        destruct Hor as [[-> ->]|(Hb & -> & Hij)].
        + cbn in Hq. injection Hq as ->. apply elem_of_app. left. apply (nearby_elem true); [exact Hends|]. by exists i, p.
        + apply elem_of_app. right. rewrite Hb. apply elem_of_app. destruct bj.
          * left. injection Hq as ->. apply (nearby_elem true); [exact Hends|]. exists i, p. split; [done|]. split; [by apply Nat.eqb_neq|]. done.
          * right. cbn in Hq. injection Hq as ->. apply (nearby_elem false); [by apply Hstarts|]. exists i, p. split; [done|]. split; [by apply Nat.eqb_neq|]. done.
    Qed.
    Lemma stitches_valid s : s ∈ stitches -> valid s.
    Proof.
      intros H. apply stitches_elem in H as (i & j & bi & bj & p & q & Hp & Hq & Hd & -> & Hor). constructor; cbn [terminus_0 terminus_1].
      - by exists p, q.
      - intros E. apply term_inj in E as [E1 E2]. destruct Hor as [[-> ->]|(_ & _ & H)]; done.
      - intros Hb. rewrite !term_end. destruct Hor as [[-> ->]|(H & _)]; [done|congruence].
    Qed.
    Lemma stitches_all o1 o2 p q : o1 <> o2 -> tpoint o1 = Some p -> tpoint o2 = Some q -> dist2 p q < D * D -> (backwards = false -> isEnd o1 = true /\ isEnd o2 = false) ->
      exists s, s ∈ stitches /\ stitch_dist2 s = dist2 p q /\ ((terminus_0 s = o1 /\ terminus_1 s = o2) \/ (terminus_0 s = o2 /\ terminus_1 s = o1)).
    Proof.
      intros Ne Hp Hq Hd Hb. rewrite <- (term_eta o1) in Hp, Ne |- *. rewrite <- (term_eta o2) in Hq, Ne |- *. set (i := getPolylineIdx o1) in *. set (j := getPolylineIdx o2) in *.
      assert (X1 : (isEnd o1 = true /\ isEnd o2 = false) \/ (backwards = true /\ isEnd o1 = isEnd o2 /\ i <> j) -> exists s, s ∈ stitches /\ stitch_dist2 s = dist2 p q /\
                 ((terminus_0 s = Terminus i (isEnd o1) /\ terminus_1 s = Terminus j (isEnd o2)) \/ (terminus_0 s = Terminus j (isEnd o2) /\ terminus_1 s = Terminus i (isEnd o1)))).
      { intros H. exists (Stitch (dist2 p q) (Terminus i (isEnd o1)) (Terminus j (isEnd o2))). split; [|split; [done|by left]]. apply stitches_elem.
        exists i, j, (isEnd o1), (isEnd o2), p, q. done. }
      destruct (decide (backwards = true)) as [Eb|Eb%not_true_is_false]; [|apply X1; left; by apply Hb].
      destruct (isEnd o1) eqn:E1, (isEnd o2) eqn:E2; try (apply X1; tauto).
      - apply X1. right. split; [done|]. split; [done|]. intros E. rewrite E in Ne. done.
      - exists (Stitch (dist2 q p) (Terminus j true) (Terminus i false)). split; [|split; [apply dist2_sym|by right]]. apply stitches_elem.
        exists j, i, true, false, q, p. rewrite (dist2_sym q p). split; [done|]. split; [done|]. split; [done|]. split; [done|]. by left.
      - apply X1. right. split; [done|]. split; [done|]. intros E. rewrite E in Ne. done.
    Qed.

    (** *** the ends of the lines at some time *)
    Lemma assemble_last plans pplans st pl p : inv plans pplans st -> pl ∈ plans -> last (assemble L pl) = Some p -> exists b, last pl = Some b /\ tpoint (back_old b) = Some p.
    Proof.
      intros I Hin H. destruct (i_nonempty _ _ _ I pl Hin) as [[x ->]|F].
      - exists x. split; [done|]. unfold assemble in H. cbn in H. rewrite app_nil_r, piece_last in H. done.
      - destruct pl as [|x pl _] using rev_ind; [done|]. exists x. rewrite last_snoc. split; [done|]. rewrite assemble_app, last_app in H. unfold assemble in H at 1. cbn in H. rewrite app_nil_r in H.
        apply Forall_app in F as [_ F]. apply Forall_cons in F as [F _]. destruct (last (piece_points L x)) eqn:E; [|by apply last_None in E]. rewrite <- piece_last, E. done.
    Qed.
    Lemma assemble_head plans pplans st pl p : inv plans pplans st -> pl ∈ plans -> head (assemble L pl) = Some p -> exists a, head pl = Some a /\ tpoint (front_old a) = Some p.
    Proof.
      intros I Hin H. destruct (i_nonempty _ _ _ I pl Hin) as [[x ->]|F].
      - exists x. split; [done|]. unfold assemble in H. cbn in H. rewrite app_nil_r, piece_head in H. done.
      - destruct pl as [|x pl]; [done|]. exists x. split; [done|]. unfold assemble in H. cbn in H.
        apply Forall_cons in F as [F _]. rewrite <- piece_head. destruct (piece_points L x); [done|exact H].
    Qed.
    Lemma line_end plans pplans st i l p b : inv plans pplans st -> open_polylines st !! i = Some l -> (if b : bool then last l else head l) = Some p ->
      exists o, old_to_cur (tracked st) !! o = Some (Some (Terminus i b)) /\ tpoint o = Some p /\ (backwards = false -> isEnd o = b).
    Proof.
      intros I Hl Hp. rewrite (i_lines _ _ _ I) in Hl. apply list_lookup_fmap_Some in Hl as (pl & Hpl & ->). assert (Hin : pl ∈ plans) by (apply elem_of_list_lookup; by exists i).
      assert (Fw : forall x, x ∈ pl -> backwards = false -> x.2 = false).
      { intros x Hx Hb. apply (i_forward _ _ _ I Hb). apply elem_of_app. left. apply elem_of_concat_p. by exists pl. }
      destruct b.
      - destruct (assemble_last _ _ _ _ _ I Hin Hp) as (x & Hx & Tx). exists (back_old x). split; [|split; [done|]].
        + apply (i_cur _ _ _ I). unfold cur_old. rewrite term_idx, term_end, Hpl, Hx. done.
        + intros Hb. unfold back_old. rewrite term_end, (Fw x); [done|by apply last_Some_elem_of|done].
      - destruct (assemble_head _ _ _ _ _ I Hin Hp) as (x & Hx & Tx). exists (front_old x). split; [|split; [done|]].
        + apply (i_cur _ _ _ I). unfold cur_old. rewrite term_idx, term_end, Hpl, Hx. done.
        + intros Hb. unfold front_old. rewrite term_end, (Fw x); [done|by apply head_Some_elem_of|done].
    Qed.
    Lemma assemble_last_2 plans pplans st pl b p : inv plans pplans st -> pl ∈ plans -> last pl = Some b -> tpoint (back_old b) = Some p -> last (assemble L pl) = Some p.
    Proof.
      intros I Hin Hb Tp. destruct pl as [|x pl _] using rev_ind; [done|]. rewrite last_snoc in Hb. injection Hb as ->. rewrite assemble_app, last_app. unfold assemble at 1. cbn. rewrite app_nil_r.
      by rewrite piece_last, Tp.
    Qed.
    Lemma assemble_head_2 plans pplans st pl a p : inv plans pplans st -> pl ∈ plans -> head pl = Some a -> tpoint (front_old a) = Some p -> head (assemble L pl) = Some p.
    Proof.
      intros I Hin Hb Tp. destruct pl as [|x pl]; [done|]. injection Hb as ->. unfold assemble. cbn. rewrite <- piece_head in Tp. destruct (piece_points L a); [done|exact Tp].
    Qed.
    Lemma alive_end plans pplans st o t p : inv plans pplans st -> old_to_cur (tracked st) !! o = Some (Some t) -> tpoint o = Some p ->
      exists l, open_polylines st !! getPolylineIdx t = Some l /\ (head l = Some p \/ last l = Some p).
    Proof.
      intros I H Tp. pose proof (i_old _ _ _ I _ _ H) as Ho. destruct (cur_old_plan _ _ _ Ho) as (pl & a & b & Hpl & Ha & Hb & _ & _ & E).
      assert (Hin : pl ∈ plans) by (apply elem_of_list_lookup; by eexists).
      exists (assemble L pl). split; [rewrite (i_lines _ _ _ I); change (map (assemble L) plans) with (assemble L <$> plans); by rewrite list_lookup_fmap, Hpl|].
      rewrite E in Tp. destruct (isEnd t); [right; by eapply assemble_last_2|left; by eapply assemble_head_2].
    Qed.
    Lemma apart plans pplans st d : inv plans pplans st -> d <= D * D ->
      (forall s, s ∈ stitches -> dead st (terminus_0 s) \/ dead st (terminus_1 s) \/ d <= stitch_dist2 s) -> ends_apart d backwards (open_polylines st).
    Proof.
      intros I Hd Hs.
      assert (K : forall i j a b p q bi bj, open_polylines st !! i = Some a -> open_polylines st !! j = Some b -> (if bi : bool then last a else head a) = Some p ->
                  (if bj : bool then last b else head b) = Some q -> (i, bi) <> (j, bj) -> (backwards = false -> bi = true /\ bj = false) -> d <= dist2 p q).
      { intros i j a b p q bi bj Ha Hb Hp Hq Hne Hbw. destruct (Z.le_gt_cases d (dist2 p q)) as [|Hlt]; [done|exfalso].
        destruct (line_end _ _ _ _ _ _ _ I Ha Hp) as (o1 & A1 & T1 & F1). destruct (line_end _ _ _ _ _ _ _ I Hb Hq) as (o2 & A2 & T2 & F2).
        destruct (stitches_all o1 o2 p q) as (s & Hin & Ed & Hor); [|done|done|lia| |].
        - intros ->. rewrite A1 in A2. injection A2 as A2. apply term_inj in A2 as [-> ->]. done.
        - intros Hb'. rewrite F1, F2 by done. by apply Hbw.
        - assert (N1 : ~ dead st o1) by (unfold dead; rewrite A1; done). assert (N2 : ~ dead st o2) by (unfold dead; rewrite A2; done).
          destruct (Hs s Hin) as [H|[H|H]]; [destruct Hor as [[E _]|[E _]]; rewrite E in H; done|destruct Hor as [[_ E]|[_ E]]; rewrite E in H; done|lia]. }
      intros i j a b Ha Hb. split.
      - intros p q Hp Hq. apply (K i j a b p q true false); [done|done|done|done|congruence|done].
      - intros Hbw Hij. split; intros p q Hp Hq; [apply (K i j a b p q true true)|apply (K i j a b p q false false)]; congruence.
    Qed.
  End found.
End fixed.
