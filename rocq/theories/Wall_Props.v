(** C61: a wall is printed as one connected line along all its corners, starting at the chosen corner. *)
From Coq Require Import ZArith QArith Qround Lqa.
From stdpp Require Import list.
From Verif Require Import Common Geo_Model Order_Model Wall_Model Wall_Spec Wall_Proofs.
From Verif Require Coast_Model Coast_Props Ooze_Props.
Open Scope Z_scope.

(** ** The order of the corners *)
Local Ltac nat_cases := repeat match goal with |- context [(?a <? ?b)%nat] => destruct (Nat.ltb_spec a b) end; lia.
Lemma drop_seq j n m : drop m (seq j n) = seq (j + m) (n - m).
Proof. revert j n. induction m as [|m IH]; intros j n; [by rewrite drop_0, Nat.add_0_r, Nat.sub_0_r|]. destruct n; [done|]. cbn. rewrite IH. f_equal; lia. Qed.
Lemma take_seq j n m : take m (seq j n) = seq j (m `min` n).
Proof. revert j n. induction m as [|m IH]; intros j n; [done|]. destruct n; [done|]. cbn. by rewrite IH. Qed.
Definition nth_corner (w : wall) (i : nat) : corner := (i, w !!! i).
Lemma numbered_seq (w : wall) : numbered w = nth_corner w <$> seq 0 (length w).
Proof.
  apply list_eq. intros i. unfold numbered. rewrite list_lookup_imap, list_lookup_fmap.
  destruct (decide (i < length w)%nat) as [H|H].
  - rewrite lookup_seq_lt by done. destruct (lookup_lt_is_Some_2 w i H) as [x E]. unfold nth_corner. cbn.
    by rewrite E, (list_lookup_total_correct _ _ _ E).
  - rewrite lookup_seq_ge, lookup_ge_None_2 by lia. done.
Qed.
Lemma mod_once n a : (0 < n -> a < 2 * n -> a mod n = if a <? n then a else a - n)%nat.
Proof.
  intros H1 H2. destruct (a <? n)%nat eqn:E.
  - apply Nat.ltb_lt in E. by apply Nat.mod_small.
  - apply Nat.ltb_ge in E. symmetry. apply (Nat.mod_unique a n 1); lia.
Qed.
Lemma mod_twice n a : (0 < n -> a < 3 * n -> a mod n = if a <? n then a else if a <? 2 * n then a - n else a - 2 * n)%nat.
Proof.
  intros H1 H2. destruct (a <? n)%nat eqn:E.
  - apply Nat.ltb_lt in E. by apply Nat.mod_small.
  - apply Nat.ltb_ge in E. destruct (a <? 2 * n)%nat eqn:F.
    + apply Nat.ltb_lt in F. symmetry. apply (Nat.mod_unique a n 1); lia.
    + apply Nat.ltb_ge in F. symmetry. apply (Nat.mod_unique a n 2); lia.
Qed.
Lemma forward_indices n s : (s < n)%nat ->
  actual_index n s false <$> seq 0 (S n) = seq s (n - s) ++ seq 0 (S s).
Proof.
  intros H. apply list_eq. intros i. rewrite list_lookup_fmap. destruct (decide (i < S n)%nat) as [L|L].
  - rewrite lookup_seq_lt by done. cbn [fmap option_fmap option_map]. unfold actual_index. cbn [Nat.add].
    destruct (decide (i < n - s)%nat) as [C|C].
    + rewrite lookup_app_l by (rewrite seq_length; lia). rewrite lookup_seq_lt by done. f_equal.
      rewrite mod_twice by lia. nat_cases.
    + rewrite lookup_app_r by (rewrite seq_length; lia). rewrite seq_length, lookup_seq_lt by lia. f_equal.
      rewrite mod_twice by lia. nat_cases.
  - rewrite lookup_seq_ge by lia. symmetry. apply lookup_ge_None_2. rewrite app_length, !seq_length. lia.
Qed.
Lemma backward_indices n s : (s < n)%nat ->
  actual_index n s true <$> seq 0 (S n) = reverse (seq 0 (S s)) ++ reverse (seq s (n - s)).
Proof.
  intros H. apply list_eq. intros i. rewrite list_lookup_fmap. destruct (decide (i < S n)%nat) as [L|L].
  - rewrite lookup_seq_lt by done. cbn [fmap option_fmap option_map]. unfold actual_index. cbn [Nat.add].
    destruct (decide (i < S s)%nat) as [C|C].
    + rewrite lookup_app_l by (rewrite reverse_length, seq_length; lia). rewrite reverse_lookup by (rewrite seq_length; lia).
      rewrite seq_length, lookup_seq_lt by lia. f_equal.
      rewrite mod_twice by lia. nat_cases.
    + rewrite lookup_app_r by (rewrite reverse_length, seq_length; lia). rewrite reverse_length, seq_length, reverse_lookup by (rewrite seq_length; lia).
      rewrite seq_length, lookup_seq_lt by lia. f_equal.
      rewrite mod_twice by lia. nat_cases.
  - rewrite lookup_seq_ge by lia. symmetry. apply lookup_ge_None_2. rewrite app_length, !reverse_length, !seq_length. lia.
Qed.
Lemma route_seq w start closed reversed : (start < length w)%nat ->
  route w start closed reversed =
  (fun k => nth_corner w (actual_index (length w) start reversed k)) <$> seq 0 (max_index closed (length w)).
Proof.
  intros H. unfold route. cbv zeta. set (n := length w) in *. rewrite numbered_seq. fold n.
  set (g := nth_corner w).
  assert (E : (if reversed then reverse (take (S start) (g <$> seq 0 n)) ++ reverse (drop start (g <$> seq 0 n))
               else drop start (g <$> seq 0 n) ++ take (S start) (g <$> seq 0 n))
              = (fun k => g (actual_index n start reversed k)) <$> seq 0 (S n)).
  { rewrite <- fmap_drop, <- fmap_take, drop_seq, take_seq. replace (S start `min` n)%nat with (S start) by lia. cbn [Nat.add].
    change (fun k => g (actual_index n start reversed k)) with (g ∘ actual_index n start reversed). rewrite list_fmap_compose.
    destruct reversed.
    - rewrite backward_indices by done. by rewrite fmap_app, !fmap_reverse.
    - rewrite forward_indices by done. by rewrite fmap_app. }
  rewrite E. destruct closed; unfold max_index; [by rewrite Nat.add_1_r|].
  rewrite <- fmap_take, take_seq. by replace (n `min` S n)%nat with n by lia.
Qed.
Lemma actual_index_lt n s r k : (0 < n -> actual_index n s r k < n)%nat.
Proof. intros H. unfold actual_index. destruct r; apply Nat.mod_upper_bound; lia. Qed.
Lemma visited_route w start closed reversed : (start < length w)%nat ->
  exists rest, visited w start closed reversed = Ok rest /\ route w start closed reversed = nth_corner w start :: rest.
Proof.
  intros H. rewrite route_seq by done. unfold visited. set (n := length w) in *.
  exists ((fun k => nth_corner w (actual_index n start reversed k)) <$> seq 1 (max_index closed n - 1)). split.
  - generalize (seq 1 (max_index closed n - 1)). intros ks. induction ks as [|k ks IH]; [done|]. cbn [foldr fmap list_fmap]. rewrite IH. cbn [rbind].
    destruct (lookup_lt_is_Some_2 w (actual_index n start reversed k)) as [j E]; [apply actual_index_lt; lia|].
    unfold nth_corner. by rewrite E, (list_lookup_total_correct _ _ _ E).
  - assert (M : max_index closed n = S (max_index closed n - 1)) by (unfold max_index; destruct closed; lia).
    rewrite M at 1. cbn [seq fmap list_fmap]. f_equal.
    assert (A : actual_index n start reversed 0 = start).
    { unfold actual_index. rewrite Nat.sub_0_r, Nat.add_0_r. assert ((n + start) mod n = start)%nat as E; [|by destruct reversed].
      rewrite mod_once by lia. nat_cases. }
    by rewrite A.
Qed.

(** ** The passes *)
Lemma step_height_0 P closure : height P closure 0 = if negb closure && (0 <? scarf_seam_length P) then scarf_max_z_offset P else 0.
Proof.
  unfold height. destruct closure; [done|]. cbn [negb andb]. destruct (0 <? scarf_seam_length P); [|done].
  apply llrint_eq. unfold Qdiv. ring.
Qed.

(** One pass over the wall *)
Theorem C61_pass fuel P w total start closed reversed closure first rest :
  (start < length w)%nat -> route w start closed reversed = first :: rest ->
  0 < scarf_split_distance P -> 0 < speed_split_distance P -> 1 <= max_area_deviation P -> 1 <= max_resolution P ->
  (closure = false -> is_small_feature P = false) -> (closure = true -> 0 < scarf_seam_length P) ->
  short_lines fuel first rest ->
  exists ls ds segs, let lines := zip rest ls in
    length ls = length rest /\ printed_lengths P first lines /\
    addSplitWall fuel P w total start closed reversed closure =
      Ok ((if negb closure && (0 <? length rest)%nat then [MTravel (place_of first)] else []) ++ (MSeg <$> segs)) /\
    follows P total closure (length w) first lines 0 ds segs /\
    List.last ds 0 = until P closure (sum ls) /\
    (forall e, e ∈ ends 0 lines -> e = until P closure e -> e ∈ 0 :: ds).
Proof.
  intros HS HRt H1 H2 H3 H4 H5 H6 HF.
  destruct (visited_route w start closed reversed HS) as (rest' & V & R). rewrite HRt in R. injection R as E1 E2. subst rest' first.
  set (c0 := nth_corner w start) in *. set (lines := with_lengths P c0 rest).
  exists lines.*2.
  assert (EZ : zip rest lines.*2 = lines).
  { pose proof (with_lengths_fst P c0 rest) as E. fold lines in E. rewrite <- E at 1. apply zip_fst_snd. }
  cbn zeta. rewrite EZ.
  set (z := if negb closure && (0 <? scarf_seam_length P) then scarf_max_z_offset P else 0).
  destruct (lookup_lt_is_Some_2 w start HS) as [j E].
  assert (Ej : c0 = (start, j)) by (unfold c0, nth_corner; by rewrite (list_lookup_total_correct _ _ _ E)).
  set (st := WSt 0 (P3 j.1.1 j.1.2 z) 0 0 (flat j.1) true).
  assert (PL : printed_lengths P c0 lines) by (by apply with_lengths_ok).
  assert (I : inv P total closure c0 lines st 0).
  { constructor; cbn; try done.
    - unfold place. rewrite (point_at_0 P) by done. rewrite Ej. unfold z. by rewrite step_height_0.
    - destruct closure; [|done]. cbn. symmetry. apply Z.ltb_lt. auto. }
  destruct (cut_lines_spec P total closure (length w) c0 lines H1 H2 fuel) with (todo := rest) (c0 := c0) (base := 0) (st := st)
    as (st' & ds & segs & C1 & C2 & C3 & C4); try done.
  { destruct closure; [by rewrite andb_false_r|]. by rewrite H5. }
  { intros d _. by rewrite Z.sub_0_r. }
  exists ds, segs. split; [unfold lines; rewrite fmap_length, <- (fmap_length fst), with_lengths_fst; done|].
  split; [done|]. split; [|done].
  unfold addSplitWall. rewrite E. cbn [of_opt rbind]. rewrite V. cbn [rbind].
  rewrite Ej in C1. unfold place_of, width_of in C1. cbn [fst snd] in C1. fold z. fold st. rewrite C1. cbn [rbind fst snd].
  by rewrite Ej.
Qed.

(** ** Lengths *)
Definition along (l : list pt) : Z := match l with [] => 0 | p :: l' => open_length p l' end.
Lemma along_cons p q l : along (p :: q :: l) = vSize (psub q p) + along (q :: l).
Proof. done. Qed.
Lemma along_app l1 x l2 : along (l1 ++ x :: l2) = along (l1 ++ [x]) + along (x :: l2).
Proof.
  induction l1 as [|a l1 IH]; [done|]. destruct l1 as [|b l1].
  - cbn [app]. rewrite !along_cons. change (along [x]) with 0. lia.
  - cbn [app] in *. rewrite !along_cons. rewrite IH. lia.
Qed.
Lemma along_snoc l x y : along (l ++ [x; y]) = along (l ++ [x]) + vSize (psub y x).
Proof. rewrite along_app. rewrite along_cons. change (along [y]) with 0. lia. Qed.
Lemma along_reverse l : along (reverse l) = along l.
Proof.
  induction l as [|p l IH]; [done|]. destruct l as [|q l]; [done|]. rewrite reverse_cons in IH. rewrite !reverse_cons, <- app_assoc.
  cbn [app]. rewrite along_snoc, IH, along_cons. rewrite (Ooze_Props.vSize_sym p q). lia.
Qed.
Lemma vSize_same p : vSize (psub p p) = 0.
Proof. unfold vSize, psub, vSize2. cbn. by rewrite !Z.sub_diag. Qed.

Lemma route_reversed w start : route w start true true = reverse (route w start true false).
Proof. unfold route. by rewrite reverse_app. Qed.
Lemma numbered_places (w : wall) : place_of <$> numbered w = w.*1.
Proof.
  apply list_eq. intros i. unfold numbered. rewrite !list_lookup_fmap, list_lookup_imap. by destruct (w !! i).
Qed.
Lemma route_closed_length w start reversed : (start < length w)%nat ->
  along (place_of <$> route w start true reversed) = wall_length true w.
Proof.
  intros H. assert (E : along (place_of <$> route w start true reversed) = along (place_of <$> route w start true false)).
  { destruct reversed; [|done]. by rewrite route_reversed, fmap_reverse, along_reverse. }
  rewrite E. clear E. unfold route. rewrite fmap_app, fmap_drop, fmap_take, numbered_places.
  destruct (lookup_lt_is_Some_2 w start H) as [j Ej].
  pose proof (take_drop_middle w start j Ej) as W. set (A := take start w) in *. set (B := drop (S start) w) in *.
  assert (LA : length A = start) by (unfold A; rewrite take_length; lia).
  assert (E1 : drop start w.*1 = j.1 :: B.*1).
  { rewrite <- W, fmap_app. cbn. rewrite drop_app_alt by (by rewrite fmap_length). done. }
  assert (E2 : take (S start) w.*1 = A.*1 ++ [j.1]).
  { rewrite <- W. rewrite cons_middle, app_assoc, !fmap_app. rewrite take_app_alt by (rewrite app_length, fmap_length; cbn; lia). done. }
  rewrite E1, E2. clear E1 E2. unfold wall_length. rewrite <- W. clear W Ej H LA. clearbody A B. clear w start.
  destruct A as [|a A].
  - cbn [app fmap list_fmap]. change (open_length j.1 (j.1 :: B.*1)) with (vSize (psub j.1 j.1) + along (j.1 :: B.*1)).
    rewrite vSize_same. destruct B as [|b B _] using rev_ind.
    + cbn. rewrite vSize_same. lia.
    + change (j.1 :: (B ++ [b]).*1 ++ [j.1]) with ((j :: B ++ [b]).*1 ++ [j.1]). change (j :: B ++ [b]) with ((j :: B) ++ [b]).
      rewrite List.last_last. change (j.1 :: (B ++ [b]).*1) with (((j :: B) ++ [b]).*1). rewrite fmap_app. cbn [fmap list_fmap].
      rewrite <- (app_assoc (_ :: _)). cbn [app]. change (j.1 :: B.*1 ++ [b.1; j.1]) with ((j.1 :: B.*1) ++ [b.1; j.1]).
      rewrite along_snoc. cbn [app]. lia.
  - cbn [app fmap list_fmap].
    change (open_length a.1 (a.1 :: (A ++ j :: B).*1)) with (vSize (psub a.1 a.1) + along (a.1 :: (A ++ j :: B).*1)).
    rewrite vSize_same. change (j.1 :: B.*1 ++ a.1 :: A.*1 ++ [j.1]) with ((j.1 :: B.*1) ++ a.1 :: (A.*1 ++ [j.1])).
    rewrite along_app. change (a.1 :: (A ++ j :: B).*1) with ((a :: A ++ j :: B).*1). change (a :: A ++ j :: B) with ((a :: A) ++ j :: B).
    rewrite (fmap_app _ (a :: A)). cbn [fmap list_fmap]. change ((a.1 :: A.*1) ++ j.1 :: B.*1) with ((a.1 :: A.*1) ++ j.1 :: B.*1).
    rewrite (along_app (a.1 :: A.*1)). cbn [app].
    assert (EL : along (j.1 :: B.*1 ++ [a.1]) = along (j.1 :: B.*1) + vSize (psub a.1 (List.last (a :: A ++ j :: B) a).1)).
    { change (a :: A ++ j :: B) with ((a :: A) ++ j :: B). destruct B as [|b B _] using rev_ind.
      - rewrite List.last_last. cbn. lia.
      - change (j :: B ++ [b]) with ((j :: B) ++ [b]). rewrite app_assoc, List.last_last, fmap_app. cbn [fmap list_fmap].
        rewrite <- app_assoc. cbn [app]. change (j.1 :: B.*1 ++ [b.1; a.1]) with ((j.1 :: B.*1) ++ [b.1; a.1]).
        rewrite along_snoc. cbn [app]. lia. }
    rewrite EL. lia.
Qed.
Lemma route_open_forward w : (0 < length w)%nat -> route w 0 false false = numbered w.
Proof.
  intros H. unfold route. rewrite drop_0. rewrite take_app_alt; [done|]. unfold numbered. by rewrite imap_length.
Qed.
Lemma route_open_backward w : (0 < length w)%nat -> route w (length w - 1) false true = reverse (numbered w).
Proof.
  intros H. unfold route. replace (S (length w - 1)) with (length w) by lia.
  assert (L : length (numbered w) = length w) by (unfold numbered; by rewrite imap_length).
  rewrite (take_ge (numbered w)) by lia. rewrite take_app_alt; [done|]. by rewrite reverse_length, L.
Qed.
Lemma route_open_length w start (reversed : bool) : (0 < length w)%nat -> start = (if reversed then length w - 1 else 0)%nat ->
  along (place_of <$> route w start false reversed) = wall_length false w.
Proof.
  intros H ->. assert (E : along (place_of <$> route w (if reversed then length w - 1 else 0)%nat false reversed) = along w.*1).
  { destruct reversed.
    - rewrite route_open_backward, fmap_reverse, numbered_places by done. apply along_reverse.
    - by rewrite route_open_forward, numbered_places by done. }
  rewrite E. unfold wall_length. destruct w as [|j w]; [done|]. cbn. rewrite vSize_same. lia.
Qed.

(** ** Walls of constant width *)
Lemma const_lengths P first rest ls : length ls = length rest -> printed_lengths P first (zip rest ls) ->
  Forall (fun c => width_of c = width_of first) rest -> ls = lengths first rest.
Proof.
  revert first ls. induction rest as [|c rest IH]; intros first [|l ls]; cbn; try done.
  intros L [(_ & H1 & _) H2] H3. apply Forall_cons in H3 as [H3 H4].
  rewrite H1 by done. f_equal. apply IH; [lia|done|]. by rewrite H3.
Qed.
Lemma sum_lengths first rest : sum (lengths first rest) = along (place_of <$> first :: rest).
Proof.
  revert first. induction rest as [|c rest IH]; intros first; [done|]. cbn [lengths sum foldr]. fold (sum (lengths c rest)).
  rewrite IH. reflexivity.
Qed.
Lemma lengths_length first rest : length (lengths first rest) = length rest.
Proof. revert first. induction rest; intros; cbn; auto. Qed.
Lemma lengths_nonneg first rest : Forall (Z.le 0) (lengths first rest).
Proof. revert first. induction rest; intros; cbn; constructor; [apply length_nonneg|auto]. Qed.
Lemma ends_shift b lines : ends b lines = Z.add b <$> ends 0 lines.
Proof.
  revert b. induction lines as [|[c l] lines IH]; intros b; [done|]. cbn. rewrite Z.add_0_l, IH, (IH l). f_equal.
  rewrite <- list_fmap_compose. apply list_fmap_ext. intros; cbn. lia.
Qed.
Lemma ends_ge lines d : Forall (Z.le 0) lines.*2 -> d ∈ ends 0 lines -> 0 <= d.
Proof.
  revert d. induction lines as [|[c l] lines IH]; cbn; intros d H; [by rewrite elem_of_nil|]. apply Forall_cons in H as [H1 H2].
  rewrite elem_of_cons. intros [-> |H3]; [lia|]. rewrite ends_shift in H3. apply elem_of_list_fmap in H3 as (d' & -> & H3). apply IH in H3; [lia|done].
Qed.
Lemma line_at_some first lines d : Forall (Z.le 0) lines.*2 -> d ∈ ends 0 lines -> 0 < d -> line_at first lines d <> None.
Proof.
  revert first d. induction lines as [|[c l] lines IH]; cbn; intros first d H; [by rewrite elem_of_nil|]. apply Forall_cons in H as [H1 H2].
  rewrite elem_of_cons. intros [-> |H3] D.
  - rewrite (proj2 (Z.ltb_lt 0 l)), (proj2 (Z.leb_le _ l)) by lia. done.
  - rewrite ends_shift in H3. apply elem_of_list_fmap in H3 as (d' & -> & H3). pose proof (ends_ge _ _ H2 H3).
    destruct (0 <? l) eqn:E1, (0 + l + d' <=? l) eqn:E2; cbn; try done; rewrite ?Z.ltb_lt, ?Z.ltb_ge, ?Z.leb_le, ?Z.leb_gt in *;
      replace (0 + l + d' - l) with d' by lia; apply IH; try done; lia.
Qed.
Lemma zip_lengths_snd first rest : (zip rest (lengths first rest)).*2 = lengths first rest.
Proof. apply snd_zip. by rewrite lengths_length. Qed.
Lemma point_at_zero first rest : point_at first (zip rest (lengths first rest)) 0 = place_of first.
Proof.
  unfold point_at. revert first. induction rest as [|c rest IH]; intros first; [done|]. cbn.
  pose proof (length_nonneg first c). destruct (0 <? length_of first c) eqn:E; cbn [andb].
  - rewrite (proj2 (Z.leb_le 0 _)) by done. apply lerp2_0. unfold Qdiv. ring.
  - apply Z.ltb_ge in E. assert (Z0 : length_of first c = 0) by lia. rewrite Z0.
    assert (N : place_of c = place_of first) by (by apply vSize_0).
    specialize (IH c). rewrite N in IH. change (0 - 0) with 0. exact IH.
Qed.
(** At the end of a line is its corner *)
Lemma point_at_end first rest i c d : rest !! i = Some c -> ends 0 (zip rest (lengths first rest)) !! i = Some d ->
  point_at first (zip rest (lengths first rest)) d = place_of c.
Proof.
  revert first rest d. induction i as [|i IH]; intros first [|next rest] d; try done; cbn.
  - intros [= ->] [= <-]. rewrite Z.add_0_l. pose proof (length_nonneg first c).
    destruct (0 <? length_of first c) eqn:E.
    + unfold point_at. cbn. rewrite E, Z.leb_refl. cbn. apply lerp2_1. unfold length_of. apply Z.ltb_lt in E. unfold length_of in E. field. apply inject_Z_ne. lia.
    + apply Z.ltb_ge in E. assert (Z0 : length_of first c = 0) by lia.
      assert (N : place_of c = place_of first) by (by apply vSize_0). rewrite Z0, N.
      pose proof (point_at_zero first (c :: rest)) as PZ. cbn in PZ. rewrite Z0 in PZ. exact PZ.
  - rewrite Z.add_0_l. intros Hc Hd.
    change (ends (length_of first next) (zip rest (lengths next rest)) !! i = Some d) in Hd.
    rewrite ends_shift, list_lookup_fmap in Hd.
    destruct (ends 0 (zip rest (lengths next rest)) !! i) as [d'|] eqn:Ed; [|done]. cbn in Hd. injection Hd as <-.
    specialize (IH next rest d' Hc Ed). pose proof (length_nonneg first next) as L0.
    assert (D0 : 0 <= d').
    { apply (ends_ge (zip rest (lengths next rest))); [rewrite zip_lengths_snd; apply lengths_nonneg|]. by eapply elem_of_list_lookup_2. }
    unfold point_at. cbn. destruct (0 <? length_of first next) eqn:E1, (length_of first next + d' <=? length_of first next) eqn:E2; cbn [andb];
      rewrite ?Z.ltb_lt, ?Z.ltb_ge, ?Z.leb_le, ?Z.leb_gt in *.
    + assert (d' = 0) as -> by lia. rewrite point_at_zero in IH. rewrite Z.add_0_r, <- IH. apply lerp2_1. unfold length_of in *. field. apply inject_Z_ne. lia.
    + replace (length_of first next + d' - length_of first next) with d' by lia. unfold point_at in IH.
      destruct (line_at next (zip rest (lengths next rest)) d') as [[[x y] k]|] eqn:EL; [done|].
      exfalso. revert EL. apply line_at_some; [rewrite zip_lengths_snd; apply lengths_nonneg|by eapply elem_of_list_lookup_2|lia].
    + replace (length_of first next + d' - length_of first next) with d' by lia. unfold point_at in IH.
      assert (N : place_of next = place_of first) by (apply vSize_0; fold (length_of first next); lia).
      destruct (line_at next (zip rest (lengths next rest)) d') as [[[x y] k]|] eqn:EL; [done|]. by rewrite <- N.
    + replace (length_of first next + d' - length_of first next) with d' by lia. unfold point_at in IH.
      assert (N : place_of next = place_of first) by (apply vSize_0; fold (length_of first next); lia).
      destruct (line_at next (zip rest (lengths next rest)) d') as [[[x y] k]|] eqn:EL; [done|]. by rewrite <- N.
Qed.
Lemma route_width w start closed reversed width c : Forall (fun j => j.2 = width) w -> (start < length w)%nat ->
  c ∈ route w start closed reversed -> width_of c = width.
Proof.
  intros H HS. rewrite route_seq by done. intros Hc. apply elem_of_list_fmap in Hc as (k & -> & _). unfold nth_corner, width_of. cbn.
  destruct (lookup_lt_is_Some_2 w (actual_index (length w) start reversed k)) as [j Ej]; [apply actual_index_lt; lia|].
  rewrite (list_lookup_total_correct _ _ _ Ej). rewrite Forall_lookup in H. by eapply H.
Qed.
Lemma route_length w start (closed reversed : bool) : (start < length w)%nat -> (closed = false -> start = (if reversed then length w - 1 else 0)%nat) ->
  along (place_of <$> route w start closed reversed) = wall_length closed w.
Proof. intros H H2. destruct closed; [by apply route_closed_length|]. apply route_open_length; [lia|auto]. Qed.
Lemma wall_params_ok g total closed P : wall_params g total closed = Ok P ->
  1 <= max_area_deviation P /\ 1 <= max_resolution P /\ scarf_split_distance P = g_scarf_split g /\
  speed_split_distance P = g_speed_split g /\ is_small_feature P = g_small g /\ scarf_seam_length P <= total.
Proof.
  unfold wall_params. intros H. apply rbind_ok in H as (acc & _ & H). apply rbind_ok in H as (dec & _ & H). injection H as <-. cbn. repeat split; lia.
Qed.

Theorem C61_constant_width fuel g P w start (closed reversed : bool) width first rest :
  (start < length w)%nat -> (closed = false -> start = (if reversed then length w - 1 else 0)%nat) ->
  Forall (fun j => j.2 = width) w -> route w start closed reversed = first :: rest -> (0 < length rest)%nat ->
  short_lines fuel first rest ->
  wall_params g (wall_length closed w) closed = Ok P ->
  0 < g_scarf_split g -> 0 < g_speed_split g -> g_small g = false ->
  let lines := zip rest (lengths first rest) in let total := wall_length closed w in
  exists ds1 s1 ds2 s2,
    addWallWithScarfSeam fuel g w start closed reversed = Ok (MTravel (place_of first) :: (MSeg <$> s1 ++ s2)) /\
    follows P total false (length w) first lines 0 ds1 s1 /\ List.last ds1 0 = total /\
    (forall i c, rest !! i = Some c -> exists d, ends 0 lines !! i = Some d /\ d ∈ 0 :: ds1 /\ point_at first lines d = place_of c) /\
    (if 0 <? scarf_seam_length P then
       follows P total true (length w) first lines 0 ds2 s2 /\ List.last ds2 0 = scarf_seam_length P
     else s2 = []).
Proof.
  intros HS HO HW HR HN HF HP H1 H2 H3. destruct (wall_params_ok _ _ _ _ HP) as (P1 & P2 & P3' & P4 & P5 & P6).
  assert (W : Forall (fun c => width_of c = width_of first) rest).
  { apply Forall_forall. intros c Hc. rewrite !(route_width w start closed reversed width); try done; rewrite HR; [by left|by right]. }
  assert (ET : sum (lengths first rest) = wall_length closed w).
  { rewrite sum_lengths, <- HR. by apply route_length. }
  destruct (C61_pass fuel P w (wall_length closed w) start closed reversed false first rest HS HR ltac:(lia) ltac:(lia) P1 P2 ltac:(by rewrite P5) ltac:(done) HF)
    as (ls & ds & segs & L & Q1 & Q2 & Q3 & Q4 & Q5).
  assert (ls = lengths first rest) as -> by (by eapply const_lengths). cbn zeta in *. cbn [negb andb] in Q2. rewrite (proj2 (Nat.ltb_lt 0 _) HN) in Q2. cbn [app] in Q2.
  assert (EN : w <> []) by (intros ->; cbn in HS; lia).
  assert (C : forall i c, rest !! i = Some c -> exists d, ends 0 (zip rest (lengths first rest)) !! i = Some d /\ d ∈ 0 :: ds /\
    point_at first (zip rest (lengths first rest)) d = place_of c).
  { intros i c Hc. assert (LE : length (ends 0 (zip rest (lengths first rest))) = length rest).
    { assert (A : forall b l, length (ends b l) = length l) by (intros b l; revert b; induction l as [|[? ?] l IH]; intros b; cbn; auto).
      rewrite A, zip_with_length, lengths_length. lia. }
    destruct (lookup_lt_is_Some_2 (ends 0 (zip rest (lengths first rest))) i) as [d Hd]; [rewrite LE; by eapply lookup_lt_Some|].
    exists d. split; [done|]. split; [|by eapply point_at_end]. apply Q5; [by eapply elem_of_list_lookup_2|done]. }
  destruct (0 <? scarf_seam_length P) eqn:ES.
  - apply Z.ltb_lt in ES.
    destruct (C61_pass fuel P w (wall_length closed w) start closed reversed true first rest HS HR ltac:(lia) ltac:(lia) P1 P2 ltac:(done) ltac:(done) HF)
      as (ls2 & ds2 & segs2 & L2 & R1 & R2 & R3 & R4 & R5).
    assert (ls2 = lengths first rest) as -> by (by eapply const_lengths). cbn zeta in *. cbn [negb andb app] in R2.
    exists ds, segs, ds2, segs2. split; [|split; [done|split; [|split; [done|split; [done|]]]]].
    + unfold addWallWithScarfSeam. destruct w as [|j w]; [done|]. rewrite HP. cbn [rbind]. rewrite Q2. cbn [rbind].
      rewrite (proj2 (Z.ltb_lt 0 _) ES), R2. cbn [rbind]. by rewrite fmap_app.
    + rewrite Q4. cbn. done.
    + rewrite R4. unfold until. rewrite ET. lia.
  - exists ds, segs, [], []. split; [|split; [done|split; [|split; [done|done]]]].
    + unfold addWallWithScarfSeam. destruct w as [|j w]; [done|]. rewrite HP. cbn [rbind]. rewrite Q2. cbn [rbind]. rewrite ES. by rewrite app_nil_r.
    + rewrite Q4. done.
Qed.

(** ** The scarf: the height rises from the given offset to the layer *)
Theorem C61_scarf_rises P a b : scarf_max_z_offset P <= 0 -> 0 <= a <= b ->
  scarf_max_z_offset P <= height P false a <= height P false b /\ height P false b <= 0 /\
  (0 < scarf_seam_length P -> height P false 0 = scarf_max_z_offset P) /\
  (scarf_seam_length P <= b -> height P false b = 0) /\ height P true a = 0.
Proof.
  intros HZ HB. unfold height. cbn [negb andb].
  assert (M : forall d, 0 <= d < scarf_seam_length P -> (0 <= inject_Z d / inject_Z (scarf_seam_length P) <= 1)%Q).
  { intros d Hd. assert (SP : (0 < inject_Z (scarf_seam_length P))%Q) by (rewrite <- (Zlt_Qlt 0); lia).
    split; [apply Qle_shift_div_l; [done|]|apply Qle_shift_div_r; [done|]].
    - rewrite Qmult_0_l. rewrite <- (Zle_Qle 0). lia.
    - rewrite Qmult_1_l, <- Zle_Qle. lia. }
  assert (ZQ : (inject_Z (scarf_max_z_offset P) <= 0)%Q) by (rewrite <- (Zle_Qle _ 0); done).
  assert (B : forall d, 0 <= d < scarf_seam_length P ->
    scarf_max_z_offset P <= llrint (inject_Z (scarf_max_z_offset P) * (1 - inject_Z d / inject_Z (scarf_seam_length P))) <= 0).
  { intros d Hd. specialize (M d Hd). apply Coast_Props.llrint_between; change (inject_Z 0) with 0%Q; nra. }
  split; [|split; [|split; [|split]]].
  - destruct (a <? scarf_seam_length P) eqn:Ea, (b <? scarf_seam_length P) eqn:Eb; rewrite ?Z.ltb_lt, ?Z.ltb_ge in *.
    + split; [apply B; lia|]. apply llrint_mono.
      assert (C : (inject_Z a / inject_Z (scarf_seam_length P) <= inject_Z b / inject_Z (scarf_seam_length P))%Q).
      { assert (SP : (0 < inject_Z (scarf_seam_length P))%Q) by (rewrite <- (Zlt_Qlt 0); lia).
        unfold Qdiv. apply Qmult_le_compat_r; [rewrite <- Zle_Qle; lia|]. apply Qlt_le_weak, Qinv_lt_0_compat, SP. }
      nra.
    + apply B. lia.
    + lia.
    + lia.
  - destruct (b <? scarf_seam_length P) eqn:Eb; [|lia]. apply Z.ltb_lt in Eb. apply B. lia.
  - intros HS. rewrite (proj2 (Z.ltb_lt 0 _) HS). apply llrint_eq. unfold Qdiv. ring.
  - intros H. by rewrite (proj2 (Z.ltb_ge b _) H).
  - done.
Qed.

(** ** The speed stays between the slowest and the full speed *)
Lemma frac_bound x y : 0 <= x <= y -> 0 < y -> (0 <= inject_Z x / inject_Z y <= 1)%Q.
Proof.
  intros H1 H2. assert (SP : (0 < inject_Z y)%Q) by (rewrite <- (Zlt_Qlt 0); lia).
  split; [apply Qle_shift_div_l; [done|]|apply Qle_shift_div_r; [done|]].
  - rewrite Qmult_0_l, <- (Zle_Qle 0). lia.
  - rewrite Qmult_1_l, <- Zle_Qle. lia.
Qed.
Lemma half_sum a b : (0 <= a <= 1 -> 0 <= b <= 1 -> 0 <= (a + b) / 2 <= 1)%Q.
Proof. intros H1 H2. split; [apply Qle_shift_div_l; lra|apply Qle_shift_div_r; lra]. Qed.
Theorem C61_speed P total closure size first lines a b s :
  step P total closure size first lines a b s -> 0 <= a -> b <= total ->
  (0 < start_speed_ratio P <= 1)%Q -> (0 < end_speed_ratio P <= 1)%Q ->
  (start_speed_ratio P * end_speed_ratio P <= s_speed s <= 1)%Q.
Proof.
  intros [S1 _ _ S4 _ _ _ S8 S9] HA HB R1 R2. rewrite S4. unfold speed. destruct closure; [nra|].
  specialize (S8 eq_refl). specialize (S9 eq_refl).
  set (f := if a <? accelerate_length P then _ else _). set (h := if decelerating P total a then _ else _).
  assert (F : (start_speed_ratio P <= f <= 1)%Q).
  { subst f. destruct (a <? accelerate_length P) eqn:E; [|lra]. apply Z.ltb_lt in E. destruct (S8 E) as [S8' _].
    unfold qlerp. assert (A : (0 <= (acc_at P a + acc_at P b) / 2 <= 1)%Q).
    { apply half_sum; apply frac_bound; lia. }
    set (t := ((acc_at P a + acc_at P b) / 2)%Q) in *. clearbody t. nra. }
  assert (H : (end_speed_ratio P <= h <= 1)%Q).
  { subst h. unfold decelerating. destruct (0 <? decelerate_length P) eqn:D; cbn [andb]; [|lra]. apply Z.ltb_lt in D. specialize (S9 D).
    destruct (total - decelerate_length P <=? a) eqn:E; [|lra]. apply Z.leb_le in E.
    assert (DA : forall d, a <= d <= total -> (0 <= dec_at P total d <= 1)%Q).
    { intros d Hd. unfold dec_at. assert (0 <= inject_Z (total - d) / inject_Z (decelerate_length P) <= 1)%Q by (apply frac_bound; lia). lra. }
    assert (A : (0 <= (dec_from P total a + dec_at P total b) / 2 <= 1)%Q).
    { apply half_sum; [|apply DA; lia]. unfold dec_from. destruct (a =? 0); [lra|]. apply DA. lia. }
    unfold qlerp. set (t := ((dec_from P total a + dec_at P total b) / 2)%Q) in *. clearbody t. nra. }
  clearbody f h. nra.
Qed.

(** ** Which line of the wall a sub-segment is said to be on *)
Lemma line_at_consecutive first lines d c0 c1 k : line_at first lines d = Some (c0, c1, k) ->
  exists i, (first :: lines.*1) !! i = Some c0 /\ (first :: lines.*1) !! S i = Some c1.
Proof.
  revert first d. induction lines as [|[c l] lines IH]; intros first d; [done|]. cbn [line_at].
  destruct ((0 <? l) && (d <=? l)).
  - intros [= -> -> ->]. by exists 0%nat.
  - intros H. apply IH in H as (i & H1 & H2). by exists (S i).
Qed.
Lemma previous_index n x : (0 < n)%nat -> (((x + 1) mod n + n - 1) mod n = x mod n)%nat.
Proof.
  intros H. pose proof (Nat.mod_upper_bound x n ltac:(lia)). rewrite <- (Nat.add_mod_idemp_l x 1 n) by lia.
  rewrite (mod_once n (x mod n + 1)) by lia. destruct (Nat.ltb_spec (x mod n + 1) n); rewrite mod_once by lia; nat_cases.
Qed.
Theorem C61_segment_index P total closure w start closed first rest ls a b s :
  (start < length w)%nat -> route w start closed false = first :: rest -> length ls = length rest ->
  step P total closure (length w) first (zip rest ls) a b s ->
  exists c0 c1 k, line_at first (zip rest ls) b = Some (c0, c1, k) /\ s_index s = c0.1.
Proof.
  intros HS HR HL [_ _ _ _ _ (c0 & c1 & k & S1 & _ & _ & _ & _ & S6) _ _ _]. exists c0, c1, k. split; [done|]. rewrite S6.
  apply line_at_consecutive in S1 as (i & I1 & I2). rewrite fst_zip in I1, I2 by lia. rewrite <- HR, route_seq, list_lookup_fmap in I1, I2 by done.
  set (n := length w) in *. destruct (decide (S i < max_index closed n)%nat) as [L|L].
  - rewrite lookup_seq_lt in I1, I2 by lia. injection I1 as <-. injection I2 as <-. unfold actual_index. cbn [fst Nat.add nth_corner].
    replace (n + start + S i)%nat with (n + start + i + 1)%nat by lia. apply previous_index. lia.
  - rewrite lookup_seq_ge in I2 by lia. done.
Qed.

(** ** Alternating directions *)
Theorem C61_direction alternate inset layer size back start :
  let flip := alternate && Z.odd (Z.of_nat inset + layer) in
  wall_direction alternate inset layer size back start
  = (xorb back flip, if flip then (size - (start + 1))%nat else start).
Proof.
  cbn zeta. unfold wall_direction.
  assert (E1 : negb (inset mod 2 =? 0)%nat = Z.odd (Z.of_nat inset)).
  { rewrite Zodd_mod. change 2 with (Z.of_nat 2). rewrite <- Nat2Z.inj_mod. pose proof (Nat.mod_upper_bound inset 2 ltac:(lia)).
    destruct (inset mod 2)%nat as [|[|k]]; [done|done|lia]. }
  assert (E2 : negb (Z.rem layer 2 =? 0) = Z.odd layer).
  { rewrite Zodd_mod. pose proof (Z.quot_rem' layer 2). pose proof (Z.rem_bound_abs layer 2 ltac:(lia)).
    pose proof (Z.div_mod layer 2 ltac:(lia)). pose proof (Z.mod_pos_bound layer 2 ltac:(lia)).
    unfold Zeq_bool. destruct (Z.eqb_spec (Z.rem layer 2) 0) as [Z0|Z0]; destruct (Z.compare_spec (layer mod 2) 1) as [C|C|C]; cbn; try done; exfalso; lia. }
  rewrite E1, E2, Z.odd_add. destruct alternate; cbn [andb]; [|by destruct back].
  destruct (Z.odd (Z.of_nat inset)), (Z.odd layer), back; done.
Qed.
Theorem C61_alternate_open alternate inset layer w (back : bool) start : (0 < length w)%nat ->
  start = (if back then length w - 1 else 0)%nat ->
  let r := wall_direction alternate inset layer (length w) back start in
  route w r.2 false r.1 =
  (if alternate && Z.odd (Z.of_nat inset + layer) then reverse (route w start false back) else route w start false back).
Proof.
  intros H ->. cbn zeta. rewrite C61_direction. cbn [fst snd]. destruct (alternate && Z.odd (Z.of_nat inset + layer)).
  - destruct back; cbn [xorb].
    + replace (length w - (length w - 1 + 1))%nat with 0%nat by lia. by rewrite route_open_forward, route_open_backward, reverse_involutive.
    + replace (length w - (0 + 1))%nat with (length w - 1)%nat by lia. by rewrite route_open_forward, route_open_backward.
  - by destruct back.
Qed.

(** ** Small features: straight from corner to corner *)
Lemma cut_lines_small P total fuel size width todo : is_small_feature P = true -> 1 <= max_area_deviation P ->
  forall c0 st, keep st = true -> width_of c0 = width -> Forall (fun c => width_of c = width) todo ->
  exists st', cut_lines P total false fuel size (place_of c0) (width_of c0) todo st = Ok (st', (fun c => MSmall (place_of c) width) <$> todo).
Proof.
  intros HS HD. induction todo as [|c1 todo IH]; intros c0 st K W0 W; [by exists st|]. apply Forall_cons in W as [W1 W].
  rewrite cut_lines_cons, K. cbn [negb]. rewrite W0, W1, Z.sub_diag. cbv zeta. pose proof (length_nonneg c0 c1) as L.
  rewrite pieces_const by done. cbn [cut_line]. rewrite K, HS. cbn [negb andb rbind fst snd].
  destruct (IH c1 st K W1 W) as (st' & E). rewrite W1 in E. rewrite E. cbn [rbind fst snd app fmap list_fmap]. exists st'.
  assert (EP : padd (place_of c0) (normal (psub (place_of c1) (place_of c0)) (piece_length_of (length_of c0 c1) 1 * Z.of_nat (0 + 1))) = place_of c1).
  { rewrite piece_length_1 by done. change (Z.of_nat (0 + 1)) with 1. rewrite Z.mul_1_r. unfold normal. fold (length_of c0 c1).
    destruct (length_of c0 c1 <? 1) eqn:E1.
    - apply Z.ltb_lt in E1. assert (Z0 : length_of c0 c1 = 0) by lia. assert (N : place_of c1 = place_of c0) by (by apply vSize_0).
      rewrite Z0, N. destruct (place_of c0) as [x y]. unfold padd. cbn [fst snd]. f_equal; lia.
    - apply Z.ltb_ge in E1. unfold padd, pdiv, pscale, psub. cbn [fst snd]. rewrite !Z.quot_mul by lia.
      destruct (place_of c1), (place_of c0). cbn [fst snd]. f_equal; lia. }
  assert (EW : piece_width width width 1 0 = width).
  { unfold piece_width. apply llrint_eq. rewrite Z.sub_diag. change (inject_Z 0) with 0%Q. ring. }
  by rewrite EP, EW.
Qed.
Theorem C61_small_feature fuel P w total start closed reversed width first rest :
  (start < length w)%nat -> route w start closed reversed = first :: rest -> (0 < length rest)%nat ->
  Forall (fun j => j.2 = width) w -> is_small_feature P = true -> 1 <= max_area_deviation P ->
  addSplitWall fuel P w total start closed reversed false =
    Ok (MTravel (place_of first) :: ((fun c => MSmall (place_of c) width) <$> rest)).
Proof.
  intros HS HR HN HW H1 H2. destruct (visited_route w start closed reversed HS) as (rest' & V & R). rewrite HR in R. injection R as E1 E2. subst rest'.
  destruct (lookup_lt_is_Some_2 w start HS) as [j Ej].
  assert (Ec : first = (start, j)) by (rewrite E1; unfold nth_corner; by rewrite (list_lookup_total_correct _ _ _ Ej)). clear E1.
  unfold addSplitWall. rewrite Ej. cbn [of_opt rbind]. rewrite V. cbn [rbind].
  set (st := WSt 0 _ 0 0 _ true).
  destruct (cut_lines_small P total fuel (length w) width rest H1 H2 first st) as (st' & E); [done|..].
  { apply (route_width w start closed reversed width); [done|done|]. rewrite HR. by left. }
  { apply Forall_forall. intros c Hc. apply (route_width w start closed reversed width); [done|done|]. rewrite HR. by right. }
  rewrite Ec in E. unfold place_of at 1, width_of in E. cbn [fst snd] in E. rewrite E. cbn [rbind fst snd negb andb].
  rewrite (proj2 (Nat.ltb_lt 0 _) HN), Ec. done.
Qed.

(** ** Refuted variants *)
(** A distance of zero between the changes of speed: the loop never ends *)
Lemma cut_piece_stuck P total p0 p1 len index width : scarf_seam_length P <= 0 -> decelerate_length P = 0 ->
  0 < accelerate_length P -> speed_split_distance P = 0 ->
  forall fuel st sd r, processed st = 0 -> keep st = true -> 0 < r ->
  cut_piece P total false fuel p0 p1 len index width st sd r = NoFuel.
Proof.
  intros H1 H2 H3 H4. induction fuel as [|fuel IH]; intros st sd r E K R; cbn [cut_piece]; rewrite (proj2 (Z.ltb_lt 0 r) R), K; cbn [andb]; [done|].
  assert (D : min_list (split_positions P total false st) (processed st + r) = 0).
  { unfold split_positions, process_scarf, process_acceleration. rewrite E, H2, H4, (proj2 (Z.ltb_ge 0 _) H1), (proj2 (Z.ltb_lt 0 _) H3).
    cbn. lia. }
  unfold sub_segment. rewrite D, E. cbn zeta. cbn [fst snd].
  rewrite IH; [done|done|done|lia].
Qed.
Theorem C61_zero_split_refuted : exists g w, 0 < g_scarf_split g /\ g_speed_split g = 0 /\ length w = 3%nat /\
  forall fuel, addWallWithScarfSeam fuel g w 0 true false = NoFuel.
Proof.
  set (P := WPar 1000 500 0 1 0 0 (1 # 2) 300 1 0 false).
  set (w := [((0, 0), 400); ((10000, 0), 400); ((0, 10000), 400)]).
  exists (WSettings 1000 500 false 0 1 1 200 true true 20 0 (1 # 2) 500 1 500 false), w.
  split; [done|]. split; [done|]. split; [done|]. intros fuel.
  unfold addWallWithScarfSeam. set (wp := wall_params _ _ _). assert (E : wp = Ok P) by (vm_compute; reflexivity). unfold w at 1. rewrite E. cbn [rbind].
  unfold addSplitWall. change (w !! 0%nat) with (Some ((0, 0), 400)). cbn [of_opt rbind].
  set (v := visited w 0 true false). assert (Ev : v = Ok [(1%nat, ((10000, 0), 400)); (2%nat, ((0, 10000), 400)); (0%nat, ((0, 0), 400))]) by (vm_compute; reflexivity).
  rewrite Ev. cbn [rbind]. set (st := WSt 0 _ 0 0 _ true).
  change (((0, 0), 400).1) with (place_of (0%nat, ((0, 0), 400))). change (((0, 0), 400).2) with (width_of (0%nat, ((0, 0), 400))).
  rewrite cut_lines_cons. cbn [st keep negb]. cbv zeta.
  set (c0 := (0%nat, ((0, 0), 400)) : corner). set (c1 := (1%nat, ((10000, 0), 400)) : corner).
  assert (EL : length_of c0 c1 = 10000) by (vm_compute; reflexivity). rewrite EL.
  assert (EP : pieces_of P 10000 (width_of c1 - width_of c0) = 1%nat) by (vm_compute; reflexivity). rewrite EP.
  cbn [cut_line keep negb is_small_feature andb]. rewrite piece_length_1 by done. change (is_small_feature P && negb false) with false. cbv iota.
  rewrite cut_piece_stuck; done.
Qed.
(** A line of varying width that is not a multiple of its pieces ends beside its corner: no sub-segment ends at (1000, 0) *)
Theorem C61_corner_refuted : exists g P w moves, wall_params g (wall_length true w) true = Ok P /\ 0 < g_scarf_split g /\ 0 < g_speed_split g /\
  (1%nat, ((1000, 0), 800)) ∈ route w 0 true false /\
  addWallWithScarfSeam 2000 g w 0 true false = Ok moves /\
  Forall (fun m => match m with MSeg s => s_to s <> P3 1000 0 0 | _ => True end) moves.
Proof.
  set (w := [((0, 0), 400); ((1000, 0), 800); ((0, 1000), 800)]).
  set (g := WSettings 10 300 false 0 1 100 200 true false 20 100 1 500 1 500 false).
  exists g. eexists. exists w. eexists. split; [vm_compute; reflexivity|]. split; [done|]. split; [done|]. split; [vm_compute; set_solver|].
  split; [vm_compute; reflexivity|]. repeat constructor; done.
Qed.
(** On a wall printed backwards, the line that is named is not the one that is printed: the sub-segment goes along the line
    from the corner (0, 0) to the corner (0, 1000), but the line that starts at the corner (1000, 0) is named *)
Theorem C61_segment_index_refuted : exists g w moves s, addWallWithScarfSeam 2000 g w 0 true true = Ok moves /\
  MSeg s ∈ moves /\ s_from s = P3 0 0 0 /\ s_to s = P3 0 1000 0 /\ w !! s_index s = Some ((1000, 0), 400).
Proof.
  set (w := [((0, 0), 400); ((1000, 0), 400); ((0, 1000), 400)]).
  set (g := WSettings 10 300 false 0 1 100 200 true false 20 100 1 500 1 500 false).
  exists g, w. eexists. eexists. split; [vm_compute; reflexivity|]. split; [right; left|]. done.
Qed.
(** A closed wall whose direction alternates does not start at the chosen corner *)
Theorem C61_alternate_seam_refuted : exists alternate inset layer (w : wall) start,
  (start < length w)%nat /\ (wall_direction alternate inset layer (length w) false start).2 <> start.
Proof. exists true, 0%nat, 1, [((0, 0), 400); ((10000, 0), 400); ((0, 10000), 400)], 0%nat. split; [cbn; lia|]. done. Qed.

(** The wall of an example: a square of 1 mm with a scarf of 0.3 mm and changes of speed *)
Definition example_wall : wall := [((0, 0), 400); ((1000, 0), 400); ((1000, 1000), 400); ((0, 1000), 400)].
Definition example_settings : wsettings := WSettings 10 300 true 300 (1 # 4) 100 200 true true 20 100 (1 # 2) 1500 (1 # 2) 1500 false.
Example C61_example :
  (exists P first rest, wall_params example_settings (wall_length true example_wall) true = Ok P /\ scarf_seam_length P = 300 /\
    scarf_max_z_offset P = -150 /\ accelerate_length P = 100 /\ decelerate_length P = 100 /\
    route example_wall 1 true true = first :: rest /\ place_of first = (1000, 0) /\
    place_of <$> rest = [(0, 0); (0, 1000); (1000, 1000); (1000, 0)] /\ short_lines 2000 first rest) /\
  exists moves, addWallWithScarfSeam 2000 example_settings example_wall 1 true true = Ok moves /\
    ((fun m => match m with MSeg s => Some (s_to s, Qred (s_speed s)) | _ => None end) <$> moves) =
    [None;
     Some (P3 900 0 (-100), 3 # 4); Some (P3 800 0 (-50), 1); Some (P3 700 0 0, 1); Some (P3 0 0 0, 1);
     Some (P3 0 1000 0, 1); Some (P3 1000 1000 0, 1); Some (P3 1000 100 0, 1); Some (P3 1000 0 0, 3 # 4);
     Some (P3 900 0 0, 1 # 2); Some (P3 800 0 0, 1 # 2); Some (P3 700 0 0, 1 # 2)]%Q.
Proof.
  split.
  - do 3 eexists. split; [vm_compute; reflexivity|]. split; [done|]. split; [done|]. split; [done|]. split; [done|]. split; [vm_compute; reflexivity|].
    split; [done|]. split; [done|]. cbn. repeat split; vm_compute; discriminate.
  - eexists. split; vm_compute; reflexivity.
Qed.

Print Assumptions C61_pass.
Print Assumptions C61_constant_width.
Print Assumptions C61_scarf_rises.
Print Assumptions C61_speed.
Print Assumptions C61_segment_index.
Print Assumptions C61_direction.
Print Assumptions C61_alternate_open.
Print Assumptions C61_small_feature.
Print Assumptions C61_zero_split_refuted.
Print Assumptions C61_corner_refuted.
Print Assumptions C61_segment_index_refuted.
Print Assumptions C61_alternate_seam_refuted.
