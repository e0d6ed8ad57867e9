(** Proofs of C81: fuzzy skin. *)
From Coq Require Import ZArith Lia.
From stdpp Require Import prelude list.
From Verif Require Import Common Geo_Model Combing_Model Combing_Props Lightning_Model Fuzzy_Model Fuzzy_Spec.
Open Scope Z_scope.

(** * Lengths *)
Lemma vSize_floor p : Z.sqrt (vSize2 p) <= vSize p.
Proof. unfold vSize. cbv zeta. destruct (_ <=? _); lia. Qed.
Lemma vSize_pos p : p <> (0, 0) -> 1 <= vSize p.
Proof.
  intros Hp. pose proof (vSize_floor p). assert (1 <= vSize2 p). { unfold vSize2. destruct p as [x y]. cbn. destruct (decide (x = 0)), (decide (y = 0)); subst; [done|nia..]. }
  assert (1 <= Z.sqrt (vSize2 p)); [|lia]. change 1 with (Z.sqrt 1). apply Z.sqrt_le_mono. done.
Qed.
Lemma psub_zero a b : psub b a = (0, 0) -> b = a.
Proof. destruct a, b. unfold psub. cbn. intros [= ? ?]. f_equal; lia. Qed.
Lemma len_pos a b : b <> a -> 1 <= len a b.
Proof. intros H. apply vSize_pos. intros E. apply H. by apply psub_zero. Qed.
Lemma vSize_turn p : vSize (turn90CCW p) = vSize p.
Proof. unfold vSize. assert (vSize2 (turn90CCW p) = vSize2 p) as ->; [|done]. unfold vSize2, turn90CCW. cbn. lia. Qed.
Lemma vSize_swap a b : vSize (psub a b) = vSize (psub b a).
Proof. unfold vSize. assert (vSize2 (psub a b) = vSize2 (psub b a)) as ->; [|done]. unfold vSize2, psub. cbn. lia. Qed.
Lemma quot_err x l : 1 <= l -> Z.abs (l * (x ÷ l) - x) < l.
Proof. intros Hl. pose proof (Z.quot_rem' x l). pose proof (Z.rem_bound_abs x l). lia. Qed.
Lemma normal_eq p d : 1 <= vSize p -> normal p d = (p.1 * d ÷ vSize p, p.2 * d ÷ vSize p).
Proof. intros H. unfold normal. cbv zeta. assert ((vSize p <? 1) = false) as -> by (apply Z.ltb_ge; lia). done. Qed.
Lemma on_ok a b d : b <> a -> beside a b d 0 1 (padd a (normal (psub b a) d)).
Proof.
  intros Hne. pose proof (len_pos a b Hne) as Hl. unfold beside. fold (len a b) in *. rewrite normal_eq by exact Hl. fold (len a b). unfold padd. cbn [fst snd].
  pose proof (quot_err ((psub b a).1 * d) (len a b) Hl). pose proof (quot_err ((psub b a).2 * d) (len a b) Hl). unfold psub in *. cbn [fst snd] in *. split; lia.
Qed.
Lemma aside_ok a b d r : b <> a -> beside a b d r 2 (padd (padd a (normal (psub b a) d)) (normal (turn90CCW (psub b a)) r)).
Proof.
  intros Hne. pose proof (len_pos a b Hne) as Hl. unfold beside. rewrite !normal_eq by (rewrite ?vSize_turn; exact Hl). rewrite vSize_turn. fold (len a b). unfold padd. cbn [fst snd].
  pose proof (quot_err ((psub b a).1 * d) (len a b) Hl). pose proof (quot_err ((psub b a).2 * d) (len a b) Hl).
  pose proof (quot_err ((turn90CCW (psub b a)).1 * r) (len a b) Hl). pose proof (quot_err ((turn90CCW (psub b a)).2 * r) (len a b) Hl).
  unfold psub, turn90CCW in *. cbn [fst snd] in *. split; lia.
Qed.
Lemma middle_ok a b : Z.abs (2 * (psub b (pdiv (psub b a) 2)).1 - (a.1 + b.1)) <= 1 /\ Z.abs (2 * (psub b (pdiv (psub b a) 2)).2 - (a.2 + b.2)) <= 1.
Proof.
  unfold psub, pdiv. cbn [fst snd]. pose proof (quot_err (b.1 - a.1) 2). pose proof (quot_err (b.2 - a.2) 2). lia.
Qed.

Section fuzzy.
  Context (s : settings) (rand : nat -> Z).
  Hypothesis rand_nonneg : forall k, 0 <= rand k.
  Hypothesis fuzz_pos : 1 <= fuzziness s.
  Hypothesis dist_big : 6 <= avg_dist_between_points s.
  Notation lo := (min_dist_between_points s).
  Notation hi := (min_dist_between_points s + range_random_point_dist s).
  Lemma lo_ok : 4 <= lo /\ 1 <= lo ÷ 4 /\ 3 <= range_random_point_dist s.
  Proof using dist_big.
    clear rand_nonneg fuzz_pos. unfold min_dist_between_points, range_random_point_dist.
    assert (H1 : 4 <= avg_dist_between_points s * 3 ÷ 4) by (change 4 with (18 ÷ 4) at 1; apply Z.quot_le_mono; lia).
    split; [done|]. split; [change 1 with (4 ÷ 4); apply Z.quot_le_mono; lia|change 3 with (6 ÷ 2); apply Z.quot_le_mono; lia].
  Qed.
  Lemma rand_mod_ok k m : 1 <= m -> exists r, rand_mod rand k m = Ok r /\ 0 <= r < m.
  Proof using rand_nonneg.
    intros Hm. unfold rand_mod. assert ((m =? 0) = false) as -> by (apply Z.eqb_neq; lia). eexists. split; [done|]. apply Z.rem_bound_pos; [apply rand_nonneg|lia].
  Qed.
  Lemma mean_eq a b q : jp b <> jp a -> width_at a b q (vSize (psub (jp b) (jp a))) = mean_width a b q.
  Proof using. done. Qed.

  Lemma new_points_ok a b start : jp b <> jp a -> forall fuel d k, 0 <= d -> (Z.to_nat (len (jp a) (jp b) - d) < fuel)%nat ->
    exists qs d' k' here, new_points s rand fuel a b (len (jp a) (jp b)) d k = Ok (qs, d', k') /\ len (jp a) (jp b) <= d' /\
      Forall2 (fun arc q => start <= arc < start + len (jp a) (jp b) /\ fuzzed_at (fuzziness s) a b (arc - start) q) here qs /\
      (d < len (jp a) (jp b) -> here <> []) /\ (len (jp a) (jp b) <= d -> here = [] /\ d' = d) /\
      forall total arcs, start + len (jp a) (jp b) <= total -> spaced lo hi (start + d') total arcs -> spaced lo hi (start + d) total (here ++ arcs).
  Proof using rand_nonneg fuzz_pos dist_big.
    intros Hne. destruct lo_ok as (Hlo & _ & Hr). set (L := len (jp a) (jp b)). induction fuel as [|fuel IH]; intros d k Hd Hf; [lia|]. cbn [new_points].
    destruct (Z.ltb_spec d L) as [Hlt|Hge].
    2: { exists [], d, k, []. split; [done|]. split; [done|]. split; [constructor|]. split; [lia|]. split; [done|]. done. }
    cbv zeta. destruct (rand_mod_ok k (fuzziness s * 2)) as (m & -> & Hm); [lia|]. cbn [rbind].
    destruct (rand_mod_ok (S k) (range_random_point_dist s)) as (st & -> & Hst); [lia|]. cbn [rbind].
    destruct (IH (d + (lo + st)) (S (S k))) as (qs & d' & k' & here & -> & Hd' & Hq & _ & _ & Hsp); [lia|lia|]. cbn [rbind fst snd].
    eexists _, d', k', (start + d :: here). split; [reflexivity|]. split; [done|]. split; [|split; [done|split; [lia|]]].
    - constructor; [|done]. split; [lia|]. replace (start + d - start) with d by lia.
      exists (padd (jp a) (normal (psub (jp b) (jp a)) d)), (m - fuzziness s). split; [by apply on_ok|]. split; [lia|]. cbn [jp jw perimeter_index]. split; [by apply aside_ok|]. split; [|done].
      done.
    - intros total arcs Ht Harcs. cbn [app]. apply (spaced_next lo hi (start + d) total (start + (d + (lo + st)))); [lia|lia|]. by apply Hsp.
  Qed.
  Lemma walk_ok : forall line a start d k, 0 <= d -> exists qs arcs, walk s rand a line d k = Ok qs /\ fuzzed (fuzziness s) a start line arcs qs /\
    spaced lo hi (start + d) (start + wall_length (jp a) line) arcs.
  Proof using rand_nonneg fuzz_pos dist_big.
    induction line as [|b line IH]; intros a start d k Hd; cbn [walk wall_length].
    - exists [], []. split; [done|]. split; constructor. lia.
    - case_bool_decide as Heq.
      + destruct (IH a start d k Hd) as (qs & arcs & -> & Hf & Hs). cbn [rbind]. exists (b :: qs), arcs. split; [done|]. split; [by constructor|].
        rewrite <- Heq. assert (len (jp a) (jp a) = 0) as ->; [|done]. unfold len, psub. rewrite !Z.sub_diag. done.
      + assert (Hne : jp b <> jp a) by congruence. cbv zeta. change (vSize (psub (jp b) (jp a))) with (len (jp a) (jp b)).
        pose proof (len_pos _ _ Hne) as Hl.
        destruct (new_points_ok a b start Hne (S (Z.to_nat (len (jp a) (jp b)))) d k Hd) as (ms & d' & k' & here & -> & Hd' & Hq & Hsome & Hnone & Hsp); [lia|]. cbn [rbind fst snd].
        destruct (IH b (start + len (jp a) (jp b)) (d' - len (jp a) (jp b)) k') as (qs & arcs & -> & Hf & Hs); [lia|]. cbn [rbind].
        assert (Hwl : forall l p, 0 <= wall_length p l). { clear. induction l as [|q l IH]; intros p; cbn; [done|]. pose proof (vSize_nonneg (psub (jp q) p)). specialize (IH (jp q)). unfold len. lia. }
        eexists _, (here ++ arcs). split; [reflexivity|]. split.
        * destruct (Z.leb_spec (len (jp a) (jp b)) d) as [Hle|Hgt].
          -- destruct (Hnone Hle) as [-> ->]. inversion Hq; subst. cbn [app]. apply fuzzed_short; [done| |done].
             destruct (middle_ok (jp a) (jp b)) as [M1 M2]. split; [exact M1|]. split; [exact M2|]. split; [|done]. done.
          -- cbn [app]. apply fuzzed_long; [done|by apply Hsome|done|done].
        * specialize (Hwl line (jp b)). apply Hsp; [lia|]. replace (start + len (jp a) (jp b) + (d' - len (jp a) (jp b))) with (start + d') in Hs by lia. by rewrite Z.add_assoc.
  Qed.
  Lemma fuzzed_length fuzz a start line arcs qs : fuzzed fuzz a start line arcs qs -> (length line <= length qs)%nat.
  Proof using.
    induction 1 as [| | |a start b line here arcs ms qs H1 H2 H3 H4 IH]; cbn [length]; try lia. rewrite app_length. apply Forall2_length in H3. destruct here; [done|]. cbn in H3. lia.
  Qed.

  Lemma fuzzy_ok front line k : (2 <= length (front :: line))%nat -> exists result arcs qs pad first,
    fuzzy_line s rand (front :: line) k = Ok result /\
    fuzzed (fuzziness s) front 0 (front :: line) arcs qs /\
    (exists first_arc, lo ÷ 4 <= first_arc < 2 * (lo ÷ 4) /\ spaced lo hi first_arc (wall_length (jp front) (front :: line)) arcs) /\
    (3 <= length result)%nat /\ length result = length (qs ++ pad) /\ ((3 <= length qs)%nat -> pad = []) /\
    head qs = Some front /\ (forall p, p ∈ pad -> (front :: line) !! (length line - 1)%nat = Some p) /\
    last (front :: line) = Some first /\
    (jp first <> jp front -> result = qs ++ pad) /\
    (jp first = jp front -> exists before final final', qs ++ pad = before ++ [final] /\ result = before ++ [final'] /\ jp final' = jp front /\ jw final' = jw final).
  Proof using rand_nonneg fuzz_pos dist_big.
    intros Hlen. destruct lo_ok as (Hlo & Hlo4 & Hr). unfold fuzzy_line. destruct (rand_mod_ok k (lo ÷ 4) Hlo4) as (x & -> & Hx). cbn [rbind head of_opt].
    destruct (walk_ok (front :: line) front 0 (lo ÷ 4 + x) (S k)) as (qs & arcs & -> & Hf & Hs); [lia|]. cbn [rbind]. rewrite !Z.add_0_l in Hs.
    pose proof (fuzzed_length _ _ _ _ _ _ Hf) as Hql.
    assert (Hhead : head qs = Some front). { inversion Hf; subst; try done. }
    assert (Hfill : exists pad, fill_up 4 (front :: line) qs = Ok (qs ++ pad) /\ (3 <= length (qs ++ pad))%nat /\ ((3 <= length qs)%nat -> pad = []) /\ (forall p, p ∈ pad -> (front :: line) !! (length line - 1)%nat = Some p)).
    { cbn [fill_up]. destruct (Nat.ltb_spec (length qs) 3) as [H3|H3].
      2: { exists []. rewrite app_nil_r. split; [done|]. split; [done|]. split; [done|]. intros p Hp. by apply elem_of_nil in Hp. }
      assert ((length (front :: line) <? 2)%nat = false) as -> by (apply Nat.ltb_ge; lia).
      replace (length (front :: line) - 2)%nat with (length line - 1)%nat by (cbn; lia).
      destruct (lookup_lt_is_Some_2 (front :: line) (length line - 1)) as [p Hp]; [cbn; lia|]. rewrite Hp. cbn [of_opt rbind].
      assert (Hq2 : length qs = 2%nat) by lia.
      exists [p]. split; [|split; [rewrite app_length; cbn; lia|split; [lia|intros q Hq; apply elem_of_list_singleton in Hq as ->; done]]].
      destruct (Nat.eqb _ _); [done|]. assert ((length (qs ++ [p]) <? 3)%nat = false) as ->; [|done]. apply Nat.ltb_ge. rewrite app_length. cbn. lia. }
    destruct Hfill as (pad & -> & H3 & Hpad0 & Hpad). cbn [rbind]. assert ((length (qs ++ pad) <? 3)%nat = false) as -> by (by apply Nat.ltb_ge).
    destruct (last (front :: line)) as [first|] eqn:El; [|by apply last_None in El]. cbn [of_opt rbind].
    assert (Hex : exists first_arc, lo ÷ 4 <= first_arc < 2 * (lo ÷ 4) /\ spaced lo hi first_arc (wall_length (jp front) (front :: line)) arcs) by (eexists; split; [|exact Hs]; lia).
    case_bool_decide as Heq.
    - assert (Hh : head (qs ++ pad) = Some front) by (destruct qs; [done|exact Hhead]). rewrite Hh. cbn [of_opt rbind].
      destruct (last (qs ++ pad)) as [final|] eqn:Efin; [|apply last_None in Efin; rewrite Efin in H3; cbn in H3; lia]. cbn [of_opt rbind].
      pose proof Efin as Efin'. apply last_Some in Efin' as (before & Eb). rewrite Eb, removelast_last.
      eexists _, arcs, qs, pad, first. split; [reflexivity|]. split; [done|]. split; [done|]. rewrite Eb in H3. rewrite !app_length in *. cbn [length] in *.
      split; [lia|]. split; [rewrite <- app_length, Eb, app_length; done|]. split; [done|]. split; [done|]. split; [done|]. split; [done|]. split; [done|].
      intros _. eexists before, final, _. split; [done|]. split; [reflexivity|]. done.
    - eexists _, arcs, qs, pad, first. split; [reflexivity|]. split; [done|]. split; [done|]. split; [lia|]. split; [done|]. split; [done|]. split; [done|]. split; [done|]. split; [done|]. split; [done|]. done.
  Qed.

  (** C81.  A wall of at least two points gets new points at distances along it, the first between 3/16 and 3/8 of the point distance from the start
      and each of the others between 3/4 and 5/4 after the one before, up to the end; each is at most the fuzziness beside the wall.  Straight pieces
      without a new point give their middle, repeated points are kept.  There are at least three points; walls that are closed stay so. *)
  Theorem C81_fuzzy front line k : (2 <= length (front :: line))%nat -> let avg := avg_dist_between_points s in exists result arcs qs pad first,
    fuzzy_line s rand (front :: line) k = Ok result /\
    fuzzed (fuzziness s) front 0 (front :: line) arcs qs /\
    (exists first_arc, avg * 3 ÷ 4 ÷ 4 <= first_arc < 2 * (avg * 3 ÷ 4 ÷ 4) /\ spaced (avg * 3 ÷ 4) (avg * 3 ÷ 4 + avg ÷ 2) first_arc (wall_length (jp front) (front :: line)) arcs) /\
    (3 <= length result)%nat /\ length result = length (qs ++ pad) /\ ((3 <= length qs)%nat -> pad = []) /\
    head qs = Some front /\ (forall p, p ∈ pad -> (front :: line) !! (length line - 1)%nat = Some p) /\
    last (front :: line) = Some first /\
    (jp first <> jp front -> result = qs ++ pad) /\
    (jp first = jp front -> exists before final final', qs ++ pad = before ++ [final] /\ result = before ++ [final'] /\ jp final' = jp front /\ jw final' = jw final).
  Proof using rand_nonneg fuzz_pos dist_big. exact (fuzzy_ok front line k). Qed.

  (** Only outer walls are changed, and with the setting for the outside only, those without a point in a hole. *)
  Theorem C81_toolpath in_hole starts front toolpath : (forall l, l ∈ front :: toolpath -> (2 <= length (junctions l))%nat) ->
    exists result, fuzzy_toolpath s rand in_hole starts (front :: toolpath) = Ok result /\
    (inset_idx front <> 0%nat -> result = front :: toolpath) /\
    (inset_idx front = 0%nat -> Forall2 (fun l l' =>
       let kept := apply_outside_only s = true /\ exists j, j ∈ junctions l /\ in_hole (jp j) = true in
       inset_idx l' = inset_idx l /\ is_odd l' = is_odd l /\ is_closed l' = is_closed l /\
       (kept -> l' = l) /\ (~ kept -> exists k, fuzzy_line s rand (junctions l) k = Ok (junctions l'))) (front :: toolpath) result).
  Proof using rand_nonneg fuzz_pos dist_big.
    intros Hlen. unfold fuzzy_toolpath. cbn [head of_opt rbind]. destruct (Nat.eqb_spec (inset_idx front) 0) as [H0|H0]; cbn [negb].
    2: { exists (front :: toolpath). split; [done|]. done. }
    revert Hlen. generalize (front :: toolpath). intros ls Hlen.
    assert (H : forall i, exists result, fuzzy_lines s rand in_hole starts i ls = Ok result /\ Forall2 (fun l l' =>
       let kept := apply_outside_only s = true /\ exists j, j ∈ junctions l /\ in_hole (jp j) = true in
       inset_idx l' = inset_idx l /\ is_odd l' = is_odd l /\ is_closed l' = is_closed l /\
       (kept -> l' = l) /\ (~ kept -> exists k, fuzzy_line s rand (junctions l) k = Ok (junctions l'))) ls result).
    { induction ls as [|l ls IH]; intros i; cbn [fuzzy_lines]; [exists []; split; [done|constructor]|].
      destruct (IH (fun l' Hl' => Hlen l' (elem_of_list_further _ _ _ Hl')) (S i)) as (rest & Er & Hr). rewrite Er.
      pose proof (Hlen l (elem_of_list_here _ _)) as Hl. destruct (junctions l) as [|a js] eqn:Ej; [cbn in Hl; lia|]. rewrite <- Ej in *.
      assert (Hex : existsb (fun j => in_hole (jp j)) (junctions l) = true <-> exists j, j ∈ junctions l /\ in_hole (jp j) = true).
      { rewrite existsb_exists. split; intros (j & Hj & E); exists j; (split; [by apply elem_of_list_In|done]). }
      destruct (apply_outside_only s && existsb (fun j => in_hole (jp j)) (junctions l)) eqn:Ek; cbn [rbind].
      - apply andb_true_iff in Ek as [Ek1 Ek2]. eexists. split; [reflexivity|]. constructor; [|done]. cbv zeta. do 3 (split; [done|]). split; [done|]. intros Hn. exfalso. apply Hn. split; [done|]. by apply Hex.
      - destruct (C81_fuzzy a js (starts i)) as (r & _ & _ & _ & _ & E & _); [by rewrite <- Ej|]. rewrite <- Ej in E. rewrite E. cbn [rbind].
        eexists. split; [reflexivity|]. constructor; [|done]. cbv zeta. cbn [inset_idx is_odd is_closed junctions]. do 3 (split; [done|]). split; [|intros _; by eexists].
        intros [Hk1 Hk2]. apply Hex in Hk2. rewrite Hk1, Hk2 in Ek. done. }
    destruct (H 0%nat) as (result & E & Hr). exists result. split; [done|]. split; [done|]. intros _. done.
  Qed.
End fuzzy.

(** A new point close to one end of a straight piece gets about the width of the other end: here the wall is 1 mm wide at x = 0 and 0.2 mm at x = 10 mm. *)
Theorem C81_width_refuted : exists s rand line qs q, fuzzy_line s rand line 0 = Ok qs /\ line = [Junction (0, 0) 1000 0; Junction (10000, 0) 200 0] /\
  qs !! 1%nat = Some q /\ (jp q).1 <= 200 /\ jw q <= 220.
Proof.
  destruct (fuzzy_line (Settings false 300 800) (fun _ => 0) [Junction (0, 0) 1000 0; Junction (10000, 0) 200 0] 0) as [qs| |] eqn:E; [|by vm_compute in E..].
  exists (Settings false 300 800), (fun _ => 0), [Junction (0, 0) 1000 0; Junction (10000, 0) 200 0], qs.
  destruct (qs !! 1%nat) as [q|] eqn:Eq; [|by (vm_compute in E; injection E as <-)]. exists q. split; [exact E|]. split; [done|]. split; [done|].
  vm_compute in E. injection E as <-. vm_compute in Eq. injection Eq as <-. vm_compute. split; intros ?; done.
Qed.
(** A wall that is not closed does not end where it did: a short one goes back to its start. *)
Theorem C81_open_end_refuted : exists s rand a b, jp a <> jp b /\ fuzzy_line s rand [a; b] 0 = Ok [a; Junction (50, 0) 400 0; a].
Proof. exists (Settings false 300 800), (fun _ => 0), (Junction (0, 0) 400 0), (Junction (100, 0) 400 0). split; [done|]. by vm_compute. Qed.
(** On a very short diagonal piece a point can be moved farther aside than the fuzziness. *)
Theorem C81_distance_refuted : exists s rand line qs q, fuzzy_line s rand line 0 = Ok qs /\ fuzziness s = 300 /\ q ∈ qs /\
  forall p, (p = (0, 0) \/ p = (1, 1) \/ p = (2, 2) \/ p = (3, 3)) -> 400 * 400 < vSize2 (psub (jp q) p).
Proof.
  destruct (fuzzy_line (Settings false 300 6) (fun _ => 0) [Junction (0, 0) 400 0; Junction (1, 1) 400 0; Junction (2, 2) 400 0; Junction (3, 3) 400 0] 0) as [qs| |] eqn:E; [|by vm_compute in E..].
  exists (Settings false 300 6), (fun _ => 0), [Junction (0, 0) 400 0; Junction (1, 1) 400 0; Junction (2, 2) 400 0; Junction (3, 3) 400 0], qs, (Junction (301, -299) 400 0).
  split; [exact E|]. split; [done|]. vm_compute in E. injection E as <-. split; [right; right; left|]. intros p [-> |[-> |[-> | ->]]]; done.
Qed.
(** A thickness of zero ends the program by a division by zero. *)
Theorem C81_zero_refuted : exists rand line, length line = 3%nat /\ fuzzy_line (Settings false 0 800) rand line 0 = UB.
Proof. exists (fun _ => 0), [Junction (0, 0) 400 0; Junction (9000, 0) 400 0; Junction (0, 9000) 400 0]. by vm_compute. Qed.

(** A closed square of 1 mm *)
Example C81_nonvacuous :
  fuzzy_line (Settings false 300 800) (fun k => 37 * Z.of_nat k) [Junction (0, 0) 400 1; Junction (1000, 0) 400 2; Junction (1000, 1000) 400 3; Junction (0, 1000) 400 4; Junction (0, 0) 400 5] 0 =
  Ok [Junction (0, 0) 400 1; Junction (150, -263) 400 2; Junction (824, -189) 400 2; Junction (1115, 572) 400 3; Junction (606, 1041) 400 4; Junction (0, 0) 400 5].
Proof. vm_compute. done. Qed.
Print Assumptions C81_fuzzy.
Print Assumptions C81_toolpath.
Print Assumptions C81_width_refuted.
Print Assumptions C81_open_end_refuted.
Print Assumptions C81_distance_refuted.
Print Assumptions C81_zero_refuted.
