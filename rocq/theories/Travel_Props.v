(** Proofs of C78: travel moves. *)
From Coq Require Import ZArith Lia.
From stdpp Require Import prelude list.
From Verif Require Import Geo_Model Combing_Model Combing_Spec Combing_Props Travel_Model Travel_Spec.
Open Scope Z_scope.

Lemma shorter_within d l p : 0 <= d -> shorterThen (psub l p) d = true <-> within d l p.
Proof.
  intros Hd. unfold within, shorterThen. set (q := psub l p). split.
  - destruct (_ || _); [done|]. destruct (_ || _); [done|]. apply Z.leb_le.
  - intros H. assert (H1 : Z.abs q.1 <= d /\ Z.abs q.2 <= d). { unfold vSize2 in H. split; apply Z.square_le_simpl_nonneg; try done; rewrite Z.abs_square; nia. }
    destruct (Z.ltb_spec d q.1); [lia|]. destruct (Z.ltb_spec q.1 (- d)); [lia|]. destruct (Z.ltb_spec d q.2); [lia|]. destruct (Z.ltb_spec q.2 (- d)); [lia|]. cbn. by apply Z.leb_le.
Qed.

Section combed.
  Context (s : settings).
  Notation res := (maximum_travel_resolution s).
  Lemma comb_points_ok : forall way pts dist lp, exists kept, thinned res (last pts) way kept /\
    foldl (add_comb_point s) (pts, dist, lp) way = (pts ++ kept, dist + way_length (lp :: kept), default lp (last kept)).
  Proof.
    induction way as [|q way IH]; intros pts dist lp; cbn [foldl].
    - exists []. split; [constructor|]. cbn. by rewrite app_nil_r, Z.add_0_r.
    - unfold add_comb_point at 2. cbn [fst snd].
      assert (Hsym : vSize (psub lp q) = vSize (psub q lp)). { unfold vSize. assert (vSize2 (psub lp q) = vSize2 (psub q lp)) as ->; [|done]. unfold vSize2, psub. cbn. lia. }
      set (adds := match last pts with None => true | Some b => _ end). destruct adds eqn:Ea.
      + destruct (IH (pts ++ [q]) (dist + vSize (psub lp q)) q) as (kept & Ht & E). exists (q :: kept). rewrite last_snoc in Ht. split.
        * apply thin_keep; [|done]. intros b Hb. unfold adds in Ea. rewrite Hb in Ea. by apply Z.ltb_lt.
        * rewrite E. rewrite <- app_assoc. cbn [app]. rewrite way_length_cons, Hsym. f_equal; [f_equal; lia|]. rewrite last_cons. by destruct (last kept).
      + destruct (IH pts dist lp) as (kept & Ht & E). exists kept. split; [|done]. unfold adds in Ea. destruct (last pts) as [b|]; [|done]. apply thin_skip; [by apply Z.ltb_ge in Ea|done].
  Qed.
  Lemma thinned_app o a b ka kb : thinned res o a ka -> thinned res (match last ka with Some x => Some x | None => o end) b kb -> thinned res o (a ++ b) (ka ++ kb).
  Proof.
    intros H. revert b kb. induction H as [o|o q way kept Hk H IH|x q way kept Hk H IH]; intros b kb Hb; cbn [app]; [done| |].
    - apply thin_keep; [done|]. apply IH. rewrite last_cons in Hb. destruct (last kept); [done|done].
    - apply thin_skip; [done|]. apply IH. exact Hb.
  Qed.

  Definition over (p lp : pt) (kept : list pt) : bool := (0 <? retraction_combing_max_distance s) && (retraction_combing_max_distance s <? way_length (lp :: kept ++ [p])) && retraction_enable s.
  Lemma comb_paths_ok p dr : forall ws pts dist lp r0, exists kept,
    thinned res (last pts) (concat (map fst ws)) kept /\
    let a := foldl (add_comb_path s p dr) (pts, dist, lp, r0) ws in
    a.1.1.1 = pts ++ kept /\ (concat (map fst ws) = [] -> a.2 = r0) /\ (concat (map fst ws) <> [] -> dr = true -> a.2 = true) /\
    (forall w, ws = [w] -> w.1 <> [] -> dist = 0 -> a.2 = dr || over p lp kept).
  Proof.
    induction ws as [|w ws IH]; intros pts dist lp r0; cbn [foldl map concat].
    - exists []. split; [constructor|]. cbn. split; [by rewrite app_nil_r|]. split; [done|]. split; [done|]. intros w Hw. done.
    - destruct w as [[|q way] bw].
      + change (add_comb_path s p dr (pts, dist, lp, r0) ([], bw)) with (pts, dist, lp, r0). destruct (IH pts dist lp r0) as (kept & Ht & H1 & H2 & H3 & _). exists kept. cbn [app]. cbv zeta in *. split; [done|]. split; [done|]. split; [done|]. split; [done|]. intros w0 Hw0 Hne. assert (w0 = ([], bw)) as -> by congruence. done.
      + destruct (comb_points_ok (q :: way) pts dist lp) as (kept1 & Ht1 & E1). set (x := add_comb_path s p dr (pts, dist, lp, r0) (q :: way, bw)).
        assert (Ex : x = (pts ++ kept1, dist + way_length (lp :: kept1) + vSize (psub (default lp (last kept1)) p), default lp (last kept1),
          dr || ((0 <? retraction_combing_max_distance s) && (retraction_combing_max_distance s <? dist + way_length (lp :: kept1) + vSize (psub (default lp (last kept1)) p)) && retraction_enable s))).
        { unfold x, add_comb_path. cbn [fst snd]. by rewrite E1. }
        clearbody x. subst x.
        set (r1 := dr || _). destruct (IH (pts ++ kept1) (dist + way_length (lp :: kept1) + vSize (psub (default lp (last kept1)) p)) (default lp (last kept1)) r1) as (kept & Ht & H1 & H2 & H3 & _).
        exists (kept1 ++ kept). split; [|split; [|split; [done|split]]].
        * apply thinned_app; [done|]. rewrite last_app in Ht. destruct (last kept1) eqn:El; [|done]. done.
        * cbv zeta in H1. rewrite H1. by rewrite app_assoc.
        * intros _ Hdr. destruct (decide (concat (map fst ws) = [])) as [Hn|Hn]; [rewrite (H2 Hn); unfold r1; by rewrite Hdr|by apply H3].
        * intros w0 Hw0 _ ->. assert (ws = []) as -> by congruence. cbn [foldl snd]. unfold r1, over. f_equal. f_equal. f_equal. cbn [map concat] in Ht. inversion Ht; subst. rewrite app_nil_r. rewrite way_length_snoc.
          assert (Hsym : forall a b, vSize (psub a b) = vSize (psub b a)). { intros a b. unfold vSize. assert (vSize2 (psub a b) = vSize2 (psub b a)) as ->; [|done]. unfold vSize2, psub. cbn. lia. }
          rewrite (Hsym (default lp (last kept1)) p). f_equal.
  Qed.
End combed.

Section travel.
  Context (s : settings) (comb : option (pt -> pt -> option comb_paths)) (inside : pt -> option pt) (layer_nr : Z) (after_switch : bool).
  Theorem C78_first p f st : last_planned_position st = None ->
    let r := addTravel s comb inside layer_nr after_switch p f new_path st in
    points r.1 = [p] /\ last_planned_position r.2 = Some p /\ was_inside r.2 = is_inside st /\ first_travel_destination r.2 = Some (p, is_inside st) /\
    (retract r.1 = true <-> layer_nr = 0 /\ retraction_enable s = true /\ retraction_hop_enabled s = true /\ f <> NOT_RETRACTED) /\
    (perform_z_hop r.1 = true <-> layer_nr = 0 /\ retraction_enable s = true /\ retraction_hop_enabled s = true).
  Proof.
    intros Hl. unfold addTravel. rewrite Hl. unfold start_first.
    destruct (Z.eqb_spec layer_nr 0), (retraction_enable s), (retraction_hop_enabled s), f; cbn; naive_solver.
  Qed.

  Lemma finish_ok p pa st : finish p (pa, st) = (Path (points pa ++ [p]) (retract pa) (perform_z_hop pa) (unretract_before_last_travel_move pa),
    State (Some p) (is_inside st) (is_inside st) (match last_planned_position st with None => Some (p, is_inside st) | Some _ => first_travel_destination st end)).
  Proof. done. Qed.
  Lemma addTravel_some p f st l : last_planned_position st = Some l -> exists pa1 pa2 pa3 pa4 r,
    let sh := shorterThen (psub l p) (retraction_min_travel_distance s) in
    pa1 = start_other s comb f sh new_path /\
    pa2 = (match found comb (after_switch && retraction_hop_after_extruder_switch s) l p with Some c => add_combed s p l c pa1 | None => pa1 end) /\
    pa3 = unforce f pa2 /\
    pa4 = shorten sh pa3 /\
    r = (if (match found comb (after_switch && retraction_hop_after_extruder_switch s) l p with Some _ => false | None => true end) && negb sh then
           Path (points pa4 ++ (if was_inside st then match inside l with Some q => [q] | None => [] end else [])) (retraction_enable s)
             (retraction_enable s && retraction_hop_enabled s) (unretract_before_last_travel_move pa4)
         else pa4) /\
    addTravel s comb inside layer_nr after_switch p f new_path st =
      (Path (points r ++ [p]) (retract r) (perform_z_hop r) (unretract_before_last_travel_move r), State (Some p) (is_inside st) (is_inside st) (first_travel_destination st)).
  Proof.
    intros Hl. do 5 eexists. cbv zeta. split; [reflexivity|]. split; [reflexivity|]. split; [reflexivity|]. split; [reflexivity|]. split; [reflexivity|].
    unfold addTravel. rewrite Hl. cbv zeta. change (comb_answer comb) with (found comb).
    destruct (found _ _ _ _) as [c|]; [rewrite finish_ok, Hl; reflexivity|].
    set (pa4 := shorten _ _). clearbody pa4. destruct (shorterThen _ _); cbn [negb andb]; [rewrite finish_ok, Hl; reflexivity|].
    unfold not_combed. destruct (was_inside st), (inside l); rewrite finish_ok; cbn; rewrite ?Hl, ?app_nil_r; reflexivity.
  Qed.

  Theorem C78_travel p f st l : 0 <= retraction_min_travel_distance s -> last_planned_position st = Some l ->
    let r := addTravel s comb inside layer_nr after_switch p f new_path st in
    let short := within (retraction_min_travel_distance s) l p in
    last_planned_position r.2 = Some p /\ was_inside r.2 = is_inside st /\ is_inside r.2 = is_inside st /\ first_travel_destination r.2 = first_travel_destination st /\
    (short -> retract r.1 = false /\ perform_z_hop r.1 = false) /\
    match found comb (after_switch && retraction_hop_after_extruder_switch s) l p with
    | None =>
        (~ short -> retract r.1 = retraction_enable s /\ perform_z_hop r.1 = (retraction_enable s && retraction_hop_enabled s) /\
                    points r.1 = (if was_inside st then match inside l with Some q => [q] | None => [] end else []) ++ [p]) /\
        (short -> points r.1 = [p]) /\ unretract_before_last_travel_move r.1 = false
    | Some c =>
        let way := concat (map fst (ways c)) in
        exists kept, points r.1 = kept ++ [p] /\ thinned (maximum_travel_resolution s) None way kept /\ perform_z_hop r.1 = false /\
        (retract r.1 = true <-> ~ short /\ f <> NOT_RETRACTED /\
           (f = RETRACTED \/
            way <> [] /\ retraction_enable s = true /\
              (leaves_part c \/ 0 < retraction_combing_max_distance s < way_length (l :: kept ++ [p])))) /\
        (retract r.1 = true -> unretract_before_last_travel_move r.1 = unretract_before c)
    end.
  Proof.
    intros Hmin Hl r short. destruct (addTravel_some p f st l Hl) as (pa1 & pa2 & pa3 & pa4 & r4 & E1 & E2 & E3 & E4 & E5 & E). unfold r. rewrite E. clear E r. cbv zeta in *.
    set (sh := shorterThen (psub l p) (retraction_min_travel_distance s)) in *. assert (Hsh : sh = true <-> short) by (by apply shorter_within). clearbody sh. cbn [fst snd points retract perform_z_hop last_planned_position was_inside is_inside first_travel_destination].
    do 4 (split; [done|]).
    destruct (found comb (after_switch && retraction_hop_after_extruder_switch s) l p) as [c|] eqn:Ean.
    - assert (Hcomb : exists calc, comb = Some calc) by (unfold found in Ean; destruct comb; [by eexists|done]). destruct Hcomb as [calc Ecomb].
      assert (Hpa1 : points pa1 = [] /\ perform_z_hop pa1 = false /\ retract pa1 = (match f with RETRACTED => true | _ => false end) && negb sh) by (rewrite E1; unfold start_other; rewrite Ecomb; destruct f, sh; done). destruct Hpa1 as (P1 & P2 & P3). clear E1.
      assert (Hpa2 : exists kept, points pa2 = kept /\ thinned (maximum_travel_resolution s) None (concat (map fst (ways c))) kept /\ perform_z_hop pa2 = false /\
        (retract pa2 = true <-> retract pa1 = true \/ concat (map fst (ways c)) <> [] /\ retraction_enable s = true /\ (leaves_part c \/ 0 < retraction_combing_max_distance s < way_length (l :: kept ++ [p]))) /\
        unretract_before_last_travel_move pa2 = retract pa2 && unretract_before c).
      { rewrite E2. unfold add_combed. set (d1 := retract pa1 || _). set (d2 := if negb d1 then _ else d1).
        assert (Hd2 : d2 = true <-> retract pa1 = true \/ retraction_enable s = true /\ leaves_part c).
        { unfold d2, d1, leaves_part. destruct (retract pa1); [cbn; naive_solver|]. cbn [orb]. destruct (Nat.ltb_spec 1 (length (ways c))) as [Hlen|Hlen]; cbn [orb].
          - destruct (retraction_enable s); cbn; [naive_solver|]. destruct (through_air c), (existsb snd (ways c)); naive_solver.
          - destruct (do_retracted_combing_move c); cbn [andb negb].
            + destruct (retraction_enable s); cbn; [naive_solver|]. destruct (through_air c), (existsb snd (ways c)); naive_solver.
            + destruct (through_air c); [split; [intros ?; right; split; [done|]; auto|intros [?|[? _]]; done]|]. destruct (existsb snd (ways c)) eqn:Eb.
              * apply existsb_exists in Eb as (w & Hw & Ew). split; [intros H; right; split; [done|]; right; right; right; exists w; split; [by apply elem_of_list_In|done]|intros [?|[? _]]; [done|done]].
              * split; [done|]. intros [?|[_ [?|[?|[?|(w & Hw & Ew)]]]]]; [done|lia|done|done|]. assert (existsb snd (ways c) = true) by (apply existsb_exists; exists w; split; [by apply elem_of_list_In|done]). congruence. }
        destruct (comb_paths_ok s p d2 (ways c) (points pa1) 0 l (retract pa1)) as (kept & Ht & H1 & H2 & H3 & H4). rewrite P1 in *. cbn [last app] in *. exists kept. split; [done|]. split; [done|]. split; [done|]. cbn [retract unretract_before_last_travel_move]. split; [|done].
        set (a := foldl _ _ (ways c)) in *. destruct (decide (concat (map fst (ways c)) = [])) as [Hn|Hn]; [rewrite (H2 Hn); naive_solver|].
        destruct d2 eqn:Ed2; [rewrite (H3 Hn eq_refl); pose proof (proj1 Hd2 eq_refl); naive_solver|].
        assert (Hnl : retract pa1 <> true /\ ~ (retraction_enable s = true /\ leaves_part c)) by (split; intros ?; assert (false = true) by (apply Hd2; naive_solver); done).
        assert (Hone : retraction_enable s = true -> exists w, ways c = [w] /\ w.1 <> []).
        { intros He. destruct (ways c) as [|w [|w' ws]] eqn:Ews; [done| |]. { exists w. split; [done|]. cbn in Hn. by rewrite app_nil_r in Hn. } exfalso. apply Hnl. split; [done|]. left. rewrite Ews. cbn. lia. }
        destruct (retraction_enable s) eqn:Een.
        + destruct (Hone eq_refl) as (w & Hw & Hwne). rewrite (H4 w Hw Hwne eq_refl). cbn [orb]. unfold over. rewrite Een, andb_true_r, andb_true_iff, !Z.ltb_lt. split; [intros [? ?]; right; split; [done|]; split; [done|]; right; lia|]. intros [?|(_ & _ & [?|?])]; [by destruct Hnl|by destruct Hnl as [_ []]|lia].
        + split; [|naive_solver]. intros Ha. exfalso. 
          assert (Hno : forall ws x, (forall w, w ∈ ws -> True) -> x.2 = false -> (foldl (add_comb_path s p false) x ws).2 = false).
          { induction ws as [|w ws IH]; intros x _ Hx; [done|]. cbn [foldl]. apply IH; [done|]. unfold add_comb_path. destruct w.1; [done|]. cbn [snd]. rewrite Een. by rewrite andb_false_r. }
          unfold a in Ha. rewrite Hno in Ha; [done|done|]. cbn. by destruct (retract pa1). }
      destruct Hpa2 as (kept & <- & Ht & Hz & Hret & Hun). clear E2. cbn [andb negb] in E5. subst r4.
      destruct sh eqn:Esh.
      + assert (short) by (by apply Hsh). subst pa4. unfold shorten. cbn [points retract perform_z_hop set_retract set_z_hop]. split; [done|]. exists (points pa2). assert (points pa3 = points pa2) as -> by (subst pa3; by destruct f). split; [done|]. split; [done|]. split; [done|]. split; [|done]. split; [done|]. intros [? _]; done.
      + assert (~ short) by (intros ?%Hsh; done). subst pa4. unfold shorten. split; [done|]. exists (points pa2). assert (points pa3 = points pa2) as -> by (subst pa3; by destruct f). split; [done|]. split; [done|]. split; [subst pa3; by destruct f|]. cbn [negb] in P3. rewrite andb_true_r in P3.
        destruct f; subst pa3; cbn [retract unretract_before_last_travel_move unforce is_unforced set_retract].
        * split; [|intros E; rewrite Hun, E; done]. rewrite Hret, P3. clear -H. naive_solver.
        * split; [|intros E; rewrite Hun, E; done]. rewrite Hret, P3. clear -H. naive_solver.
        * split; [|done]. split; [done|]. intros (_ & ? & _). done.
    - assert (Hpa1 : points pa1 = []) by (rewrite E1; unfold start_other; destruct f, sh, comb; done). subst pa2. cbn [andb] in E5.
      assert (Hun1 : unretract_before_last_travel_move pa4 = false). { subst pa4 pa3 pa1. unfold start_other. by destruct f, sh, comb. }
      assert (Hpa4 : points pa4 = []). { subst pa4. assert (points pa3 = []) by (subst pa3; by destruct f). by destruct sh. }
      destruct sh eqn:Esh; cbn [negb] in E5; subst r4.
      + assert (short) by (by apply Hsh). rewrite Hpa4. cbn [unretract_before_last_travel_move]. assert (retract pa4 = false /\ perform_z_hop pa4 = false) as [-> ->] by (subst pa4; done). cbn [app]. naive_solver.
      + assert (~ short) by (intros ?%Hsh; done). cbn [points retract perform_z_hop unretract_before_last_travel_move]. rewrite Hpa4. cbn [app]. naive_solver.
  Qed.
End travel.

(** The other claims one might expect do not hold.  A move that is asked not to retract still does so if no combing path was found. *)
Theorem C78_not_retracted_refuted : exists s comb inside layer p st,
  retract (addTravel s comb inside layer false p NOT_RETRACTED new_path st).1 = true.
Proof.
  exists (Settings true false false 500 0 100), (Some (fun _ _ => None)), (fun _ => None), 3, (9000, 0), (State (Some (0, 0)) false false None). done.
Qed.
(** A combed move that is asked to retract does so even if retraction is switched off. *)
Theorem C78_disabled_refuted : exists s comb inside layer p st,
  retraction_enable s = false /\ retract (addTravel s comb inside layer false p RETRACTED new_path st).1 = true.
Proof.
  exists (Settings false false false 500 0 100), (Some (fun _ p => Some (CombPaths [([p], false)] false false false))), (fun _ => None), 3, (9000, 0), (State (Some (0, 0)) false false None). done.
Qed.
(** The move to the inside of the part does not come before the retraction: both moves are in one path, which is retracted. *)
Theorem C78_inside_refuted : exists s inside layer p st q,
  inside (0, 0) = Some q /\ q <> p /\ points (addTravel s None inside layer false p AUTOMATIC new_path st).1 = [q; p] /\
  retract (addTravel s None inside layer false p AUTOMATIC new_path st).1 = true.
Proof.
  exists (Settings true false false 500 0 100), (fun _ => Some (0, 400)), 3, (9000, 0), (State (Some (0, 0)) true false None), (0, 400). done.
Qed.

(** A combed move around a corner of 3 + 4 mm, which retracts if more than 6 mm are not allowed; a point 0.05 mm from the one before is left out. *)
Definition corner : pt -> pt -> option comb_paths := fun _ _ => Some (CombPaths [([(3000, 0); (3000, 50); (3000, 3900)], false)] false true false).
Definition corner_settings (d : Z) : settings := Settings true true true 1500 d 100.
Example C78_nonvacuous :
  let st := State (Some (0, 0)) true false (Some ((1, 1), true)) in
  let go d sw f p := addTravel (corner_settings d) (Some corner) (fun _ => Some (0, 400)) 3 sw p f new_path st in
  (go 6000 false AUTOMATIC (3000, 4000)) = (Path [(3000, 0); (3000, 3900); (3000, 4000)] true false true, State (Some (3000, 4000)) false false (Some ((1, 1), true))) /\
  (go 8000 false AUTOMATIC (3000, 4000)).1 = Path [(3000, 0); (3000, 3900); (3000, 4000)] false false false /\
  (go 6000 false NOT_RETRACTED (3000, 4000)).1 = Path [(3000, 0); (3000, 3900); (3000, 4000)] false false true /\
  (go 8000 false RETRACTED (3000, 4000)).1 = Path [(3000, 0); (3000, 3900); (3000, 4000)] true false true /\
  (go 8000 true AUTOMATIC (3000, 4000)).1 = Path [(0, 400); (3000, 4000)] true true false /\
  (go 8000 true AUTOMATIC (900, 1200)).1 = Path [(900, 1200)] false false false /\
  addTravel (corner_settings 0) (Some corner) (fun _ => None) 0 false (7, 7) AUTOMATIC new_path (State None true true None) =
    (Path [(7, 7)] true true false, State (Some (7, 7)) true true (Some ((7, 7), true))).
Proof. vm_compute. done. Qed.
Print Assumptions C78_first.
Print Assumptions C78_travel.
Print Assumptions C78_not_retracted_refuted.
Print Assumptions C78_disabled_refuted.
Print Assumptions C78_inside_refuted.
