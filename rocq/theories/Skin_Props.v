(** C63: skin and infill; C64: roofing and flooring. *)
From Coq Require Import ZArith QArith Lia.
From stdpp Require Import prelude list.
From Verif Require Import Common Geo_Model Box_Model Carve_Model Skin_Model Skin_Spec.
Open Scope Z_scope.

Lemma box_hit b o p : aabb_contains b p = true -> aabb_contains o p = true -> aabb_hit b o = true.
Proof.
  unfold aabb_contains, aabb_hit. rewrite !andb_true_iff, !Z.leb_le. intros H1 H2.
  destruct (Z.ltb_spec (bmax b).1 (bmin o).1); [lia|]. destruct (Z.ltb_spec (bmax o).1 (bmin b).1); [lia|].
  destruct (Z.ltb_spec (bmax b).2 (bmin o).2); [lia|]. destruct (Z.ltb_spec (bmax o).2 (bmin b).2); [lia|]. done.
Qed.

Section mesh.
  Variable layers : mesh.
  Hypothesis sound : sound_mesh layers.
  Variable here : part.
  Notation inside p := (aabb_contains (boundaryBox here) p = true).

  Lemma outline_ok k : 0 <= k -> exists a, getOutlineOnLayer layers here k = Ok a /\
    forall p, (a p = true -> solid layers k p) /\ (inside p -> solid layers k p -> a p = true).
  Proof.
    intros Hk. unfold getOutlineOnLayer, layer_count. destruct (Z.leb_spec (Z.of_nat (length layers)) k) as [Hl|Hl].
    - exists a_empty. split; [done|]. intros p. split; [done|]. intros _ (parts & q & _ & Hp & _). apply lookup_lt_Some in Hp. lia.
    - destruct (Z.ltb_spec k 0); [lia|]. destruct (lookup_lt_is_Some_2 layers (Z.to_nat k)) as [parts Hp]; [lia|].
      rewrite Hp. cbn [of_opt rbind]. eexists. split; [reflexivity|]. intros p.
      assert (Hgen : forall l, (forall q, q ∈ l -> q ∈ parts) ->
        (foldr (fun part2 result => if aabb_hit (boundaryBox here) (boundaryBox part2) then a_union (outline part2) result else result)
           a_empty l p = true -> exists q, q ∈ l /\ outline q p = true) /\
        (inside p -> forall q, q ∈ l -> outline q p = true ->
         foldr (fun part2 result => if aabb_hit (boundaryBox here) (boundaryBox part2) then a_union (outline part2) result else result)
           a_empty l p = true)).
      { induction l as [|q l IH]; intros Hsub; cbn [foldr]; [split; [done|intros _ q Hq; inversion Hq]|].
        destruct IH as [IH1 IH2]; [intros r Hr; apply Hsub; by right|]. split.
        - destruct (aabb_hit _ _).
          + unfold a_union at 1. rewrite orb_true_iff. intros [Hq|Hq]; [exists q; split; [left|done]|].
            destruct (IH1 Hq) as (r & Hr & Ho). exists r. split; [by right|done].
          + intros Hq. destruct (IH1 Hq) as (r & Hr & Ho). exists r. split; [by right|done].
        - intros Hin r Hr Ho. apply elem_of_cons in Hr as [-> |Hr].
          + assert (Hs : sound_part q) by (apply (sound parts); [by apply elem_of_list_lookup_2 in Hp|apply Hsub; left]).
            rewrite (box_hit _ _ p Hin (proj2 (Hs p) Ho)). unfold a_union at 1. by rewrite Ho.
          + destruct (aabb_hit _ _); [|by apply IH2 with r]. unfold a_union at 1. rewrite (IH2 Hin r Hr Ho). by rewrite orb_true_r. }
      destruct (Hgen parts ltac:(done)) as [G1 G2]. split.
      + intros H1. destruct (G1 H1) as (q & Hq & Ho). by exists parts, q.
      + intros Hin (parts' & q & _ & Hp' & Hq & Ho). rewrite Hp in Hp'. injection Hp' as <-. by apply G2 with q.
  Qed.

  (** The intersection of [count] layers from [k] on with [a] *)
  Lemma intersect_ok count : forall k a, 0 <= k -> exists b, intersect_layers layers here count k a = Ok b /\
    forall p, (b p = true -> a p = true /\ forall j, k <= j < k + Z.of_nat count -> solid layers j p) /\
      (inside p -> a p = true -> (forall j, k <= j < k + Z.of_nat count -> solid layers j p) -> b p = true).
  Proof.
    induction count as [|count IH]; intros k a Hk; cbn [intersect_layers].
    - exists a. split; [done|]. intros p. split; [|done]. intros H. split; [done|]. intros j Hj. lia.
    - destruct (outline_ok k Hk) as (o & -> & Ho). cbn [rbind].
      destruct (IH (k + 1) (a_inter a o) ltac:(lia)) as (b & E & Hb). exists b. split; [done|]. intros p.
      destruct (Ho p) as [O1 O2], (Hb p) as [B1 B2]. split.
      + intros H. destruct (B1 H) as [H1 H2]. unfold a_inter in H1. apply andb_true_iff in H1 as [Ha Hop]. split; [done|].
        intros j Hj. destruct (decide (j = k)) as [-> |Hn]; [by apply O1|]. apply H2. lia.
      + intros Hin Ha Hall. apply B2; [done| |intros j Hj; apply Hall; lia].
        unfold a_inter. rewrite Ha, O2; [done|done|]. apply Hall. lia.
  Qed.

  Variable offset : Z -> area -> area.
  Variable offset_miter : Z -> area -> area.
  Variable removeSmallAreas : Q -> area -> area.
  Variable empty : area -> bool.
  Hypothesis small_within : forall m, keeps_within (removeSmallAreas m).
  Variable s : skin_settings.
  Hypothesis Hs : plausible s.
  Variable n : Z.
  Hypothesis Hn : 0 <= n.
  Hypothesis here_sound : sound_part here.
  Hypothesis here_on : exists parts, layers !! Z.to_nat n = Some parts /\ here ∈ parts.
  Notation inner := (inner_area here).

  Lemma here_solid p : inner p = true -> inside p /\ solid layers n p.
  Proof.
    intros H. destruct (here_sound p) as [A B]. split; [auto|]. destruct here_on as (parts & E & Hin). exists parts, here. auto.
  Qed.

  Notation all_above p := (forall k, looked_above (no_small_gaps_heuristic s) n (top_layers s) k -> solid layers k p).
  Notation all_below p := (forall k, looked_below (no_small_gaps_heuristic s) n (bottom_layers s) k -> solid layers k p).

  Lemma top_ok : exists u, calculateTopSkin removeSmallAreas layers s n here (if 0 <? top_layers s then inner else a_empty) = Ok u /\
    forall p, (inner p = false -> u p = false) /\
      (inner p = true -> u p = false -> all_above p) /\
      (inner p = true -> (min_infill_area s <= 0)%Q -> all_above p -> u p = false).
  Proof.
    destruct Hs as (Ht & _ & _). unfold calculateTopSkin, looked_above. destruct (Z.leb_spec (top_layers s) 0) as [H0|H0].
    { rewrite orb_true_r. destruct (Z.ltb_spec 0 (top_layers s)); [lia|]. exists a_empty. split; [done|]. intros p.
      split; [done|]. split; [intros _ _ k [? _]; lia|done]. }
    rewrite orb_false_r. destruct (Z.ltb_spec 0 (top_layers s)); [|lia].
    destruct (Z.ltb_spec (layer_count layers - top_layers s) n) as [H1|H1].
    { exists inner. split; [done|]. intros p. split; [done|]. split; [congruence|]. intros _ _ Hall. exfalso.
      destruct (Hall (n + top_layers s)) as (parts & q & _ & E & _).
      - split; [done|]. destruct (no_small_gaps_heuristic s); lia.
      - apply lookup_lt_Some in E. unfold layer_count in H1. lia. }
    destruct (outline_ok (n + top_layers s) ltac:(lia)) as (o & Eo & Ho). rewrite Eo. cbn [rbind].
    assert (Hb : exists b, (if no_small_gaps_heuristic s then Ok o
        else intersect_layers layers here (Z.to_nat (n + top_layers s - (n + 1))) (n + 1) o) = Ok b /\
      forall p, (b p = true -> all_above p) /\ (inside p -> all_above p -> b p = true)).
    { unfold looked_above. destruct (no_small_gaps_heuristic s).
      - exists o. split; [done|]. intros p. destruct (Ho p) as [O1 O2]. split; [intros Hp k [_ ->]; by apply O1|].
        intros Hin Hall. apply O2; [done|]. by apply Hall.
      - destruct (intersect_ok (Z.to_nat (n + top_layers s - (n + 1))) (n + 1) o ltac:(lia)) as (b & E & Hb).
        exists b. split; [done|]. intros p. destruct (Ho p) as [O1 O2], (Hb p) as [B1 B2]. split.
        + intros Hp k [_ Hk]. destruct (B1 Hp) as [B3 B4]. destruct (decide (k = n + top_layers s)) as [-> |?]; [by apply O1|].
          apply B4. lia.
        + intros Hin Hall. apply B2; [done| |intros j Hj; apply Hall; lia]. apply O2; [done|]. apply Hall. lia. }
    destruct Hb as (b & -> & Hb). cbn [rbind]. eexists. split; [reflexivity|]. intros p. unfold a_sub. split_and!.
    - intros ->. done.
    - intros Hi. rewrite Hi. cbn [andb]. rewrite negb_false_iff. intros Hu. apply (proj1 (Hb p)).
      destruct (Qle_bool _ _); cbn [negb] in Hu; [done|]. by apply small_within in Hu.
    - intros Hi Hm Hall. apply Qle_bool_iff in Hm. rewrite Hm, Hi. cbn [negb andb].
      rewrite (proj2 (Hb p)); [done| |done]. by apply here_solid.
  Qed.

  Lemma bottom_ok : exists d, calculateBottomSkin removeSmallAreas layers s n here
      (if (0 <? bottom_layers s) || (n <? initial_bottom_layers s) then inner else a_empty) = Ok d /\
    forall p, (inner p = false -> d p = false) /\
      (inner p = true -> d p = false -> initial_bottom_layers s <= n /\ all_below p) /\
      (inner p = true -> (min_infill_area s <= 0)%Q -> initial_bottom_layers s <= n -> all_below p -> d p = false).
  Proof.
    destruct Hs as (_ & Hb0 & Hi0). unfold calculateBottomSkin.
    destruct (Z.ltb_spec n (initial_bottom_layers s)) as [H1|H1].
    { rewrite orb_true_r. exists inner. split; [destruct (_ && _); done|]. intros p. split; [done|]. split; [congruence|]. intros. lia. }
    rewrite orb_false_r.
    destruct ((bottom_layers s =? 0) && (initial_bottom_layers s =? 0)) eqn:E0.
    { apply andb_true_iff in E0 as [E1 E2]. apply Z.eqb_eq in E1. rewrite E1. cbn [Z.ltb Z.compare]. exists a_empty. split; [done|].
      intros p. split; [done|]. split; [|done]. intros _ _. split; [done|]. intros k [? _]. lia. }
    cbv zeta. set (start := Z.max 0 (n - bottom_layers s)).
    destruct (outline_ok start ltac:(lia)) as (o & Eo & Ho). rewrite Eo. cbn [rbind].
    assert (Hb : exists b, (if no_small_gaps_heuristic s then Ok o
        else intersect_layers layers here (Z.to_nat (n - (start + 1))) (start + 1) o) = Ok b /\
      forall p, (0 < bottom_layers s -> b p = true -> all_below p) /\ (inner p = true -> 0 < bottom_layers s -> all_below p -> b p = true)).
    { unfold looked_below. destruct (no_small_gaps_heuristic s).
      - exists o. split; [done|]. intros p. destruct (Ho p) as [O1 O2]. split; [intros _ Hp k [_ ->]; by apply O1|].
        intros Hin Hpos Hall. apply O2; [by apply here_solid|]. by apply Hall.
      - destruct (intersect_ok (Z.to_nat (n - (start + 1))) (start + 1) o ltac:(lia)) as (b & E & Hb).
        exists b. split; [done|]. intros p. destruct (Ho p) as [O1 O2], (Hb p) as [B1 B2]. split.
        + intros _ Hp k [_ Hk]. destruct (B1 Hp) as [B3 B4]. destruct (decide (k = start)) as [-> |?]; [by apply O1|].
          apply B4. fold start in Hk. lia.
        + intros Hin Hpos Hall. apply here_solid in Hin as [Hin Hsn]. apply B2; [done| |intros j Hj; apply Hall; fold start; lia].
          apply O2; [done|]. destruct (decide (start = n)) as [-> |?]; [done|]. apply Hall. fold start. lia. }
    destruct Hb as (b & -> & Hb). cbn [rbind]. eexists. split; [reflexivity|]. intros p. unfold a_sub.
    destruct (Z.ltb_spec 0 (bottom_layers s)) as [Hpos|Hpos]; split_and!.
    - intros ->. done.
    - intros Hi. rewrite Hi. cbn [andb]. rewrite negb_false_iff. intros Hu. split; [done|]. apply (proj1 (Hb p)); [done|].
      destruct (Qle_bool _ _); cbn [negb] in Hu; [done|]. by apply small_within in Hu.
    - intros Hi Hm _ Hall. apply Qle_bool_iff in Hm. rewrite Hm, Hi. cbn [negb andb].
      by rewrite (proj2 (Hb p)).
    - done.
    - intros _ _. split; [done|]. intros k [? _]. lia.
    - done.
  Qed.
End mesh.

(** ** C63 *)
Section skin_and_infill.
  Variable layers : mesh.
  Hypothesis sound : sound_mesh layers.
  Variable offset : Z -> area -> area.
  Variable offset_miter : Z -> area -> area.
  Variable removeSmallAreas : Q -> area -> area.
  Hypothesis small_within : forall m, keeps_within (removeSmallAreas m).
  Variable s : skin_settings.
  Hypothesis Hs : plausible s.
  Variable n : Z.
  Hypothesis Hn : 0 <= n.
  Variable here : part.
  Hypothesis here_on : exists parts, layers !! Z.to_nat n = Some parts /\ here ∈ parts.
  Notation inner := (inner_area here).
  Notation run := (generateSkinAndInfill offset offset_miter removeSmallAreas layers s n here).

  Lemma here_is_sound : sound_part here.
  Proof. destruct here_on as (parts & E & Hin). apply (sound parts); [by apply elem_of_list_lookup_2 in E|done]. Qed.

  Lemma run_eq : exists u d,
    (let e := applySkinExpansion offset offset_miter s inner u d in
     let skin := removeSmallAreas MIN_AREA_SIZE (a_union e.1 e.2) in
     let r := applySkinFillSmallInfillGaps offset s skin (a_sub inner skin) in
     run = Ok (r.1, if process_infill s then removeSmallAreas MIN_AREA_SIZE r.2 else r.2)) /\
    (forall p, inner p = false -> u p = false /\ d p = false) /\
    (forall p, inner p = true -> u p = false -> d p = false -> enclosed layers s n p) /\
    (forall p, inner p = true -> (min_infill_area s <= 0)%Q -> enclosed layers s n p -> u p = false /\ d p = false).
  Proof.
    destruct (top_ok layers sound here removeSmallAreas small_within s Hs n Hn here_is_sound here_on) as (u & Eu & Hu).
    destruct (bottom_ok layers sound here removeSmallAreas small_within s Hs n Hn here_is_sound here_on) as (d & Ed & Hd).
    exists u, d. unfold generateSkinAndInfill. cbv zeta. rewrite Ed. cbn [rbind]. rewrite Eu. cbn [rbind]. split; [done|]. split_and!.
    - intros p Hp. split; [exact (proj1 (Hu p) Hp)|exact (proj1 (Hd p) Hp)].
    - intros p Hp H1 H2. destruct (Hd p) as (_ & D & _). destruct (D Hp H2) as [D1 D2]. split; [done|]. split; [|done].
      by apply (proj1 (proj2 (Hu p))).
    - intros p Hp Hm (E1 & E2 & E3). split; [by apply (proj2 (proj2 (Hu p)))|by apply (proj2 (proj2 (Hd p)))].
  Qed.

  (** The inside of the walls is divided into skin and infill, the infill too small to be printed included. *)
  Theorem C63_skin_or_infill : exists skin infill,
    run = Ok (skin, if process_infill s then removeSmallAreas MIN_AREA_SIZE infill else infill) /\
    forall p, (inner p = true -> (skin p = true <-> infill p = false)) /\ (infill p = true -> inner p = true /\ skin p = false).
  Proof.
    destruct run_eq as (u & d & E & _). cbv zeta in E. eexists _, _. split; [exact E|].
    unfold applySkinFillSmallInfillGaps. cbv zeta. cbn [fst snd]. intros p.
    set (S0 := removeSmallAreas MIN_AREA_SIZE _). set (f := offset EPSILON _).
    change (a_union S0 f p) with (S0 p || f p).
    change (a_sub (a_sub inner S0) f p) with (inner p && negb (S0 p) && negb (f p)).
    destruct (inner p), (S0 p), (f p); cbn; split; try done; split; done.
  Qed.

  (** The division is made for every part, unless neither infill nor top and bottom layers are asked for. *)
  Theorem C63_divided :
    (process_infill s = true \/ bottom_layers s <> 0 \/ top_layers s <> 0 ->
      exists r, run = Ok r /\ generateSkinAndInfillAreas offset offset_miter removeSmallAreas layers s n here = Ok (Some r)) /\
    (process_infill s = false -> bottom_layers s = 0 -> top_layers s = 0 ->
      generateSkinAndInfillAreas offset offset_miter removeSmallAreas layers s n here = Ok None).
  Proof.
    destruct C63_skin_or_infill as (skin & infill & E & _). unfold generateSkinAndInfillAreas. split.
    - intros H. replace (negb (process_infill s) && (bottom_layers s =? 0) && (top_layers s =? 0)) with false.
      + rewrite E. eexists. split; reflexivity.
      + destruct (process_infill s); [done|]. destruct (Z.eqb_spec (bottom_layers s) 0), (Z.eqb_spec (top_layers s) 0); try done. destruct H as [H|[H|H]]; done.
    - intros -> -> ->. done.
  Qed.

  (** What is not enclosed becomes skin (unless in an area counted as small), if the skin is not asked to shrink. *)
  Theorem C63_exposed_is_skin p : no_shrinking s ->
    (forall k, 0 <= k -> extends (offset k)) -> extends (offset_miter 0) ->
    (forall a, a p = true -> removeSmallAreas MIN_AREA_SIZE a p = true) ->
    inner p = true -> ~ enclosed layers s n p -> exists skin infill, run = Ok (skin, infill) /\ skin p = true /\ infill p = false.
  Proof.
    intros (T1 & B1 & T2 & B2) Hext Hext0 Hsmall Hi Hne.
    destruct run_eq as (u & d & E & _ & Hen & _). cbv zeta in E. eexists _, _. split; [exact E|].
    set (e := applySkinExpansion offset offset_miter s inner u d).
    assert (He : a_union e.1 e.2 p = true).
    { assert (Hud : u p = true \/ d p = true).
      { destruct (u p) eqn:Eu; [by left|]. destruct (d p) eqn:Ed; [by right|]. exfalso. by apply Hne, Hen. }
      subst e. unfold applySkinExpansion. cbv zeta. rewrite T2, B2. cbn [Z.ltb Z.compare orb Z.opp].
      change (0 ÷ 2) with 0. cbn [fst snd].
      assert (G : forall (clip : bool) (dist : Z) a (both : bool), 0 <= dist -> a p = true ->
        let mw := min_skin_width_for_expansion s ÷ 2 in
        let a1 := if dist =? 0 then a else if 0 <? mw then a_union a (offset (mw + dist) (offset (- mw) a)) else offset dist a in
        let a2 := if (mw =? 0) && negb (dist =? 0)
                  then (if both then a_inter (offset_miter 0 (offset_miter 0 a1)) a1 else offset_miter 0 (offset_miter 0 a1)) else a1 in
        (if clip then a_inter a2 inner else a2) p = true).
      { intros clip dist a both Hd Ha. cbv zeta. set (mw := min_skin_width_for_expansion s ÷ 2).
        set (a1 := if dist =? 0 then a else _). assert (Ha1 : a1 p = true).
        { subst a1. destruct (dist =? 0); [done|]. destruct (0 <? mw); [unfold a_union; by rewrite Ha|by apply Hext]. }
        clearbody a1. match goal with |- (if clip then a_inter ?x inner else _) p = true => assert (Ha2 : x p = true) end.
        { destruct (_ && _); [|done]. destruct both; [unfold a_inter; rewrite Ha1, andb_true_r|]; by apply Hext0, Hext0. }
        destruct clip; [|exact Ha2]. match goal with |- a_inter ?x inner p = true => change (x p && inner p = true) end.
        by rewrite Ha2, Hi. }
      unfold a_union at 1. apply orb_true_iff. destruct Hud as [Hu|Hd].
      - left. apply (G _ _ u false T1 Hu).
      - right. apply (G _ _ d true B1 Hd). }
    clearbody e. apply Hsmall in He. set (S0 := removeSmallAreas MIN_AREA_SIZE (a_union e.1 e.2)) in *.
    unfold applySkinFillSmallInfillGaps. cbn [fst snd]. split; [unfold a_union at 1; by rewrite He|].
    set (f := offset EPSILON _). assert (Hf : a_sub (a_sub inner S0) f p = false) by (unfold a_sub; by rewrite Hi, He).
    destruct (process_infill s); [|done]. destruct (removeSmallAreas MIN_AREA_SIZE (a_sub (a_sub inner S0) f) p) eqn:Ex; [|done].
    apply small_within in Ex. congruence.
  Qed.

  (** Without expansion, the skin consists of the places that are not enclosed, small areas removed, and of the gaps between
      them closed by widening and narrowing. *)
  Theorem C63_skin_exact : no_expansion s -> (min_infill_area s <= 0)%Q -> exists surface skin infill,
    (forall p, surface p = true <-> inner p = true /\ ~ enclosed layers s n p) /\
    run = Ok (skin, infill) /\
    let large := removeSmallAreas MIN_AREA_SIZE surface in
    let closed := offset (- (2 * skin_line_width s) - EPSILON) (offset (2 * skin_line_width s) large) in
    forall p, skin p = large p || offset EPSILON (fun q => closed q && negb (large q) && (inner q && negb (large q))) p.
  Proof.
    intros (T1 & B1 & T2 & B2) Hm.
    destruct run_eq as (u & d & E & Hout & Hen & Hen2). cbv zeta in E. exists (a_union u d). eexists _, _. split; [|split; [exact E|]].
    - intros p. unfold a_union. destruct (inner p) eqn:Ei.
      + split.
        * intros Hud. split; [done|]. intros Hen'. destruct (Hen2 p Ei Hm Hen') as [Eu Ed]. by rewrite Eu, Ed in Hud.
        * intros [_ Hne]. destruct (u p) eqn:Eu; [done|]. destruct (d p) eqn:Ed; [done|]. exfalso. by apply Hne, Hen.
      + destruct (Hout p Ei) as [Eu Ed]. rewrite Eu, Ed. split; [done|]. by intros [? _].
    - cbv zeta. intros p. unfold applySkinExpansion. cbv zeta. rewrite T1, B1. cbn [Z.eqb Z.ltb Z.compare negb].
      rewrite !andb_false_r, !orb_false_r.
      destruct (Z.ltb_spec 0 (bottom_skin_preshrink s)); [lia|]. destruct (Z.ltb_spec 0 (top_skin_preshrink s)); [lia|].
      cbn [fst snd]. unfold applySkinFillSmallInfillGaps. cbv zeta. cbn [fst]. rewrite (Z.mul_comm (skin_line_width s) 2). reflexivity.
  Qed.

  (** The skin stays inside of the walls, but for the width of the closed gaps. *)
  Theorem C63_skin_inside p : 0 <= top_skin_expand_distance s -> 0 <= bottom_skin_expand_distance s ->
    exists skin infill gaps, run = Ok (skin, infill) /\ (forall q, gaps q = true -> inner q = true) /\
      (skin p = true -> inner p = true \/ offset EPSILON gaps p = true).
  Proof.
    intros Ht Hb. destruct run_eq as (u & d & E & Hout & _). cbv zeta in E.
    eexists _, _, _. split; [exact E|]. unfold applySkinFillSmallInfillGaps at 1. cbv zeta. cbn [fst].
    set (e := applySkinExpansion offset offset_miter s inner u d). set (S0 := removeSmallAreas MIN_AREA_SIZE (a_union e.1 e.2)).
    split; [|unfold a_union at 1; rewrite orb_true_iff; intros [Hsk|Hg]; [left|right; exact Hg]].
    - intros q. unfold a_inter, a_sub. rewrite !andb_true_iff. tauto.
    - apply small_within in Hsk. unfold a_union in Hsk. destruct (inner p) eqn:Ei; [done|]. exfalso.
      destruct (Hout p Ei) as [Hu Hd]. subst e. unfold applySkinExpansion in Hsk. cbv zeta in Hsk. cbn [fst snd] in Hsk.
      apply orb_true_iff in Hsk as [Hsk|Hsk].
      + destruct ((0 <? top_skin_expand_distance s) || _) eqn:Ec; [unfold a_inter in Hsk; by rewrite Ei, andb_false_r in Hsk|].
        apply orb_false_iff in Ec as [Ec1 Ec2]. rewrite Ec2 in Hsk. apply Z.ltb_ge in Ec1.
        destruct (Z.eqb_spec (top_skin_expand_distance s) 0); [congruence|lia].
      + destruct ((0 <? bottom_skin_expand_distance s) || _) eqn:Ec; [unfold a_inter in Hsk; by rewrite Ei, andb_false_r in Hsk|].
        apply orb_false_iff in Ec as [Ec1 Ec2]. rewrite Ec2 in Hsk. apply Z.ltb_ge in Ec1.
        destruct (Z.eqb_spec (bottom_skin_expand_distance s) 0); [congruence|lia].
  Qed.

  (** The topmost surface is what has nothing directly above it. *)
  Theorem C63_topmost : exists top bottom, generateTopAndBottomMostSurfaces layers n here = Ok (top, bottom) /\
    (forall p, top p = true <-> outline here p = true /\ ~ solid layers (n + 1) p) /\
    (n = 0 -> forall p, bottom p = outline here p).
  Proof.
    unfold generateTopAndBottomMostSurfaces. destruct (outline_ok layers sound here (n + 1) ltac:(lia)) as (o & E & Ho).
    rewrite E. cbn [rbind].
    assert (Htop : forall p, a_sub (outline here) o p = true <-> outline here p = true /\ ~ solid layers (n + 1) p).
    { intros p. unfold a_sub. rewrite andb_true_iff, negb_true_iff. destruct (Ho p) as [O1 O2]. split; intros [A B]; (split; [done|]).
      - intros Hsol. rewrite (O2 (proj2 (here_is_sound p) A) Hsol) in B. done.
      - destruct (o p); [|done]. exfalso. by apply B, O1. }
    destruct (Z.ltb_spec 0 n).
    - eexists _, _. split; [reflexivity|]. split; [exact Htop|]. lia.
    - eexists _, _. split; [reflexivity|]. split; [exact Htop|done].
  Qed.
End skin_and_infill.

(** ** C64 *)
Lemma lookup_of_map {A B} (g : A -> B) l i x f : l !! i = Some x -> map g l !! i = Some f -> f = g x.
Proof. intros Hx Hf. change (map g l) with (g <$> l) in Hf. rewrite list_lookup_fmap, Hx in Hf. cbn in Hf. congruence. Qed.

Section roofing.
  Variable layers : mesh.
  Hypothesis sound : sound_mesh layers.
  Variable offset : Z -> area -> area.
  Variable empty : area -> bool.
  Hypothesis empty_sound : forall a, empty a = true -> forall p, a p = false.
  Variable s : skin_settings.
  Notation heur := (no_small_gaps_heuristic s).
  Variable r : roof_settings.
  Variable n : Z.
  Hypothesis Hn : 0 <= n.
  Variable here : part.
  Hypothesis here_on : exists parts, layers !! Z.to_nat n = Some parts /\ here ∈ parts.
  Variable build_plate : area.

  Lemma here_sound2 : sound_part here.
  Proof. destruct here_on as (parts & E & Hin). apply (sound parts); [by apply elem_of_list_lookup_2 in E|done]. Qed.
  Lemma here_outline p : outline here p = true -> aabb_contains (boundaryBox here) p = true /\ solid layers n p.
  Proof. intros H. split; [by apply here_sound2|]. destruct here_on as (parts & E & Hin). by exists parts, here. Qed.

  Lemma above_ok count : 0 < count -> exists a, generateFilledAreaAbove empty layers s n here count = Ok a /\
    forall p, outline here p = true -> (a p = true <-> covered_above layers heur n count p \/ overhangs layers n p).
  Proof.
    intros Hc. unfold generateFilledAreaAbove.
    destruct (outline_ok layers sound here (n + count) ltac:(lia)) as (o & Eo & Ho). rewrite Eo. cbn [rbind].
    assert (Hb : exists b, (if heur then Ok o
        else intersect_layers layers here (Z.to_nat (n + count - (n + 1))) (n + 1) o) = Ok b /\
      forall p, outline here p = true -> (b p = true <-> covered_above layers heur n count p)).
    { unfold covered_above, looked_above. destruct heur.
      - exists o. split; [done|]. intros p Hp. destruct (Ho p) as [O1 O2]. split; [intros Hop k [_ ->]; by apply O1|].
        intros Hall. apply O2; [by apply here_outline|]. by apply Hall.
      - destruct (intersect_ok layers sound here (Z.to_nat (n + count - (n + 1))) (n + 1) o ltac:(lia)) as (b & E & Hb).
        exists b. split; [done|]. intros p Hp. destruct (Ho p) as [O1 O2], (Hb p) as [B1 B2]. apply here_outline in Hp as [Hin _]. split.
        + intros Hbp k [_ Hk]. destruct (B1 Hbp) as [B3 B4]. destruct (decide (k = n + count)) as [-> |?]; [by apply O1|].
          apply B4. lia.
        + intros Hall. apply B2; [done| |intros j Hj; apply Hall; lia]. apply O2; [done|]. apply Hall. lia. }
    destruct Hb as (b & -> & Hb). cbn [rbind]. unfold overhangs. destruct (Z.ltb_spec 0 n) as [H0|H0].
    - destruct (outline_ok layers sound here n Hn) as (oh & -> & Hoh). cbn [rbind].
      destruct (outline_ok layers sound here (n - 1) ltac:(lia)) as (ob & -> & Hob). cbn [rbind].
      eexists. split; [reflexivity|]. intros p Hp. pose proof (here_outline p Hp) as [Hin Hsol].
      assert (Hair : a_sub oh ob p = true <-> ~ solid layers (n - 1) p).
      { unfold a_sub. rewrite (proj2 (Hoh p) Hin Hsol). cbn [andb]. rewrite negb_true_iff. destruct (Hob p) as [O1 O2]. split.
        - intros E Hs. rewrite (O2 Hin Hs) in E. done.
        - intros Hs. destruct (ob p); [|done]. exfalso. by apply Hs, O1. }
      destruct (empty (a_sub oh ob)) eqn:Ee; cbn [negb].
      + rewrite (Hb p Hp). split; [by left|]. intros [?|[_ Hs]]; [done|]. apply Hair in Hs. rewrite (empty_sound _ Ee p) in Hs. done.
      + unfold a_union at 1. rewrite orb_true_iff, (Hb p Hp), Hair. split; [intros [?|?]; [by left|by right]|intros [?|[_ ?]]; [by left|by right]].
    - eexists. split; [reflexivity|]. intros p Hp. rewrite (Hb p Hp). split; [by left|]. intros [?|[? _]]; [done|lia].
  Qed.

  Lemma below_ok count : 0 < count -> exists b, generateFilledAreaBelow layers s n here count = Ok b /\
    forall p, outline here p = true -> build_plate p = true ->
      (default build_plate b p = true <-> n < count \/ covered_below layers heur n count p).
  Proof.
    intros Hc. unfold generateFilledAreaBelow. destruct (Z.ltb_spec n count) as [H0|H0].
    { exists None. split; [done|]. intros p Hp Hpl. cbn [default]. split; [by left|done]. }
    cbv zeta. destruct (outline_ok layers sound here (n - count) ltac:(lia)) as (o & Eo & Ho). rewrite Eo. cbn [rbind].
    assert (Hb : exists b, (if heur then Ok o
        else intersect_layers layers here (Z.to_nat (n - (n - count + 1))) (n - count + 1) o) = Ok b /\
      forall p, outline here p = true -> (b p = true <-> covered_below layers heur n count p)).
    { unfold covered_below, looked_below. rewrite (Z.max_r 0 (n - count)) by lia. destruct heur.
      - exists o. split; [done|]. intros p Hp. destruct (Ho p) as [O1 O2]. split; [intros Hop k [_ ->]; by apply O1|].
        intros Hall. apply O2; [by apply here_outline|]. by apply Hall.
      - destruct (intersect_ok layers sound here (Z.to_nat (n - (n - count + 1))) (n - count + 1) o ltac:(lia)) as (b & E & Hb).
        exists b. split; [done|]. intros p Hp. destruct (Ho p) as [O1 O2], (Hb p) as [B1 B2]. apply here_outline in Hp as [Hin _]. split.
        + intros Hbp k [_ Hk]. destruct (B1 Hbp) as [B3 B4]. destruct (decide (k = n - count)) as [-> |?]; [by apply O1|].
          apply B4. lia.
        + intros Hall. apply B2; [done| |intros j Hj; apply Hall; lia]. apply O2; [done|]. apply Hall. lia. }
    destruct Hb as (b & -> & Hb). cbn [rbind]. eexists. split; [reflexivity|]. intros p Hp Hpl. cbn [default].
    rewrite (Hb p Hp). split; [by right|]. intros [?|?]; [lia|done].
  Qed.

  Lemma wants_dec count differs : (0 <? count) && differs = true <-> 0 < count /\ differs = true.
  Proof. by rewrite andb_true_iff, Z.ltb_lt. Qed.

  (** The areas found above and below *)
  Lemma run_roofing skin_parts : exists A B,
    generateSkinRoofingFlooringFill offset empty layers s n r build_plate here skin_parts =
      Ok (map (fill_skin_part offset empty r ((0 <? roofing_layer_count r) && roofing_differs r)
                 ((0 <? flooring_layer_count r) && flooring_differs r) A B) skin_parts) /\
    forall p, outline here p = true -> build_plate p = true ->
      (A p = true <-> (wants_roofing r -> covered_above layers heur n (roofing_layer_count r) p \/ overhangs layers n p)) /\
      (B p = true <-> (wants_flooring r -> n < flooring_layer_count r \/ covered_below layers heur n (flooring_layer_count r) p)).
  Proof.
    unfold generateSkinRoofingFlooringFill. cbv zeta.
    assert (HA : exists A, (if (0 <? roofing_layer_count r) && roofing_differs r
        then generateFilledAreaAbove empty layers s n here (roofing_layer_count r) else Ok build_plate) = Ok A /\
      forall p, outline here p = true -> build_plate p = true ->
      (A p = true <-> (wants_roofing r -> covered_above layers heur n (roofing_layer_count r) p \/ overhangs layers n p))).
    { unfold wants_roofing. destruct ((0 <? roofing_layer_count r) && roofing_differs r) eqn:E.
      - apply wants_dec in E as HE. destruct (above_ok (roofing_layer_count r) (proj1 HE)) as (a & Ea & Ha).
        exists a. split; [done|]. intros p Hp _. rewrite (Ha p Hp). tauto.
      - exists build_plate. split; [done|]. intros p _ Hpl. split; [|done]. intros _ Hw. apply wants_dec in Hw. congruence. }
    destruct HA as (A & -> & HA). cbn [rbind].
    assert (HB : exists B, (if (0 <? flooring_layer_count r) && flooring_differs r
        then let! b := generateFilledAreaBelow layers s n here (flooring_layer_count r) in Ok (default build_plate b)
        else Ok build_plate) = Ok B /\
      forall p, outline here p = true -> build_plate p = true ->
      (B p = true <-> (wants_flooring r -> n < flooring_layer_count r \/ covered_below layers heur n (flooring_layer_count r) p))).
    { unfold wants_flooring. destruct ((0 <? flooring_layer_count r) && flooring_differs r) eqn:E.
      - apply wants_dec in E as HE. destruct (below_ok (flooring_layer_count r) (proj1 HE)) as (b & Eb & Hb).
        rewrite Eb. cbn [rbind]. eexists. split; [done|]. intros p Hp Hpl. rewrite (Hb p Hp Hpl). tauto.
      - exists build_plate. split; [done|]. intros p _ Hpl. split; [|done]. intros _ Hw. apply wants_dec in Hw. congruence. }
    destruct HB as (B & -> & HB). cbn [rbind]. exists A, B. split; [done|]. intros p Hp Hpl. split; [by apply HA|by apply HB].
  Qed.

  Lemma merge_keeps d a b p : a p = true \/ b p = true ->
    (mergeThinOverlap offset empty d a b).1 p = true \/ (mergeThinOverlap offset empty d a b).2 p = true.
  Proof.
    intros H. unfold mergeThinOverlap. destruct (_ || _); [done|]. cbv zeta. destruct (empty _); [done|]. destruct (empty _); [done|].
    cbn [fst snd]. set (g := offset EPSILON _). unfold a_union, a_sub. destruct (g p); [left; apply orb_true_r|].
    rewrite orb_false_r, andb_true_r. done.
  Qed.
  Lemma merge_source d a b p : a p = true -> (mergeThinOverlap offset empty d a b).1 p = true.
  Proof.
    intros H. unfold mergeThinOverlap. destruct (_ || _); [done|]. cbv zeta. destruct (empty _); [done|]. destruct (empty _); [done|].
    cbn [fst snd]. unfold a_union at 1. by rewrite H.
  Qed.

  (** Every place of the skin is filled, unless both roofing and flooring are asked for and it can be seen both from above and
      from below although the layer directly below is solid. *)
  Theorem C64_skin_is_filled skin_parts : (forall k, 0 <= k -> extends (offset k)) -> 0 <= skin_overlap r ->
    exists result, generateSkinRoofingFlooringFill offset empty layers s n r build_plate here skin_parts = Ok result /\
    forall i skin f p, skin_parts !! i = Some skin -> result !! i = Some f ->
      skin p = true -> outline here p = true -> build_plate p = true ->
      ~ (wants_roofing r /\ wants_flooring r /\ seen_from_above layers heur r n p /\ seen_from_below layers heur r n p) ->
      skin_fill f p = true \/ roofing_fill f p = true \/ flooring_fill f p = true.
  Proof.
    intros Hext Hov. destruct (run_roofing skin_parts) as (A & B & E & HAB). eexists. split; [exact E|].
    intros i skin f p Hi Hf Hp Hout Hpl Hno. destruct (HAB p Hout Hpl) as [HA HB]. clear HAB E.
    apply (lookup_of_map _ _ _ _ _ Hi) in Hf. subst f.
    set (hr := (0 <? roofing_layer_count r) && roofing_differs r) in *. set (hf := (0 <? flooring_layer_count r) && flooring_differs r) in *.
    assert (Hr : hr = true <-> wants_roofing r) by apply wants_dec. assert (Hfl : hf = true <-> wants_flooring r) by apply wants_dec.
    unfold fill_skin_part. cbv zeta. cbn [skin_fill roofing_fill flooring_fill].
    set (roof0 := if hr then
        if 0 <? roofing_expansion r then a_inter (offset (roofing_expansion r) (a_sub (a_inter skin B) A)) (a_inter skin B)
        else a_sub (a_inter skin B) A else a_empty).
    set (fill0 := a_inter (a_sub skin roof0) B).
    set (floor0 := if hf then a_sub (a_inter skin A) B else a_empty). set (d := top_bottom_skin_merge_distance r).
    assert (H0 : fill0 p = true \/ roof0 p = true \/ floor0 p = true).
    { destruct (B p) eqn:EB.
      - destruct (roof0 p) eqn:ER; [by right; left|]. left. subst fill0. unfold a_inter, a_sub at 1. by rewrite Hp, ER, EB.
      - right. right. assert (Hwf : hf = true).
        { destruct hf eqn:Eh; [done|]. exfalso. assert (false = true); [|done]. apply HB. intros Hw. apply Hfl in Hw. done. }
        subst floor0. rewrite Hwf. unfold a_sub at 1, a_inter at 1. rewrite Hp, EB. cbn [negb]. rewrite andb_true_r. cbn [andb].
        destruct (A p) eqn:EA; [done|]. exfalso.
        assert (Hwr : hr = true).
        { destruct hr eqn:Eh; [done|]. exfalso. assert (false = true); [|done]. apply HA. intros Hw. apply Hr in Hw. done. }
        apply Hno. split; [by apply Hr|]. split; [by apply Hfl|]. split.
        + split; intros Hc; (assert (false = true); [|done]); apply HA; intros _; auto.
        + split.
          * destruct (Z.le_gt_cases (flooring_layer_count r) n) as [?|Hlt]; [done|]. assert (false = true); [|done]. apply HB. intros _. by left.
          * intros Hc. assert (false = true); [|done]. apply HB. intros _. by right. }
    clearbody fill0 roof0 floor0. set (m1 := if 0 <? d then mergeThinOverlap offset empty d fill0 roof0 else (fill0, roof0)).
    set (m2 := if 0 <? d then mergeThinOverlap offset empty d m1.1 floor0 else (m1.1, floor0)).
    assert (H1 : m2.1 p = true \/ m1.2 p = true \/ m2.2 p = true).
    { assert (Hm1 : (fill0 p = true \/ roof0 p = true) -> m1.1 p = true \/ m1.2 p = true) by (intros H; subst m1; destruct (0 <? d); [by apply merge_keeps|done]).
      assert (Hm2 : (m1.1 p = true \/ floor0 p = true) -> m2.1 p = true \/ m2.2 p = true) by (intros H; subst m2; destruct (0 <? d); [by apply merge_keeps|done]).
      clear - H0 Hm1 Hm2. tauto. }
    clearbody m1 m2. assert (Ho : forall a, a p = true -> offset (skin_overlap r) a p = true) by (intros a; by apply Hext).
    unfold a_sub. destruct (m1.2 p) eqn:E1; [right; left; by apply Ho|]. destruct (m2.2 p) eqn:E2.
    - right. destruct (offset (skin_overlap r) m1.2 p) eqn:E3; [by left|right]. by rewrite (Ho m2.2 E2).
    - left. destruct H1 as [H1|[H1|H1]]; [|done|done]. by rewrite (Ho m2.1 H1).
  Qed.

  (** Roofing and flooring never overlap. *)
  Theorem C64_roofing_flooring_apart skin_parts result i f p :
    generateSkinRoofingFlooringFill offset empty layers s n r build_plate here skin_parts = Ok result -> result !! i = Some f ->
    ~ (roofing_fill f p = true /\ flooring_fill f p = true).
  Proof.
    destruct (run_roofing skin_parts) as (A & B & E & _). rewrite E. intros [= <-] Hf.
    apply elem_of_list_lookup_2, elem_of_list_In, in_map_iff in Hf as (skin & <- & _). unfold fill_skin_part. cbv zeta. cbn [roofing_fill flooring_fill].
    intros [H1 H2]. apply andb_prop in H2 as [_ H2]. rewrite H1 in H2. done.
  Qed.

  (** Without expansion, merging and overlap: what is roofing, what flooring, and what plain skin. *)
  Theorem C64_exact skin_parts : roofing_expansion r <= 0 -> top_bottom_skin_merge_distance r <= 0 -> skin_overlap r = 0 ->
    (forall a p, offset 0 a p = a p) ->
    exists result, generateSkinRoofingFlooringFill offset empty layers s n r build_plate here skin_parts = Ok result /\
    forall i skin f p, skin_parts !! i = Some skin -> result !! i = Some f ->
      skin p = true -> outline here p = true -> build_plate p = true ->
      (roofing_fill f p = true <-> wants_roofing r /\ seen_from_above layers heur r n p /\
         ~ (wants_flooring r /\ seen_from_below layers heur r n p)) /\
      (flooring_fill f p = true <-> wants_flooring r /\ seen_from_below layers heur r n p /\
         ~ (wants_roofing r /\ seen_from_above layers heur r n p)) /\
      (skin_fill f p = true <-> ~ (wants_roofing r /\ seen_from_above layers heur r n p) /\
         ~ (wants_flooring r /\ seen_from_below layers heur r n p)).
  Proof.
    intros Hre Hmd Hov Hoff. destruct (run_roofing skin_parts) as (A & B & E & HAB). eexists. split; [exact E|].
    intros i skin f p Hi Hf Hp Hout Hpl. destruct (HAB p Hout Hpl) as [HA HB]. clear HAB E.
    apply (lookup_of_map _ _ _ _ _ Hi) in Hf. subst f.
    set (hr := (0 <? roofing_layer_count r) && roofing_differs r) in *. set (hf := (0 <? flooring_layer_count r) && flooring_differs r) in *.
    assert (Hr : hr = true <-> wants_roofing r) by apply wants_dec. assert (Hfl : hf = true <-> wants_flooring r) by apply wants_dec.
    unfold fill_skin_part. cbv zeta. cbn [skin_fill roofing_fill flooring_fill]. rewrite Hov.
    destruct (Z.ltb_spec 0 (roofing_expansion r)); [lia|]. destruct (Z.ltb_spec 0 (top_bottom_skin_merge_distance r)); [lia|].
    cbn [fst snd].
    assert (SA : A p = false <-> (wants_roofing r /\ seen_from_above layers heur r n p)).
    { unfold seen_from_above. destruct (A p) eqn:EA.
      - split; [done|]. intros (Hw & N1 & N2). destruct (proj1 HA eq_refl Hw); contradiction.
      - split; [intros _|done]. assert (Hw : hr = true).
        { destruct hr eqn:Eh; [done|]. exfalso. assert (false = true); [|done]. apply HA. intros Hw. by apply Hr in Hw. }
        split; [by apply Hr|]. split; intros Hc; (assert (false = true); [|done]); apply HA; intros _; auto. }
    assert (SB : B p = false <-> (wants_flooring r /\ seen_from_below layers heur r n p)).
    { unfold seen_from_below. destruct (B p) eqn:EB.
      - split; [done|]. intros (Hw & N1 & N2). destruct (proj1 HB eq_refl Hw); [lia|contradiction].
      - split; [intros _|done]. assert (Hw : hf = true).
        { destruct hf eqn:Eh; [done|]. exfalso. assert (false = true); [|done]. apply HB. intros Hw. by apply Hfl in Hw. }
        split; [by apply Hfl|]. split.
        + destruct (Z.le_gt_cases (flooring_layer_count r) n) as [?|Hlt]; [done|]. assert (false = true); [|done]. apply HB. intros _. by left.
        + intros Hc. assert (false = true); [|done]. apply HB. intros _. by right. }
    assert (NA : hr = false -> A p = true).
    { intros Eh. destruct (A p) eqn:EA; [done|]. destruct (proj1 SA eq_refl) as [Hw _]. apply Hr in Hw. congruence. }
    assert (NB : hf = false -> B p = true).
    { intros Eh. destruct (B p) eqn:EB; [done|]. destruct (proj1 SB eq_refl) as [Hw _]. apply Hfl in Hw. congruence. }
    rewrite <- SB, <- SA.
    assert (XA : (wants_roofing r /\ seen_from_above layers heur r n p /\ ~ B p = false) <-> (A p = false /\ B p = true)).
    { clear - SA. destruct (B p); intuition congruence. }
    assert (XB : (wants_flooring r /\ seen_from_below layers heur r n p /\ ~ A p = false) <-> (B p = false /\ A p = true)).
    { clear - SB. destruct (A p); intuition congruence. }
    rewrite XA, XB. unfold a_sub, a_inter, a_empty. clear HA HB SA SB XA XB.
    rewrite !Hoff. clear - NA NB Hp. clearbody hr hf. destruct hr, hf; cbv beta; rewrite ?Hp;
      destruct (A p), (B p); cbn [andb negb]; intuition congruence.
  Qed.
End roofing.

(** ** What does not hold *)
(** A plate 10 by 10 with a wall one wide around it. *)
Definition square (lo hi : Z) : area := fun p => (lo <=? p.1) && (p.1 <=? hi) && (lo <=? p.2) && (p.2 <=? hi).
Definition plate : part := Part (square 0 10) (square 1 9) (Aabb (0, 0) (10, 10)).
Lemma plate_sound layers : (forall parts, parts ∈ layers -> parts = [] \/ parts = [plate]) -> sound_mesh layers.
Proof.
  intros Hl parts q Hp Hq p. destruct (Hl parts Hp) as [-> | ->]; [by apply elem_of_nil in Hq|]. apply elem_of_list_singleton in Hq as ->.
  cbn [inner_area outline boundaryBox plate]. unfold square, aabb_contains. cbn [bmin bmax fst snd].
  rewrite !andb_true_iff, !Z.leb_le. split; lia.
Qed.
Lemma no_solid layers k p : (0 <= k -> forall parts, layers !! Z.to_nat k = Some parts -> parts = []) -> ~ solid layers k p.
Proof. intros Hk (parts & q & H0 & E & Hq & _). rewrite (Hk H0 parts E) in Hq. by apply elem_of_nil in Hq. Qed.
Lemma plate_solid layers k p : 0 <= k -> layers !! Z.to_nat k = Some [plate] -> outline plate p = true -> solid layers k p.
Proof. intros H0 E Hp. exists [plate], plate. split_and!; [done|done|set_solver|done]. Qed.

(** The bottommost surface is what has air above, not what has air below: a plate on layer 1 with nothing below and a plate
    above has none. *)
Theorem C63_bottommost_refuted :
  ~ (forall layers n here, sound_mesh layers -> 0 <= n -> (exists parts, layers !! Z.to_nat n = Some parts /\ here ∈ parts) ->
     forall top bottom, generateTopAndBottomMostSurfaces layers n here = Ok (top, bottom) ->
     forall p, bottom p = true <-> outline here p = true /\ ~ solid layers (n - 1) p).
Proof.
  intros H. specialize (H [[]; [plate]; [plate]] 1 plate). destruct H with (top := a_sub (square 0 10) (a_union (square 0 10) a_empty))
    (bottom := a_sub (square 0 10) (a_union (square 0 10) a_empty)) (p := (5, 5)) as [_ H2].
  - apply plate_sound. set_solver.
  - lia.
  - exists [plate]. split; [done|set_solver].
  - done.
  - assert (Hb : a_sub (square 0 10) (a_union (square 0 10) a_empty) (5, 5) = true); [|done]. apply H2. split; [done|].
    apply no_solid. intros _ parts E. vm_compute in E. congruence.
Qed.

(** With the heuristic only the farthest layer is looked at: what has air directly above can become infill. *)
Definition few_layers (heuristic : bool) : skin_settings := Settings 0 0 2 1 heuristic true 0 0 0 0 0 0.
Definition with_gap : mesh := [[plate]; []; [plate]].
Lemma with_gap_sound : sound_mesh with_gap.
Proof. apply plate_sound. unfold with_gap. set_solver. Qed.
Theorem C63_heuristic_refuted :
  ~ (forall layers s n here, sound_mesh layers -> plausible s -> 0 <= n ->
     (exists parts, layers !! Z.to_nat n = Some parts /\ here ∈ parts) -> no_expansion s ->
     forall skin infill, generateSkinAndInfill (fun _ a => a) (fun _ a => a) (fun _ a => a) layers s n here = Ok (skin, infill) ->
     forall p, inner_area here p = true -> 0 < top_layers s -> ~ solid layers (n + 1) p -> skin p = true).
Proof.
  intros H. specialize (H with_gap (few_layers true) 0 plate).
  destruct (generateSkinAndInfill (fun _ a => a) (fun _ a => a) (fun _ a => a) with_gap (few_layers true) 0 plate) as [[skin infill]| |] eqn:E;
    [|vm_compute in E; done|vm_compute in E; done].
  assert (Hs : skin (5, 5) = true).
  { apply (H with_gap_sound ltac:(done) ltac:(lia) ltac:(exists [plate]; split; [done|set_solver]) ltac:(done) skin infill); try done.
    apply no_solid. intros _ parts E'. vm_compute in E'. congruence. }
  assert (Hf : match generateSkinAndInfill (fun _ a => a) (fun _ a => a) (fun _ a => a) with_gap (few_layers true) 0 plate with
    | Ok r => r.1 (5, 5) = false | _ => False end) by (vm_compute; done).
  rewrite E in Hf. cbn [fst] in Hf. congruence.
Qed.
(** without the heuristic it is skin *)
Example C63_no_heuristic : match generateSkinAndInfill (fun _ a => a) (fun _ a => a) (fun _ a => a) with_gap (few_layers false) 0 plate with
  | Ok r => r.1 (5, 5) = true /\ r.2 (5, 5) = false | _ => False end.
Proof. vm_compute. done. Qed.

(** Initial bottom layers are not generated at all for a mesh without infill and without further top and bottom layers. *)
Theorem C63_initial_bottom_refuted :
  ~ (forall layers s n here, sound_mesh layers -> plausible s -> 0 <= n < initial_bottom_layers s ->
     (exists parts, layers !! Z.to_nat n = Some parts /\ here ∈ parts) ->
     exists skin infill, generateSkinAndInfillAreas (fun _ a => a) (fun _ a => a) (fun _ a => a) layers s n here = Ok (Some (skin, infill))).
Proof.
  intros H. destruct (H [[plate]] (Settings 0 3 0 1 false false 0 0 0 0 0 0) 0 plate) as (skin & infill & E).
  - apply plate_sound. set_solver.
  - done.
  - cbn. lia.
  - exists [plate]. split; [done|set_solver].
  - vm_compute in E. done.
Qed.

(** ** The hypotheses can be met *)
Definition tower : mesh := [[plate]; [plate]; [plate]; [plate]; [plate]].
Definition two_layers : skin_settings := Settings 2 2 2 1 false true 0 0 0 0 0 0.
Example C63_nonvacuous : sound_mesh tower /\ plausible two_layers /\ no_expansion two_layers /\ no_shrinking two_layers /\
  (exists parts, tower !! Z.to_nat 2 = Some parts /\ plate ∈ parts) /\ inner_area plate (5, 5) = true /\
  enclosed tower two_layers 2 (5, 5) /\ ~ enclosed tower two_layers 3 (5, 5) /\
  map (fun n => match generateSkinAndInfill (fun _ a => a) (fun _ a => a) (fun _ a => a) tower two_layers n plate with
                | Ok r => (r.1 (5, 5), r.2 (5, 5)) | _ => (false, false) end) [0; 1; 2; 3; 4] =
    [(true, false); (true, false); (false, true); (true, false); (true, false)].
Proof.
  assert (Hs : forall k, 0 <= k <= 4 -> solid tower k (5, 5)).
  { intros k Hk. apply plate_solid; [lia| |done]. assert (k = 0 \/ k = 1 \/ k = 2 \/ k = 3 \/ k = 4) as [-> |[-> |[-> |[-> | ->]]]] by lia; done. }
  split; [apply plate_sound; unfold tower; set_solver|]. split; [done|]. split; [done|]. split; [done|].
  split; [exists [plate]; split; [done|set_solver]|]. split; [done|]. split; [|split].
  - split; [done|]. split; intros k [_ Hk]; cbn in Hk; apply Hs; lia.
  - intros (_ & Hu & _). assert (Hsol : solid tower 5 (5, 5)) by (apply Hu; split; cbn; lia). revert Hsol. apply no_solid.
    intros _ parts E. vm_compute in E. congruence.
  - vm_compute. done.
Qed.

(** A plate two layers thick over air, with roofing one layer and flooring two layers thick: its upper layer is seen from above
    and from below, and nothing of it is filled. *)
Definition thin : mesh := [[]; [plate]; [plate]].
Lemma thin_sound : sound_mesh thin.
Proof. apply plate_sound. unfold thin. set_solver. Qed.
Definition one_two : roof_settings := Roof 1 true 2 true 0 0 0.
Theorem C64_seen_from_both_sides_refuted :
  ~ (forall layers s r n here, sound_mesh layers -> plausible s -> 0 <= n ->
     (exists parts, layers !! Z.to_nat n = Some parts /\ here ∈ parts) ->
     forall skin f, generateSkinRoofingFlooringFill (fun _ a => a) (fun _ => false) layers s n r (fun _ => true) here [skin] = Ok [f] ->
     forall p, skin p = true -> outline here p = true ->
       skin_fill f p = true \/ roofing_fill f p = true \/ flooring_fill f p = true).
Proof.
  intros H. specialize (H thin two_layers one_two 2 plate thin_sound ltac:(done) ltac:(lia)
    ltac:(exists [plate]; split; [done|set_solver]) (square 1 9)).
  destruct (generateSkinRoofingFlooringFill (fun _ a => a) (fun _ => false) thin two_layers 2 one_two (fun _ => true) plate [square 1 9])
    as [[|f [|f' l]]| |] eqn:E; try (vm_compute in E; done).
  specialize (H f eq_refl (5, 5) eq_refl eq_refl).
  assert (Hf : match generateSkinRoofingFlooringFill (fun _ a => a) (fun _ => false) thin two_layers 2 one_two (fun _ => true) plate [square 1 9] with
    | Ok [f] => skin_fill f (5, 5) = false /\ roofing_fill f (5, 5) = false /\ flooring_fill f (5, 5) = false
    | _ => False end) by (vm_compute; done).
  rewrite E in Hf. destruct Hf as (F1 & F2 & F3). rewrite F1, F2, F3 in H. destruct H as [?|[?|?]]; done.
Qed.

(** The tower with roofing one layer and flooring one layer thick: plain skin below the top, roofing on top. *)
Example C64_nonvacuous : let r := Roof 1 true 1 true 0 0 0 in wants_roofing r /\ wants_flooring r /\
  seen_from_above tower false r 4 (5, 5) /\ ~ seen_from_below tower false r 4 (5, 5) /\
  seen_from_below thin false r 1 (5, 5) /\ ~ seen_from_above thin false r 1 (5, 5) /\
  map (fun layers_n => match generateSkinRoofingFlooringFill (fun _ a => a) (fun _ => false) layers_n.1 two_layers layers_n.2 r (fun _ => true) plate [square 1 9] with
       | Ok [f] => (skin_fill f (5, 5), roofing_fill f (5, 5), flooring_fill f (5, 5)) | _ => (false, false, false) end)
    [(tower, 4); (tower, 3); (thin, 1)] = [(false, true, false); (true, false, false); (false, false, true)].
Proof.
  assert (Hs : forall k, 0 <= k <= 4 -> solid tower k (5, 5)).
  { intros k Hk. apply plate_solid; [lia| |done]. assert (k = 0 \/ k = 1 \/ k = 2 \/ k = 3 \/ k = 4) as [-> |[-> |[-> |[-> | ->]]]] by lia; done. }
  cbv zeta. split; [done|]. split; [done|]. unfold seen_from_above, seen_from_below, covered_above, covered_below, overhangs, looked_above, looked_below.
  cbn [roofing_layer_count flooring_layer_count]. split_and!.
  - intros Hc. assert (Hsol : solid tower 5 (5, 5)) by (apply Hc; lia). revert Hsol. apply no_solid. intros _ parts E. vm_compute in E. congruence.
  - intros [_ Hno]. apply Hno, Hs. lia.
  - intros [_ Hno]. apply Hno. intros k Hk. apply Hs. lia.
  - lia.
  - intros Hc. assert (Hsol : solid thin 0 (5, 5)) by (apply Hc; lia). revert Hsol. apply no_solid. intros _ parts E. vm_compute in E. congruence.
  - intros [Hno _]. apply Hno. intros k Hk. apply plate_solid; [lia| |done]. replace k with 2 by lia. done.
  - vm_compute. done.
Qed.

Print Assumptions C63_skin_or_infill.
Print Assumptions C63_divided.
Print Assumptions C63_exposed_is_skin.
Print Assumptions C63_skin_exact.
Print Assumptions C63_skin_inside.
Print Assumptions C63_topmost.
Print Assumptions C63_bottommost_refuted.
Print Assumptions C63_heuristic_refuted.
Print Assumptions C63_initial_bottom_refuted.
Print Assumptions C64_skin_is_filled.
Print Assumptions C64_roofing_flooring_apart.
Print Assumptions C64_exact.
Print Assumptions C64_seen_from_both_sides_refuted.
