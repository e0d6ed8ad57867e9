(** C65: gradual infill. *)
From Coq Require Import ZArith QArith Qround Lia Lqa.
From stdpp Require Import prelude list.
From Verif Require Import Common Math_Model Geo_Model Box_Model Carve_Model Gradual_Model Gradual_Spec.
Open Scope Z_scope.

Lemma Qfloor_shift z q : Qfloor (inject_Z z + q) = z + Qfloor q.
Proof.
  destruct q as [a b]. unfold Qfloor, inject_Z, Qplus. cbn [Qnum Qden]. rewrite Z.mul_1_r, Pos.mul_1_l.
  rewrite Z.div_add_l by lia. done.
Qed.
Lemma box_hit' b o p : aabb_contains b p = true -> aabb_contains o p = true -> aabb_hit b o = true.
Proof.
  unfold aabb_contains, aabb_hit. rewrite !andb_true_iff, !Z.leb_le. intros H1 H2.
  destruct (Z.ltb_spec (bmax b).1 (bmin o).1); [lia|]. destruct (Z.ltb_spec (bmax o).1 (bmin b).1); [lia|].
  destruct (Z.ltb_spec (bmax b).2 (bmin o).2); [lia|]. destruct (Z.ltb_spec (bmax o).2 (bmin b).2); [lia|]. done.
Qed.

Lemma skip_at_least_one heuristic c : 1 <= c -> (1 <= layer_skip_count heuristic c)%Q.
Proof.
  intros Hc. unfold layer_skip_count. set (skip := if heuristic then 8 else 1). cbv zeta.
  set (n := Z.max 1 (Qceiling (inject_Z c / inject_Z skip))).
  assert (Hn : 1 <= n <= c).
  { subst n. split; [lia|]. apply Z.max_lub; [lia|].
    assert (Hle : (inject_Z c / inject_Z skip <= inject_Z c)%Q).
    { apply Qle_shift_div_r; [subst skip; destruct heuristic; done|].
      rewrite <- inject_Z_mult, <- Zle_Qle. subst skip. destruct heuristic; lia. }
    apply Qceiling_resp_le in Hle. by rewrite Qceiling_Z in Hle. }
  clearbody n. apply Qle_shift_div_l; [change 0%Q with (inject_Z 0); rewrite <- Zlt_Qlt; lia|].
  rewrite Qmult_1_l. rewrite <- Zle_Qle. lia.
Qed.
Lemma skip_one c : 1 <= c -> (layer_skip_count false c == 1)%Q.
Proof.
  intros Hc. unfold layer_skip_count. cbv zeta.
  assert (E : (inject_Z c / inject_Z 1 == inject_Z c)%Q) by (change (inject_Z 1) with 1%Q; field). rewrite E, Qceiling_Z, Z.max_r by lia.
  unfold Qdiv. apply Qmult_inv_r. intros H. apply (inject_Z_injective c 0) in H. lia.
Qed.

Section mesh.
  Variable layers : imesh.
  Hypothesis sound : sound_infill layers.
  Variable empty : area -> bool.
  Hypothesis empty_sound : forall a, empty a = true -> forall p, a p = false.
  Variable simplify : area -> area.
  Variable s : gradual_settings.
  Notation heur := (gaps_heuristic s).
  Variable c : Z.
  Hypothesis Hc : 1 <= c.
  Variable n : Z.
  Hypothesis Hn : 0 <= n.
  Variable here : ipart.
  Hypothesis here_on : exists parts, layers !! Z.to_nat n = Some parts /\ here ∈ parts.
  Variable p : pt.
  Hypothesis Hp : within_walls here p = true.
  Notation skip := (layer_skip_count heur c).

  Lemma here_in_box : aabb_contains (infill_box here) p = true.
  Proof.
    destruct here_on as (parts & E & Hin). apply elem_of_list_lookup_2 in E. destruct (sound parts here p E Hin) as [S1 S2]. by apply S2, S1.
  Qed.

  Lemma relevant_ok k parts : 0 <= k -> layers !! Z.to_nat k = Some parts -> (relevant here parts p = true <-> infill_at layers k p).
  Proof.
    intros Hk E. assert (Hsub : forall q, q ∈ parts -> own_infill q p = true -> aabb_hit (infill_box q) (infill_box here) = true).
    { intros q Hq Ho. apply (box_hit' _ _ p); [|apply here_in_box]. apply elem_of_list_lookup_2 in E. by apply (sound parts q p E Hq). }
    assert (H : relevant here parts p = true <-> exists q, q ∈ parts /\ own_infill q p = true).
    { clear E. unfold relevant. induction parts as [|q parts IH]; cbn [foldr].
      - split; [done|]. intros (q & Hq & _). by apply elem_of_nil in Hq.
      - assert (IH' := IH ltac:(intros r Hr; apply Hsub; by right)). clear IH. split.
        + destruct (aabb_hit _ _).
          * unfold a_union at 1. rewrite orb_true_iff, IH'. intros [Ho|(r & Hr & Ho)]; [exists q; split; [left|done]|exists r; split; [by right|done]].
          * rewrite IH'. intros (r & Hr & Ho). exists r; split; [by right|done].
        + intros (r & Hr & Ho). apply elem_of_cons in Hr as [-> |Hr].
          * rewrite (Hsub q (elem_of_list_here _ _) Ho). unfold a_union at 1. by rewrite Ho.
          * assert (Hr' : foldr (fun q result => if aabb_hit (infill_box q) (infill_box here) then a_union (own_infill q) result else result) a_empty parts p = true)
              by (apply IH'; by exists r).
            destruct (aabb_hit _ _); [|done]. unfold a_union at 1. by rewrite Hr', orb_true_r. }
    rewrite H. unfold infill_at. split.
    - intros (q & Hq & Ho). by exists parts, q.
    - intros (parts' & q & _ & E' & Hq & Ho). rewrite E in E'. injection E' as <-. by exists q.
  Qed.

  Lemma look_up_ok fuel : forall u mx less, (0 <= u)%Q -> (mx < u + inject_Z (Z.of_nat fuel))%Q ->
    exists a, look_up layers (S fuel) here skip u mx less = Ok a /\
      (a p = true <-> less p = true /\ forall m : nat, (u + inject_Z (Z.of_nat m) * skip <= mx)%Q ->
         infill_at layers (Qfloor (u + inject_Z (Z.of_nat m) * skip)) p).
  Proof.
    pose proof (skip_at_least_one heur c Hc) as Hskip.
    induction fuel as [|fuel IH]; intros u mx less Hu Hmx; cbn [look_up].
    - change (inject_Z (Z.of_nat 0)) with 0%Q in Hmx. destruct (Qle_bool u mx) eqn:E; [apply Qle_bool_iff in E; lra|].
      exists less. split; [done|]. split; [|by intros [? _]]. intros H. split; [done|]. intros m Hm.
      assert (0 <= inject_Z (Z.of_nat m) * skip)%Q; [|lra]. apply Qmult_le_0_compat; [change 0%Q with (inject_Z 0); rewrite <- Zle_Qle; lia|lra].
    - destruct (Qle_bool u mx) eqn:E.
      2:{ exists less. split; [done|]. split; [|by intros [? _]]. intros H. split; [done|]. intros m Hm.
          assert (~ (u <= mx)%Q) by (intros F; apply Qle_bool_iff in F; congruence).
          assert (0 <= inject_Z (Z.of_nat m) * skip)%Q; [|lra]. apply Qmult_le_0_compat; [change 0%Q with (inject_Z 0); rewrite <- Zle_Qle; lia|lra]. }
      apply Qle_bool_iff in E.
      assert (Z0 : (u + inject_Z (Z.of_nat 0) * skip == u)%Q) by (change (inject_Z (Z.of_nat 0)) with 0%Q; ring).
      assert (Hfl : 0 <= Qfloor u) by (apply Qfloor_resp_le in Hu; change (Qfloor 0) with 0 in Hu; done).
      destruct (Qle_bool (inject_Z (Z.of_nat (length layers))) u) eqn:El.
      { apply Qle_bool_iff in El. exists a_empty. split; [done|]. split; [done|]. intros [_ Hall]. exfalso.
        specialize (Hall 0%nat). rewrite Z0 in Hall. destruct (Hall E) as (parts & q & _ & Hl & _). apply lookup_lt_Some in Hl.
        apply Qfloor_resp_le in El. rewrite Qfloor_Z in El. lia. }
      assert (Hlt : Qfloor u < Z.of_nat (length layers)).
      { destruct (Z.lt_ge_cases (Qfloor u) (Z.of_nat (length layers))) as [?|Hge]; [done|]. exfalso.
        assert (Qle_bool (inject_Z (Z.of_nat (length layers))) u = true); [|congruence]. apply Qle_bool_iff.
        apply Qle_trans with (inject_Z (Qfloor u)); [by rewrite <- Zle_Qle|apply Qfloor_le]. }
      destruct (lookup_lt_is_Some_2 layers (Z.to_nat (Qfloor u))) as [parts Hparts]; [lia|]. rewrite Hparts. cbn [of_opt rbind].
      destruct (IH (u + skip)%Q mx (a_inter less (relevant here parts))) as (a & Ea & Ha); [lra| |].
      { rewrite Nat2Z.inj_succ, <- Z.add_1_r, inject_Z_plus in Hmx. change (inject_Z 1) with 1%Q in Hmx. lra. }
      cbn [look_up] in Ea. rewrite Ea. exists a. split; [done|]. rewrite Ha. unfold a_inter. rewrite andb_true_iff, (relevant_ok (Qfloor u) parts Hfl Hparts).
      assert (Shift : forall m, (u + inject_Z (Z.of_nat (S m)) * skip == u + skip + inject_Z (Z.of_nat m) * skip)%Q).
      { intros m. rewrite Nat2Z.inj_succ, <- Z.add_1_r, inject_Z_plus. change (inject_Z 1) with 1%Q. ring. }
      split.
      + intros [[Hl Hf] Hall]. split; [done|]. intros [|m] Hm; [by rewrite Z0|]. rewrite Shift in Hm |- *. by apply Hall.
      + intros [Hl Hall]. split; [split; [done|]|].
        * specialize (Hall 0%nat). rewrite Z0 in Hall. by apply Hall.
        * intros m Hm. specialize (Hall (S m)). rewrite Shift in Hall. by apply Hall.
  Qed.

  Notation on := (goes_on layers heur c n).
  Lemma on_less j j' : (j' <= j)%nat -> on j p -> on j' p.
  Proof. intros Hj H i k Hi. apply H. lia. Qed.
  Lemma on_0 : on 0 p.
  Proof. intros i k Hi. lia. Qed.

  (** one step *)
  Lemma step_ok fuel i less : c < Z.of_nat fuel -> (less p = true <-> on i p) ->
    exists a, look_up layers (S fuel) here skip (inject_Z (n + Z.of_nat i * c + Qfloor skip)) (inject_Z (n + (Z.of_nat i + 1) * c)) less = Ok a /\
      (a p = true <-> on (S i) p).
  Proof.
    intros Hf Hl. pose proof (skip_at_least_one heur c Hc) as Hskip.
    assert (Hfl : 1 <= Qfloor skip) by (apply Qfloor_resp_le in Hskip; done).
    destruct (look_up_ok fuel (inject_Z (n + Z.of_nat i * c + Qfloor skip)) (inject_Z (n + (Z.of_nat i + 1) * c)) less) as (a & E & Ha).
    - change 0%Q with (inject_Z 0). rewrite <- Zle_Qle. nia.
    - rewrite <- inject_Z_plus, <- Zlt_Qlt. nia.
    - exists a. split; [exact E|]. rewrite Ha, Hl. clear E Ha Hl.
      assert (Ex : forall m : nat, (inject_Z (n + Z.of_nat i * c + Qfloor skip) + inject_Z (Z.of_nat m) * skip ==
        inject_Z (n + Z.of_nat i * c) + (inject_Z (Qfloor skip) + inject_Z (Z.of_nat m) * skip))%Q).
      { intros m. rewrite inject_Z_plus. ring. }
      assert (Em : (inject_Z (n + (Z.of_nat i + 1) * c) == inject_Z (n + Z.of_nat i * c) + inject_Z c)%Q).
      { rewrite <- inject_Z_plus. replace (n + (Z.of_nat i + 1) * c) with (n + Z.of_nat i * c + c) by lia. done. }
      split.
      + intros [Hon Hall] i' k Hi' Hlook. destruct (decide (i' = i)) as [-> |Hne]; [|apply (Hon i'); [lia|done]].
        destruct Hlook as (m & Hm & ->). specialize (Hall m). rewrite Ex, Em, Qfloor_shift in Hall.
        rewrite Z.add_assoc. apply Hall. lra.
      + intros Hon. split; [apply (on_less (S i)); [lia|done]|]. intros m. rewrite Ex, Em, Qfloor_shift. intros Hm.
        rewrite <- Z.add_assoc. apply (Hon i); [lia|]. exists m. split; [lra|done].
  Qed.

  Hypothesis simplify_p : forall a, simplify a p = a p.

  (** the areas of the steps from step [i] on *)
  Lemma steps_ok fuel : c < Z.of_nat fuel -> forall count i less sum,
    (less p = true <-> on i p) -> (sum p = true <-> is_connected s = true /\ ~ on i p) ->
    exists news sum', density_steps empty simplify layers (S fuel) here (is_connected s) n c skip count (Z.of_nat i) less sum = Ok (news, sum') /\
      (forall t a, news !! t = Some a -> (a p = true <-> ~ on (S (i + t)) p /\ (is_connected s = true -> on (i + t) p))) /\
      (sum' p = true <-> is_connected s = true /\ ~ on (i + length news) p) /\
      (length news <= count)%nat /\ ((length news < count)%nat -> ~ on (S (i + length news)) p).
  Proof.
    intros Hf. induction count as [|count IH]; intros i less sum Hless Hsum; cbn [density_steps].
    - exists [], sum. split; [done|]. split; [intros t a E; done|]. cbn [length]. rewrite Nat.add_0_r. split; [done|]. lia.
    - destruct (step_ok fuel i less Hf Hless) as (b & E & Hb). rewrite E. cbn [rbind]. clear E.
      destruct (empty b) eqn:Ee.
      { exists [], sum. split; [done|]. split; [intros t a E; done|]. cbn [length]. rewrite Nat.add_0_r. split; [done|]. split; [lia|].
        intros _ Hon. apply Hb in Hon. rewrite (empty_sound _ Ee p) in Hon. done. }
      cbv zeta. set (more := a_sub (within_walls here) b).
      assert (Hmore : more p = true <-> ~ on (S i) p).
      { subst more. unfold a_sub. rewrite Hp. cbn [andb]. rewrite negb_true_iff, <- Hb. destruct (b p); split; congruence. }
      destruct (IH (S i) b (if is_connected s then a_union sum more else sum) Hb) as (news & sum' & E & Hnews & Hsum' & Hlen & Hend).
      { destruct (is_connected s) eqn:Econ.
        - unfold a_union. rewrite orb_true_iff, Hsum, Hmore. split; [|tauto]. intros [[_ Hno]|Hno]; (split; [done|]); [|done].
          intros Hon. apply Hno. apply (on_less (S i)); [lia|done].
        - rewrite Hsum. split; intros [? _]; done. }
      replace (Z.of_nat (S i)) with (Z.of_nat i + 1) in E by lia. match goal with |- context [rbind ?m _] => replace m with (Ok (news, sum')) by (symmetry; exact E) end. cbn [rbind fst snd].
      eexists _, _. split; [reflexivity|]. split; [|cbn [length]; replace (i + S (length news))%nat with (S i + length news)%nat by lia; split; [done|split; [lia|]]].
      2:{ intros Hlt. replace (S (S i + length news)) with (S (S i + length news)) by lia. apply Hend. lia. }
      intros [|t] a Ht; cbn in Ht.
      + injection Ht as <-. rewrite Nat.add_0_r, simplify_p. unfold a_sub at 1. rewrite andb_true_iff, negb_true_iff, Hmore.
        split; intros [H1 H2]; (split; [done|]).
        * intros Econ. apply Hless. destruct (less p) eqn:El; [done|]. exfalso. assert (sum p = true); [|congruence]. apply Hsum.
          split; [done|]. intros Hon. apply Hless in Hon. congruence.
        * destruct (sum p) eqn:Es; [|done]. exfalso. destruct (proj1 Hsum eq_refl) as [Econ Hno]. by apply Hno, H2.
      + specialize (Hnews t a Ht). replace (i + S t)%nat with (S i + t)%nat by lia. exact Hnews.
  Qed.

  Lemma on_dec t : on t p \/ ~ on t p.
  Proof.
    assert (H : exists a : area, a p = true <-> on t p).
    { induction t as [|t [a IH]]; [exists (within_walls here); split; [intros _; apply on_0|done]|].
      destruct (step_ok (Z.to_nat (c + 1)) t a ltac:(lia) IH) as (b & _ & Hb). by exists b. }
    destruct H as [a Ha]. destruct (a p); [left; by apply Ha|]. right. intros Hon. apply Ha in Hon. done.
  Qed.
  Lemma steps_exist k : exists j, (j <= k)%nat /\ on j p /\ (j = k \/ ~ on (S j) p).
  Proof.
    induction k as [|k (j & Hj & Hon & Hend)]; [exists 0%nat; split; [done|]; split; [apply on_0|by left]|].
    destruct Hend as [-> |Hno].
    - destruct (on_dec (S k)) as [H|H]; [exists (S k); split; [done|]; split; [done|by left]|].
      exists k. split; [lia|]. split; [done|by right].
    - exists j. split; [lia|]. split; [done|by right].
  Qed.

  Hypothesis Hround : round_divide (step_height s) (layer_height s) = Ok c.
  Hypothesis Hlayer : infill_layer layers s n.

  (** The areas: the one of step [t] contains the place if the infill above goes on for at most [t] steps; with connected lines
      if it goes on for exactly [t] steps. *)
  Theorem C65_areas fuel : c < Z.of_nat fuel -> exists areas j,
    generateGradualInfill empty simplify layers (S fuel) s n here = Ok areas /\
    steps_above layers heur c n (max_infill_steps s) p j /\ (j < length areas <= S (max_infill_steps s))%nat /\
    forall t a, areas !! t = Some a -> (a p = true <-> if is_connected s then t = j else (j <= t)%nat).
  Proof.
    intros Hf. unfold generateGradualInfill. rewrite Hround. cbn [rbind]. cbv zeta.
    destruct (empty (within_walls here)) eqn:Ee; [exfalso; rewrite (empty_sound _ Ee p) in Hp; done|]. destruct Hlayer as [L1 L2].
    destruct (Z.ltb_spec n (initial_bottom s)); [lia|]. destruct (Z.ltb_spec (Z.of_nat (length layers) - 1 - top s) n); [lia|]. cbn [orb].
    destruct (steps_ok fuel Hf (max_infill_steps s) 0 (within_walls here) a_empty) as (news & sum & E & Hnews & Hsum & Hlen & Hend).
    { split; [intros _; apply on_0|done]. }
    { split; [done|]. intros [_ Hno]. exfalso. apply Hno, on_0. }
    change (Z.of_nat 0) with 0 in E. rewrite E. cbn [rbind fst snd]. cbn [Nat.add] in *.
    destruct (steps_exist (length news)) as (j & Hj & Hon & Hstop).
    eexists _, j. split; [reflexivity|]. rewrite app_length. cbn [length]. split; [|split; [lia|]].
    - split; [lia|]. split; [done|]. destruct Hstop as [-> |?]; [|by right].
      destruct (Nat.eq_dec (length news) (max_infill_steps s)) as [?|?]; [by left|right]. apply Hend. lia.
    - assert (Hup : forall t, (t <= length news)%nat -> (on t p <-> (t <= j)%nat)).
      { intros t Ht. split; [|intros Htj; by apply (on_less j)]. intros Hont. destruct Hstop as [-> |Hno]; [done|].
        destruct (Nat.le_gt_cases t j) as [?|Hgt]; [done|]. exfalso. apply Hno. apply (on_less t); [lia|done]. }
      intros t a Ht. apply lookup_app_Some in Ht as [Ht|[Hlt Ht]].
      + assert (Hlt : (t < length news)%nat) by exact (lookup_lt_Some _ _ _ Ht). rewrite (Hnews t a Ht). rewrite (Hup (S t)), (Hup t) by lia. destruct (is_connected s); [|].
        * split; [intros [H1 H2]; specialize (H2 eq_refl); lia|intros ->; split; [lia|lia]].
        * split; [intros [H1 _]; lia|intros H1; split; [lia|done]].
      + apply list_lookup_singleton_Some in Ht as [Ht <-]. assert (t = length news) as -> by (clear - Hlt Ht; apply Nat.sub_0_le in Ht; by apply Nat.le_antisymm). rewrite simplify_p.
        unfold a_sub. rewrite Hp. cbn [andb]. rewrite negb_true_iff, <- not_true_iff_false, Hsum, (Hup (length news)) by done.
        destruct (is_connected s); [|split; [intros _; lia|intros _ [? _]; done]].
        split; [intros H1|lia]. destruct (Nat.eq_dec (length news) j) as [?|?]; [done|]. exfalso. apply H1. split; [done|lia].
  Qed.
End mesh.

(** ** The density *)
Lemma density_app b l1 l2 p : (density b (l1 ++ l2) p == density b l1 p + density b l2 p)%Q.
Proof.
  induction l1 as [|j l1 IH]; cbn [density foldr app]; [unfold density; cbn; ring|].
  fold (density b (l1 ++ l2) p). fold (density b l1 p). destruct (_ && _); rewrite IH; ring.
Qed.
Lemma density_rev b (ll : list (list job)) p : (density b (concat (rev ll)) p == density b (concat ll) p)%Q.
Proof.
  induction ll as [|l ll IH]; [done|]. cbn [rev concat]. rewrite concat_app, !density_app, IH. cbn [concat]. rewrite app_nil_r. ring.
Qed.

Section jobs.
  Variable empty : area -> bool.
  Hypothesis empty_sound : forall a, empty a = true -> forall p, a p = false.
  Variable remove_small : area -> area.
  Variable p : pt.
  Hypothesis small_p : forall a, remove_small a p = a p.
  Variables d skin_distance : Z.
  Hypothesis Hd : 0 < d.
  Variable below not_below : area.
  Hypothesis Hbelow : empty below = true.
  Notation jobs cross := (jobs_of_density empty remove_small d cross skin_distance below not_below).

  Lemma one_density cross last_idx t a : let distance := if (t =? last_idx)%nat || cross then d * 2 ^ Z.of_nat t else d * 2 ^ (Z.of_nat t + 1) in
    (density false (jobs cross last_idx t a) p == if a p then 1 / inject_Z distance else 0)%Q.
  Proof.
    cbv zeta. unfold jobs_of_density. destruct (empty a) eqn:E; [rewrite (empty_sound _ E p); done|]. rewrite Hbelow. cbn [negb].
    cbn [density foldr for_skin job_area line_distance Bool.eqb andb]. rewrite small_p. destruct (a p); [|done].
    assert (Hhalf : d * 2 ^ (Z.of_nat t + 1) ÷ 2 = d * 2 ^ Z.of_nat t).
    { rewrite Z.pow_add_r by lia. change (2 ^ 1) with 2. rewrite Z.mul_assoc. apply Z.quot_mul. done. }
    rewrite Hhalf. destruct (_ || _); ring.
  Qed.
  Lemma pow_pos t : (0 < d * 2 ^ Z.of_nat t)%Z.
  Proof. apply Z.mul_pos_pos; [done|]. apply Z.pow_pos_nonneg; lia. Qed.
  Lemma two_halves t : (1 / inject_Z (d * 2 ^ (Z.of_nat t + 1)) + 1 / inject_Z (d * 2 ^ (Z.of_nat t + 1)) == 1 / inject_Z (d * 2 ^ Z.of_nat t))%Q.
  Proof.
    pose proof (pow_pos t) as Hpos. rewrite Z.pow_add_r by lia. change (2 ^ 1) with 2. rewrite Z.mul_assoc, inject_Z_mult.
    assert (~ inject_Z (d * 2 ^ Z.of_nat t) == 0)%Q by (intros H; pose proof (proj1 (inject_Z_injective (d * 2 ^ Z.of_nat t) 0) H) as H'; rewrite H' in Hpos; exact (Z.lt_irrefl _ Hpos)).
    field. done.
  Qed.

  Lemma sum_nested last_idx j : forall l i, (i + length l = S last_idx)%nat -> l <> [] -> (j <= last_idx)%nat ->
    (forall t a, l !! t = Some a -> (a p = true <-> (j <= i + t)%nat)) ->
    (density false (concat (imap (fun t => jobs false last_idx (i + t)) l)) p == 1 / inject_Z (d * 2 ^ Z.of_nat (Nat.max i j)))%Q.
  Proof.
    induction l as [|a l IH]; intros i Hlen Hne Hj Hall; [done|]. cbn [imap concat]. rewrite density_app.
    cbn [length] in Hlen. rewrite one_density. rewrite Nat.add_0_r. pose proof (Hall 0%nat a eq_refl) as Ha. rewrite Nat.add_0_r in Ha.
    destruct (Nat.eqb_spec i last_idx) as [->|Hi].
    - assert (l = []) as -> by (apply length_zero_iff_nil; lia). cbn [orb imap concat density foldr].
      rewrite (proj2 Ha) by lia. rewrite Nat.max_l by lia. ring.
    - cbn [orb].
      assert (Hext : imap ((fun t => jobs false last_idx (i + t)%nat) ∘ S) l = imap (fun t => jobs false last_idx (S i + t)%nat) l).
      { apply imap_ext. intros t x _. unfold compose. by replace (i + S t)%nat with (S i + t)%nat by lia. }
      rewrite Hext, (IH (S i)); [|lia|intros ->; cbn in Hlen; lia|done|].
      2:{ intros t b Ht. rewrite (Hall (S t) b Ht). lia. }
      destruct (Nat.le_gt_cases j i) as [Hle|Hgt].
      + rewrite (proj2 Ha) by lia. rewrite !Nat.max_l by lia. rewrite <- (two_halves i). replace (Z.of_nat (S i)) with (Z.of_nat i + 1) by lia. done.
      + assert (a p = false) as -> by (destruct (a p); [|done]; exfalso; pose proof (proj1 Ha eq_refl); lia).
        rewrite !Nat.max_r by lia. ring.
  Qed.
  Lemma sum_single last_idx j : forall l i, (i + length l = S last_idx)%nat ->
    (forall t a, l !! t = Some a -> (a p = true <-> (i + t)%nat = j)) ->
    (density false (concat (imap (fun t => jobs true last_idx (i + t)) l)) p ==
      if decide (i <= j <= last_idx)%nat then 1 / inject_Z (d * 2 ^ Z.of_nat j) else 0)%Q.
  Proof.
    induction l as [|a l IH]; intros i Hlen Hall; cbn [length] in Hlen.
    { cbn [imap concat density foldr]. rewrite decide_False by lia. done. }
    cbn [imap concat]. rewrite density_app, one_density, orb_true_r, Nat.add_0_r. pose proof (Hall 0%nat a eq_refl) as Ha. rewrite Nat.add_0_r in Ha.
    assert (Hext : imap ((fun t => jobs true last_idx (i + t)%nat) ∘ S) l = imap (fun t => jobs true last_idx (S i + t)%nat) l).
    { apply imap_ext. intros t x _. unfold compose. by replace (i + S t)%nat with (S i + t)%nat by lia. }
    rewrite Hext, (IH (S i)); [|lia|].
    2:{ intros t b Ht. rewrite (Hall (S t) b Ht). lia. }
    destruct (decide (i = j)) as [->|Hne].
    - rewrite (proj2 Ha) by done. rewrite decide_False by lia. rewrite decide_True by lia. ring.
    - assert (a p = false) as -> by (destruct (a p); [|done]; exfalso; by apply Hne, Ha).
      destruct (decide (S i <= j <= last_idx)%nat); [rewrite decide_True by lia|rewrite decide_False by lia]; ring.
  Qed.
End jobs.

(** Filling is as dense as asked directly below the top, and half as dense for each further step of infill above: with lines that
    are not connected, and with connected cross patterns. *)
Theorem C65_density layers s c n here p empty simplify remove_small d cross skin_distance below fuel :
  sound_infill layers -> (forall a, empty a = true -> forall q, a q = false) ->
  round_divide (step_height s) (layer_height s) = Ok c -> 1 <= c -> 0 <= n -> infill_layer layers s n ->
  (exists parts, layers !! Z.to_nat n = Some parts /\ here ∈ parts) -> within_walls here p = true ->
  (forall a, simplify a p = a p) -> (forall a, remove_small a p = a p) -> 0 < d -> empty below = true ->
  is_connected s = cross -> c < Z.of_nat fuel ->
  exists areas j, generateGradualInfill empty simplify layers (S fuel) s n here = Ok areas /\
    steps_above layers (gaps_heuristic s) c n (max_infill_steps s) p j /\
    (density false (infill_jobs empty remove_small d cross skin_distance below areas) p == 1 / inject_Z (d * 2 ^ Z.of_nat j))%Q.
Proof.
  intros Hs He Hr Hc Hn Hl Hh Hp Hsim Hsm Hd Hb Hcon Hf.
  destruct (C65_areas layers Hs empty He simplify s c Hc n Hn here Hh p Hp Hsim Hr Hl fuel Hf) as (areas & j & E & Hj & Hlen & Hall).
  exists areas, j. split; [done|]. split; [done|]. unfold infill_jobs. rewrite density_rev. rewrite Hcon in Hall. destruct cross.
  - change (imap (jobs_of_density empty remove_small d true skin_distance below (a_sub (default a_empty (areas !! (length areas - 1)%nat)) below) (length areas - 1)) areas)
      with (imap (fun t => jobs_of_density empty remove_small d true skin_distance below (a_sub (default a_empty (areas !! (length areas - 1)%nat)) below) (length areas - 1) (0 + t)) areas).
    rewrite (sum_single empty He remove_small p Hsm d skin_distance below _ Hb (length areas - 1) j areas 0).
    + rewrite decide_True by lia. done.
    + lia.
    + exact Hall.
  - change (imap (jobs_of_density empty remove_small d false skin_distance below (a_sub (default a_empty (areas !! (length areas - 1)%nat)) below) (length areas - 1)) areas)
      with (imap (fun t => jobs_of_density empty remove_small d false skin_distance below (a_sub (default a_empty (areas !! (length areas - 1)%nat)) below) (length areas - 1) (0 + t)) areas).
    rewrite (sum_nested empty He remove_small p Hsm d skin_distance Hd below _ Hb (length areas - 1) j areas 0).
    + rewrite Nat.max_r by lia. done.
    + lia.
    + intros ->. cbn in Hlen. lia.
    + lia.
    + exact Hall.
Qed.

(** Without the heuristic every layer of the steps is looked at. *)
Theorem C65_every_layer layers c n j p : 1 <= c ->
  (goes_on layers false c n j p <-> forall k, 0 < k <= Z.of_nat j * c -> infill_at layers (n + k) p).
Proof.
  intros Hc. pose proof (skip_one c Hc) as E. unfold goes_on, looked_at. cbv zeta.
  assert (Hx : forall m : nat, (inject_Z (Qfloor (layer_skip_count false c)) + inject_Z (Z.of_nat m) * layer_skip_count false c == inject_Z (1 + Z.of_nat m))%Q).
  { intros m. assert (F : Qfloor (layer_skip_count false c) = 1) by exact (Qfloor_comp _ _ E).
    rewrite F, inject_Z_plus. set (x := layer_skip_count false c) in *. clearbody x. rewrite E. ring. }
  split.
  - intros H k Hk. apply (H (Z.to_nat ((k - 1) / c)) k).
    + assert ((k - 1) / c < Z.of_nat j) by (apply Z.div_lt_upper_bound; lia). assert (0 <= (k - 1) / c) by (apply Z.div_pos; lia). lia.
    + exists (Z.to_nat ((k - 1) mod c)). rewrite Hx, Qfloor_Z. pose proof (Z.mod_pos_bound (k - 1) c ltac:(lia)).
      assert (0 <= (k - 1) / c) by (apply Z.div_pos; lia). rewrite !Z2Nat.id by lia. split; [rewrite <- Zle_Qle; lia|].
      pose proof (Z.div_mod (k - 1) c ltac:(lia)). lia.
  - intros H i k Hi (m & Hm & ->). rewrite Hx in Hm |- *. rewrite Qfloor_Z. apply H. rewrite <- Zle_Qle in Hm. nia.
Qed.

(** Filling never gets less dense going up, as long as there is infill. *)
Theorem C65_denser_above layers c n most p j j' : 1 <= c -> infill_at layers (n + 1) p ->
  steps_above layers false c n most p j -> steps_above layers false c (n + 1) most p j' -> (j' <= j)%nat.
Proof.
  intros Hc Hin (Hj & Hon & Hstop) (Hj' & Hon' & _). destruct (Nat.le_gt_cases j' j) as [?|Hgt]; [done|]. exfalso.
  destruct Hstop as [-> |Hno]; [lia|]. apply Hno. apply C65_every_layer; [done|]. rewrite C65_every_layer in Hon' by done.
  intros k Hk. destruct (decide (k = 1)) as [-> |?]; [done|]. replace (n + k) with (n + 1 + (k - 1)) by lia. apply Hon'. nia.
Qed.

(** ** What does not hold *)
Definition block (lo hi : Z) : area := fun p => (lo <=? p.1) && (p.1 <=? hi) && (0 <=? p.2) && (p.2 <=? 20).
Definition infill_block (lo hi : Z) : ipart := IPart (block lo hi) (block lo hi) (Aabb (lo, 0) (hi, 20)).
Definition under : pt := (5, 5).
Definition beside : pt := (15, 5).
Definition edge : pt := (19, 5).
Definition stairs : imesh := [[infill_block 0 20]; [infill_block 0 10]].
(** an emptiness test that looks at the places used below *)
Definition no_place (a : area) : bool := negb (a under || a beside || a edge).
Lemma stairs_sound : sound_infill stairs.
Proof.
  intros parts q p Hparts Hq. assert (H : exists lo hi, q = infill_block lo hi).
  { unfold stairs in Hparts. repeat (apply elem_of_cons in Hparts as [-> |Hparts]; [apply elem_of_list_singleton in Hq as ->; by eexists _, _|]).
    by apply elem_of_nil in Hparts. }
  destruct H as (lo & hi & ->). split; [done|]. unfold infill_block, aabb_contains. cbn [own_infill infill_box bmin bmax fst snd]. done.
Qed.
Definition one_step (connected : bool) : gradual_settings := Gradual false 200 200 1 0 0 connected.
Definition filling (connected cross : bool) (below : area) : list job :=
  match generateGradualInfill no_place (fun a => a) stairs 5 (one_step connected) 0 (infill_block 0 20) with
  | Ok areas => infill_jobs no_place (fun a => a) 400 cross 600 below areas | _ => [] end.
Lemma stairs_steps : steps_above stairs false 1 0 1 under 1 /\ steps_above stairs false 1 0 1 beside 0.
Proof.
  split.
  - split; [lia|]. split; [|by left]. apply C65_every_layer; [lia|]. intros k Hk. replace k with 1 by lia.
    exists [infill_block 0 10], (infill_block 0 10). split; [lia|]. split; [done|]. split; [set_solver|done].
  - split; [lia|]. split; [intros i k Hi; lia|right]. rewrite C65_every_layer by lia. intros H.
    destruct (H 1 ltac:(lia)) as (parts & q & _ & E & Hq & Ho). injection E as <-. apply elem_of_list_singleton in Hq as ->. done.
Qed.

(** The hypotheses of C65_density can be met (with a test that never finds an area empty, and with one that looks at places):
    below the step the lines are twice as dense as below the upper block. *)
Example C65_nonvacuous : round_divide 200 200 = Ok 1 /\ infill_layer stairs (one_step false) 0 /\ sound_infill stairs /\
  (exists parts, stairs !! Z.to_nat 0 = Some parts /\ infill_block 0 20 ∈ parts) /\
  steps_above stairs false 1 0 1 under 1 /\ steps_above stairs false 1 0 1 beside 0 /\
  (density false (filling false false a_empty) under == 1 # 800)%Q /\ (density false (filling false false a_empty) beside == 1 # 400)%Q /\
  (density false (filling true true a_empty) under == 1 # 800)%Q /\ (density false (filling true true a_empty) beside == 1 # 400)%Q.
Proof.
  split; [done|]. split; [split; cbn; lia|]. split; [apply stairs_sound|]. split; [exists [infill_block 0 20]; split; [done|set_solver]|].
  split; [apply stairs_steps|]. split; [apply stairs_steps|]. split_and!; vm_compute; done.
Qed.

(** If lines are connected (other than in the cross patterns), the infill below the top is half as dense as asked for, and with
    a single step the density is the same everywhere. *)
Theorem C65_connected_refuted :
  ~ (forall layers s n here p areas d j empty, sound_infill layers -> infill_layer layers s n -> 0 <= n -> 0 < d ->
     (exists parts, layers !! Z.to_nat n = Some parts /\ here ∈ parts) -> within_walls here p = true ->
     round_divide (step_height s) (layer_height s) = Ok 1 -> is_connected s = true ->
     generateGradualInfill empty (fun a => a) layers 5 s n here = Ok areas -> empty a_empty = true ->
     steps_above layers (gaps_heuristic s) 1 n (max_infill_steps s) p j ->
     (density false (infill_jobs empty (fun a => a) d false 600 a_empty areas) p == 1 / inject_Z (d * 2 ^ Z.of_nat j))%Q).
Proof.
  intros H. specialize (H stairs (one_step true) 0 (infill_block 0 20) beside).
  destruct (generateGradualInfill no_place (fun a => a) stairs 5 (one_step true) 0 (infill_block 0 20)) as [areas| |] eqn:E; try (vm_compute in E; done).
  specialize (H areas 400 0%nat no_place stairs_sound ltac:(split; cbn; lia) ltac:(lia) ltac:(lia)
    ltac:(exists [infill_block 0 20]; split; [done|set_solver]) eq_refl eq_refl eq_refl E eq_refl (proj2 stairs_steps)).
  assert (F : (density false (filling true false a_empty) beside == 1 # 800)%Q) by (vm_compute; done).
  unfold filling in F. rewrite E in F. rewrite F in H. vm_compute in H. done.
Qed.

(** If some infill supports the skin above, each density is printed everywhere else on the part: below the upper block the lines
    are as dense as right below the top; and the lines supporting the skin are printed once for each density. *)
Theorem C65_skin_support_refuted :
  ~ (forall layers s n here p areas d j empty below, sound_infill layers -> infill_layer layers s n -> 0 <= n -> 0 < d ->
     (exists parts, layers !! Z.to_nat n = Some parts /\ here ∈ parts) -> within_walls here p = true -> below p = false ->
     round_divide (step_height s) (layer_height s) = Ok 1 -> is_connected s = false ->
     generateGradualInfill empty (fun a => a) layers 5 s n here = Ok areas ->
     steps_above layers (gaps_heuristic s) 1 n (max_infill_steps s) p j ->
     (density false (infill_jobs empty (fun a => a) d false 600 below areas) p == 1 / inject_Z (d * 2 ^ Z.of_nat j))%Q) /\
  ~ (forall layers s n here p areas empty below, sound_infill layers -> infill_layer layers s n -> 0 <= n ->
     (exists parts, layers !! Z.to_nat n = Some parts /\ here ∈ parts) -> within_walls here p = true -> below p = true ->
     round_divide (step_height s) (layer_height s) = Ok 1 -> is_connected s = false ->
     generateGradualInfill empty (fun a => a) layers 5 s n here = Ok areas ->
     (density true (infill_jobs empty (fun a => a) 400 false 600 below areas) p == 1 / inject_Z 600)%Q).
Proof.
  split; intros H.
  - specialize (H stairs (one_step false) 0 (infill_block 0 20) under).
    destruct (generateGradualInfill no_place (fun a => a) stairs 5 (one_step false) 0 (infill_block 0 20)) as [areas| |] eqn:E; try (vm_compute in E; done).
    specialize (H areas 400 1%nat no_place (block 18 20) stairs_sound ltac:(split; cbn; lia) ltac:(lia) ltac:(lia)
      ltac:(exists [infill_block 0 20]; split; [done|set_solver]) eq_refl eq_refl eq_refl eq_refl E (proj1 stairs_steps)).
    assert (F : (density false (filling false false (block 18 20)) under == 1 # 400)%Q) by (vm_compute; done).
    unfold filling in F. rewrite E in F. rewrite F in H. vm_compute in H. done.
  - specialize (H stairs (one_step false) 0 (infill_block 0 20) edge).
    destruct (generateGradualInfill no_place (fun a => a) stairs 5 (one_step false) 0 (infill_block 0 20)) as [areas| |] eqn:E; try (vm_compute in E; done).
    specialize (H areas no_place (block 18 20) stairs_sound ltac:(split; cbn; lia) ltac:(lia)
      ltac:(exists [infill_block 0 20]; split; [done|set_solver]) eq_refl eq_refl eq_refl eq_refl E).
    assert (F : (density true (filling false false (block 18 20)) edge == 1 # 300)%Q) by (vm_compute; done).
    unfold filling in F. rewrite E in F. rewrite F in H. vm_compute in H. done.
Qed.

(** A step that rounds to no layer at all: the areas are never found. *)
Lemma look_up_endless layers here fuel : forall less, (length layers > 0)%nat -> look_up layers fuel here (layer_skip_count false 0) 0 0 less = NoFuel.
Proof.
  assert (G : forall u, (u == 0)%Q -> forall less, (length layers > 0)%nat -> look_up layers fuel here (layer_skip_count false 0) u 0 less = NoFuel).
  { induction fuel as [|fuel IH]; intros u Hu less Hlen; [done|]. cbn [look_up].
    rewrite (proj2 (Qle_bool_iff u 0)) by (rewrite Hu; apply Qle_refl).
    destruct (Qle_bool (inject_Z (Z.of_nat (length layers))) u) eqn:E.
    - apply Qle_bool_iff in E. rewrite Hu in E. change 0%Q with (inject_Z 0) in E. rewrite <- Zle_Qle in E. lia.
    - rewrite Hu. change (Z.to_nat (Qfloor 0)) with 0%nat. destruct layers as [|l layers']; [cbn in Hlen; lia|]. cbn [lookup list_lookup of_opt rbind].
      apply IH; [|done]. rewrite Hu. done. }
  intros less. apply G. done.
Qed.
Theorem C65_endless_refuted :
  ~ (forall layers s n here empty, sound_infill layers -> infill_layer layers s n -> 0 <= n ->
     (exists parts, layers !! Z.to_nat n = Some parts /\ here ∈ parts) -> 0 < layer_height s -> 0 < step_height s ->
     exists fuel areas, generateGradualInfill empty (fun a => a) layers fuel s n here = Ok areas).
Proof.
  intros H. destruct (H stairs (Gradual false 99 200 1 0 0 false) 0 (infill_block 0 20) no_place stairs_sound) as (fuel & areas & E).
  - split; cbn; lia.
  - lia.
  - exists [infill_block 0 20]. split; [done|set_solver].
  - done.
  - done.
  - unfold generateGradualInfill in E. cbn [step_height layer_height gaps_heuristic max_infill_steps is_connected initial_bottom top] in E.
    change (round_divide 99 200) with (Ok 0) in E. cbn [rbind] in E.
    change (no_place (within_walls (infill_block 0 20)) || (0 <? 0) || (Z.of_nat (length stairs) - 1 - 0 <? 0)) with false in E.
    cbv iota zeta in E. cbn [density_steps] in E.
    change (inject_Z (0 + 0 * 0 + Qfloor (layer_skip_count false 0))) with 0%Q in E. change (inject_Z (0 + (0 + 1) * 0)) with 0%Q in E.
    rewrite look_up_endless in E by (cbn; lia). done.
Qed.

(** Infill on the top layers and on the initial bottom layers (as where skin was asked to be removed) is not printed. *)
Theorem C65_top_layers_refuted :
  ~ (forall layers s n here p areas empty, sound_infill layers -> 0 <= n < Z.of_nat (length layers) ->
     (exists parts, layers !! Z.to_nat n = Some parts /\ here ∈ parts) -> within_walls here p = true ->
     round_divide (step_height s) (layer_height s) = Ok 1 -> generateGradualInfill empty (fun a => a) layers 5 s n here = Ok areas ->
     (0 < density false (infill_jobs empty (fun a => a) 400 false 600 a_empty areas) p)%Q).
Proof.
  intros H. specialize (H stairs (Gradual false 200 200 1 0 1 false) 1 (infill_block 0 10) under).
  specialize (H [a_empty] no_place stairs_sound ltac:(cbn; lia) ltac:(exists [infill_block 0 10]; split; [done|set_solver]) eq_refl eq_refl eq_refl).
  vm_compute in H. done.
Qed.

Print Assumptions C65_areas.
Print Assumptions C65_density.
Print Assumptions C65_every_layer.
Print Assumptions C65_denser_above.
Print Assumptions C65_connected_refuted.
Print Assumptions C65_skin_support_refuted.
Print Assumptions C65_endless_refuted.
Print Assumptions C65_top_layers_refuted.
