(** C84: interlocking beams. *)
From Coq Require Import ZArith Lia.
From stdpp Require Import prelude list.
From Verif Require Import Common Geo_Model Carve_Model Voxel_Model Interlock_Model Interlock_Spec.
Open Scope Z_scope.

Lemma existsb_rev {A} (f : A -> bool) l : existsb f (rev l) = existsb f l.
Proof.
  induction l as [|x l IH]; cbn [rev existsb]; [done|]. rewrite existsb_app, IH. cbn [existsb].
  rewrite orb_false_r. apply orb_comm.
Qed.

Section props.
  Variables (wa wb blc : Z) (rot unrot : pt -> pt) (close : area -> area).
  Hypothesis wa_pos : 0 < wa.
  Hypothesis wb_pos : 0 < wb.
  Hypothesis blc_pos : 0 < blc.
  Notation cw := (wa + wb).
  Notation cs := (((wa + wb)%Z, (wa + wb)%Z, (2 * blc)%Z) : pt3).

  Definition own (second : bool) (u : Z) : bool := if second then negb (u mod cw <? wa) else u mod cw <? wa.

  Lemma mod_strip g u : 0 <= u - g * cw < cw <-> g = u / cw.
  Proof using wa_pos wb_pos.
    pose proof (Z.div_mod u cw ltac:(lia)). pose proof (Z.mod_pos_bound u cw ltac:(lia)). split; [|intros ->; lia]. nia.
  Qed.

  Lemma middle_eq : middle wa wb cs = wa.
  Proof using wa_pos wb_pos. unfold middle. cbn. rewrite Z.mul_comm. apply Z.quot_mul. lia. Qed.

  Lemma beam_spec second gx gy u v :
    beam wa wb cs second (u - gx * cw, v - gy * cw) =
      bool_decide (gx = u / cw) && bool_decide (gy = v / cw) && own second u.
  Proof using wa_pos wb_pos.
    unfold beam. rewrite middle_eq. cbn [get fst snd]. apply eq_true_iff_eq.
    rewrite !andb_true_iff, !Z.leb_le, !Z.ltb_lt, !bool_decide_eq_true. rewrite <- !mod_strip. unfold own.
    pose proof (Z.mod_pos_bound u cw ltac:(lia)).
    assert (M : 0 <= u - gx * cw < cw -> u mod cw = u - gx * cw).
    { intros G. apply mod_strip in G as ->. rewrite Z.mod_eq by lia. ring. }
    split.
    - intros (((A & B) & C) & D). assert (G : 0 <= u - gx * cw < cw) by (destruct second; lia).
      split; [lia|]. rewrite (M G). destruct second; [rewrite negb_true_iff, Z.ltb_ge; lia|rewrite Z.ltb_lt; lia].
    - intros ((A & B) & C). rewrite (M A) in C.
      destruct second; [rewrite negb_true_iff, Z.ltb_ge in C; lia|rewrite Z.ltb_lt in C; lia].
  Qed.

  (** Whether cell g puts point q into the structure with index i *)
  Definition covers (second : bool) (i : Z) (q : pt) (g : pt3) : bool :=
    bool_decide (g = (q.1 / cw, q.2 / cw, i / 2)) && own second (if Z.even i then q.1 else q.2).

  Lemma covers_area second i q g : i / 2 = get g AZ ->
    translate (get g AX * cw, get g AY * cw) (cell_area wa wb cs (i mod 2) second) q = covers second i q g.
  Proof using wa_pos wb_pos.
    intros Hi. clear rot unrot close. unfold translate, cell_area, covers. rewrite Zmod_even. destruct g as [[gx gy] gz]. cbn [get fst snd] in *.
    destruct (Z.even i); cbn [Z.eqb]; rewrite beam_spec; apply eq_true_iff_eq; rewrite !andb_true_iff, !bool_decide_eq_true;
      intuition congruence.
  Qed.

  Definition is_structure (second : bool) (cells : list pt3) (s : list area) : Prop :=
    forall i (a : area) q, s !! i = Some a -> a q = existsb (covers second (Z.of_nat i) q) cells.

  Lemma covers_other second (i : Z) q (g : pt3) : i / 2 <> get g AZ -> covers second i q g = false.
  Proof using.
    intros N. unfold covers. rewrite bool_decide_eq_false_2; [done|]. intros ->. by apply N.
  Qed.

  (** One step of the loop over the layers of a cell. *)
  Lemma put_layer second (max i : Z) corner s fuel stop : 0 <= i -> i * blc < stop -> i * blc < max ->
    (Z.to_nat i < length s)%nat ->
    exists a : area, s !! Z.to_nat i = Some a /\
    cell_layers wa wb cs blc (S fuel) second corner (i * blc) stop max s =
    cell_layers wa wb cs blc fuel second corner ((i + 1) * blc) stop max
      (<[Z.to_nat i := a_union a (translate corner (cell_area wa wb cs (i mod 2) second))]> s).
  Proof using blc_pos.
    intros Hi Hs Hm Hl. destruct (lookup_lt_is_Some_2 s (Z.to_nat i) Hl) as [a Ha]. exists a. split; [done|].
    cbn [cell_layers]. rewrite (proj2 (Z.ltb_lt (i * blc) stop)), (proj2 (Z.ltb_lt (i * blc) max)) by lia. cbn [andb].
    rewrite Z.quot_mul by lia. rewrite (proj2 (Z.ltb_ge i 0)) by lia. rewrite Ha. cbn [of_opt rbind].
    rewrite Z.rem_mod_nonneg by lia. f_equal. ring.
  Qed.

  Lemma end_layers second (max l : Z) corner s fuel stop : stop <= l \/ max <= l ->
    cell_layers wa wb cs blc fuel second corner l stop max s = Ok s.
  Proof using.
    intros H. destruct fuel; cbn [cell_layers]; destruct (Z.ltb_spec l stop), (Z.ltb_spec l max); try lia; done.
  Qed.

  Lemma put_spec second (g : pt3) (i : Z) (s : list area) a j b q : 0 <= i -> i / 2 = get g AZ -> s !! Z.to_nat i = Some a ->
    <[Z.to_nat i := a_union a (translate (get g AX * cw, get g AY * cw) (cell_area wa wb cs (i mod 2) second))]> s !! j = Some b ->
    exists b0, s !! j = Some b0 /\ b q = b0 q || (bool_decide (Z.of_nat j = i) && covers second (Z.of_nat j) q g).
  Proof using wa_pos wb_pos.
    intros Hi Hg Ha Hb. destruct (decide (j = Z.to_nat i)) as [-> |N].
    - rewrite list_lookup_insert in Hb by (by apply lookup_lt_is_Some_1; eauto). injection Hb as <-. exists a. split; [done|].
      rewrite Z2Nat.id by lia. rewrite bool_decide_eq_true_2 by done. cbn [andb]. unfold a_union. f_equal. exact (covers_area second i q g Hg).
    - rewrite list_lookup_insert_ne in Hb by done. exists b. split; [done|].
      rewrite bool_decide_eq_false_2 by lia. cbn [andb]. by rewrite orb_false_r.
  Qed.

  Lemma cell_ok second (max : Z) (g : pt3) (s : list area) cells fuel :
    0 <= get g AZ -> (Z.of_nat (length s) = (max + blc - 1) / blc) -> is_structure second cells s ->
    exists s', cell_layers wa wb cs blc (S (S (S fuel))) second (get g AX * cw, get g AY * cw) (get g AZ * (2 * blc))
                 (get g AZ * (2 * blc) + 2 * blc) max s = Ok s' /\
      length s' = length s /\ is_structure second (g :: cells) s'.
  Proof using wa_pos wb_pos blc_pos.
    intros Hz Hlen Hs. set (z := get g AZ) in *.
    assert (Hlt : forall i, 0 <= i -> i * blc < max <-> i < Z.of_nat (length s)).
    { intros i Hi. rewrite Hlen. pose proof (Z.div_mod (max + blc - 1) blc ltac:(lia)).
      pose proof (Z.mod_pos_bound (max + blc - 1) blc ltac:(lia)). nia. }
    replace (z * (2 * blc)) with ((2 * z) * blc) by ring.
    assert (H0 : 2 * z / 2 = z) by (rewrite Z.mul_comm, Z.div_mul; lia).
    assert (H1 : (2 * z + 1) / 2 = z) by (symmetry; apply (Z.div_unique _ 2 z 1); lia).
    assert (Hcase : forall j : nat, Z.of_nat j / 2 = z -> Z.of_nat j = 2 * z \/ Z.of_nat j = 2 * z + 1).
    { intros j Hj. pose proof (Z.div_mod (Z.of_nat j) 2 ltac:(lia)). pose proof (Z.mod_pos_bound (Z.of_nat j) 2 ltac:(lia)). lia. }
    assert (Hlt' : forall i, 0 <= i -> i < Z.of_nat (length s) -> i * blc < max /\ (Z.to_nat i < length s)%nat).
    { intros i Hi Hi2. split; [by apply Hlt|]. clear - Hi Hi2. lia. }
    destruct (Z.lt_ge_cases (2 * z) (Z.of_nat (length s))) as [L0|L0].
    2:{ exists s. split; [apply end_layers; right; destruct (Z.le_gt_cases max (2 * z * blc)) as [|G]; [done|]; apply Hlt in G; lia|].
        split; [done|]. intros j b q Hb. cbn [existsb]. rewrite (Hs j b q Hb).
        rewrite covers_other; [done|]. intros E. apply Hcase in E. assert (Hj : (j < length s)%nat) by exact (lookup_lt_Some _ _ _ Hb). lia. }
    destruct (put_layer second max (2 * z) (get g AX * cw, get g AY * cw) s (S (S fuel)) (2 * z * blc + 2 * blc))
      as (a0 & Ha0 & ->); [lia|lia|by apply Hlt'; [lia|]|by apply Hlt'; [lia|]|].
    set (s1 := <[Z.to_nat (2 * z) := _]> s). assert (Hl1 : length s1 = length s) by apply insert_length.
    destruct (Z.lt_ge_cases (2 * z + 1) (Z.of_nat (length s))) as [L1|L1].
    2:{ exists s1. split; [apply end_layers; right; destruct (Z.le_gt_cases max ((2 * z + 1) * blc)) as [|G]; [done|]; apply Hlt in G; lia|].
        split; [done|]. intros j b q Hb. cbn [existsb].
        destruct (put_spec second g (2 * z) s a0 j b q) as (b0 & Hb0 & ->); [lia|done|done|exact Hb|].
        rewrite (Hs j b0 q Hb0). assert (Hj : (j < length s)%nat) by exact (lookup_lt_Some _ _ _ Hb0).
        destruct (bool_decide_reflect (Z.of_nat j = 2 * z)) as [E|N]; cbn [andb]; [apply orb_comm|].
        rewrite covers_other; [by rewrite orb_false_r|]. intros E%Hcase. lia. }
    destruct (put_layer second max (2 * z + 1) (get g AX * cw, get g AY * cw) s1 (S fuel) (2 * z * blc + 2 * blc))
      as (a1 & Ha1 & ->); [lia|lia|by apply Hlt'; [lia|]|rewrite Hl1; by apply Hlt'; [lia|]|].
    eexists. split; [apply end_layers; left; lia|]. split; [by rewrite insert_length|].
    intros j b q Hb. cbn [existsb].
    destruct (put_spec second g (2 * z + 1) s1 a1 j b q) as (b1 & Hb1 & ->); [lia|done|done|exact Hb|].
    destruct (put_spec second g (2 * z) s a0 j b1 q) as (b0 & Hb0 & ->); [lia|done|done|exact Hb1|].
    rewrite (Hs j b0 q Hb0).
    destruct (bool_decide_reflect (Z.of_nat j = 2 * z)) as [E|N], (bool_decide_reflect (Z.of_nat j = 2 * z + 1)) as [E'|N'];
      cbn [andb]; rewrite ?orb_false_r; [lia|apply orb_comm|apply orb_comm|].
    rewrite covers_other; [done|]. intros E%Hcase. lia.
  Qed.

  Lemma structure_cells_ok second (max : Z) : forall todo cells s,
    (forall g, g ∈ todo -> 0 <= get g AZ) -> (Z.of_nat (length s) = (max + blc - 1) / blc) -> is_structure second cells s ->
    exists s', structure_cells wa wb cs blc second max todo s = Ok s' /\ length s' = length s /\
      is_structure second (rev todo ++ cells) s'.
  Proof using wa_pos wb_pos blc_pos.
    induction todo as [|g todo IH]; intros cells s Hz Hlen Hs; [by exists s|]. cbn [structure_cells].
    destruct (Z.to_nat (get cs AZ)) as [|[|fuel]] eqn:Ef; [cbn in Ef; lia..|].
    destruct (cell_ok second max g s cells fuel) as (s1 & Hr & Hl & H1); [apply Hz; by left|done|done|].
    unfold vLowerCoord. change (get cs AX) with cw. change (get cs AY) with cw. change (get cs AZ) with (2 * blc).
    rewrite Hr. cbn [rbind]. destruct (IH (g :: cells) s1) as (s2 & Hr2 & Hl2 & H2); [intros; apply Hz; by right|lia|done|].
    exists s2. split; [done|]. split; [lia|]. cbn [rev]. by rewrite <- app_assoc.
  Qed.

  Definition in_cells (second : bool) (cells : list pt3) (q : pt) (n : nat) : bool :=
    bool_decide (voxel_of wa wb blc q n ∈ cells) &&
    (if second then negb (beam_of_first wa wb blc q n) else beam_of_first wa wb blc q n).

  Lemma existsb_covers second cells q n :
    existsb (covers second (Z.of_nat n / blc) q) cells = in_cells second cells q n.
  Proof using blc_pos.
    unfold in_cells, voxel_of. apply eq_true_iff_eq. rewrite existsb_exists, andb_true_iff, bool_decide_eq_true.
    unfold covers. rewrite Z.div_div, (Z.mul_comm blc 2) by lia. setoid_rewrite andb_true_iff. setoid_rewrite bool_decide_eq_true.
    setoid_rewrite <- elem_of_list_In.
    assert (E : own second (if Z.even (Z.of_nat n / blc) then q.1 else q.2) =
      (if second then negb (beam_of_first wa wb blc q n) else beam_of_first wa wb blc q n)).
    { unfold own, beam_of_first. by destruct (Z.even (Z.of_nat n / blc)). }
    rewrite E. split; [intros (g & Hg & -> & H); done|]. intros [Hg H]. eauto.
  Qed.

  Lemma structure_of_ok second (max : Z) cells : 0 <= max -> (forall g, g ∈ cells -> 0 <= get g AZ) ->
    exists s : list area, structure_of wa wb cs blc rot second max cells = Ok s /\
      forall n : nat, Z.of_nat n < max -> exists a : area, s !! Z.to_nat (Z.of_nat n ÷ blc) = Some a /\
        forall p, a p = in_cells second cells (rot p) n.
  Proof using wa_pos wb_pos blc_pos.
    intros Hm Hz. unfold structure_of. rewrite Z.quot_div_nonneg by lia.
    set (k := (max + blc - 1) / blc). assert (Hk : 0 <= k) by (apply Z.div_pos; lia).
    destruct (structure_cells_ok second max cells [] (replicate (Z.to_nat k) a_empty)) as (s & -> & Hl & Hs).
    { done. }
    { rewrite replicate_length, Z2Nat.id by done. done. }
    { intros i a q Ha. apply lookup_replicate in Ha as [-> _]. done. }
    exists (map (unrotate rot) s). split; [done|]. rewrite replicate_length in Hl. intros n Hn.
    rewrite Z.quot_div_nonneg by lia. pose proof (Z.div_pos (Z.of_nat n) blc ltac:(lia) ltac:(lia)).
    assert (Hlt : Z.of_nat n / blc < k).
    { unfold k. pose proof (Z.div_mod (Z.of_nat n) blc ltac:(lia)). pose proof (Z.mod_pos_bound (Z.of_nat n) blc ltac:(lia)).
      pose proof (Z.div_mod (max + blc - 1) blc ltac:(lia)). pose proof (Z.mod_pos_bound (max + blc - 1) blc ltac:(lia)). nia. }
    destruct (lookup_lt_is_Some_2 s (Z.to_nat (Z.of_nat n / blc))) as [a Ha]; [lia|].
    exists (unrotate rot a). split; [by rewrite list_lookup_fmap, Ha|]. intros p. unfold unrotate.
    rewrite (Hs _ _ _ Ha), Z2Nat.id by done. rewrite app_nil_r, existsb_rev. apply existsb_covers.
  Qed.

  Lemma apply_layers_ok (here other regions : list area) cells second (max : nat) :
    (forall n : nat, (n < max)%nat -> exists a : area, here !! Z.to_nat (Z.of_nat n ÷ blc) = Some a /\ forall p, a p = in_cells second cells (rot p) n) ->
    (forall n : nat, (n < max)%nat -> exists a : area, other !! Z.to_nat (Z.of_nat n ÷ blc) = Some a /\ forall p, a p = in_cells (negb second) cells (rot p) n) ->
    forall mesh n0, (n0 + length mesh <= max)%nat -> (max <= length regions)%nat ->
    exists mesh', apply_layers blc rot n0 here other regions mesh = Ok mesh' /\
      Forall2 (fun x new => interlocked (fun p => bool_decide (voxel_of wa wb blc (rot p) x.1 ∈ cells))
                 (fun p => xorb second (beam_of_first wa wb blc (rot p) x.1))
                 (match regions !! x.1 with Some r => unrotate rot r | None => a_empty end) x.2 new)
        (zip (seq n0 (length mesh)) mesh) mesh'.
  Proof using.
    intros Hh Ho. induction mesh as [|old mesh IH]; intros n0 Hn Hr; cbn [apply_layers length seq zip]; cbn zeta; [by exists []|].
    cbn [length] in Hn. destruct (lookup_lt_is_Some_2 regions n0) as [r Er]; [lia|]. rewrite Er. cbn [of_opt rbind].
    destruct (Hh n0 ltac:(lia)) as (h & -> & Eh). destruct (Ho n0 ltac:(lia)) as (o & -> & Eo). cbn [of_opt rbind].
    destruct (IH (S n0)) as (mesh' & -> & Hall); [lia|done|]. cbn [rbind]. eexists. split; [done|].
    constructor; [|done]. cbn [fst snd]. rewrite Er. intros p. unfold a_union, a_sub, a_inter. rewrite Eh, Eo.
    unfold in_cells. destruct (bool_decide _); cbn [andb negb]; [|by rewrite andb_true_r, orb_false_r].
    destruct second, (beam_of_first _ _ _ _ _), (old p); cbn; try done.
  Qed.

  Hypothesis rot_inv : forall p, unrot (rot p) = p.

  (** C84.  The two meshes have the same number of layers. *)
  Theorem C84_interlock handle_thin filtering shell_a shell_b air mesh_a mesh_b :
    length mesh_a = length mesh_b ->
    (forall cells m, length (handle_thin cells m).1 = length m.1 /\ length (handle_thin cells m).2 = length m.2) ->
    (forall g, g ∈ shell_a -> g ∈ shell_b -> (filtering = true -> g ∉ air) -> 0 <= get g AZ) ->
    exists cells thinned result,
      (forall g, g ∈ cells <-> g ∈ shell_a /\ g ∈ shell_b /\ (filtering = true -> g ∉ air)) /\
      thinned = (if filtering then handle_thin cells (mesh_a, mesh_b) else (mesh_a, mesh_b)) /\
      generateInterlocking wa wb cs blc rot unrot close handle_thin filtering shell_a shell_b air mesh_a mesh_b = Ok result /\
      length result.1 = length mesh_a /\ length result.2 = length mesh_b /\
      forall n a b old_a old_b new_a new_b,
        mesh_a !! n = Some a -> mesh_b !! n = Some b ->
        thinned.1 !! n = Some old_a -> thinned.2 !! n = Some old_b -> result.1 !! n = Some new_a -> result.2 !! n = Some new_b ->
        let joined p := bool_decide (voxel_of wa wb blc (rot p) n ∈ cells) in
        let first p := beam_of_first wa wb blc (rot p) n in
        interlocked joined first (close (a_union a b)) old_a new_a /\
        interlocked joined (fun p => negb (first p)) (close (a_union a b)) old_b new_b.
  Proof using wa_pos wb_pos blc_pos rot_inv.
    intros Hab Hthin Hz.
    set (all := List.filter (fun g => bool_decide (g ∈ shell_a)) shell_b).
    set (cells := if filtering then List.filter (fun g => negb (bool_decide (g ∈ air))) all else all).
    set (thinned := if filtering then handle_thin cells (mesh_a, mesh_b) else (mesh_a, mesh_b)).
    set (regions := computeUnionedVolumeRegions unrot close mesh_a mesh_b).
    assert (Hall : forall g, g ∈ all <-> g ∈ shell_a /\ g ∈ shell_b).
    { intros g. unfold all. rewrite elem_of_list_In, filter_In, <- elem_of_list_In, bool_decide_eq_true. tauto. }
    assert (Hcells : forall g, g ∈ cells <-> g ∈ shell_a /\ g ∈ shell_b /\ (filtering = true -> g ∉ air)).
    { intros g. unfold cells. destruct filtering.
      - rewrite elem_of_list_In, filter_In, <- elem_of_list_In, negb_true_iff, bool_decide_eq_false, Hall. naive_solver.
      - rewrite Hall. naive_solver. }
    assert (Hgen : generateInterlocking wa wb cs blc rot unrot close handle_thin filtering shell_a shell_b air mesh_a mesh_b =
      applyMicrostructure wa wb cs blc rot cells regions thinned.1 thinned.2).
    { unfold generateInterlocking, thinned, cells. by destruct filtering. }
    assert (L1 : length thinned.1 = length mesh_a) by (unfold thinned; destruct filtering; [apply Hthin|done]).
    assert (L2 : length thinned.2 = length mesh_b) by (unfold thinned; destruct filtering; [apply Hthin|done]).
    rewrite Hgen. clear Hgen. exists cells, thinned.
    assert (Hreg : length regions = S (length mesh_a)).
    { unfold regions, computeUnionedVolumeRegions. rewrite map_length, seq_length. lia. }
    assert (Hpos : forall g, g ∈ cells -> 0 <= get g AZ) by (intros g (?&?&?)%Hcells; by apply Hz).
    unfold applyMicrostructure. rewrite L1, L2. set (max := Z.max _ _). assert (Hmax : max = Z.of_nat (length mesh_a)) by lia.
    destruct (structure_of_ok false max cells) as (sa & -> & Ha); [lia|done|].
    destruct (structure_of_ok true max cells) as (sb & -> & Hb); [lia|done|]. cbn [rbind].
    destruct (apply_layers_ok sa sb regions cells false (length mesh_a)) with (mesh := thinned.1) (n0 := 0%nat) as (ra & -> & Hra);
      [intros; apply Ha; lia|intros; apply Hb; lia|lia|lia|].
    destruct (apply_layers_ok sb sa regions cells true (length mesh_a)) with (mesh := thinned.2) (n0 := 0%nat) as (rb & -> & Hrb);
      [intros; apply Hb; lia|intros; apply Ha; lia|lia|lia|].
    cbn [rbind]. exists (ra, rb). split; [done|]. split; [done|]. split; [done|]. cbn [fst snd].
    pose proof (Forall2_length _ _ _ Hra) as Qa. rewrite zip_with_length, seq_length in Qa.
    pose proof (Forall2_length _ _ _ Hrb) as Qb. rewrite zip_with_length, seq_length in Qb.
    split; [lia|]. split; [lia|]. intros n a b oa ob na nb Ea Eb Eoa Eob Ena Enb.
    pose proof (lookup_lt_Some _ _ _ Ea) as Hn.
    assert (Er : regions !! n = Some (rotate unrot (close (a_union a b)))).
    { unfold regions, computeUnionedVolumeRegions. rewrite list_lookup_fmap, lookup_seq_lt by lia. cbn.
      unfold layer_region. by rewrite Ea, Eb. }
    assert (Zp : forall (l : list area) x, l !! n = Some x -> zip (seq 0 (length l)) l !! n = Some (n, x)).
    { intros l x Hx. apply lookup_zip_with_Some. exists n, x. split; [done|]. split; [|done]. apply lookup_seq. split; [done|].
      by apply lookup_lt_Some in Hx. }
    split.
    - pose proof (Forall2_lookup_lr _ _ _ _ _ _ Hra (Zp _ _ Eoa) Ena) as H. cbn [fst snd] in H. rewrite Er in H.
      intros p. rewrite (H p). unfold unrotate, rotate. rewrite rot_inv. by destruct (beam_of_first _ _ _ _ _).
    - pose proof (Forall2_lookup_lr _ _ _ _ _ _ Hrb (Zp _ _ Eob) Enb) as H. cbn [fst snd] in H. rewrite Er in H.
      intros p. rewrite (H p). unfold unrotate, rotate. rewrite rot_inv. by destruct (beam_of_first _ _ _ _ _).
  Qed.
End props.
Print Assumptions C84_interlock.

(** Where neither mesh overlaps the other, they do not afterwards; in the voxels they never do. *)
Theorem C84_apart (joined first : pt -> bool) (both old_a old_b new_a new_b : area) :
  interlocked joined first both old_a new_a -> interlocked joined (fun p => negb (first p)) both old_b new_b ->
  forall p, (joined p = true -> new_a p && new_b p = false) /\ (old_a p && old_b p = false -> new_a p && new_b p = false) /\
    (joined p = true -> both p = true -> new_a p || new_b p = true).
Proof.
  intros Ha Hb p. rewrite (Ha p), (Hb p).
  destruct (joined p), (first p), (old_a p), (old_b p), (both p); cbn; split; [done|split; done|done|split; done|..].
  all: try done; try (split; done).
Qed.
Print Assumptions C84_apart.

(** If the interface is two voxels thick, the lowest layer gives voxels below it; unless they are removed as voxels near air,
    the structure is written out of bounds. *)
Theorem C84_below_refuted :
  exists (wa wb blc : Z) (poly : list pt) (shell : list pt3),
    0 < wa /\ 0 < wb /\ 0 < blc /\
    walkDilatedPolygons (wa + wb, wa + wb, 2 * blc) (2, 2, 2) PRISM (fun s g => (s ++ [g], true)) 0 [poly] [] = Ok (shell, true) /\
    forall thin close air mesh_a mesh_b, mesh_a <> [] ->
      generateInterlocking wa wb (wa + wb, wa + wb, 2 * blc) blc id id close thin false shell shell air mesh_a mesh_b = UB.
Proof.
  exists 10, 10, 2, [(0, 0); (5, 0); (5, 5)].
  destruct (walkDilatedPolygons (10 + 10, 10 + 10, 2 * 2) (2, 2, 2) PRISM (fun s g => (s ++ [g], true)) 0 [[(0, 0); (5, 0); (5, 5)]] [])
    as [[shell b]| |] eqn:E; [|by vm_compute in E..].
  exists shell. split; [done|]. split; [done|]. split; [done|]. vm_compute in E. injection E as <- <-. split; [done|].
  intros thin close air mesh_a mesh_b Hne. unfold generateInterlocking. set (cells := List.filter _ _).
  set (regions := computeUnionedVolumeRegions _ _ _ _). vm_compute in cells. subst cells. unfold applyMicrostructure, structure_of.
  set (m := Z.max _ _). assert (Hm : 0 < m) by (unfold m; destruct mesh_a; [done|cbn [length]; lia]).
  cbn [structure_cells]. set (s := replicate _ _). clearbody s.
  match goal with |- context [cell_layers ?a ?b ?c ?d (S ?f) ?e ?g ?l ?h m s] =>
    assert (X : cell_layers a b c d (S f) e g l h m s = UB) end.
  { cbn [cell_layers]. match goal with |- context [?l <? m] => assert (Y : (l <? m) = true) by (apply Z.ltb_lt; change l with (-4); lia) end.
    rewrite Y. done. }
  rewrite X. done.
Qed.
Print Assumptions C84_below_refuted.

(** On layers that only the second mesh has, it counts as outside. *)
Theorem C84_higher_refuted :
  exists (mesh_a mesh_b : list area) b p, mesh_b !! length mesh_a = Some b /\ b p = true /\
    forall r, computeUnionedVolumeRegions id id mesh_a mesh_b !! length mesh_a = Some r -> r p = false.
Proof.
  exists [], [fun _ => true], (fun _ => true), (0, 0). split; [done|]. split; [done|]. intros r. cbn. by intros [= <-].
Qed.
Print Assumptions C84_higher_refuted.

Example C84_nonvacuous :
  let a : area := fun p => (p.1 <? 20) in let b : area := fun p => negb (p.1 <? 20) in
  match generateInterlocking 4 6 (10, 10, 4) 2 id id id (fun _ m => m) true
          [(1, 0, 0); (2, 0, 0)] [(1, 0, 0); (2, 0, 0); (3, 0, 0); (0, 5, 0)] [(3, 0, 0)] [a; a; a; a; a] [b; b; b; b; b] with
  | Ok (ra, rb) =>
      map (fun r : area => map r [(12, 5); (16, 5); (22, 5); (26, 5); (32, 5)]) ra =
        [[true; false; true; false; false]; [true; false; true; false; false]; [false; false; false; false; false];
         [false; false; false; false; false]; [true; true; false; false; false]] /\
      map (fun r : area => map r [(12, 5); (16, 5); (22, 5); (26, 5); (32, 5)]) rb =
        [[false; true; false; true; true]; [false; true; false; true; true]; [true; true; true; true; true];
         [true; true; true; true; true]; [false; false; true; true; true]]
  | _ => False
  end.
Proof. vm_compute. done. Qed.
