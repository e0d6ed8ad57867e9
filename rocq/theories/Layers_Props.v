(** C03 (raft layer classification), C04 (slicing heights), C54 (layer count covers the model),
    C55 (printing heights rise layer by layer). *)
From Coq Require Import ZArith Lia Sorting.Sorted.
From stdpp Require Import list.
From Verif Require Import Common Math_Model Math_Spec Math_Proofs Layers_Model Layers_Proofs.
Open Scope Z_scope.

(** C03 with a raft: reading off the layer types upward from the lowest layer number shows 1 base
    layer, then the configured interface and surface layers, then the air gap rounded to whole
    layer heights; from 0 on it is the model. *)
Theorem C03_raft_layers_tile : forall s,
  adhesion_is_raft s = true -> 0 < layer_height s ->
  exists total filler, getTotalExtraLayers s = Ok total /\ 0 <= filler /\
    is_round_half_away (Z.max 0 (raft_airgap s)) (layer_height s) filler /\
    map (getLayerType s) (seqZ (- total) total) =
      map Ok ([RaftBase] ++ replicate (raft_interface_layers s) RaftInterface
              ++ replicate (raft_surface_layers s) RaftSurface
              ++ replicate (Z.to_nat filler) Airgap) /\
    (forall i, 0 <= i -> getLayerType s i = Ok Model).
Proof.
  intros s Hr Hl. destruct (filler_count_ok s Hl) as (f & Ef & Hf & Hsp).
  set (ni := Z.of_nat (raft_interface_layers s)). set (ns := Z.of_nat (raft_surface_layers s)).
  assert (Htot : getTotalExtraLayers s = Ok (1 + ni + ns + f)).
  { unfold getTotalExtraLayers, getBaseLayers, getInterfaceLayers, getSurfaceLayers.
    by rewrite Ef, Hr. }
  exists (1 + ni + ns + f), f. split; [done|]. split; [done|]. split.
  { unfold getZdiffBetweenRaftAndLayer0 in Hsp. by rewrite Hr in Hsp. }
  assert (Ht : forall i, getLayerType s i = Ok (if i <? - (f + ns + ni) then RaftBase
      else if i <? - (f + ns) then RaftInterface else if i <? - f then RaftSurface
      else if i <? 0 then Airgap else Model)).
  { intros i. unfold getLayerType, getInterfaceLayers, getSurfaceLayers. by rewrite Ef, Hr. }
  split.
  - replace (1 + ni + ns + f) with (1 + (ni + (ns + f))) by ring.
    rewrite (seqZ_app _ 1) by lia. rewrite (seqZ_app _ ni) by lia. rewrite (seqZ_app _ ns f) by lia.
    rewrite !map_app. f_equal; [|f_equal; [|f_equal]].
    + rewrite (seqZ_map_const _ (Ok RaftBase)); [done|lia|]. intros i Hi. rewrite Ht.
      destruct (Z.ltb_spec i (- (f + ns + ni))); [done|lia].
    + rewrite (seqZ_map_const _ (Ok RaftInterface)); [|lia|].
      * unfold ni. rewrite Nat2Z.id. clear. induction (raft_interface_layers s); simpl; congruence.
      * intros i Hi. rewrite Ht. destruct (Z.ltb_spec i (- (f + ns + ni))); [lia|].
        destruct (Z.ltb_spec i (- (f + ns))); [done|lia].
    + rewrite (seqZ_map_const _ (Ok RaftSurface)); [|lia|].
      * unfold ns. rewrite Nat2Z.id. clear. induction (raft_surface_layers s); simpl; congruence.
      * intros i Hi. rewrite Ht. destruct (Z.ltb_spec i (- (f + ns + ni))); [lia|].
        destruct (Z.ltb_spec i (- (f + ns))); [lia|]. destruct (Z.ltb_spec i (- f)); [done|lia].
    + rewrite (seqZ_map_const _ (Ok Airgap)); [|lia|].
      * clear. induction (Z.to_nat f); simpl; congruence.
      * intros i Hi. rewrite Ht. destruct (Z.ltb_spec i (- (f + ns + ni))); [lia|].
        destruct (Z.ltb_spec i (- (f + ns))); [lia|]. destruct (Z.ltb_spec i (- f)); [lia|].
        destruct (Z.ltb_spec i 0); [done|lia].
  - intros i Hi. rewrite Ht. destruct (Z.ltb_spec i (- (f + ns + ni))); [lia|].
    destruct (Z.ltb_spec i (- (f + ns))); [lia|]. destruct (Z.ltb_spec i (- f)); [lia|].
    destruct (Z.ltb_spec i 0); [lia|done].
Qed.

Theorem C03_no_raft_only_model : forall s,
  adhesion_is_raft s = false -> 0 < layer_height s ->
  getTotalExtraLayers s = Ok 0 /\ (forall i, 0 <= i -> getLayerType s i = Ok Model).
Proof.
  intros s Hr Hl. pose proof (filler_count_no_raft s Hr Hl) as Ef. split.
  - unfold getTotalExtraLayers, getBaseLayers, getInterfaceLayers, getSurfaceLayers. by rewrite Ef, Hr.
  - intros i Hi. unfold getLayerType, getInterfaceLayers, getSurfaceLayers. rewrite Ef, Hr. cbn [rbind].
    destruct (Z.ltb_spec i (- (0 + 0 + 0))); [lia|]. destruct (Z.ltb_spec i (- (0 + 0))); [lia|].
    destruct (Z.ltb_spec i (- 0)); [lia|]. destruct (Z.ltb_spec i 0); [lia|done].
Qed.

(** Asking for the filler layer height when the air gap rounds to zero layers divides by zero
    (raft.cpp:169).  [C55_print_heights_rise] shows no layer that is processed asks for it. *)
Theorem C03_filler_height_undefined_refuted :
  exists s, adhesion_is_raft s = true /\ 0 < layer_height s /\ 0 < raft_airgap s /\
    getFillerLayerHeight s = UB.
Proof. exists (RaftSettings true 300 300 100 0 300 1 200 0 1 100 0). vm_compute. auto. Qed.

Example C03_nonvacuous :
  let s := RaftSettings true 100 200 300 50 300 2 200 0 3 100 0 in
  getTotalExtraLayers s = Ok 9 /\
  map (getLayerType s) [-9; -8; -6; -3; 0] = map Ok [RaftBase; RaftInterface; RaftSurface; Airgap; Model].
Proof. vm_compute. auto. Qed.

(** C04: slicing heights.  Layer n occupies the printed interval from [bottom n] to [bottom n] plus
    its thickness. *)
Definition layer_bottom (initial thickness : Z) (n : nat) : Z :=
  match n with O => 0 | S k => initial + thickness * Z.of_nat k end.
Definition layer_top (initial thickness : Z) (n : nat) : Z := initial + thickness * Z.of_nat n.

Theorem C04_slice_heights_fixed : forall count tol initial thickness,
  (0 < count)%nat -> 0 < initial -> 0 < thickness ->
  exists zs, buildLayersWithHeight count tol initial thickness None = Ok zs /\
    length zs = count /\
    (forall i j zi zj, (i < j)%nat -> zs !! i = Some zi -> zs !! j = Some zj -> zi < zj) /\
    (forall i zi zj, zs !! S i = Some zi -> zs !! S (S i) = Some zj -> zj - zi = thickness) /\
    (forall i zi, zs !! i = Some zi ->
       layer_bottom initial thickness i <= zi < layer_top initial thickness i) /\
    (* middle mode slices at the middle of the layer, up to the rounding of a halved micron *)
    (tol = MIDDLE -> forall i zi, zs !! i = Some zi ->
       0 <= layer_bottom initial thickness i + layer_top initial thickness i - 2 * zi <= 1) /\
    (* the other modes slice at the bottom of every layer above the first *)
    (tol <> MIDDLE -> forall i zi, zs !! S i = Some zi -> zi = layer_bottom initial thickness (S i)).
Proof.
  intros count tol i t Hc Hi Ht. destruct count as [|m]; [lia|].
  eexists. split; [reflexivity|]. set (zs := _ :: _).
  assert (Hb : buildLayersWithHeight (S m) tol i t None = Ok zs) by done.
  pose proof (build_fixed_length _ _ _ _ _ Hb) as Hlen. clearbody zs.
  assert (Hlk : forall n z, zs !! n = Some z -> z = zfun tol i t n /\ (n < S m)%nat).
  { intros n z Hz. assert (n < S m)%nat by (rewrite <- Hlen; eapply lookup_lt_Some; eauto).
    rewrite (build_fixed_lookup _ _ _ _ _ n Hb) in Hz by done. split; [congruence|done]. }
  pose proof (half_bounds i Hi). pose proof (half_bounds t Ht).
  split; [done|]. split; [|split; [|split; [|split]]].
  - intros a b za zb Hab [-> _]%Hlk [-> _]%Hlk. by apply zfun_mono.
  - intros a za zb [-> _]%Hlk [-> _]%Hlk. cbn [zfun].
    rewrite !Nat2Z.inj_succ. unfold Z.succ. ring.
  - intros a za [-> _]%Hlk. destruct a as [|a]; unfold layer_bottom, layer_top; cbn [zfun].
    + change (Z.of_nat 0) with 0. destruct tol; cbn [fixed_z0]; lia.
    + rewrite Nat2Z.inj_succ. unfold Z.succ. replace (Z.of_nat a + 1 - 1) with (Z.of_nat a) by lia.
      rewrite Z.mul_add_distr_l. destruct tol; cbn [fixed_offset]; lia.
  - intros -> a za [-> _]%Hlk. destruct a as [|a]; unfold layer_bottom, layer_top; cbn [zfun].
    + change (Z.of_nat 0) with 0. cbn [fixed_z0]; lia.
    + rewrite Nat2Z.inj_succ. unfold Z.succ. replace (Z.of_nat a + 1 - 1) with (Z.of_nat a) by lia.
      rewrite Z.mul_add_distr_l. cbn [fixed_offset]; lia.
  - intros Htol a za [-> _]%Hlk. unfold layer_bottom; cbn [zfun].
    rewrite Nat2Z.inj_succ. unfold Z.succ. replace (Z.of_nat a + 1 - 1) with (Z.of_nat a) by lia.
    destruct tol; [done|cbn [fixed_offset]; lia..].
Qed.

(** C04 with adaptive layers: the slicing heights are the table's heights. *)
Theorem C04_slice_heights_adaptive : forall count tol initial thickness table,
  (0 < count <= length table)%nat ->
  buildLayersWithHeight count tol initial thickness (Some table) = Ok (take count table).
Proof.
  intros [|m] tol i t table H; [lia|]. unfold buildLayersWithHeight.
  by rewrite (proj2 (Nat.leb_le _ _)) by lia.
Qed.

Example C04_nonvacuous :
  buildLayersWithHeight 4 MIDDLE 270 101 None = Ok [135; 320; 421; 522] /\
  buildLayersWithHeight 3 EXCLUSIVE 270 100 None = Ok [170; 270; 370] /\
  buildLayersWithHeight 3 INCLUSIVE 270 100 None = Ok [0; 270; 370].
Proof. vm_compute. auto. Qed.

(** C54: if any layer is sliced, no mesh is cut short: a layer beyond the computed count would be
    sliced at or above the top of every model mesh, whatever that mesh's slicing mode.  And the
    count is not too large: from two layers on, the last layer of some mesh is not above its top. *)
Theorem C54_layer_count_covers_model : forall model_max_z initial thickness meshes count,
  0 < initial -> 0 < thickness ->
  slice_layer_count 0 model_max_z initial thickness meshes = Ok count -> 0 < count ->
  (forall m n zs z, m ∈ meshes -> mesh_is_printed m = true -> mesh_height m <= model_max_z ->
     count <= Z.of_nat n ->
     buildLayersWithHeight (S n) (mesh_tolerance m) initial thickness None = Ok zs ->
     zs !! n = Some z -> mesh_height m <= z) /\
  (2 <= count -> exists m zs z, m ∈ meshes /\ mesh_is_printed m = true /\
     buildLayersWithHeight (Z.to_nat count) (mesh_tolerance m) initial thickness None = Ok zs /\
     zs !! Z.to_nat (count - 1) = Some z /\ z <= mesh_height m).
Proof.
  intros mz i t ms count Hi Ht H Hpos. destruct (slice_count_max _ _ _ _ _ _ H) as (_ & H2 & H3).
  split.
  - intros m n zs z Hm Hp Hmz Hn Hb Hz. destruct (H2 m Hm Hp) as (cm & Hcm & Hle).
    rewrite (build_fixed_lookup _ _ _ _ _ n Hb) in Hz by lia. injection Hz as <-.
    eapply mesh_count_covers; eauto; lia.
  - intros H2c. destruct H3 as [->|(m & Hm & Hp & Hcm)]; [lia|].
    destruct (buildLayersWithHeight (Z.to_nat count) (mesh_tolerance m) i t None) as [zs| |] eqn:Hb.
    + exists m, zs, (zfun (mesh_tolerance m) i t (Z.to_nat (count - 1))).
      split; [done|]. split; [done|]. split; [done|]. split.
      * eapply build_fixed_lookup; [exact Hb|lia].
      * by eapply mesh_count_tight.
    + exfalso. destruct (Z.to_nat count) eqn:E; [lia|]. done.
    + exfalso. destruct (Z.to_nat count) eqn:E; [lia|]. done.
Qed.

(** The layer count is always computed (no division by zero) for a positive layer height. *)
Theorem C54_layer_count_defined : forall ms acc mz initial thickness,
  0 < thickness -> exists c, slice_layer_count acc mz initial thickness ms = Ok c.
Proof.
  induction ms as [|m ms IH]; intros acc mz i t Ht; cbn [slice_layer_count]; [by eexists|].
  destruct (mesh_is_printed m); [|by apply IH].
  assert (exists cm, mesh_layer_count mz i t m = Ok cm) as [cm ->].
  { unfold mesh_layer_count, round_divide_signed, floor_divide_signed, ceil_divide_signed.
    destruct (Z.eqb_spec t 0); [lia|].
    destruct (mesh_tolerance m); repeat (case_match; cbn [rbind] in *); simplify_eq; eauto. }
  cbn [rbind]. by apply IH.
Qed.

(** A mesh exactly one initial layer high is not printed at all in exclusive mode. *)
Theorem C54_exclusive_single_layer_refuted :
  exists m initial thickness, 0 < initial /\ 0 < thickness /\ mesh_is_printed m = true /\
    mesh_tolerance m = EXCLUSIVE /\ mesh_height m = initial /\
    slice_layer_count 0 (mesh_height m) initial thickness [m] = Ok 0.
Proof. exists (SlicedMesh true 200 EXCLUSIVE), 200, 100. vm_compute. auto 10. Qed.

Example C54_nonvacuous :
  slice_layer_count 0 1000 270 100 [SlicedMesh true 1000 MIDDLE; SlicedMesh true 560 INCLUSIVE;
    SlicedMesh false 9000 MIDDLE; SlicedMesh true 570 EXCLUSIVE] = Ok 8.
Proof. vm_compute. reflexivity. Qed.

(** C55: the raft, filler and model layers are printed at strictly increasing heights. *)

(** All layers of a print with a raft, in order: the raft plans, then the layers handed to
    processLayer from its starting layer up to model layer [n] - 1. *)
Definition printed_layers (s : raft_settings) (fillers_used : bool) (n : nat) : res (list (Z * Z)) :=
  let! raft := process_raft s in
  let! start := process_layer_starting_layer_nr s fillers_used in
  let! zs := foldr (fun nr acc => let! z := process_layer_z s nr in let! l := acc in Ok ((nr, z) :: l))
               (Ok []) (seqZ start (Z.of_nat n - start)) in
  Ok (raft ++ zs).

Definition sane_raft (s : raft_settings) : Prop :=
  adhesion_is_raft s = true /\ 0 < layer_height s /\ 0 < layer_height_0 s /\ 0 <= raft_airgap s /\
  layer_0_z_overlap s < layer_height s /\ 0 < raft_base_thickness s /\
  0 < raft_interface_thickness s /\ 0 < raft_surface_thickness s /\
  0 <= raft_interface_z_offset s /\ 0 <= raft_surface_z_offset s /\
  (* the rounding of the filler height, at most half a micron per filler layer, stays below the
     first layer *)
  raft_airgap s < layer_height_0 s * layer_height s.

Theorem C55_print_heights_rise : forall s fillers_used n total,
  sane_raft s -> getTotalExtraLayers s = Ok total ->
  exists ls, printed_layers s fillers_used n = Ok ls /\
    StronglySorted (fun p q => p.1 < q.1 /\ p.2 < q.2) ls /\
    (fillers_used = true -> map fst ls = seqZ (- total) (total + Z.of_nat n)).
Proof.
  intros s fu n total (Hr & Hl & Hl0 & Ha & Hov & Hb & Hi & Hsf & Hio & Hso & Hrnd) Htot.
  destruct (filler_z_ok s Hr Hl) as (f & Ef & Hf & Hfh).
  unfold printed_layers, process_raft. rewrite Htot. cbn [rbind].
  assert (Etot : total = 1 + Z.of_nat (raft_interface_layers s) + Z.of_nat (raft_surface_layers s) + f).
  { unfold getTotalExtraLayers, getBaseLayers, getInterfaceLayers, getSurfaceLayers in Htot.
    rewrite Ef, Hr in Htot. cbn [rbind] in Htot. congruence. }
  set (ni := Z.of_nat (raft_interface_layers s)) in *. set (ns := Z.of_nat (raft_surface_layers s)) in *.
  destruct (raft_loop (raft_interface_layers s) _ _ _) as [li zi] eqn:Eli.
  destruct (raft_loop (raft_surface_layers s) _ _ _) as [lsf zs] eqn:Els.
  apply raft_loop_chain in Eli as (Ci & -> & Mi); [|done].
  apply raft_loop_chain in Els as (Cs & Ezs & Ms); [|done].
  fold ni in Ci, Cs, Ezs, Ms, Mi. fold ns in Cs, Ezs, Ms.
  assert (ET : zs = getTotalThickness s) by (unfold getTotalThickness; fold ni ns; lia). clear Ezs.
  assert (Hni : 0 <= ni * raft_interface_thickness s) by (apply Z.mul_nonneg_nonneg; lia).
  assert (Hns : 0 <= ns * raft_surface_thickness s) by (apply Z.mul_nonneg_nonneg; lia).
  assert (HT : getTotalThickness s = raft_base_thickness s + ni * raft_interface_thickness s
     + raft_interface_z_offset s + ns * raft_surface_thickness s + raft_surface_z_offset s) by done.
  set (T := getTotalThickness s) in *.
  cbn [rbind].
  (* the raft part *)
  assert (Craft : chain (- total - 1, 0) (- f - 1, T)
            ((- total, raft_base_thickness s) :: li ++ lsf)).
  { apply (chain_app _ (- total, raft_base_thickness s) _ [(- total, raft_base_thickness s)]);
      cbn [fst snd]; [lia..| |].
    - repeat constructor; cbn [fst snd]; lia.
    - eapply chain_app; [| | | |eapply chain_weaken; [..|exact Ci]|eapply chain_weaken; [..|exact Cs]];
      cbn [fst snd]; try lia.
      instantiate (1 := (- total + ni, raft_base_thickness s + raft_interface_z_offset s
         + ni * raft_interface_thickness s)). all: cbn [fst snd]; lia. }
  (* the layers handed to processLayer *)
  set (start := if fu then - f else 0).
  assert (Est : process_layer_starting_layer_nr s fu = Ok start).
  { unfold process_layer_starting_layer_nr, start. rewrite Hr. destruct fu; simpl; [|done]. by rewrite Ef. }
  rewrite Est. cbn [rbind].
  assert (exists zf, 0 <= zf < raft_airgap s + layer_height_0 s /\ (0 < f -> exists h, 0 < h /\
     zf = f * h /\ forall nr, nr < 0 -> process_layer_z s nr = Ok (T + (f + nr + 1) * h)))
    as (zf & Hzf & Hfil).
  { destruct (decide (0 < f)) as [Hf0|Hf0].
    - destruct (Hfh Hf0) as (h & Eh & Hh & Hh0). exists (f * h). split.
      + destruct (round_half_pos_bounds _ _ _ Hf0 Hh) as [Hb1 _].
        destruct (filler_count_ok s Hl) as (f' & Ef' & _ & Hsp). rewrite Ef in Ef'. injection Ef' as <-.
        unfold getZdiffBetweenRaftAndLayer0 in Hsp. rewrite Hr in Hsp.
        destruct (round_half_pos_bounds _ _ _ Hl Hsp) as [Hb2 _].
        rewrite Z.max_r in Hb1, Hb2 by lia.
        assert (f < layer_height_0 s + 1).
        { apply (Z.mul_lt_mono_pos_r (layer_height s)); [done|]. rewrite Z.mul_add_distr_r. lia. }
        split; [apply Z.mul_nonneg_nonneg; lia|]. rewrite Z.mul_comm. lia.
      + intros _. exists h. split; [done|]. split; [done|]. intros nr Hnr. unfold process_layer_z.
        destruct (Z.ltb_spec nr 0); [|lia]. unfold filler_print_z. by rewrite Ef, Eh.
    - exists 0. split; [lia|]. done. }
  set (Zof := fun nr => match process_layer_z s nr with Ok z => z | _ => 0 end).
  assert (HZmod : forall nr, 0 <= nr -> process_layer_z s nr = Ok (Zof nr) /\
     Zof nr = layer_height_0 s + nr * layer_height s + T + raft_airgap s
              - (if nr =? 0 then 0 else layer_0_z_overlap s)).
  { intros nr Hnr. unfold Zof, process_layer_z. destruct (Z.ltb_spec nr 0); [lia|]. split; [done|].
    unfold model_print_z. rewrite Hr. fold T. rewrite Z2Nat.id by lia.
    destruct (Z.eqb_spec nr 0) as [->|]; [simpl; lia|].
    destruct (Nat.eqb_spec (Z.to_nat nr) 0); lia. }
  assert (Hall : forall nr, start <= nr -> process_layer_z s nr = Ok (Zof nr)).
  { intros nr Hnr. destruct (decide (0 <= nr)); [by apply HZmod|].
    destruct Hfil as (h & ? & ? & Hz); [unfold start in Hnr; destruct fu; lia|].
    unfold Zof. by rewrite Hz by lia. }
  assert (Efold : forall m k, start <= m ->
    foldr (fun nr acc => let! z := process_layer_z s nr in let! l := acc in Ok ((nr, z) :: l))
               (Ok []) (seqZ m k) = Ok (map (fun nr => (nr, Zof nr)) (seqZ m k))).
  { intros m k. revert m. destruct (decide (0 <= k)) as [Hk|Hk]; [|intros; by rewrite seqZ_nil by lia].
    revert k Hk. apply (natlike_ind (fun k => forall m, start <= m ->
    foldr (fun nr acc => let! z := process_layer_z s nr in let! l := acc in Ok ((nr, z) :: l))
               (Ok []) (seqZ m k) = Ok (map (fun nr => (nr, Zof nr)) (seqZ m k)))); [done|].
    intros k Hk IH m Hm. rewrite seqZ_cons by lia. rewrite Z.pred_succ. cbn [foldr map]. rewrite Hall by done. cbn [rbind].
    rewrite IH by lia. done. }
  rewrite Efold by lia. cbn [rbind]. eexists. split; [reflexivity|].
  assert (Hs0 : - f <= start <= 0) by (unfold start; destruct fu; lia).
  split.
  - set (hi := Zof (Z.of_nat n - 1)).
    assert (Cl : chain (start - 1, T) (start + (Z.of_nat n - start) - 1, hi)
      (map (fun nr => (nr, Zof nr)) (seqZ start (Z.of_nat n - start)))).
    { apply seqZ_chain; [lia| | |].
      - intros i Hi1 Hi2. destruct (decide (0 <= i)) as [Hi0|Hi0].
        + destruct (HZmod i Hi0) as [_ ->]. destruct (HZmod (i + 1) ltac:(lia)) as [_ ->].
          destruct (Z.eqb_spec (i + 1) 0); [lia|]. rewrite Z.mul_add_distr_r. case_match; lia.
        + destruct Hfil as (h & ? & Hzf2 & Hz); [lia|].
          assert (Zof i = T + (f + i + 1) * h) as -> by (unfold Zof; by rewrite Hz by lia).
          destruct (decide (i = -1)) as [->|].
          * change (-1 + 1) with 0. destruct (HZmod 0 ltac:(lia)) as [_ ->]. simpl.
            replace (f + -1 + 1) with f by lia. lia.
          * assert (Zof (i + 1) = T + (f + (i + 1) + 1) * h) as -> by (unfold Zof; by rewrite Hz by lia).
            apply Z.add_lt_mono_l. apply Z.mul_lt_mono_pos_r; lia.
      - destruct (decide (0 <= start)) as [Hi0|Hi0].
        + replace start with 0 by lia. destruct (HZmod 0 ltac:(lia)) as [_ ->]. simpl. lia.
        + destruct Hfil as (h & ? & Hzf2 & Hz); [lia|].
          assert (Zof start = T + (f + start + 1) * h) as -> by (unfold Zof; by rewrite Hz by lia).
          assert (0 < (f + start + 1) * h) by (apply Z.mul_pos_pos; lia). lia.
      - intros _. unfold hi. replace (start + (Z.of_nat n - start) - 1) with (Z.of_nat n - 1) by lia. lia. }
    assert (Hhi : T <= hi \/ Z.of_nat n - start = 0 \/ (Z.of_nat n - start) < 0) .
    { destruct Cl as (_ & L & U). destruct (decide (0 < Z.of_nat n - start)); [left|right; lia].
      rewrite Forall_forall in L, U.
      assert (Hin : (start, Zof start) ∈ map (fun nr => (nr, Zof nr)) (seqZ start (Z.of_nat n - start))).
      { apply elem_of_list_fmap. exists start. split; [done|]. apply elem_of_seqZ. lia. }
      specialize (L _ Hin) as [_ ?]. specialize (U _ Hin) as [_ ?]. cbn [fst snd] in *. lia. }
    destruct Hhi as [Hhi|Hhi].
    + eapply (chain_app (- total - 1, 0) (start - 1, T) _ _ _); [| | | | |exact Cl]; cbn [fst snd]; [lia..|].
      eapply chain_weaken; [..|exact Craft]; cbn [fst snd]; lia.
    + rewrite (seqZ_nil start) by lia. cbn [map]. rewrite app_nil_r. exact (proj1 Craft).
  - intros ->. rewrite map_app. cbn [map fst]. rewrite map_app, Mi, Ms, map_map. cbn [fst]. rewrite map_id.
    unfold start. rewrite (seqZ_cons (- total)) by lia. cbn [app]. f_equal.
    replace (Z.pred (total + Z.of_nat n)) with ((ni + ns) + (Z.of_nat n - - f)) by lia.
    rewrite (seqZ_app (Z.succ (- total)) (ni + ns)) by lia. f_equal; [|f_equal; lia].
    rewrite (seqZ_app (Z.succ (- total)) ni ns) by lia. f_equal; f_equal; lia.
Qed.

(** Without the bound on the overlap the first two model layers are out of order. *)
Theorem C55_overlap_too_large_refuted :
  exists s, 0 < layer_height s /\ 0 <= raft_airgap s /\ adhesion_is_raft s = true /\
    model_print_z s 1 < model_print_z s 0.
Proof. exists (RaftSettings true 100 270 300 200 300 1 200 0 1 100 0). repeat split; vm_compute; congruence. Qed.

Example C55_nonvacuous :
  let s := RaftSettings true 100 270 300 50 300 1 200 0 2 100 0 in
  sane_raft s /\ printed_layers s true 2 =
   Ok [(-7, 300); (-6, 500); (-5, 600); (-4, 700); (-3, 800); (-2, 900); (-1, 1000); (0, 1270); (1, 1320)].
Proof. split; [repeat split; simpl; lia|vm_compute; reflexivity]. Qed.

Print Assumptions C03_raft_layers_tile.
Print Assumptions C03_no_raft_only_model.
Print Assumptions C04_slice_heights_fixed.
Print Assumptions C04_slice_heights_adaptive.
Print Assumptions C54_layer_count_covers_model.
Print Assumptions C54_layer_count_defined.
Print Assumptions C55_print_heights_rise.
