(** C10: adaptive layer heights. *)
From Coq Require Import ZArith QArith Lia.
From stdpp Require Import list.
From Verif Require Import Common Layers_Model Adaptive_Model Adaptive_Proofs.
Open Scope Z_scope.

(** The heights the user allows: base height plus or minus the variation, in steps, positive. *)
Definition allowed_height (base variation step h : Z) : Prop :=
  0 < h /\ base - variation <= h /\ exists k, 0 <= k /\ h = base + variation - k * step.
Definition thinnest (base variation step h : Z) : Prop :=
  allowed_height base variation step h /\ forall x, allowed_height base variation step x -> h <= x.

(** The part of the mesh a layer of height [h] starting at [z] would represent, and the faces in it *)
Definition face_in_layer (tol : slicing_tolerance) (z h : Z) (f : aface) : Prop :=
  af_min f <= z + match tol with MIDDLE => h ÷ 2 | _ => h end /\ z <= af_max f.

(** A table of (height, z) is a correct layer table. *)
Definition layer_table (base variation step h0 top : Z) (layers : list (Z * Z)) : Prop :=
  layers !! 0%nat = Some (h0, h0) /\
  (2 <= length layers)%nat /\
  (forall i h z h' z', layers !! i = Some (h, z) -> layers !! S i = Some (h', z') ->
     allowed_height base variation step h' /\ z' = z + h' /\ z < z') /\
  (exists h z, last layers = Some (h, z) /\ top < z) /\
  (forall i h z, (1 <= i)%nat -> (S i < length layers)%nat -> layers !! i = Some (h, z) -> z <= top).

(** Why a layer of height h' starts at z on a layer of height h. *)
Definition step_rule (tan : Q -> Q) (faces : list aface) (tol : slicing_tolerance)
    (base variation step threshold : Z) (first : bool) (h z h' : Z) : Prop :=
  (* it is at most one step thicker than the one below, unless it is the thinnest allowed *)
  (h' - h <= step \/ thinnest base variation step h') /\
  (* it is at most two steps thinner, unless nothing of the mesh is there (or it is the second layer) *)
  (first = true \/ h - h' <= 2 * step \/
     (thinnest base variation step h' /\ forall f, f ∈ faces -> ~ face_in_layer tol z h' f)) /\
  (* it is thinnest, or was forced by the previous layer being much thicker, or the flattest face in
     it stays within the topography threshold *)
  (thinnest base variation step h' \/ step < h - h' \/
     exists f, f ∈ faces /\ face_in_layer tol z h' f /\
       (forall g, g ∈ faces -> face_in_layer tol z h' g -> (af_slope f <= af_slope g)%Q) /\
       (tan (af_slope f) == 0 \/ inject_Z h' / tan (af_slope f) <= inject_Z threshold)%Q).

Theorem C10_adaptive_layers : forall tan faces tol base variation step threshold h0 top,
  0 < step -> 0 <= variation -> 0 < base + variation ->
  exists layers enough, (forall fuel, (enough <= fuel)%nat ->
      adaptive_layers tan fuel faces tol base variation step threshold h0 top = Ok layers) /\
    layer_table base variation step h0 top layers /\
    (forall i h z h' z', layers !! i = Some (h, z) -> layers !! S i = Some (h', z') ->
       step_rule tan faces tol base variation step threshold (Nat.eqb i 0) h z h').
Proof.
  intros tan faces tol base variation step threshold h0 top Hs Hv Hb.
  pose proof (allowed_loop_spec (base - variation) step Hs) as Hall.
  set (F1 := S (S (Z.to_nat (base + variation - (base - variation) + 1)))).
  destruct (Hall F1 (base + variation)) as (L & EL & HL); [lia|].
  assert (EL' : forall fuel, (F1 <= fuel)%nat -> calculateAllowedLayerHeights fuel base variation step = Ok L).
  { intros fuel Hf. destruct (Hall fuel (base + variation)) as (L' & EL2 & HL'); [lia|].
    unfold calculateAllowedLayerHeights. rewrite EL2. f_equal. apply list_eq. intros i.
    apply option_eq. intros x. by rewrite HL', HL. }
  assert (Hallowed : forall h, h ∈ L <-> allowed_height base variation step h).
  { intros h. unfold allowed_height. rewrite elem_of_list_lookup. split.
    - intros [i Hi]. apply HL in Hi as (-> & ? & ?). split; [done|]. split; [done|]. exists (Z.of_nat i). lia.
    - intros (? & ? & k & ? & ->). exists (Z.to_nat k). apply HL. rewrite Z2Nat.id by done. lia. }
  assert (Htop : L !! 0%nat = Some (base + variation)) by (apply HL; lia).
  destruct L as [|a0 rest]; [done|]. injection Htop as ->.
  set (L := (base + variation) :: rest) in *.
  set (mn := min_height (base + variation) rest).
  destruct (fold_min_spec rest (base + variation)) as (Hmin1 & Hmin2 & Hmin3). fold mn in Hmin1, Hmin2, Hmin3.
  assert (Hmn : mn ∈ L) by (destruct Hmin1 as [-> |]; [left|by right]).
  assert (Hmn_le : forall x, x ∈ L -> mn <= x).
  { intros x Hx. apply elem_of_cons in Hx as [-> |Hx]; [done|by apply Hmin3]. }
  assert (Hthin : thinnest base variation step mn).
  { split; [by apply Hallowed|]. intros x Hx. apply Hmn_le. by apply Hallowed. }
  assert (Hlast : List.last L (base + variation) = mn).
  { pose proof (last_elem (base + variation) rest) as Hl. fold L in Hl. pose proof (Hmn_le _ Hl).
    pose proof (last_lookup L (base + variation) ltac:(done)) as Hll. apply HL in Hll as (Ell & _ & _).
    apply elem_of_list_lookup in Hmn as [j Hj]. pose proof (lookup_lt_Some _ _ _ Hj) as Hlt.
    apply HL in Hj as (Ej & _ & _). assert (Z.of_nat j <= Z.of_nat (length L - 1)) by lia. nia. }
  set (middle := match tol with MIDDLE => true | _ => false end).
  pose proof (choose_spec tan faces middle step threshold Hs L (base + variation) (base - variation) HL mn Hmn Hmn_le) as Hch.
  assert (Hfil : forall z h f, inrange middle z h f <-> face_in_layer tol z h f).
  { intros z h f. unfold inrange, face_in_layer, upper_bound, middle. by destruct tol. }
  set (ch := chosen tan faces middle step threshold L (base + variation) mn mn).
  assert (HchL : forall z prev, ch z prev ∈ L).
  { intros z prev. unfold ch, chosen. specialize (Hch z prev L 0%nat [] eq_refl ltac:(done) ltac:(simpl; lia)).
    destruct (choose_height _ _ _ _ _ _ _ _ _ _ _); [apply Hch|done]. }
  destruct (layers_loop_spec tan faces middle step threshold L (base + variation) mn top mn)
    with (fuel := S (S (Z.to_nat (top - h0 + 1)))) (n := 1%nat) (z := h0) (prev := h0)
    as (ls & Els & Hlen & Hsp & Hla & Hin); [|lia|lia|].
  { intros z prev. specialize (HchL z prev). apply Hallowed in HchL. apply HchL. }
  exists ((h0, h0) :: ls), (Nat.max F1 (S (S (Z.to_nat (top - h0 + 1))))). split; [|split].
  - intros fuel Hf. unfold adaptive_layers. rewrite EL' by lia. cbn [rbind].
    unfold calculateLayers. change (match L with [] => _ | _ => ?X end) with X || unfold L at 1; cbv iota. fold mn. rewrite Hlast. fold middle. erewrite layers_loop_mono; [|..|exact Els]; [done|lia].
  - split; [done|]. split; [simpl in *; lia|]. split; [|split].
    + intros i h z h' z' Hi Hi'. simpl in Hi'. destruct (Hsp _ _ _ Hi') as (h1 & z1 & E1 & E2 & E3).
      rewrite E1 in Hi. injection Hi as -> ->.
      assert (allowed_height base variation step h') by (apply Hallowed; rewrite E2; apply HchL).
      split; [done|]. destruct H. lia.
    + done.
    + intros i h z Hi1 Hi2 Hi. destruct (Hin i h z Hi); simpl in *; lia.
  - intros i h z h' z' Hi Hi'. simpl in Hi'. destruct (Hsp _ _ _ Hi') as (h1 & z1 & E1 & E2 & E3).
    rewrite E1 in Hi. injection Hi as -> ->.
    assert (Hprev : i <> 0%nat -> h ∈ L).
    { intros Hne. destruct i as [|i]; [done|]. simpl in E1. apply Hsp in E1 as (? & ? & _ & -> & _). apply HchL. }
    specialize (Hch z h L 0%nat [] eq_refl ltac:(done) ltac:(simpl; lia)).
    unfold chosen in E2. destruct (choose_height _ _ _ _ _ _ _ _ _ _ _) as [h''|]; subst h'.
    + destruct Hch as (C1 & C2 & C3 & C4). unfold exceeded in *. split; [|split].
      * destruct C2 as [C2| ->]; [by left|by right].
      * destruct (Nat.eqb_spec i 0) as [?|Hne]; [by left|]. right; left.
        destruct (Z.le_gt_cases (h - h'') step); [lia|]. destruct C3 as [-> |]; [lia| |done].
        pose proof (proj1 (Hallowed h) (Hprev Hne)) as (_ & _ & k & ? & ->). nia.
      * destruct C4 as [-> |[[_ C4]|(f & Hf1 & Hf2 & Hf3 & Hf4)]]; [by left|by right; left|right; right].
        exists f. split; [done|]. split; [by apply Hfil|]. split.
        { intros g ? ?. apply Hf4; [done|by apply Hfil]. }
        unfold slope_allows in Hf3. apply orb_true_iff in Hf3 as [Hf3|Hf3].
        { left. by apply Qeq_bool_iff. } { right. by apply Qle_bool_iff. }
    + split; [by right|]. split; [right; right|by left]. split; [done|].
      intros f Hf Hfi. apply (Hch f Hf). by apply Hfil.
Qed.

(** The step size bounds thickening only: thinning by two steps happens.  So the claim "consecutive
    layers differ by at most the step" is false. *)
Theorem C10_step_bound_refuted : exists tan faces tol base variation step threshold h0 top fuel layers i h z h' z',
  0 < step /\ adaptive_layers tan fuel faces tol base variation step threshold h0 top = Ok layers /\
  layers !! S i = Some (h, z) /\ layers !! S (S i) = Some (h', z') /\
  (exists f, f ∈ faces /\ face_in_layer tol z h' f) /\ step < h - h'.
Proof.
  exists (fun q => q), [AFace 0 1000 (9#10); AFace 350 1000 (1#10)]%Q, EXCLUSIVE, 100, 40, 10, 150, 100, 600, 100%nat.
  eexists _, 1%nat, _, _, _, _. split; [lia|]. split; [vm_compute; reflexivity|].
  split; [reflexivity|]. split; [reflexivity|]. split; [|lia].
  exists (AFace 350 1000 (1#10)). split; [right; left|]. vm_compute. split; congruence.
Qed.

(** Without a positive step the list of allowed heights is never finished. *)
Theorem C10_zero_step_diverges : forall base variation fuel,
  0 <= variation -> 0 < base + variation -> calculateAllowedLayerHeights fuel base variation 0 = NoFuel.
Proof.
  intros base variation fuel Hv Hb. unfold calculateAllowedLayerHeights.
  induction fuel as [|fuel IH]; [done|]. simpl.
  destruct (Z.leb_spec (base - variation) (base + variation)); [|lia].
  destruct (Z.leb_spec (base + variation) 0); [lia|]. by rewrite Z.sub_0_r, IH.
Qed.

Example C10_nonvacuous :
  adaptive_layers (fun q => q) 100 [AFace 0 1000 (9#10); AFace 350 1000 (1#10)]%Q EXCLUSIVE 100 40 10 150 100 600
  = Ok [(100, 100); (110, 210); (120, 330); (100, 430); (80, 510); (60, 570); (60, 630)].
Proof. vm_compute. reflexivity. Qed.

Print Assumptions C10_adaptive_layers.
Print Assumptions C10_step_bound_refuted.
Print Assumptions C10_zero_step_diverges.
