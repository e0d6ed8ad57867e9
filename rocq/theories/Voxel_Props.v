(** C82: walking over the voxels along lines and polygons. *)
From Coq Require Import ZArith QArith Lia Lqa.
From stdpp Require Import list.
From Verif Require Import Common Geo_Model Geo_Spec Grid_Model Voxel_Model Voxel_Spec.
Open Scope Z_scope.

Section line.
  Variables (cs a b : pt3).
  Hypothesis cs_pos : forall d, 0 < get cs d.

  Notation df d := (get (diff a b) d).
  Notation pct := (percentage_here cs a b).

  Lemma diff_get d : df d = get b d - get a d.
  Proof using. by destruct d. Qed.


  Lemma get_set_same p d v : get (set_ p d v) d = v.
  Proof using. by destruct d. Qed.
  Lemma get_set_other p d d' v : d' <> d -> get (set_ p d v) d' = get p d'.
  Proof using. by destruct d, d'. Qed.
  Lemma pt3_ext (p q : pt3) : (forall d, get p d = get q d) -> p = q.
  Proof using.
    intros H. pose proof (H AX). pose proof (H AY). pose proof (H AZ). destruct p as [[??]?], q as [[??]?].
    cbn in *. congruence.
  Qed.

  Lemma vGridPoint_get p d : get (vGridPoint cs p) d = vGridCoord cs (get p d) d.
  Proof using. by destruct d. Qed.

  Lemma vGridCoord_bounds x d : vGridCoord cs x d * get cs d <= x <= (vGridCoord cs x d + 1) * get cs d.
  Proof using cs_pos.
    unfold vGridCoord. pose proof (cs_pos d). set (c := get cs d) in *.
    destruct (Z.ltb_spec x 0).
    - pose proof (Z.quot_rem' x c). pose proof (Z.rem_nonpos x c ltac:(lia) ltac:(lia)).
      pose proof (Z.rem_bound_pos_neg x c ltac:(lia) ltac:(lia)). nia.
    - pose proof (Z.quot_rem' x c). pose proof (Z.rem_bound_pos x c ltac:(lia) ltac:(lia)). nia.
  Qed.

  Lemma inj_nz z : z <> 0 -> ~ (inject_Z z == 0)%Q.
  Proof using. unfold Qeq, inject_Z. cbn. lia. Qed.
  Lemma inj_sub x y : (inject_Z (x - y) == inject_Z x - inject_Z y)%Q.
  Proof using. unfold Z.sub. rewrite inject_Z_plus, inject_Z_opp. ring. Qed.

  Definition boundary cell d : Z := (get cell d + (if 0 <? df d then 1 else 0)) * get cs d.

  Lemma pct_spec cell d : df d <> 0 ->
    (inject_Z (get a d) + pct cell d * inject_Z (get b d - get a d) == inject_Z (boundary cell d))%Q.
  Proof using.
    intros H. unfold percentage_here.
    assert (E : crossing_boundary cs a b cell d = boundary cell d).
    { unfold crossing_boundary, vLowerCoord, boundary. destruct (0 <? df d); lia. }
    rewrite E, <- (diff_get d), inj_sub. field. by apply inj_nz.
  Qed.

  Lemma stepping_none cell : stepping cs a b cell = None -> forall d, df d = 0.
  Proof using.
    unfold stepping, consider. cbn [fold_left].
    destruct (Z.eqb_spec (df AX) 0), (Z.eqb_spec (df AY) 0), (Z.eqb_spec (df AZ) 0);
      repeat (destruct (Qlt_le_dec _ _)); try discriminate; intros _ []; done.
  Qed.

  Lemma stepping_some cell d p : stepping cs a b cell = Some (d, p) ->
    df d <> 0 /\ p = pct cell d /\ forall d', df d' <> 0 -> (p <= pct cell d')%Q.
  Proof using.
    unfold stepping, consider. cbn [fold_left].
    destruct (Z.eqb_spec (df AX) 0), (Z.eqb_spec (df AY) 0), (Z.eqb_spec (df AZ) 0);
      repeat (destruct (Qlt_le_dec _ _)); try discriminate; intros [= <- <-];
      (split; [done|]); (split; [done|]); intros [] ?; try done; lra.
  Qed.

  (** ** The voxel stays with the line *)
  Lemma at3_le t u d : 0 < get b d - get a d -> (t <= u)%Q -> (at3 a b t d <= at3 a b u d)%Q.
  Proof using.
    intros H Ht. unfold at3. assert (0 < inject_Z (get b d - get a d))%Q by (rewrite <- (Zlt_Qlt 0); lia). nra.
  Qed.
  Lemma at3_ge t u d : get b d - get a d < 0 -> (t <= u)%Q -> (at3 a b u d <= at3 a b t d)%Q.
  Proof using.
    intros H Ht. unfold at3. assert (inject_Z (get b d - get a d) < 0)%Q by (rewrite <- (Zlt_Qlt _ 0); lia). nra.
  Qed.
  Lemma at3_lt_inv t u d : 0 < get b d - get a d -> (at3 a b t d <= at3 a b u d)%Q -> (t <= u)%Q.
  Proof using.
    intros H Ht. unfold at3 in Ht. assert (0 < inject_Z (get b d - get a d))%Q by (rewrite <- (Zlt_Qlt 0); lia). nra.
  Qed.
  Lemma at3_gt_inv t u d : get b d - get a d < 0 -> (at3 a b u d <= at3 a b t d)%Q -> (t <= u)%Q.
  Proof using.
    intros H Ht. unfold at3 in Ht. assert (inject_Z (get b d - get a d) < 0)%Q by (rewrite <- (Zlt_Qlt _ 0); lia). nra.
  Qed.
  Lemma at3_zero t u d : get b d - get a d = 0 -> (at3 a b t d == at3 a b u d)%Q.
  Proof using. intros H. unfold at3. rewrite H. ring. Qed.

  Lemma boundary_cases cell d : df d <> 0 ->
    (0 < get b d - get a d /\ (at3 a b (pct cell d) d == inject_Z ((get cell d + 1) * get cs d))%Q) \/
    (get b d - get a d < 0 /\ (at3 a b (pct cell d) d == inject_Z (get cell d * get cs d))%Q).
  Proof using.
    intros H. pose proof (pct_spec cell d H) as E. unfold boundary in E. pose proof (diff_get d).
    destruct (Z.ltb_spec 0 (df d)); [left|right]; (split; [lia|]); unfold at3; rewrite E; [done|].
    by rewrite Z.add_0_r.
  Qed.

  (** The line leaves the voxel later than it is in it. *)
  Lemma pct_after cell T d : in_voxel cs cell (at3 a b T) -> df d <> 0 -> (T <= pct cell d)%Q.
  Proof using.
    intros Hin H. destruct (Hin d) as [L U]. destruct (boundary_cases cell d H) as [[S E]|[S E]].
    - apply (at3_lt_inv _ _ d S). rewrite E. done.
    - apply (at3_gt_inv _ _ d S). rewrite E. done.
  Qed.

  (** Until it leaves, the line is in the voxel. *)
  Lemma stays cell T t : in_voxel cs cell (at3 a b T) -> (T <= t)%Q ->
    (forall d, df d <> 0 -> (t <= pct cell d)%Q) -> in_voxel cs cell (at3 a b t).
  Proof using.
    intros Hin HT Hp d. destruct (Hin d) as [L U]. destruct (Z.eq_dec (df d) 0) as [E|N].
    - rewrite diff_get in E. rewrite (at3_zero t T d E). done.
    - specialize (Hp d N). destruct (boundary_cases cell d N) as [[S E]|[S E]].
      + pose proof (at3_le _ _ d S HT). pose proof (at3_le _ _ d S Hp). rewrite E in *. split; lra.
      + pose proof (at3_ge _ _ d S HT). pose proof (at3_ge _ _ d S Hp). rewrite E in *. split; lra.
  Qed.

  Definition dir d : Z := if 0 <? df d then 1 else -1.

  Lemma step_in cell d : in_voxel cs cell (at3 a b (pct cell d)) -> df d <> 0 ->
    in_voxel cs (step a b cell d) (at3 a b (pct cell d)).
  Proof using cs_pos.
    intros Hin H d'. unfold step. destruct (Hin d') as [L U].
    assert (D : d' = d \/ d' <> d) by (destruct d, d'; auto).
    destruct D as [->|D]; [rewrite get_set_same|by rewrite get_set_other].
    pose proof (cs_pos d). pose proof (diff_get d).
    destruct (boundary_cases cell d H) as [[S E]|[S E]]; rewrite E in *;
      destruct (Z.ltb_spec 0 (df d)); try lia; rewrite <- !Zle_Qle; split; nia.
  Qed.

  Lemma step_face cell d : share_face cell (step a b cell d).
  Proof using.
    exists d. unfold step. rewrite get_set_same. split; [destruct (0 <? df d); lia|]. intros d' D.
    by rewrite get_set_other.
  Qed.

  (** ** How far along *)
  Definition phi (g : pt3) : Z := dir AX * get g AX + dir AY * get g AY + dir AZ * get g AZ.
  Lemma phi_step cell d : phi (step a b cell d) = phi cell + 1.
  Proof using. unfold phi, step, dir. destruct (0 <? df AX) eqn:E1, (0 <? df AY) eqn:E2, (0 <? df AZ) eqn:E3, d; rewrite ?E1, ?E2, ?E3; cbn [get set_ fst snd]; lia. Qed.

  (** How many steps are left in one direction. *)
  Definition rest d (g : pt3) : Z :=
    if df d =? 0 then 0
    else if 0 <? df d then get (vGridPoint cs b) d + 1 - get g d else get g d - (get (vGridPoint cs b) d - 1).

  Lemma rest_step cell d : df d <> 0 -> (pct cell d <= 1)%Q ->
    0 <= rest d (step a b cell d) /\ rest d cell = rest d (step a b cell d) + 1.
  Proof using cs_pos.
    intros H Hp. unfold rest, step. rewrite get_set_same. destruct (Z.eqb_spec (df d) 0); [done|].
    assert (E1 : (at3 a b 1 d == inject_Z (get b d))%Q).
    { unfold at3. rewrite inj_sub. ring. }
    rewrite !vGridPoint_get. pose proof (vGridCoord_bounds (get b d) d) as B. pose proof (cs_pos d).
    pose proof (diff_get d).
    destruct (boundary_cases cell d H) as [[S E]|[S E]].
    - pose proof (at3_le _ _ d S Hp) as L. rewrite E, E1, <- Zle_Qle in L.
      destruct (Z.ltb_spec 0 (df d)); [|lia]. split; [|lia]. nia.
    - pose proof (at3_ge _ _ d S Hp) as L. rewrite E, E1, <- Zle_Qle in L.
      destruct (Z.ltb_spec 0 (df d)); [lia|]. split; [|lia]. nia.
  Qed.
  Lemma rest_other cell d d' : d' <> d -> rest d' (step a b cell d) = rest d' cell.
  Proof using. intros D. unfold rest, step. by rewrite get_set_other. Qed.

  Definition left_ (g : pt3) : nat := Z.to_nat (rest AX g) + Z.to_nat (rest AY g) + Z.to_nat (rest AZ g).
  Lemma left_step cell d : df d <> 0 -> (pct cell d <= 1)%Q -> left_ cell = S (left_ (step a b cell d)).
  Proof using cs_pos.
    intros H Hp. pose proof (rest_step cell d H Hp). unfold left_.
    destruct d; rewrite ?(rest_other cell AX AY), ?(rest_other cell AX AZ), ?(rest_other cell AY AX),
      ?(rest_other cell AY AZ), ?(rest_other cell AZ AX), ?(rest_other cell AZ AY) by done; lia.
  Qed.

  (** ** The whole walk *)
  Definition walked (T : Q) (cell : pt3) (cells : list pt3) : Prop :=
    head cells = Some cell /\
    (exists g, last cells = Some g /\ in_voxel cs g (at3 a b 1)) /\
    (forall i g h, cells !! i = Some g -> cells !! S i = Some h -> share_face g h) /\
    NoDup cells /\ (forall g, g ∈ cells -> phi cell <= phi g) /\
    (forall g, g ∈ cells -> exists t, (T <= t <= 1)%Q /\ in_voxel cs g (at3 a b t)) /\
    (forall t, (T <= t <= 1)%Q -> exists g, g ∈ cells /\ in_voxel cs g (at3 a b t)).

  Lemma walked_last T cell : (T <= 1)%Q -> in_voxel cs cell (at3 a b T) ->
    (forall t, (T <= t <= 1)%Q -> in_voxel cs cell (at3 a b t)) -> walked T cell [cell].
  Proof using.
    intros HT Hin Hall. split; [done|]. split; [exists cell; split; [done|apply Hall; lra]|].
    split; [by intros [|[|i]] g h|].
    split; [apply NoDup_singleton|]. split; [by intros g ->%elem_of_list_singleton|]. split.
    - intros g ->%elem_of_list_singleton. exists T. split; [lra|done].
    - intros t Ht. exists cell. split; [by left|by apply Hall].
  Qed.

  Lemma walked_cons T P cell next cells : (0 <= T)%Q -> (T <= P)%Q -> (P <= 1)%Q -> in_voxel cs cell (at3 a b T) ->
    (forall t, (T <= t <= P)%Q -> in_voxel cs cell (at3 a b t)) -> share_face cell next -> phi next = phi cell + 1 ->
    walked P next cells -> walked T cell (cell :: cells).
  Proof using.
    intros H0 HT HP Hin Hall Hf Hphi (A & (z & B & B') & C & D & E & F & G).
    destruct cells as [|n cells]; [done|]. cbn in A. injection A as ->.
    split; [done|]. split; [by exists z|]. split.
    { intros [|i] g h; cbn.
      - by intros [= <-] [= <-].
      - apply C. }
    split.
    { constructor; [|done]. intros X%E. lia. }
    split.
    { intros g [->|X]%elem_of_cons; [done|]. apply E in X. lia. }
    split.
    { intros g [->|X]%elem_of_cons; [exists T; split; [lra|done]|].
      destruct (F g X) as (t & ? & ?). exists t. split; [lra|done]. }
    intros t Ht. destruct (Qlt_le_dec t P).
    - exists cell. split; [by left|]. apply Hall. lra.
    - destruct (G t) as (g & ? & ?); [lra|]. exists g. split; [by right|done].
  Qed.

  Lemma walk_from_ok (Hne : exists d, df d <> 0) fuel : forall cell T,
    (0 <= T <= 1)%Q -> in_voxel cs cell (at3 a b T) -> (left_ cell < fuel)%nat ->
    exists cells, (forall S (f : S -> pt3 -> S * bool) s, walk_from cs a b fuel f cell s = Ok (run f s cells)) /\
      walked T cell cells.
  Proof using cs_pos.
    induction fuel as [|fuel IH]; intros cell T HT Hin Hf; [lia|]. cbn [walk_from].
    destruct (stepping cs a b cell) as [[d p]|] eqn:Es.
    2:{ destruct Hne as [d Hd]. by destruct (Hd (stepping_none _ Es d)). }
    apply stepping_some in Es as (Hd & -> & Hmin).
    pose proof (pct_after cell T d Hin Hd) as HTp.
    destruct (Qlt_le_dec 1 (pct cell d)) as [Hgt|Hle].
    - exists [cell]. split.
      { intros S f s. cbn [run]. destruct (f s cell) as [s' ok]. cbn [fst snd]. by destruct ok. }
      apply walked_last; [lra|done|]. intros t Ht. apply (stays cell T); [done|lra|]. intros d' Hd'.
      specialize (Hmin d' Hd'). lra.
    - assert (Hall : forall t, (T <= t <= pct cell d)%Q -> in_voxel cs cell (at3 a b t)).
      { intros t Ht. apply (stays cell T); [done|lra|]. intros d' Hd'. specialize (Hmin d' Hd'). lra. }
      destruct (IH (step a b cell d) (pct cell d)) as (cells & Hrun & Hw).
      { split; [lra|done]. }
      { apply step_in; [|done]. apply Hall. lra. }
      { rewrite (left_step cell d Hd Hle) in Hf. lia. }
      exists (cell :: cells). split.
      { intros S f s. cbn [run]. destruct (f s cell) as [s' ok]. cbn [fst snd]. destruct ok; cbn [negb]; [|done]. apply Hrun. }
      apply (walked_cons T (pct cell d) cell (step a b cell d)); try done; [lra|apply step_face|apply phi_step].
  Qed.

  Lemma start_in : in_voxel cs (vGridPoint cs a) (at3 a b 0).
  Proof using cs_pos.
    intros d. rewrite vGridPoint_get. pose proof (vGridCoord_bounds (get a d) d).
    assert (E : (at3 a b 0 d == inject_Z (get a d))%Q) by (unfold at3; ring).
    rewrite E, <- !Zle_Qle. lia.
  Qed.
  Lemma end_in : in_voxel cs (vGridPoint cs b) (at3 a b 1).
  Proof using cs_pos.
    intros d. rewrite vGridPoint_get. pose proof (vGridCoord_bounds (get b d) d).
    assert (E : (at3 a b 1 d == inject_Z (get b d))%Q) by (unfold at3; rewrite inj_sub; ring).
    rewrite E, <- !Zle_Qle. lia.
  Qed.

  Lemma voxel_convex g t : in_voxel cs g (at3 a b 0) -> in_voxel cs g (at3 a b 1) -> (0 <= t <= 1)%Q ->
    in_voxel cs g (at3 a b t).
  Proof using.
    intros H0 H1 Ht d. destruct (H0 d) as [L0 U0]. destruct (H1 d) as [L1 U1].
    destruct (Z.lt_trichotomy (get b d - get a d) 0) as [S|[S|S]].
    - pose proof (at3_ge 0 t d S ltac:(lra)). pose proof (at3_ge t 1 d S ltac:(lra)). split; lra.
    - rewrite (at3_zero t 0 d S). done.
    - pose proof (at3_le 0 t d S ltac:(lra)). pose proof (at3_le t 1 d S ltac:(lra)). split; lra.
  Qed.

  Lemma inside_unique g h u : inside_voxel cs g u -> in_voxel cs h u -> g = h.
  Proof using cs_pos.
    intros Hg Hh. apply pt3_ext. intros d. destruct (Hg d) as [A B], (Hh d) as [C D]. pose proof (cs_pos d).
    assert (X : (inject_Z (get g d * get cs d) < inject_Z ((get h d + 1) * get cs d))%Q) by lra.
    assert (Y : (inject_Z (get h d * get cs d) < inject_Z ((get g d + 1) * get cs d))%Q) by lra.
    rewrite <- Zlt_Qlt in X, Y. nia.
  Qed.

  Lemma rest_start d :
    (Z.to_nat (rest d (vGridPoint cs a)) <= Z.to_nat (Z.abs (get (vGridPoint cs b) d - get (vGridPoint cs a) d) + 1))%nat.
  Proof using. unfold rest. destruct (df d =? 0), (0 <? df d); lia. Qed.
  Lemma walk_fuel_enough : (left_ (vGridPoint cs a) < walk_fuel cs a b)%nat.
  Proof using.
    unfold left_, walk_fuel. pose proof (rest_start AX). pose proof (rest_start AY). pose proof (rest_start AZ). lia.
  Qed.

  (** C82.  The callback is called on voxels along the line in order, up to and including the first
      on which it returns false, and the result is false exactly then. *)
  Theorem C82_line :
    exists cells, (forall S (f : S -> pt3 -> S * bool) s, walkLine cs a b f s = Ok (run f s cells)) /\
      voxels_along cs a b cells.
  Proof using cs_pos.
    unfold walkLine. destruct (bool_decide_reflect (vGridPoint cs a = vGridPoint cs b)) as [E|N].
    - exists [vGridPoint cs a]. split.
      { intros S f s. cbn [run]. destruct (f s (vGridPoint cs a)) as [s' []]; done. }
      assert (H1 : in_voxel cs (vGridPoint cs a) (at3 a b 1)) by (rewrite E; apply end_in).
      pose proof start_in as H0.
      split; [eauto|]. split; [eauto|]. split; [by intros [|[|i]] g h|].
      split; [apply NoDup_singleton|].
      split; [intros g ->%elem_of_list_singleton; exists 0%Q; split; [lra|done]|].
      split; [intros t Ht; exists (vGridPoint cs a); split; [by left|by apply voxel_convex]|].
      intros t g Ht Hg. rewrite (inside_unique g (vGridPoint cs a) _ Hg); [by left|by apply voxel_convex].
    - destruct (walk_from_ok) with (fuel := walk_fuel cs a b) (cell := vGridPoint cs a) (T := 0%Q)
        as (cells & Hrun & A & B & C & D & E & F & G).
      { destruct (decide (df AX = 0)) as [EX|]; [|by eauto]. destruct (decide (df AY = 0)) as [EY|]; [|by eauto].
        destruct (decide (df AZ = 0)) as [EZ|]; [|by eauto]. destruct N. apply pt3_ext. intros d.
        rewrite !vGridPoint_get. f_equal. pose proof (diff_get AX). pose proof (diff_get AY). pose proof (diff_get AZ).
        destruct d; lia. }
      { lra. }
      { apply start_in. }
      { apply walk_fuel_enough. }
      exists cells. split; [done|]. split; [exists (vGridPoint cs a); split; [done|apply start_in]|].
      do 5 (split; [done|]). intros t g Ht Hg. destruct (G t Ht) as (h & Hh & Hin).
      by rewrite (inside_unique g h _ Hg Hin).
  Qed.
End line.
Print Assumptions C82_line.

(** The voxel that the end of the line is put in is not always among them. *)
Theorem C82_end_voxel_refuted :
  exists cs a b, (forall d, 0 < get cs d) /\
    exists cells, (forall S (f : S -> pt3 -> S * bool) s, walkLine cs a b f s = Ok (run f s cells)) /\
      vGridPoint cs b ∉ cells.
Proof.
  exists (10, 10, 10), (15, 5, 0), (10, 10, 0). split; [by intros []|].
  exists [(1, 0, 0); (0, 0, 0); (0, 1, 0)]. split.
  - intros S f s. unfold walkLine. rewrite bool_decide_eq_false_2 by done.
    assert (E1 : stepping (10, 10, 10) (15, 5, 0) (10, 10, 0) (1, 0, 0) = Some (AX, (-5 # 1) / inject_Z (-5))%Q) by reflexivity.
    assert (E2 : stepping (10, 10, 10) (15, 5, 0) (10, 10, 0) (0, 0, 0) = Some (AY, inject_Z 5 / inject_Z 5)%Q) by reflexivity.
    assert (E3 : stepping (10, 10, 10) (15, 5, 0) (10, 10, 0) (0, 1, 0) = Some (AX, inject_Z (-15) / inject_Z (-5))%Q) by reflexivity.
    change (walk_fuel (10, 10, 10) (15, 5, 0) (10, 10, 0)) with 5%nat.
    change (vGridPoint (10, 10, 10) (15, 5, 0)) with (1, 0, 0).
    cbn [walk_from run]. destruct (f s (1, 0, 0)) as [s1 []]; cbn [fst snd negb]; [|done]. rewrite E1.
    destruct (Qlt_le_dec _ _) as [L|_]; [by vm_compute in L|].
    change (step (15, 5, 0) (10, 10, 0) (1, 0, 0) AX) with (0, 0, 0).
    destruct (f s1 (0, 0, 0)) as [s2 []]; cbn [fst snd negb]; [|done]. rewrite E2.
    destruct (Qlt_le_dec _ _) as [L|_]; [by vm_compute in L|].
    change (step (15, 5, 0) (10, 10, 0) (0, 0, 0) AY) with (0, 1, 0).
    destruct (f s2 (0, 1, 0)) as [s3 []]; cbn [fst snd negb]; [|done]. rewrite E3.
    destruct (Qlt_le_dec _ _) as [_|L]; [done|by vm_compute in L].
  - change (vGridPoint (10, 10, 10) (10, 10, 0)) with (1, 1, 0).
    intros H. repeat (apply elem_of_cons in H as [H|H]; [discriminate|]). by apply elem_of_nil in H.
Qed.
Print Assumptions C82_end_voxel_refuted.

(** ** Polygons *)
Definition lift (z : Z) (p : pt) : pt3 := (p.1, p.2, z).

Lemma run_app {S A} (f : S -> A -> S * bool) l1 : forall s l2,
  run f s (l1 ++ l2) = (let r := run f s l1 in if (r.2 : bool) then run f r.1 l2 else r).
Proof.
  induction l1 as [|x l1 IH]; intros s l2; cbn [run app]; [done|]. destruct (f s x) as [s' []]; [apply IH|done].
Qed.

Lemma walk_lines_ok cs z poly (Hcs : forall d, 0 < get cs d) : forall l,
  exists walks : list (list pt3),
    (forall S (f : S -> pt3 -> S * bool) s, walk_lines cs f z l poly s = Ok (run f s (concat walks))) /\
    Forall2 (fun e cells => voxels_along cs (lift z e.1) (lift z e.2) cells) (zip (l :: poly) poly) walks.
Proof.
  induction poly as [|p poly IH]; intros l; [by exists []; split; [|constructor]|].
  destruct (IH p) as (walks & Hrun & Hall). destruct (C82_line cs (lift z l) (lift z p) Hcs) as (cells & Hr & Ha).
  exists (cells :: walks). split; [|by constructor]. intros S f s. cbn [walk_lines concat].
  change (l.1, l.2, z) with (lift z l). change (p.1, p.2, z) with (lift z p). rewrite Hr, run_app. cbn [rbind].
  destruct (run f s cells) as [s' []]; cbn [fst snd negb]; [apply Hrun|done].
Qed.

(** C82, polygons: the voxels along each side of each polygon are processed, in order. *)
Theorem C82_polygons cs z polys :
  (forall d, 0 < get cs d) -> [] ∉ polys ->
  exists walks : list (list pt3),
    (forall S (f : S -> pt3 -> S * bool) s, walkPolygons cs f z polys s = Ok (run f s (concat walks))) /\
    Forall2 (fun e cells => voxels_along cs (lift z e.1) (lift z e.2) cells) (flat_map sides polys) walks.
Proof.
  intros Hcs. induction polys as [|poly polys IH]; intros Hne; [by exists []; split; [|constructor]|].
  destruct IH as (walks & Hrun & Hall); [intros H; apply Hne; by right|].
  destruct (last poly) as [l|] eqn:El; [|apply last_None in El as ->; destruct Hne; by left].
  destruct (walk_lines_ok cs z poly Hcs l) as (walks1 & Hrun1 & Hall1).
  exists (walks1 ++ walks). split.
  - intros S f s. cbn [walkPolygons]. rewrite El. cbn [of_opt rbind]. rewrite Hrun1, concat_app, run_app. cbn [rbind].
    destruct (run f s (concat walks1)) as [s' []]; cbn [fst snd negb]; [apply Hrun|done].
  - cbn [flat_map]. apply Forall2_app; [|done]. unfold sides. by rewrite El.
Qed.
Print Assumptions C82_polygons.

(** A polygon without points is not allowed. *)
Theorem C82_no_points_refuted :
  exists cs polys, (forall d, 0 < get cs d) /\
    forall S (f : S -> pt3 -> S * bool) s, walkPolygons cs f 0 polys s = UB.
Proof. exists (1, 1, 1), [[]]. split; [by intros []|done]. Qed.
Print Assumptions C82_no_points_refuted.

Lemma run_map {S A B} (f : S -> B -> S * bool) (g : A -> B) l : forall s,
  run (fun s a => f s (g a)) s l = run f s (map g l).
Proof. induction l as [|x l IH]; intros s; cbn [run map]; [done|]. destruct (f s (g x)) as [s' []]; [apply IH|done]. Qed.

Lemma run_dilate {S} (f : S -> pt3 -> S * bool) ks l : forall s,
  run (dilate ks f) s l = run f s (flat_map (fun g => map (add3 g) ks) l).
Proof.
  induction l as [|x l IH]; intros s; cbn [run flat_map]; [done|]. rewrite run_app. unfold dilate at 1.
  rewrite (run_map f (add3 x)). destruct (run f s (map (add3 x) ks)) as [s' []]; cbn [fst snd]; [apply IH|done].
Qed.

Lemma half_cell_even cs k d : 0 < get k d -> 2 <= get cs d ->
  half_cell cs k d = (if Z.even (get k d) then get cs d / 2 else 0).
Proof.
  intros Hk Hc. unfold half_cell. rewrite Z.rem_mod_nonneg by lia. rewrite Zmod_even.
  destruct (Z.even (get k d)); [|done]. rewrite Z.sub_0_r, Z.mul_1_l. by apply Z.quot_div_nonneg; lia.
Qed.

(** C82, with a kernel: each voxel along the sides of the polygons is replaced by those of the kernel
    around it.  The polygons are moved by half a voxel, but only if the kernel has an even size both
    in X and in Y, and in Z if it has an even size in Z. *)
Theorem C82_dilated cs k ty z polys :
  (forall d, 2 <= get cs d) -> (forall d, 0 < get k d) -> [] ∉ polys ->
  let both := Z.even (get k AX) && Z.even (get k AY) in
  let move (p : pt) : pt := if both then (p.1 + get cs AX / 2, p.2 + get cs AY / 2) else p in
  let z' := if Z.even (get k AZ) then z + get cs AZ / 2 else z in
  exists walks : list (list pt3),
    (forall S (f : S -> pt3 -> S * bool) s, walkDilatedPolygons cs k ty f z polys s =
       Ok (run f s (flat_map (fun g => map (add3 g) (relative_cells k ty)) (concat walks)))) /\
    Forall2 (fun e cells => voxels_along cs (lift z' e.1) (lift z' e.2) cells) (flat_map sides (map (map move) polys)) walks.
Proof.
  intros Hcs Hk Hne both move z'.
  destruct (C82_polygons cs z' (map (map move) polys)) as (walks & Hrun & Hall).
  { intros d. specialize (Hcs d). lia. }
  { intros (q & E & Hq)%elem_of_list_fmap. apply Hne. by destruct q. }
  exists walks. split; [|done]. intros S f s. unfold walkDilatedPolygons.
  rewrite !half_cell_even by auto. rewrite <- run_dilate, <- Hrun. f_equal.
  - unfold z'. destruct (Z.even (get k AZ)); lia.
  - unfold move, both. pose proof (Hcs AX). pose proof (Hcs AY).
    assert (X : (get cs AX / 2 =? 0) = false) by (apply Z.eqb_neq; pose proof (Z.div_le_lower_bound (get cs AX) 2 1 ltac:(lia) ltac:(lia)); lia).
    assert (Y : (get cs AY / 2 =? 0) = false) by (apply Z.eqb_neq; pose proof (Z.div_le_lower_bound (get cs AY) 2 1 ltac:(lia) ltac:(lia)); lia).
    assert (I : map (map (fun p : pt => p)) polys = polys).
    { rewrite <- (map_id polys) at 2. apply map_ext. intros l. apply map_id. }
    destruct (Z.even (get k AX)), (Z.even (get k AY)); rewrite ?X, ?Y; cbn [negb andb]; rewrite ?I; done.
Qed.
Print Assumptions C82_dilated.

(** The polygons are not moved to the middle of a kernel of an even size in X and an odd one in Y. *)
Theorem C82_mixed_kernel_refuted :
  exists cs k, (forall d, 2 <= get cs d) /\ (forall d, 0 < get k d) /\ Z.even (get k AX) = true /\
    forall S (f : S -> pt3 -> S * bool) s polys z ty,
      walkDilatedPolygons cs k ty f z polys s = walkPolygons cs (dilate (relative_cells k ty) f) z polys s.
Proof.
  exists (10, 10, 10), (2, 1, 1). split; [by intros []|]. split; [by intros []|]. split; [done|].
  intros S f s polys z ty. unfold walkDilatedPolygons.
  change (half_cell (10, 10, 10) (2, 1, 1) AX) with 5. change (half_cell (10, 10, 10) (2, 1, 1) AY) with 0.
  change (half_cell (10, 10, 10) (2, 1, 1) AZ) with 0. cbn [Z.eqb negb andb]. by rewrite Z.add_0_r.
Qed.
Print Assumptions C82_mixed_kernel_refuted.

(** ** Kernels *)
Lemma floors_ok p q r x y z k1 k2 k3 :
  0 < p -> 0 < q -> 0 < r -> 0 <= x -> 0 <= y -> 0 <= z ->
  p <= k1 -> q <= k2 -> r <= k3 -> (x <> 0 -> 2 * p <= k1) -> (y <> 0 -> 2 * q <= k2) -> (z <> 0 -> 2 * r <= k3) ->
  let M := k1 * k2 * k3 in
  M * x / p + M * y / q + M * z / r <= M <-> x * q * r + y * p * r + z * p * q <= p * q * r.
Proof.
  intros Hp Hq Hr Hx Hy Hz K1 K2 K3 L1 L2 L3. cbn zeta. remember (k1 * k2 * k3) as M eqn:EM.
  assert (HM : 0 < M) by (rewrite EM; repeat apply Z.mul_pos_pos; lia).
  assert (D : forall n w, 0 < n -> 0 <= w -> exists e, (e = 0 \/ e = 1) /\ (w <> 0 -> e = 1) /\ (w = 0 -> e = 0) /\
     M * w - e * (n - 1) <= (M * w / n) * n <= M * w).
  { intros n w Hn Hw. pose proof (Z.div_mod (M * w) n ltac:(lia)). pose proof (Z.mod_pos_bound (M * w) n Hn).
    destruct (Z.eq_dec w 0) as [->|N].
    - exists 0. rewrite Z.mul_0_r, Z.div_0_l by lia. lia.
    - exists 1. split; [by right|]. split; [done|]. split; [done|]. lia. }
  destruct (D p x Hp Hx) as (e1 & E1 & N1 & O1 & F1). destruct (D q y Hq Hy) as (e2 & E2 & N2 & O2 & F2).
  destruct (D r z Hr Hz) as (e3 & E3 & N3 & O3 & F3). clear D.
  set (A := M * x / p) in *. set (B := M * y / q) in *. set (C := M * z / r) in *. clearbody A B C.
  assert (Hqr : 0 < q * r) by (by apply Z.mul_pos_pos). assert (Hpr : 0 < p * r) by (by apply Z.mul_pos_pos).
  assert (Hpq : 0 < p * q) by (by apply Z.mul_pos_pos). assert (Hpqr : 0 < p * q * r) by (by apply Z.mul_pos_pos).
  assert (S : (A + B + C) * (p * q * r) = (A * p) * (q * r) + (B * q) * (p * r) + (C * r) * (p * q)) by ring.
  split; intros H.
  - destruct (Z.le_gt_cases (x * q * r + y * p * r + z * p * q) (p * q * r)) as [G|G]; [done|exfalso].
    assert (G1 : (M * x - e1 * (p - 1)) * (q * r) <= (A * p) * (q * r)) by (apply Z.mul_le_mono_pos_r; lia).
    assert (G2 : (M * y - e2 * (q - 1)) * (p * r) <= (B * q) * (p * r)) by (apply Z.mul_le_mono_pos_r; lia).
    assert (G3 : (M * z - e3 * (r - 1)) * (p * q) <= (C * r) * (p * q)) by (apply Z.mul_le_mono_pos_r; lia).
    assert (G4 : (A + B + C) * (p * q * r) <= M * (p * q * r)) by (apply Z.mul_le_mono_pos_r; lia).
    assert (G5 : M * (p * q * r + 1) <= M * (x * q * r + y * p * r + z * p * q)) by (apply Z.mul_le_mono_pos_l; lia).
    assert (K : (1 + e1 + e2 + e3) * (p * q * r) <= M).
    { assert (B1 : (1 + e1) * p <= k1) by (destruct E1 as [-> | ->]; [lia|]; destruct (Z.eq_dec x 0) as [Z0|]; [by apply O1 in Z0|lia]).
      assert (B2 : (1 + e2) * q <= k2) by (destruct E2 as [-> | ->]; [lia|]; destruct (Z.eq_dec y 0) as [Z0|]; [by apply O2 in Z0|lia]).
      assert (B3 : (1 + e3) * r <= k3) by (destruct E3 as [-> | ->]; [lia|]; destruct (Z.eq_dec z 0) as [Z0|]; [by apply O3 in Z0|lia]).
      assert (P1 : 0 <= (1 + e1) * p) by (destruct E1 as [-> | ->]; lia).
      assert (P2 : 0 <= (1 + e2) * q) by (destruct E2 as [-> | ->]; lia).
      assert (P3 : 0 <= (1 + e3) * r) by (destruct E3 as [-> | ->]; lia).
      assert (B12 : ((1 + e1) * p) * ((1 + e2) * q) <= k1 * k2) by (by apply Z.mul_le_mono_nonneg).
      assert (P12 : 0 <= ((1 + e1) * p) * ((1 + e2) * q)) by (by apply Z.mul_nonneg_nonneg).
      assert (B123 : ((1 + e1) * p) * ((1 + e2) * q) * ((1 + e3) * r) <= k1 * k2 * k3) by (by apply Z.mul_le_mono_nonneg).
      rewrite <- EM in B123. transitivity (((1 + e1) * (1 + e2) * (1 + e3)) * (p * q * r)); [|lia].
      apply Z.mul_le_mono_pos_r; [done|]. destruct E1 as [-> | ->], E2 as [-> | ->], E3 as [-> | ->]; lia. }
    assert (T1 : e1 * (q * r) >= 0) by (destruct E1 as [-> | ->]; lia).
    assert (T2 : e2 * (p * r) >= 0) by (destruct E2 as [-> | ->]; lia).
    assert (T3 : e3 * (p * q) >= 0) by (destruct E3 as [-> | ->]; lia).
    clear - S G1 G2 G3 G4 G5 K T1 T2 T3 Hpqr. lia.
  - apply (Z.mul_le_mono_pos_r _ _ (p * q * r)); [done|]. rewrite S.
    assert (G1 : (A * p) * (q * r) <= (M * x) * (q * r)) by (apply Z.mul_le_mono_pos_r; lia).
    assert (G2 : (B * q) * (p * r) <= (M * y) * (p * r)) by (apply Z.mul_le_mono_pos_r; lia).
    assert (G3 : (C * r) * (p * q) <= (M * z) * (p * q)) by (apply Z.mul_le_mono_pos_r; lia).
    assert (G5 : M * (x * q * r + y * p * r + z * p * q) <= M * (p * q * r)) by (apply Z.mul_le_mono_pos_l; lia).
    clear - G1 G2 G3 G5. lia.
Qed.

Lemma side_pos k x : 0 < side k x.
Proof. unfold side. lia. Qed.

Lemma rel_dist_side mult k x : 0 < k -> 0 <= mult -> - (k / 2) <= x < k - k / 2 ->
  rel_dist mult k x = mult * Z.abs x / side k x.
Proof.
  intros Hk Hm Hx. unfold rel_dist, klimit, side. rewrite (Z.quot_div_nonneg k 2) by lia.
  pose proof (Z.div_pos k 2 ltac:(lia) ltac:(lia)).
  destruct (Z.ltb_spec x 0).
  - destruct (Z.eqb_spec (- (k / 2)) 0); [lia|]. rewrite Z.quot_opp_r by lia. rewrite <- Z.quot_opp_l by lia.
    rewrite Z.abs_neq, Z.max_r by lia. replace (- (mult * x)) with (mult * - x) by ring. apply Z.quot_div_nonneg; nia.
  - rewrite Z.abs_eq by lia. destruct (Z.eqb_spec (k - k / 2 - 1) 0) as [->|].
    + rewrite Z.max_l by lia. apply Z.quot_div_nonneg; nia.
    + rewrite Z.max_r by lia. apply Z.quot_div_nonneg; nia.
Qed.

Lemma side_le k x : 0 < k -> side k x <= k.
Proof.
  intros Hk. unfold side. pose proof (Z.div_pos k 2 ltac:(lia) ltac:(lia)).
  pose proof (Z.mul_div_le k 2 ltac:(lia)). destruct (x <? 0); lia.
Qed.
Lemma side_half k x : 0 < k -> - (k / 2) <= x < k - k / 2 -> Z.abs x <> 0 -> 2 * side k x <= k.
Proof.
  intros Hk Hx N. unfold side. pose proof (Z.mul_div_le k 2 ltac:(lia)). pose proof (Z.mod_pos_bound k 2 ltac:(lia)).
  pose proof (Z.div_mod k 2 ltac:(lia)). destruct (Z.ltb_spec x 0); lia.
Qed.

Lemma fraction_int k x : (fraction k x == Z.abs x # Z.to_pos (side k x))%Q.
Proof.
  unfold fraction. pose proof (side_pos k x). destruct (side k x) as [|p|p]; [lia| |lia].
  unfold Qdiv, Qmult, Qinv, Qeq, inject_Z. cbn. lia.
Qed.

Lemma fractions_int x y z p q r : 0 < p -> 0 < q -> 0 < r ->
  ((x # Z.to_pos p) + (y # Z.to_pos q) + (z # Z.to_pos r) <= 1)%Q <-> x * q * r + y * p * r + z * p * q <= p * q * r.
Proof.
  intros Hp Hq Hr. destruct p as [|p|p], q as [|q|q], r as [|r|r]; try lia.
  unfold Qle, Qplus. cbn [Z.to_pos Qnum Qden]. rewrite !Pos2Z.inj_mul. lia.
Qed.

Lemma in_krange k x : 0 < k -> x ∈ krange k <-> - (k / 2) <= x < k - k / 2.
Proof. intros Hk. unfold krange. rewrite elem_of_seqZ, Z.quot_div_nonneg by lia. lia. Qed.

Lemma elem_of_flat_map {A B} (f : A -> list B) l y : y ∈ flat_map f l <-> exists x, x ∈ l /\ y ∈ f x.
Proof.
  rewrite elem_of_list_In, in_flat_map. setoid_rewrite elem_of_list_In. done.
Qed.

Lemma NoDup_flat_map_inj {A B C} (f : A -> list B) (key : B -> C) (g : A -> C) l :
  NoDup l -> (forall x x', g x = g x' -> x = x') -> (forall x y, y ∈ f x -> key y = g x) -> (forall x, NoDup (f x)) ->
  NoDup (flat_map f l).
Proof.
  intros Hl Hg Hk Hf. induction Hl as [|x l Hx Hl IH]; cbn [flat_map]; [constructor|].
  apply NoDup_app. split; [apply Hf|]. split; [|done]. intros y Hy (x' & Hx' & Hy')%elem_of_flat_map.
  assert (x = x') as <- by (apply Hg; rewrite <- (Hk x y), <- (Hk x' y) by done; done). done.
Qed.

(** C83.  A kernel has each of its cells once.  A cube has all cells of the box around the middle
    cell, a diamond those of which the distances from the middle in the three directions, as
    fractions of the size of the kernel, are at most 1 together, and a prism those for which this
    holds for X and Y.  The divisions by the program never round such that this would be wrong. *)
Theorem C83_kernel k ty :
  (forall d, 0 < get k d) ->
  NoDup (relative_cells k ty) /\
  forall c, c ∈ relative_cells k ty <->
    (forall d, - (get k d / 2) <= get c d < get k d - get k d / 2) /\
    match ty with
    | CUBE => True
    | DIAMOND => (fraction (get k AX) (get c AX) + fraction (get k AY) (get c AY) + fraction (get k AZ) (get c AZ) <= 1)%Q
    | PRISM => (fraction (get k AX) (get c AX) + fraction (get k AY) (get c AY) <= 1)%Q
    end.
Proof.
  intros Hk. split.
  - unfold relative_cells. apply NoDup_ListNoDup, List.NoDup_filter, NoDup_ListNoDup.
    apply (NoDup_flat_map_inj _ (fun c : pt3 => c.1.1) id); [apply NoDup_seqZ|done| |].
    { intros x c (y & _ & Hc)%elem_of_flat_map. by apply elem_of_list_fmap in Hc as (z & -> & _). }
    intros x. apply (NoDup_flat_map_inj _ (fun c : pt3 => c.1.2) id); [apply NoDup_seqZ|done| |].
    { intros y c Hc. by apply elem_of_list_fmap in Hc as (z & -> & _). }
    intros y. apply (NoDup_fmap_2 (fun z => (x, y, z))), NoDup_seqZ.
  - intros c. assert (Hin : c ∈ relative_cells k ty <->
      (forall d, - (get k d / 2) <= get c d < get k d - get k d / 2) /\ keep_cell k ty c = true).
    { unfold relative_cells. rewrite elem_of_list_In, filter_In, <- elem_of_list_In.
      apply and_iff_compat_r. rewrite elem_of_flat_map. setoid_rewrite elem_of_flat_map. split.
      - intros (x & Hx & y & Hy & Hc). apply elem_of_list_fmap in Hc as (z & -> & Hz).
        apply in_krange in Hx, Hy, Hz; [|apply Hk..]. by intros [].
      - intros H. exists (get c AX). split; [by apply in_krange|]. exists (get c AY). split; [by apply in_krange|].
        apply elem_of_list_fmap. exists (get c AZ). split; [by destruct c as [[??]?]|by apply in_krange]. }
    rewrite Hin. clear Hin. split; intros [Hbox H]; (split; [done|]).
    all: pose proof (Hk AX); pose proof (Hk AY); pose proof (Hk AZ).
    all: assert (HM : 0 <= get k AX * get k AY * get k AZ) by (repeat apply Z.mul_nonneg_nonneg; lia).
    all: pose proof (fun x => side_pos (get k AX) x); pose proof (fun x => side_pos (get k AY) x); pose proof (fun x => side_pos (get k AZ) x).
    all: unfold keep_cell in *; destruct ty; [done| |].
    all: try rewrite !rel_dist_side in H by auto; try rewrite !rel_dist_side by auto.
    all: try (rewrite negb_true_iff, Z.ltb_ge in H); try rewrite negb_true_iff, Z.ltb_ge.
    + rewrite !fraction_int. apply fractions_int; [done..|]. eapply floors_ok; [..|exact H]; auto using side_le, side_half, Z.abs_nonneg.
    + assert (E : (fraction (get k AX) (get c AX) + fraction (get k AY) (get c AY) ==
        (Z.abs (get c AX) # Z.to_pos (side (get k AX) (get c AX))) + (Z.abs (get c AY) # Z.to_pos (side (get k AY) (get c AY))) + (0 # Z.to_pos 1))%Q).
      { rewrite !fraction_int. cbn. ring. }
      rewrite E. apply fractions_int; [done..|]. apply (floors_ok _ _ _ _ _ _ (get k AX) (get k AY) (get k AZ));
        auto using side_le, side_half, Z.abs_nonneg; try lia. rewrite Z.mul_0_r, Zdiv_0_l. lia.
    + rewrite !fraction_int in H. apply fractions_int in H; [|done..]. apply floors_ok; auto using side_le, side_half, Z.abs_nonneg.
    + assert (E : (fraction (get k AX) (get c AX) + fraction (get k AY) (get c AY) ==
        (Z.abs (get c AX) # Z.to_pos (side (get k AX) (get c AX))) + (Z.abs (get c AY) # Z.to_pos (side (get k AY) (get c AY))) + (0 # Z.to_pos 1))%Q).
      { rewrite !fraction_int. cbn. ring. }
      rewrite E in H. apply fractions_int in H; [|done..].
      apply (floors_ok _ _ _ _ _ _ (get k AX) (get k AY) (get k AZ)) in H; auto using side_le, side_half, Z.abs_nonneg; try lia.
      rewrite Z.mul_0_r, Zdiv_0_l in H. lia.
Qed.
Print Assumptions C83_kernel.

Example C82_nonvacuous :
  walkLine (10, 10, 10) (5, 5, 0) (25, 12, 0) (fun s g => (s ++ [g], true)) [] =
    Ok ([(0, 0, 0); (1, 0, 0); (1, 1, 0); (2, 1, 0)], true) /\
  walkLine (10, 10, 10) (-10, -5, 3) (-25, 5, 3) (fun s g => (s ++ [g], true)) [] =
    Ok ([(-2, -1, 0); (-2, 0, 0); (-3, 0, 0)], true) /\
  walkPolygons (10, 10, 10) (fun s g => (s ++ [g], true)) 0 [[(1, 1); (15, 2); (3, 12)]] [] =
    Ok ([(0, 1, 0); (0, 0, 0); (0, 0, 0); (1, 0, 0); (1, 0, 0); (0, 0, 0); (0, 1, 0)], true).
Proof. vm_compute. repeat split. Qed.

Example C83_nonvacuous :
  length (relative_cells (3, 3, 3) DIAMOND) = 7%nat /\ length (relative_cells (3, 3, 3) PRISM) = 15%nat /\
  length (relative_cells (3, 3, 3) CUBE) = 27%nat /\ length (relative_cells (5, 5, 1) PRISM) = 13%nat /\
  relative_cells (2, 2, 1) PRISM = [(-1, 0, 0); (0, -1, 0); (0, 0, 0)].
Proof. vm_compute. repeat split. Qed.
