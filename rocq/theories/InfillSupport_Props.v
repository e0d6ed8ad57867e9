(** C88: infill support. *)
From Coq Require Import Lia.
From stdpp Require Import prelude list.
From Verif Require Import Common Geo_Model Carve_Model InfillSupport_Model InfillSupport_Spec.

Lemma together_iff as_ p : together as_ p = true <-> exists a : area, a ∈ as_ /\ a p = true.
Proof.
  unfold together.
  assert (G : forall as_ (b : area), fold_left a_union as_ b p = true <-> b p = true \/ exists a : area, a ∈ as_ /\ a p = true).
  { clear. induction as_ as [|a as_ IH]; intros b; cbn [fold_left].
    - split; [by left|]. intros [?|(a & Ha & _)]; [done|by apply elem_of_nil in Ha].
    - rewrite IH. unfold a_union at 1. rewrite orb_true_iff. setoid_rewrite elem_of_cons. split.
      + intros [[?|?]|(a' & ? & ?)]; [by left|right; exists a; auto|right; exists a'; auto].
      + intros [?|(a' & [-> |?] & ?)]; [auto|auto|right; exists a'; auto]. }
  rewrite G. split; [intros [?|?]; [done|done]|by right].
Qed.

Lemma together_inside l p : together (map infill_area l) p = true <-> inside_layer l p.
Proof.
  rewrite together_iff. split.
  - intros (a & Ha & H). apply elem_of_list_In, in_map_iff in Ha as (q & <- & Hq%elem_of_list_In). by exists q.
  - intros (q & Hq & H). exists (infill_area q). split; [|done]. apply elem_of_list_In, in_map_iff. exists q. by rewrite <- elem_of_list_In.
Qed.
Lemma together_own l p : together (map own l) p = true <-> layer_infill l p.
Proof.
  rewrite together_iff. split.
  - intros (a & Ha & H). apply elem_of_list_In, in_map_iff in Ha as (q & <- & Hq%elem_of_list_In). by exists q.
  - intros (q & Hq & H). exists (own q). split; [|done]. apply elem_of_list_In, in_map_iff. exists q. by rewrite <- elem_of_list_In.
Qed.

Lemma not_inside l p : negb (together (map infill_area l) p) = true <-> ~ inside_layer l p.
Proof. rewrite <- together_inside, negb_true_iff, not_true_iff_false. done. Qed.

Section props.
  Variable is_empty : area -> bool.
  Variable shrink grow : area -> area.
  Notation gen := (generateInfillSupport is_empty shrink grow).

  Lemma support_part_ok above q :
    supports is_empty shrink grow above q (support_part is_empty shrink grow (together (map infill_area above)) (together (map own above)) q).
  Proof.
    unfold support_part, supports. destruct (is_empty (infill_area q)) eqn:E; [done|].
    split; [done|]. split; [done|]. intros _.
    exists (a_sub (shrink (infill_area q)) (together (map infill_area above))). split.
    - intros p. unfold a_sub. by rewrite andb_true_iff, not_inside.
    - intros p. unfold has_infill. cbn [own infill_own]. unfold a_inter, a_union. rewrite andb_true_iff, orb_true_iff, together_own.
      unfold a_sub at 1. rewrite andb_true_iff, not_inside. tauto.
  Qed.

  Lemma gen_length ls : length (gen ls) = length ls.
  Proof.
    induction ls as [|l ls IH]; cbn [generateInfillSupport]; [done|]. cbn zeta. destruct (gen ls) as [|a r]; cbn [length] in *; lia.
  Qed.

  (** C88. *)
  Theorem C88_infill_support ls :
    length (gen ls) = length ls /\
    last (gen ls) = last ls /\
    forall i l l' above', ls !! i = Some l -> gen ls !! i = Some l' -> gen ls !! S i = Some above' ->
      Forall2 (supports is_empty shrink grow above') l l'.
  Proof.
    split; [apply gen_length|]. induction ls as [|l ls [IHl IH]]; [done|]. cbn [generateInfillSupport]. cbn zeta.
    pose proof (gen_length ls) as Hlen. destruct (gen ls) as [|above r] eqn:E.
    - destruct ls; [|done]. split; [done|]. intros i l1 l' above' _ _ H. by destruct i.
    - split.
      + rewrite last_cons_cons. rewrite IHl. destruct ls; done.
      + intros [|i] l1 l' above' H1 H2 H3.
        * injection H1 as <-. injection H2 as <-. injection H3 as <-. unfold support_layer. apply Forall2_fmap_r.
          apply Forall_Forall2_diag, Forall_forall. intros q _. apply support_part_ok.
        * apply (IH i l1 l' above'); done.
  Qed.

  (** Infill never begins over a place from which infill was taken away: where a part had infill and there is infill above, it
      stays.  And infill is only ever taken away. *)
  Theorem C88_supported ls i l l' above' q k q' p :
    ls !! i = Some l -> gen ls !! i = Some l' -> gen ls !! S i = Some above' -> l !! k = Some q -> l' !! k = Some q' ->
    (has_infill q p -> layer_infill above' p -> has_infill q' p) /\ (has_infill q' p -> has_infill q p).
  Proof.
    intros H1 H2 H3 Hq Hq'. destruct (C88_infill_support ls) as (_ & _ & H). specialize (H i l l' above' H1 H2 H3).
    destruct (Forall2_lookup_lr _ _ _ _ _ _ H Hq Hq') as (_ & A & B).
    destruct (is_empty (infill_area q)); [by rewrite A|]. destruct (B eq_refl) as (o & _ & X). rewrite X. tauto.
  Qed.

  (** If enlarging keeps what there is, infill stays under all places that are far from the border and not inside above. *)
  Theorem C88_overhang ls i l l' above' q k q' p :
    (forall a x, a x = true -> grow a x = true) ->
    ls !! i = Some l -> gen ls !! i = Some l' -> gen ls !! S i = Some above' -> l !! k = Some q -> l' !! k = Some q' ->
    shrink (infill_area q) p = true -> ~ inside_layer above' p -> has_infill q p -> has_infill q' p.
  Proof.
    intros G H1 H2 H3 Hq Hq' Hs Hn Hi. destruct (C88_infill_support ls) as (_ & _ & H). specialize (H i l l' above' H1 H2 H3).
    destruct (Forall2_lookup_lr _ _ _ _ _ _ H Hq Hq') as (_ & A & B).
    destruct (is_empty (infill_area q)); [by rewrite A|]. destruct (B eq_refl) as (o & O & X). apply X. split; [done|].
    right. split; [|done]. apply G, O. done.
  Qed.
End props.
Print Assumptions C88_infill_support.
Print Assumptions C88_supported.
Print Assumptions C88_overhang.

(** Infill can have nothing below it although it is inside the layer below: a part that lost its infill before, as here one whose own
    infill was already empty, gets none. *)
Theorem C88_in_air_refuted :
  exists ls l' above' (p : pt), generateInfillSupport (fun _ => false) (fun a => a) (fun a => a) ls = [l'; above'] /\
    layer_infill above' p /\ inside_layer l' p /\ ~ layer_infill l' p.
Proof.
  set (full := (fun _ => true) : area).
  exists [[FPart full (Some a_empty)]; [FPart full None]]. eexists _, _, (0, 0)%Z. split; [done|].
  split; [by exists (FPart full None); split; [left|]|]. split; [eexists; split; [left|done]|].
  intros (q & Hq & H). apply elem_of_list_singleton in Hq as ->. unfold has_infill in H. by vm_compute in H.
Qed.
Print Assumptions C88_in_air_refuted.

(** Two layers, the upper one covers less: infill stays below its infill and in the middle of what it does not cover. *)
Definition seg (a b : Z) : area := fun p => (a <=? p.1)%Z && (p.1 <=? b)%Z.
Example C88_nonvacuous :
  let ls := [[FPart (seg 0 20) None]; [FPart (seg 0 4) (Some (seg 2 4))]] in
  let shrink (a : area) : area := fun p => a (p.1 - 3, p.2)%Z && a p && a (p.1 + 3, p.2)%Z in
  match generateInfillSupport (fun _ => false) shrink (fun a => a) ls with
  | [[q]; _] => map (fun x => own q (x, 0%Z)) [0; 1; 2; 4; 5; 17; 18; 20]%Z = [false; false; true; true; true; true; false; false]
  | _ => False
  end.
Proof. by vm_compute. Qed.
