(** From a closed mesh to a permutation of segments. *)
From Coq Require Import ZArith Lia Sorting.Sorted.
From stdpp Require Import list.
From Verif Require Import Common Math_Model Math_Spec Math_Proofs Geo_Model Layers_Model Slicer_Model Slicer_Spec Slicer_Proofs.
Open Scope Z_scope.

Lemma interp_close z a b ya yb r r' : a <> b -> Z.min a b <= z <= Z.max a b ->
  interpolate z a b ya yb = Ok r \/ interpolate z b a yb ya = Ok r ->
  interpolate z a b ya yb = Ok r' \/ interpolate z b a yb ya = Ok r' -> Z.abs (r - r') <= 1.
Proof.
  intros Hne Hz.
  assert (Hop : forall q q', interpolate z a b ya yb = Ok q -> interpolate z b a yb ya = Ok q' -> Z.abs (q - q') <= 1).
  { intros q q' H1 H2. destruct (Z.lt_ge_cases a b).
    - eapply interpolate_opposite; [| |exact H1|exact H2]; lia.
    - rewrite <- Z.abs_opp. replace (- (q - q')) with (q' - q) by ring.
      eapply interpolate_opposite; [| |exact H2|exact H1]; lia. }
  intros [H1|H1] [H2|H2].
  - rewrite H1 in H2. injection H2 as <-. lia.
  - by apply Hop.
  - pose proof (Hop _ _ H2 H1). lia.
  - rewrite H1 in H2. injection H2 as <-. lia.
Qed.

Lemma edge_point_either_close z a b q q' :
  edge_point_either z a b q -> edge_point_either z b a q' -> vSize2 (psub q q') <= 10 * 10.
Proof.
  intros (H1 & Hne & Hz) (H2 & _ & _). unfold vSize2, psub; cbn [fst snd].
  assert (Z.abs (q.1 - q'.1) <= 1).
  { eapply (interp_close z (pz a) (pz b) (px a) (px b)); [done|done|unfold edge_point in *; tauto..]. }
  assert (Z.abs (q.2 - q'.2) <= 1).
  { eapply (interp_close z (pz a) (pz b) (py a) (py b)); [done|done|unfold edge_point in *; tauto..]. }
  assert (forall d, Z.abs d <= 1 -> d * d <= 1) as Hsq.
  { intros d Hd. assert (d = -1 \/ d = 0 \/ d = 1) as [->|[->| ->]] by lia; lia. }
  pose proof (Hsq _ H). pose proof (Hsq _ H0). lia.
Qed.

(** ** build_segments *)
Lemma build_segments_spec m tol z fi fs segs :
  build_segments m tol z fi fs = Ok segs ->
  StronglySorted (fun s t => (seg_face s < seg_face t)%nat) segs /\
  (forall s, s ∈ segs -> (fi <= seg_face s)%nat /\ exists f, fs !! (seg_face s - fi)%nat = Some f /\
     slice_face m tol z (seg_face s) f = Ok (Some s)) /\
  (forall k f s, fs !! k = Some f -> slice_face m tol z (fi + k) f = Ok (Some s) -> s ∈ segs).
Proof.
  revert fi segs. induction fs as [|f fs IH]; intros fi segs; cbn [build_segments].
  - intros [= <-]. split; [constructor|]. split; [intros s []%elem_of_nil|]. intros k f s Hk. by rewrite lookup_nil in Hk.
  - intros (o & Ho & H)%rbind_ok. apply rbind_ok in H as (rest & Hr & H). injection H as <-.
    destruct (IH _ _ Hr) as (Hs & Hin & Hall).
    assert (Hface : forall s, o = Some s -> seg_face s = fi).
    { intros s ->. unfold slice_face in Ho. apply rbind_ok in Ho as (v0 & _ & Ho).
      apply rbind_ok in Ho as (v1 & _ & Ho). apply rbind_ok in Ho as (v2 & _ & Ho).
      apply rbind_ok in Ho as (r & _ & Ho). injection Ho as Ho. repeat case_match; simplify_eq. done. }
    assert (Hin' : forall s, s ∈ rest -> (fi <= seg_face s)%nat /\ exists f0, (f :: fs) !! (seg_face s - fi)%nat = Some f0 /\
     slice_face m tol z (seg_face s) f0 = Ok (Some s)).
    { intros s [Hle (f0 & Hf0 & Hsl)]%Hin. split; [lia|]. exists f0. split; [|done].
      replace (seg_face s - fi)%nat with (S (seg_face s - S fi)) by lia. done. }
    destruct o as [s0|].
    + specialize (Hface s0 eq_refl). split; [|split].
      * constructor; [done|]. apply Forall_forall. intros s [Hle _]%Hin. lia.
      * intros s [->|Hsin]%elem_of_cons; [|by apply Hin']. rewrite Hface. split; [done|]. exists f.
        rewrite Nat.sub_diag. done.
      * intros [|k] f' s Hk Hsl; simpl in Hk.
        -- injection Hk as <-. rewrite Nat.add_0_r in Hsl. rewrite Ho in Hsl. injection Hsl as <-. by left.
        -- right. eapply Hall; [exact Hk|]. by rewrite Nat.add_succ_comm.
    + split; [done|]. split; [done|].
      intros [|k] f' s Hk Hsl; simpl in Hk.
      * injection Hk as <-. rewrite Nat.add_0_r in Hsl. congruence.
      * eapply Hall; [exact Hk|]. by rewrite Nat.add_succ_comm.
Qed.

Lemma find_face_segment_some fi k segs i :
  find_face_segment fi k segs = Some i ->
  exists s, (k <= i)%nat /\ segs !! (i - k)%nat = Some s /\ seg_face s = fi.
Proof.
  revert k. induction segs as [|s segs IH]; intros k; cbn [find_face_segment]; [done|].
  destruct (Nat.eqb_spec (seg_face s) fi).
  - intros [= ->]. exists s. rewrite Nat.sub_diag. done.
  - intros (t & Hle & Ht & ?)%IH. exists t. split; [lia|]. split; [|done].
    replace (i - k)%nat with (S (i - S k)) by lia. done.
Qed.
Lemma find_face_segment_complete fi k segs s : s ∈ segs -> seg_face s = fi ->
  exists i, find_face_segment fi k segs = Some i.
Proof.
  revert k. induction segs as [|t segs IH]; intros k; [intros []%elem_of_nil|].
  cbn [find_face_segment]. intros [->|Hin]%elem_of_cons Hf.
  - destruct (Nat.eqb_spec (seg_face t) fi); [by eexists|done].
  - destruct (Nat.eqb_spec (seg_face t) fi); [by eexists|by apply IH].
Qed.

Lemma sorted_face_inj segs i j s t : StronglySorted (fun s t => (seg_face s < seg_face t)%nat) segs ->
  segs !! i = Some s -> segs !! j = Some t -> seg_face s = seg_face t -> i = j.
Proof.
  intros H. revert i j. induction H as [|x l Hs IH Hf]; intros i j; [done|].
  destruct i as [|i], j as [|j]; simpl.
  - done.
  - intros [= <-] Ht E. rewrite Forall_forall in Hf. assert (t ∈ l) by by eapply elem_of_list_lookup_2.
    specialize (Hf t ltac:(done)). lia.
  - intros Ht [= <-] E. rewrite Forall_forall in Hf. assert (s ∈ l) by by eapply elem_of_list_lookup_2.
    specialize (Hf s ltac:(done)). lia.
  - intros Hi Hj E. f_equal. by eapply IH.
Qed.

(** ** closed mesh *)
Section closed.
  Context (m : mesh) (tol : slicing_tolerance) (z : Z).
  Hypothesis Hclosed : closed_mesh m.
  Hypothesis Hoff : forall v mv, mvertices m !! v = Some mv -> height tol z (mv_p mv) <> z.

  (** corner positions of a face *)
  Definition face_tri (f : mface) (t : pt3 * pt3 * pt3) : Prop :=
    exists v0 v1 v2, mvertices m !! vi0 f = Some v0 /\ mvertices m !! vi1 f = Some v1 /\
      mvertices m !! vi2 f = Some v2 /\ t = (mv_p v0, mv_p v1, mv_p v2).

  Lemma face_tri_total fi f : mfaces m !! fi = Some f -> exists t, face_tri f t.
  Proof.
    intros Hf. destruct Hclosed as (H1 & _ & _). destruct (H1 _ _ Hf) as (A & B & C).
    destruct (lookup_lt_is_Some_2 _ _ A) as [v0 ?]. destruct (lookup_lt_is_Some_2 _ _ B) as [v1 ?].
    destruct (lookup_lt_is_Some_2 _ _ C) as [v2 ?]. by exists (mv_p v0, mv_p v1, mv_p v2), v0, v1, v2.
  Qed.

  Lemma corner_vertex f t i : face_tri f t -> (i < 3)%nat ->
    exists va vb, mvertices m !! (directed_edge f i).1 = Some va /\ mvertices m !! (directed_edge f i).2 = Some vb /\
      corner t i = mv_p va /\ corner t (S i) = mv_p vb.
  Proof.
    intros (v0 & v1 & v2 & H0 & H1 & H2 & ->) Hi.
    destruct i as [|[|[|i]]]; [| | |lia]; simpl; eauto 10.
  Qed.

  Lemma corner_off f t i : face_tri f t -> (i < 3)%nat -> height tol z (corner t i) <> z /\ height tol z (corner t (S i)) <> z.
  Proof.
    intros Ht Hi. destruct (corner_vertex f t i Ht Hi) as (va & vb & Ha & Hb & -> & ->).
    split; by eapply Hoff.
  Qed.

  Definition seg_facts (fi : nat) (f : mface) (t : pt3 * pt3 * pt3) (s : segment) (i edge : nat) : Prop :=
    (i < 3)%nat /\ (edge < 3)%nat /\
    z < height tol z (corner t i) /\ height tol z (corner t (S i)) < z /\
    height tol z (corner t edge) < z /\ z < height tol z (corner t (S edge)) /\
    edge_point_either z (compensate tol z (corner t i)) (compensate tol z (corner t (S i))) (seg_start s) /\
    edge_point_either z (compensate tol z (corner t edge)) (compensate tol z (corner t (S edge))) (seg_end s) /\
    seg_face s = fi /\ seg_otherFace s = face_connected f edge /\ seg_endVertex s = None.

  Lemma slice_face_facts fi f t : mfaces m !! fi = Some f -> face_tri f t ->
    exists o, slice_face m tol z fi f = Ok o /\
    match o with
    | None => forall i, (i < 3)%nat -> z < height tol z (corner t i) -> height tol z (corner t (S i)) < z -> False
    | Some s => exists i edge, seg_facts fi f t s i edge
    end.
  Proof.
    intros Hf Ht. pose proof Ht as (v0 & v1 & v2 & H0 & H1 & H2 & Et).
    unfold slice_face. rewrite H0, H1, H2. cbn [of_opt rbind].
    pose proof (slice_triangle_spec tol z (mv_p v0) (mv_p v1) (mv_p v2)) as Hspec. rewrite <- Et in Hspec.
    cbv zeta in Hspec. destruct Hspec as (r & -> & Hr). cbn [rbind]. eexists. split; [reflexivity|].
    destruct r as [[[[s e] edge] ev]|].
    - destruct Hr as (i & Hi & He & _ & A & B & C & D & E & F & G & _).
      destruct (corner_off f t i Ht Hi). destruct (corner_off f t edge Ht He).
      exists i, edge. unfold seg_facts. cbn [seg_start seg_end seg_face seg_otherFace seg_endVertex].
      do 6 (split; [first [done|lia]|]). do 4 (split; [done|]).
      rewrite G. destruct (Z.eqb_spec (height tol z (corner t edge)) z); done.
    - intros i Hi A B. destruct (corner_off f t 0 Ht ltac:(lia)). destruct (corner_off f t 1 Ht ltac:(lia)).
      rewrite Et in *. destruct i as [|[|[|i]]]; [..|lia]; simpl in *; lia.
  Qed.

  Lemma build_total k fs : (forall j f, fs !! j = Some f -> mfaces m !! (k + j)%nat = Some f) ->
    exists segs, build_segments m tol z k fs = Ok segs.
  Proof.
    revert k. induction fs as [|f fs IH]; intros k H; cbn [build_segments]; [by eexists|].
    assert (Hf : mfaces m !! k = Some f) by (specialize (H 0%nat f eq_refl); by rewrite Nat.add_0_r in H).
    destruct (face_tri_total k f Hf) as [t Ht].
    destruct (slice_face_facts k f t Hf Ht) as (o & -> & _). cbn [rbind].
    destruct (IH (S k)) as [segs ->]; [|by eexists].
    intros j g Hj. rewrite Nat.add_succ_comm. by apply H.
  Qed.

  Lemma down_edge_unique t i j : (i < 3)%nat -> (j < 3)%nat ->
    z < height tol z (corner t i) -> height tol z (corner t (S i)) < z ->
    z < height tol z (corner t j) -> height tol z (corner t (S j)) < z -> i = j.
  Proof.
    destruct t as [[a b] c]. intros Hi Hj.
    destruct i as [|[|[|i]]]; [..|lia]; destruct j as [|[|[|j]]]; try lia; simpl; lia.
  Qed.

  Context (segs : list segment).
  Hypothesis Hsegs : build_segments m tol z 0 (mfaces m) = Ok segs.
  Let fts f := find_face_segment f 0 segs.

  Lemma segs_facts k s : segs !! k = Some s -> exists f t i edge,
    mfaces m !! seg_face s = Some f /\ face_tri f t /\ seg_facts (seg_face s) f t s i edge.
  Proof.
    intros Hk. destruct (build_segments_spec _ _ _ _ _ _ Hsegs) as (_ & Hin & _).
    assert (Hs : s ∈ segs) by by eapply elem_of_list_lookup_2.
    destruct (Hin s Hs) as (_ & f & Hf & Hsl). rewrite Nat.sub_0_r in Hf.
    destruct (face_tri_total _ _ Hf) as [t Ht].
    destruct (slice_face_facts _ f t Hf Ht) as (o & Eo & Ho). rewrite Hsl in Eo. injection Eo as <-.
    destruct Ho as (i & edge & Ho). by exists f, t, i, edge.
  Qed.

  Lemma next_segment k s : segs !! k = Some s ->
    exists g n u, seg_endVertex s = None /\ seg_otherFace s = Some g /\ fts g = Some n /\ segs !! n = Some u /\
      vSize2 (psub (seg_end s) (seg_start u)) <= 10 * 10 /\
      exists f t i edge f' t' i' edge', mfaces m !! seg_face s = Some f /\ face_tri f t /\
        seg_facts (seg_face s) f t s i edge /\
        mfaces m !! seg_face u = Some f' /\ face_tri f' t' /\ seg_facts (seg_face u) f' t' u i' edge' /\
        directed_edge f' i' = ((directed_edge f edge).2, (directed_edge f edge).1).
  Proof.
    intros Hk. destruct (segs_facts k s Hk) as (f & t & i & edge & Hf & Ht & Hfacts).
    pose proof Hfacts as (Hi & He & _ & _ & Hlo & Hhi & _ & Hend & _ & Hof & Hev).
    pose proof Hclosed as (_ & Huniq & Hlink).
    destruct (Hlink _ _ edge Hf He) as (gi & g & j & Hgi & Hg & Hj & Hrev).
    destruct (face_tri_total _ _ Hg) as [u Hu].
    destruct (corner_vertex f t edge Ht He) as (va & vb & Hva & Hvb & Eca & Ecb).
    destruct (corner_vertex g u j Hu Hj) as (vb' & va' & Hvb' & Hva' & Ecb' & Eca').
    rewrite Hrev in Hvb', Hva'. cbn [fst snd] in Hvb', Hva'.
    assert (vb' = vb) as -> by congruence. assert (va' = va) as -> by congruence.
    rewrite Eca in Hlo. rewrite Ecb in Hhi. 
    destruct (slice_face_facts _ g u Hg Hu) as (o & Eo & Ho).
    destruct o as [s'|]; [|exfalso; apply (Ho j Hj); rewrite ?Ecb', ?Eca'; done].
    destruct Ho as (i' & edge' & Hfacts').
    pose proof Hfacts' as (Hi' & _ & Hup & Hdown & _ & _ & Hstart & _ & Hface' & _).
    assert (i' = j) as ->.
    { apply (down_edge_unique u); try done; rewrite ?Ecb', ?Eca'; done. }
    destruct (build_segments_spec _ _ _ _ _ _ Hsegs) as (Hsorted & Hin & Hall).
    assert (Hs' : s' ∈ segs) by (eapply Hall; [exact Hg|exact Eo]).
    destruct (find_face_segment_complete gi 0 segs s' Hs' Hface') as [n Hn].
    apply elem_of_list_lookup_1 in Hs' as [n' Hn'].
    destruct (find_face_segment_some _ _ _ _ Hn) as (s'' & _ & Hs'' & Hface''). rewrite Nat.sub_0_r in Hs''.
    assert (n = n') as -> by (eapply sorted_face_inj; [exact Hsorted|exact Hs''|exact Hn'|congruence]).
    rewrite Hn' in Hs''. injection Hs'' as <-.
    exists gi, n', s'. split; [done|]. split; [congruence|]. split; [done|]. split; [done|]. split.
    - eapply edge_point_either_close; [exact Hend|]. rewrite Eca, Ecb. rewrite <- Eca', <- Ecb'. done.
    - exists f, t, i, edge, g, u, j, edge'. rewrite Hface'. done.
  Qed.

  Definition nx (k : nat) : nat :=
    match segs !! k with
    | Some s => match seg_otherFace s with Some g => default 0%nat (fts g) | None => 0%nat end
    | None => 0%nat
    end.

  Lemma nx_spec k s : segs !! k = Some s -> exists g u, seg_otherFace s = Some g /\ fts g = Some (nx k) /\
      segs !! (nx k) = Some u.
  Proof.
    intros Hk. destruct (next_segment k s Hk) as (g & n & u & _ & Hg & Hn & Hu & _).
    exists g, u. unfold nx. rewrite Hk, Hg, Hn. done.
  Qed.

  Lemma mesh_loops_closed (vf : nat -> list nat) : exists polys, makeBasicPolygonLoops segs fts vf = Ok (polys, []).
  Proof.
    apply (makeBasic_closed segs fts vf nx).
    - intros i Hi. destruct (lookup_lt_is_Some_2 _ _ Hi) as [s Hs].
      destruct (nx_spec i s Hs) as (_ & u & _ & _ & Hu). by eapply lookup_lt_Some.
    - intros i j Hi Hj E. destruct (lookup_lt_is_Some_2 _ _ Hi) as [s Hs].
      destruct (lookup_lt_is_Some_2 _ _ Hj) as [s' Hs'].
      destruct (next_segment i s Hs) as (g & n & u & _ & Hg & Hn & Hu & _ &
        f & t & k & edge & w & wt & kw & ew & Hf & Ht & Hfacts & Hw & Hwt & Hfw & Hrev).
      destruct (next_segment j s' Hs') as (g' & n' & u' & _ & Hg' & Hn' & Hu' & _ &
        f' & t' & k' & edge' & w' & wt' & kw' & ew' & Hf' & Ht' & Hfacts' & Hw' & Hwt' & Hfw' & Hrev').
      assert (nx i = n) by (unfold nx; by rewrite Hs, Hg, Hn).
      assert (nx j = n') by (unfold nx; by rewrite Hs', Hg', Hn').
      assert (n = n') as <- by congruence. rewrite Hu in Hu'. injection Hu' as <-.
      rewrite Hw in Hw'. injection Hw' as <-.
      assert (wt' = wt) as ->.
      { destruct Hwt as (a & b & c & ? & ? & ? & ->), Hwt' as (a' & b' & c' & ? & ? & ? & ->). congruence. }
      assert (kw' = kw) as ->.
      { destruct Hfw as (? & _ & ? & ? & _), Hfw' as (? & _ & ? & ? & _). by eapply (down_edge_unique wt). }
      assert (Hde : directed_edge f edge = directed_edge f' edge').
      { rewrite Hrev in Hrev'. destruct (directed_edge f edge), (directed_edge f' edge'). simpl in Hrev'. congruence. }
      pose proof Hclosed as (_ & Huniq & _).
      destruct Hfacts as (_ & He & _). destruct Hfacts' as (_ & He' & _).
      destruct (Huniq _ _ _ _ _ _ Hf Hf' He He' Hde) as [Hff _].
      destruct (build_segments_spec _ _ _ _ _ _ Hsegs) as (Hsorted & _ & _).
      by eapply sorted_face_inj.
    - intros i s Hs. destruct (next_segment i s Hs) as (g & n & u & Hev & Hg & Hn & Hu & Hd & _).
      split; [done|]. exists g. assert (nx i = n) as -> by (unfold nx; by rewrite Hs, Hg, Hn).
      split; [done|]. split; [done|]. eauto.
  Qed.
End closed.
