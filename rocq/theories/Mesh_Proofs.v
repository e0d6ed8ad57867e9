(** Proofs about building a mesh from triangles. *)
From Coq Require Import ZArith QArith Lia.
From stdpp Require Import list.
From Verif Require Import Common Geo_Model Layers_Model Slicer_Model Slicer_Spec Box_Model Mesh_Model Mesh_Spec.
Open Scope Z_scope.

Lemma testLength_dist p q : testLength (p3sub p q) vertex_meld_distance = true <-> dist2 p q <= 30 * 30.
Proof.
  unfold testLength, vSize2_3, p3sub, dist2, vertex_meld_distance. cbn [px py pz].
  set (x := px p - px q). set (y := py p - py q). set (z := pz p - pz q). change (- (30)) with (-30).
  destruct (Z.ltb_spec 30 x), (Z.ltb_spec x (-30)); cbn [orb]; try (split; [done|nia]).
  destruct (Z.ltb_spec 30 y), (Z.ltb_spec y (-30)); cbn [orb]; try (split; [done|nia]).
  destruct (Z.ltb_spec 30 z), (Z.ltb_spec z (-30)); cbn [orb]; try (split; [done|nia]).
  apply Z.leb_le.
Qed.
Lemma dist2_self p : dist2 p p = 0.
Proof. unfold dist2. lia. Qed.
Lemma dist2_0 p q : dist2 p q <= 0 -> p = q.
Proof.
  destruct p as [a b c], q as [d e f]. unfold dist2. cbn [px py pz]. intros H.
  pose proof (Z.square_nonneg (a - d)). pose proof (Z.square_nonneg (b - e)). pose proof (Z.square_nonneg (c - f)).
  assert (A : (a - d) * (a - d) = 0) by lia. assert (B : (b - e) * (b - e) = 0) by lia. assert (C : (c - f) * (c - f) = 0) by lia.
  apply Z.mul_eq_0 in A, B, C. f_equal; lia.
Qed.

Lemma filter_none {A} (P : A -> Prop) `{!forall x, Decision (P x)} (l : list A) : (forall x, x ∈ l -> ~ P x) -> filter P l = [].
Proof.
  induction l as [|x l IH]; intros HH; [done|]. rewrite filter_cons, decide_False by (apply HH; left). apply IH.
  intros y Hy. apply HH. by right.
Qed.
Lemma filter_iff_in {A} (P Q : A -> Prop) `{!forall x, Decision (P x)} `{!forall x, Decision (Q x)} (l : list A) :
  (forall x, x ∈ l -> P x <-> Q x) -> filter P l = filter Q l.
Proof.
  induction l as [|x l IH]; intros HH; [done|]. rewrite !filter_cons.
  rewrite IH by (intros y Hy; apply HH; by right). assert (Hx : P x <-> Q x) by (apply HH; left).
  destruct (decide (P x)), (decide (Q x)); tauto.
Qed.

Notation places b := (mv_p <$> mvertices (bmesh b)).

(** The vertex number that looking up a point gives. *)
Definition found (b : building) (p : pt3) (k : nat) : Prop :=
  exists pre post w, bhash b (pointHash p) = pre ++ k :: post /\ places b !! k = Some w /\ dist2 w p <= 30 * 30 /\
    Forall (fun j => exists w', places b !! j = Some w' /\ ~ dist2 w' p <= 30 * 30) pre.
Definition ext (b b' : building) : Prop :=
  (forall h, bhash b h `prefix_of` bhash b' h) /\ places b `prefix_of` places b'.
Lemma ext_refl b : ext b b.
Proof. split; [intros h|]; done. Qed.
Lemma ext_trans a b c : ext a b -> ext b c -> ext a c.
Proof. intros [A1 A2] [B1 B2]. split; [intros h; etrans; [apply A1|apply B1]|by etrans]. Qed.
Lemma found_mono b b' p k : ext b b' -> found b p k -> found b' p k.
Proof.
  intros [E1 E2] (pre & post & w & Eb & Ew & Hd & Hp). destruct (E1 (pointHash p)) as [more Em].
  exists pre, (post ++ more), w. split; [rewrite Em, Eb; by rewrite <-app_assoc|].
  split; [by eapply prefix_lookup|]. split; [done|].
  eapply Forall_impl; [done|]. intros j (w' & ? & ?). exists w'. split; [by eapply prefix_lookup|done].
Qed.
Lemma found_fun b p k k' : found b p k -> found b p k' -> k = k'.
Proof.
  intros (pre & post & w & Eb & Ew & Hd & Hp) (pre' & post' & w' & Eb' & Ew' & Hd' & Hp').
  rewrite Eb in Eb'. revert pre' Hp' Eb'. clear Eb. induction Hp as [|j pre (u & Eu & Nu) Hp IH]; intros pre' Hp' Eb'.
  - destruct pre' as [|j' pre']; [by injection Eb'|]. injection Eb' as <- _.
    apply Forall_cons in Hp' as [(u & Eu & Nu) _]. rewrite Ew in Eu. injection Eu as <-. by destruct Nu.
  - destruct pre' as [|j' pre']; simpl in Eb'.
    + injection Eb' as <- _. rewrite Ew' in Eu. injection Eu as <-. by destruct Nu.
    + injection Eb' as <- Eb'. apply Forall_cons in Hp' as [_ Hp']. by apply (IH pre').
Qed.

Record inv (b : building) : Prop := {
  inv_bucket : forall h k, k ∈ bhash b h -> exists w, places b !! k = Some w /\ pointHash w = h;
  inv_vertex : forall k w, places b !! k = Some w -> found b w k;
  inv_faces : forall fi f, mfaces (bmesh b) !! fi = Some f ->
    (vi0 f < length (mvertices (bmesh b)))%nat /\ (vi1 f < length (mvertices (bmesh b)))%nat /\
    (vi2 f < length (mvertices (bmesh b)))%nat /\ proper (face_numbers f);
  inv_connected : forall k v, mvertices (bmesh b) !! k = Some v ->
    mv_faces v = filter (face_touches (bmesh b) k) (seq 0 (length (mfaces (bmesh b))));
  inv_box : bbox b = fold_left aabb3_include (places b) aabb3_empty }.

Lemma inv_new : inv new_mesh.
Proof.
  split; simpl.
  - intros h k H. by apply elem_of_nil in H.
  - done.
  - done.
  - done.
  - done.
Qed.

Lemma first_close_spec b p bucket :
  (forall k, k ∈ bucket -> exists w, places b !! k = Some w) ->
  (exists k pre post w, first_close (mvertices (bmesh b)) p bucket = Ok (Some k) /\ bucket = pre ++ k :: post /\
     places b !! k = Some w /\ dist2 w p <= 30 * 30 /\
     Forall (fun j => exists w', places b !! j = Some w' /\ ~ dist2 w' p <= 30 * 30) pre) \/
  (first_close (mvertices (bmesh b)) p bucket = Ok None /\
     Forall (fun j => exists w', places b !! j = Some w' /\ ~ dist2 w' p <= 30 * 30) bucket).
Proof.
  induction bucket as [|k bucket IH]; intros Hb; [by right|].
  destruct (Hb k) as [w Ew]; [left|]. pose proof Ew as Ew0.
  rewrite list_lookup_fmap in Ew. destruct (mvertices (bmesh b) !! k) as [v|] eqn:Ev; [|done]. simpl in Ew. injection Ew as <-.
  simpl. rewrite Ev. simpl. destruct (testLength _ _) eqn:Et.
  - left. exists k, [], bucket, (mv_p v). repeat split; try done. by apply testLength_dist.
  - assert (Hn : ~ dist2 (mv_p v) p <= 30 * 30) by (rewrite <-testLength_dist; by rewrite Et).
    destruct IH as [(k' & pre & post & w' & E & -> & H1 & H2 & H3)|[E H]].
    { intros k' Hk'. apply Hb. by right. }
    + left. exists k', (k :: pre), post, w'. repeat split; try done. constructor; [|done]. by exists (mv_p v).
    + right. split; [done|]. constructor; [|done]. by exists (mv_p v).
Qed.

Lemma find_spec b p : inv b -> exists k b', findIndexOfVertex b p = Ok (k, b') /\ inv b' /\ ext b b' /\ found b' p k /\
  mfaces (bmesh b') = mfaces (bmesh b) /\ (k < length (mvertices (bmesh b')))%nat /\
  (forall w, w ∈ places b' -> w ∈ places b \/ w = p).
Proof.
  intros Hi. unfold findIndexOfVertex.
  destruct (first_close_spec b p (bhash b (pointHash p))) as [(k & pre & post & w & E & Eb & H1 & H2 & H3)|[E H]].
  { intros k Hk. destruct (inv_bucket b Hi _ _ Hk) as (w & Ew & _). by exists w. }
  - rewrite E. cbn [rbind]. exists k, b. split; [done|]. split; [done|]. split; [apply ext_refl|].
    split; [by exists pre, post, w|]. split; [done|]. split; [|by left].
    apply lookup_lt_Some in H1. by rewrite fmap_length in H1.
  - rewrite E. cbn [rbind]. set (n := length (mvertices (bmesh b))).
    eexists n, _. split; [done|].
    set (b' := Building _ _ _).
    assert (Ep : places b' = places b ++ [p]) by (subst b'; simpl; by rewrite fmap_app).
    assert (Hn : length (places b) = n) by (by rewrite fmap_length).
    assert (Hext : ext b b').
    { split; [|rewrite Ep; by apply prefix_app_r].
      intros h. subst b'. simpl. destruct (Z.eqb_spec h (pointHash p)) as [-> |]; [by apply prefix_app_r|done]. }
    assert (Hfound : found b' p n).
    { exists (bhash b (pointHash p)), [], p. split; [subst b'; simpl; by rewrite Z.eqb_refl|].
      split; [rewrite Ep, lookup_app_r by lia; by rewrite Hn, Nat.sub_diag|]. split; [rewrite dist2_self; lia|].
      eapply Forall_impl; [done|]. intros j (w' & ? & ?). exists w'. split; [|done]. eapply prefix_lookup; [done|apply Hext]. }
    assert (Hlen : (n < length (mvertices (bmesh b')))%nat) by (subst b'; simpl; rewrite app_length; simpl; lia).
    split; [|split; [done|split; [done|split; [done|split; [done|]]]]].
    2:{ intros w Hw. rewrite Ep in Hw. apply elem_of_app in Hw as [?|Hw]; [by left|]. right. by apply elem_of_list_singleton in Hw. }
    split.
    + intros h k Hk. subst b'. simpl in Hk. cbn [bmesh mvertices].
      destruct (Z.eqb_spec h (pointHash p)) as [-> |].
      * apply elem_of_app in Hk as [Hk|Hk].
        -- destruct (inv_bucket b Hi _ _ Hk) as (w & Ew & Hw). exists w. split; [|done]. rewrite fmap_app. by apply lookup_app_l_Some.
        -- apply elem_of_list_singleton in Hk as ->. exists p. split; [|done].
           rewrite fmap_app, lookup_app_r by (rewrite fmap_length; lia). rewrite fmap_length. by rewrite Nat.sub_diag.
      * destruct (inv_bucket b Hi _ _ Hk) as (w & Ew & Hw). exists w. split; [|done]. rewrite fmap_app. by apply lookup_app_l_Some.
    + intros k w Hk. rewrite Ep in Hk. apply lookup_app_Some in Hk as [Hk|[Hk1 Hk2]].
      * eapply found_mono; [done|]. by apply (inv_vertex b Hi).
      * destruct (k - length (places b))%nat eqn:Ek; [|done]. injection Hk2 as ->.
        by replace k with n by lia.
    + intros fi f Hf. destruct (inv_faces b Hi fi f Hf) as (A & B & C & D). subst b'. simpl. rewrite app_length. simpl.
      repeat split; try lia; apply D.
    + intros k v Hk. subst b'. simpl in Hk |- *. apply lookup_app_Some in Hk as [Hk|[Hk1 Hk2]].
      * rewrite (inv_connected b Hi k v Hk). done.
      * destruct (k - length (mvertices (bmesh b)))%nat eqn:Ek; [|done]. injection Hk2 as <-. simpl. symmetry.
        apply filter_none. intros fi _ Hfi. unfold face_touches in Hfi. simpl in Hfi.
        destruct (mfaces (bmesh b) !! fi) as [f|] eqn:Ef; [|done].
        destruct (inv_faces b Hi fi f Ef) as (A & B & C & D). unfold touches in Hfi. lia.
    + rewrite Ep, fold_left_app. subst b'. simpl. by rewrite (inv_box b Hi).
Qed.

Lemma places3 idx i j k (vs : list mvertex) :
  mv_p <$> (alter (connect idx) i (alter (connect idx) j (alter (connect idx) k vs)) : list mvertex) = mv_p <$> vs.
Proof.
  assert (H : forall (l : list mvertex) m, mv_p <$> (alter (connect idx) m l : list mvertex) = mv_p <$> l).
  { intros l m. apply list_eq. intros n. rewrite !list_lookup_fmap.
    destruct (decide (n = m)) as [-> |]; [rewrite list_lookup_alter|by rewrite list_lookup_alter_ne by done]. by destruct (l !! m). }
  by rewrite !H.
Qed.
Lemma lookup3 idx i j k (vs : list mvertex) n v : i <> j -> j <> k -> i <> k ->
  (alter (connect idx) i (alter (connect idx) j (alter (connect idx) k vs)) : list mvertex) !! n = Some v ->
  exists v0, vs !! n = Some v0 /\ mv_faces v = mv_faces v0 ++ (if decide (n = i \/ n = j \/ n = k) then [idx] else []).
Proof.
  intros Hij Hjk Hik H.
  destruct (decide (n = i)) as [-> |Hi].
  { rewrite list_lookup_alter, !list_lookup_alter_ne in H by done. destruct (vs !! i) as [v0|]; [|done]. injection H as <-.
    exists v0. split; [done|]. rewrite decide_True by auto. done. }
  rewrite list_lookup_alter_ne in H by done. destruct (decide (n = j)) as [-> |Hj].
  { rewrite list_lookup_alter, list_lookup_alter_ne in H by done. destruct (vs !! j) as [v0|]; [|done]. injection H as <-.
    exists v0. split; [done|]. rewrite decide_True by auto. done. }
  rewrite list_lookup_alter_ne in H by done. destruct (decide (n = k)) as [-> |Hk].
  { rewrite list_lookup_alter in H. destruct (vs !! k) as [v0|]; [|done]. injection H as <-.
    exists v0. split; [done|]. rewrite decide_True by auto. done. }
  rewrite list_lookup_alter_ne in H by done. exists v. split; [done|]. rewrite decide_False by tauto. by rewrite app_nil_r.
Qed.

Lemma addFace_spec b p q r : inv b -> exists b' i j k, addFace b p q r = Ok b' /\ inv b' /\ ext b b' /\
  found b' p i /\ found b' q j /\ found b' r k /\
  face_numbers <$> mfaces (bmesh b') = (face_numbers <$> mfaces (bmesh b)) ++ (if decide (proper (i, j, k)) then [(i, j, k)] else []) /\
  (forall w, w ∈ places b' -> w ∈ places b \/ w = p \/ w = q \/ w = r).
Proof.
  intros Hi. unfold addFace.
  destruct (find_spec b p Hi) as (i & b1 & E1 & I1 & X1 & F1 & M1 & L1 & P1). rewrite E1. cbn [rbind fst snd].
  destruct (find_spec b1 q I1) as (j & b2 & E2 & I2 & X2 & F2 & M2 & L2 & P2). rewrite E2. cbn [rbind fst snd].
  destruct (find_spec b2 r I2) as (k & b3 & E3 & I3 & X3 & F3 & M3 & L3 & P3). rewrite E3. cbn [rbind fst snd].
  assert (X : ext b b3) by (eapply ext_trans; [exact X1|]; by eapply ext_trans).
  assert (Fi : found b3 p i) by (eapply found_mono; [|exact F1]; by eapply ext_trans).
  assert (Fj : found b3 q j) by exact (found_mono _ _ _ _ X3 F2).
  assert (P : forall w, w ∈ places b3 -> w ∈ places b \/ w = p \/ w = q \/ w = r).
  { intros w Hw. destruct (P3 w Hw) as [Hw2| ->]; [|tauto]. destruct (P2 w Hw2) as [Hw1| ->]; [|tauto].
    destruct (P1 w Hw1) as [?| ->]; tauto. }
  assert (Li : (i < length (mvertices (bmesh b3)))%nat /\ (j < length (mvertices (bmesh b3)))%nat).
  { destruct X2 as [_ Y2], X3 as [_ Y3]. apply prefix_length in Y2, Y3. rewrite !fmap_length in Y2, Y3. lia. }
  destruct (decide (proper (i, j, k))) as [Hp|Hp].
  - unfold proper in Hp. simpl in Hp. destruct Hp as (Hij & Hjk & Hik).
    apply Nat.eqb_neq in Hij as Eij. apply Nat.eqb_neq in Hjk as Ejk. apply Nat.eqb_neq in Hik as Eik.
    rewrite Eij, Ejk, Eik. cbn [orb]. eexists _, i, j, k. split; [done|].
    set (idx := length (mfaces (bmesh b3))). set (b' := Building _ _ _).
    assert (Ep : places b' = places b3) by (subst b'; simpl; apply places3).
    assert (X' : ext b3 b') by (split; [done|by rewrite Ep]).
    split; [|split; [exact (ext_trans _ _ _ X X')|split; [exact (found_mono _ _ _ _ X' Fi)|split; [exact (found_mono _ _ _ _ X' Fj)|split; [exact (found_mono _ _ _ _ X' F3)|split]]]]].
    2:{ rewrite decide_True by (split; [done|split; done]). subst b'. cbn [bmesh mfaces]. rewrite fmap_app, M3, M2, M1. done. }
    2:{ rewrite Ep. done. }
    assert (El : length (mvertices (bmesh b')) = length (mvertices (bmesh b3))) by (subst b'; simpl; by rewrite !alter_length).
    split.
    + intros h n Hn. rewrite Ep. by apply (inv_bucket b3 I3).
    + intros n w Hn. rewrite Ep in Hn. eapply found_mono; [exact X'|]. by apply (inv_vertex b3 I3).
    + intros fi f Hf. rewrite El. subst b'. simpl in Hf. apply lookup_app_Some in Hf as [Hf|[Hf1 Hf2]].
      * by apply (inv_faces b3 I3 fi).
      * destruct (fi - length (mfaces (bmesh b3)))%nat; [|done]. injection Hf2 as <-. simpl. repeat split; try lia; done.
    + intros n v Hv. subst b'. simpl in Hv |- *. apply lookup3 in Hv as (v0 & Hv0 & ->); [|done..].
      rewrite (inv_connected b3 I3 n v0 Hv0). rewrite app_length. simpl. fold idx. rewrite seq_app, filter_app. simpl.
      f_equal.
      * apply filter_iff_in. intros fi Hfi. apply elem_of_seq in Hfi.
        unfold face_touches. simpl. rewrite lookup_app_l by (fold idx; lia). done.
      * rewrite filter_cons. simpl.
        assert (Eft : face_touches (Mesh (alter (connect idx) k (alter (connect idx) j (alter (connect idx) i (mvertices (bmesh b3)))))
           (mfaces (bmesh b3) ++ [MFace i j k None None None])) n idx <-> (n = k \/ n = j \/ n = i)).
        { unfold face_touches. simpl. rewrite lookup_app_r by (subst idx; lia). subst idx. rewrite Nat.sub_diag. simpl.
          unfold touches. simpl. tauto. }
        destruct (decide (n = k \/ n = j \/ n = i)) as [H|H].
        -- rewrite decide_True; [done|]. by apply Eft.
        -- rewrite decide_False; [done|]. by rewrite Eft.
    + rewrite Ep. subst b'. simpl. apply (inv_box b3 I3).
  - assert (Eor : Nat.eqb i j || Nat.eqb j k || Nat.eqb i k = true).
    { destruct (Nat.eqb_spec i j); [done|]. destruct (Nat.eqb_spec j k); [done|]. destruct (Nat.eqb_spec i k); [done|].
      exfalso. apply Hp. split; [done|]. split; done. }
    rewrite Eor. exists b3, i, j, k. split; [done|]. split; [done|]. split; [done|]. split; [done|]. split; [done|].
    split; [done|]. split; [|done]. rewrite decide_False by done. by rewrite M3, M2, M1, app_nil_r.
Qed.

(** The vertex number a point has at the end. *)
Definition rep (b : building) (p : pt3) : nat :=
  match first_close (mvertices (bmesh b)) p (bhash b (pointHash p)) with Ok (Some k) => k | _ => 0%nat end.
Lemma rep_found b p k : inv b -> found b p k -> rep b p = k.
Proof.
  intros Hi Hf. unfold rep.
  destruct (first_close_spec b p (bhash b (pointHash p))) as [(k' & pre & post & w & E & Eb & H1 & H2 & H3)|[E H]].
  { intros k' Hk. destruct (inv_bucket b Hi _ _ Hk) as (w & Ew & _). by exists w. }
  - rewrite E. eapply found_fun; [|done]. by exists pre, post, w.
  - destruct Hf as (pre & post & w & Eb & Ew & Hd & Hp). rewrite Eb in H. rewrite Forall_app, Forall_cons in H.
    destruct H as (_ & (w' & Ew' & Hn) & _). rewrite Ew in Ew'. injection Ew' as <-. done.
Qed.

Lemma add_faces_spec ts : forall b, inv b -> exists b', add_faces b ts = Ok b' /\ inv b' /\ ext b b' /\
  (forall t p, t ∈ ts -> is_corner p t -> exists k, found b' p k) /\
  face_numbers <$> mfaces (bmesh b') = (face_numbers <$> mfaces (bmesh b)) ++ filter proper (in_numbers (rep b') <$> ts) /\
  (forall w, w ∈ places b' -> w ∈ places b \/ exists t, t ∈ ts /\ is_corner w t).
Proof.
  induction ts as [|[[p q] r] ts IH]; intros b Hi.
  - exists b. split; [done|]. split; [done|]. split; [apply ext_refl|].
    split; [intros t p Ht; by apply elem_of_nil in Ht|]. split; [by rewrite app_nil_r|by left].
  - destruct (addFace_spec b p q r Hi) as (b1 & i & j & k & E1 & I1 & X1 & Fi & Fj & Fk & M1 & P1).
    destruct (IH b1 I1) as (b' & E & I' & X & HC & M & P). exists b'. cbn [add_faces fst snd]. rewrite E1. cbn [rbind].
    split; [done|]. split; [done|]. split; [by eapply ext_trans|].
    pose proof (found_mono _ _ _ _ X Fi) as Gi. pose proof (found_mono _ _ _ _ X Fj) as Gj. pose proof (found_mono _ _ _ _ X Fk) as Gk.
    split; [|split].
    + intros t w Ht Hw. apply elem_of_cons in Ht as [-> |Ht]; [|by apply (HC t)].
      destruct Hw as [-> |[-> | ->]]; simpl; eauto.
    + rewrite M, M1. rewrite <-app_assoc. f_equal. cbn [fmap list_fmap].
      assert (En : in_numbers (rep b') (p, q, r) = (i, j, k)).
      { unfold in_numbers. cbn [fst snd]. by rewrite (rep_found b' p i), (rep_found b' q j), (rep_found b' r k). }
      rewrite En, filter_cons.
      destruct (decide (proper (i, j, k))); done.
    + intros w Hw. destruct (P w Hw) as [Hw1|(t & Ht & Hc)].
      * destruct (P1 w Hw1) as [?|Hc]; [by left|]. right. exists (p, q, r). split; [left|done].
      * right. exists t. split; [by right|done].
Qed.

(** ** Linking neighbours *)
Lemma face_has_touches f i : face_has f i = true <-> touches f i.
Proof.
  unfold face_has, touches. rewrite !orb_true_iff, !Nat.eqb_eq. split; intros H; intuition congruence.
Qed.
Lemma candidates_spec fs idx1 nf l : (forall g, g ∈ l -> is_Some (fs !! g)) ->
  exists r, candidate_faces fs idx1 nf l = Ok r /\
    forall g, g ∈ r <-> g ∈ l /\ g <> nf /\ exists gf, fs !! g = Some gf /\ touches gf idx1.
Proof.
  induction l as [|f l IH]; intros Hl.
  - exists []. split; [done|]. intros g. split; [intros H; by apply elem_of_nil in H|intros [H _]; by apply elem_of_nil in H].
  - destruct IH as (r & E & Hr); [intros g Hg; apply Hl; by right|]. simpl. destruct (Nat.eqb_spec f nf) as [-> |Hne].
    + exists r. split; [done|]. intros g. rewrite Hr, elem_of_cons. split; [intuition|]. intros ([-> |?] & ? & ?); [done|auto].
    + destruct (Hl f) as [gf Egf]; [left|]. rewrite Egf. cbn [of_opt rbind]. rewrite E. cbn [rbind]. eexists. split; [done|].
      intros g. destruct (face_has gf idx1) eqn:Eh.
      * apply face_has_touches in Eh. rewrite !elem_of_cons, Hr. split.
        -- intros [-> |(A & B & C)]; [|auto]. split; [by left|]. split; [done|]. by exists gf.
        -- intros ([-> |A] & B & C); auto.
      * rewrite elem_of_cons, Hr. split.
        -- intros (A & B & C); auto.
        -- intros ([-> |A] & B & C); [|auto]. destruct C as (gf' & E' & T). rewrite Egf in E'. injection E' as <-.
           apply face_has_touches in T. congruence.
Qed.

(** Comparing angles is a strict weak order. *)
Lemma second_half_true t : second_half t = true <-> t.2 < 0 \/ t.2 = 0 /\ t.1 < 0.
Proof. unfold second_half. destruct (Z.ltb_spec t.2 0), (Z.eqb_spec t.2 0), (Z.ltb_spec t.1 0); simpl; split; intros; try done; lia. Qed.
Lemma second_half_false t : second_half t = false <-> 0 < t.2 \/ t.2 = 0 /\ 0 <= t.1.
Proof. unfold second_half. destruct (Z.ltb_spec t.2 0), (Z.eqb_spec t.2 0), (Z.ltb_spec t.1 0); simpl; split; intros; try done; lia. Qed.
Definition norm (x : Z * Z) : Z * Z := if (x.1 =? 0) && (x.2 =? 0) then (1, 0) else x.
Lemma norm_nz x : (norm x).1 <> 0 \/ (norm x).2 <> 0.
Proof. unfold norm. destruct (Z.eqb_spec x.1 0), (Z.eqb_spec x.2 0); simpl; lia. Qed.
Definition less (t u : Z * Z) : Prop :=
  (second_half t = false /\ second_half u = true) \/
  (second_half t = second_half u /\ 0 < t.1 * u.2 - t.2 * u.1).
Lemma angle_less t u : angle_lt t u = true <-> less (norm t) (norm u).
Proof.
  unfold angle_lt, less. fold (norm t) (norm u). cbv zeta.
  destruct (second_half (norm t)), (second_half (norm u)); rewrite ?Z.ltb_lt; split; intros H; auto; try done; destruct H as [[]|[]]; done.
Qed.
Lemma less_trans t u v : (u.1 <> 0 \/ u.2 <> 0) -> (v.1 <> 0 \/ v.2 <> 0) -> (t.1 <> 0 \/ t.2 <> 0) -> less t u -> less u v -> less t v.
Proof.
  intros Nu Nv Nt [[A B]|[A B]] [[C D]|[C D]].
  - congruence.
  - left. split; congruence.
  - left. split; congruence.
  - right. split; [congruence|]. destruct t as [a b], u as [c d], v as [e f]. simpl in *.
    assert (K : (a * f - b * e) * d = (a * d - b * c) * f + (c * f - d * e) * b) by ring.
    destruct (second_half (c, d)) eqn:E.
    + apply second_half_true in A. symmetry in C. apply second_half_true in C. apply second_half_true in E. simpl in *.
      destruct E as [E|[-> E]].
      * destruct C as [C|[-> C]], A as [A|[-> A]]; nia.
      * destruct A as [A|[-> A]]; nia.
    + apply second_half_false in A. symmetry in C. apply second_half_false in C. apply second_half_false in E. simpl in *.
      destruct E as [E|[-> E]].
      * destruct C as [C|[-> C]], A as [A|[-> A]]; nia.
      * destruct A as [A|[-> A]]; nia.
Qed.
Lemma angle_lt_trans t u v : angle_lt t u = true -> angle_lt u v = true -> angle_lt t v = true.
Proof. rewrite !angle_less. apply less_trans; apply norm_nz. Qed.
Lemma angle_lt_irrefl t : angle_lt t t = false.
Proof.
  destruct (angle_lt t t) eqn:E; [|done]. apply angle_less in E as [[A B]|[A B]]; [congruence|]. lia.
Qed.

Section best.
  Context (m : mesh) (idx0 idx1 : nat) (p0 edge a0 : pt3).
  Definition turns (f : nat) (t : Z * Z) : Prop :=
    exists g k v, mfaces m !! f = Some g /\ third_corner g idx0 idx1 = Ok k /\ mvertices m !! k = Some v /\
      t = turn_of edge a0 (p3sub (mv_p v) p0).
  Lemma best_spec cands : forall best seen,
    (forall f, f ∈ cands -> exists t, turns f t) ->
    match best with
    | None => seen = []
    | Some (f, s) => f ∈ seen /\ turns f s /\ forall h t, h ∈ seen -> turns h t -> angle_lt t s = false
    end -> seen ++ cands <> [] ->
    exists g s, best_candidate m idx0 idx1 p0 edge a0 best cands = Ok (Some g) /\ g ∈ seen ++ cands /\ turns g s /\
      forall h t, h ∈ seen ++ cands -> turns h t -> angle_lt t s = false.
  Proof.
    induction cands as [|f cands IH]; intros best seen Ht Hb Hne.
    - rewrite app_nil_r in *. destruct best as [[g s]|]; [|done]. exists g, s. split; [done|]. done.
    - destruct (Ht f) as (t & g & k & v & E1 & E2 & E3 & E4); [left|]. simpl. rewrite E1. cbn [of_opt rbind]. rewrite E2. cbn [rbind].
      rewrite E3. cbn [of_opt rbind]. rewrite <-E4.
      assert (Hft : turns f t) by (by exists g, k, v).
      assert (Hfun : forall t', turns f t' -> t' = t).
      { intros t' (g' & k' & v' & F1 & F2 & F3 & F4). congruence. }
      rewrite (cons_middle f). rewrite app_assoc. apply (IH _ (seen ++ [f])).
      + intros h Hh. apply Ht. by right.
      + destruct best as [[b s]|].
        * destruct Hb as (B1 & B2 & B3). destruct (angle_lt t s) eqn:Elt.
          -- split; [apply elem_of_app; right; left|]. split; [done|]. intros h t' Hh Hht.
             apply elem_of_app in Hh as [Hh|Hh].
             ++ destruct (angle_lt t' t) eqn:E; [|done].
                pose proof (angle_lt_trans _ _ _ E Elt) as X. rewrite (B3 h t' Hh Hht) in X. done.
             ++ apply elem_of_list_singleton in Hh as ->. rewrite (Hfun t' Hht). apply angle_lt_irrefl.
          -- split; [apply elem_of_app; by left|]. split; [done|]. intros h t' Hh Hht.
             apply elem_of_app in Hh as [Hh|Hh]; [by apply (B3 h)|]. apply elem_of_list_singleton in Hh as ->. by rewrite (Hfun t' Hht).
        * subst seen. split; [left|]. split; [done|]. intros h t' Hh Hht. simpl in Hh.
          apply elem_of_list_singleton in Hh as ->. rewrite (Hfun t' Hht). apply angle_lt_irrefl.
      + by destruct seen.
  Qed.
End best.

(** From the code's turns to directions around the edge. *)
Lemma turn_inner e a b : (turn_of e a b).1 = inner_along e (Pt3 (- px a) (- py a) (- pz a)) b.
Proof. destruct e, a, b. unfold turn_of, inner_along, dot3, cross3. simpl. ring. Qed.
Lemma turn_area e a b : (turn_of e a b).2 = vSize2_3 e * area_along e (Pt3 (- px a) (- py a) (- pz a)) b.
Proof. destruct e, a, b. unfold turn_of, area_along, dot3, cross3, vSize2_3. simpl. ring. Qed.
Lemma turns_cross e u v w :
  inner_along e u v * area_along e u w - area_along e u v * inner_along e u w = inner_along e u u * area_along e v w.
Proof. destruct e, u, v, w. unfold inner_along, area_along. simpl. ring. Qed.
Lemma inner_nonneg e u : 0 <= inner_along e u u.
Proof. unfold inner_along. cbn [px py pz]. repeat apply Z.add_nonneg_nonneg; apply Z.square_nonneg. Qed.
Lemma area_skew e u v : area_along e u v = - area_along e v u.
Proof. destruct e, u, v. unfold area_along. simpl. ring. Qed.
(** A vector without a component across the edge. *)
Lemma inner_zero e u : inner_along e u u = 0 -> forall v, inner_along e u v = 0 /\ vSize2_3 e * area_along e u v = 0.
Proof.
  destruct e as [a b c], u as [x y z]. unfold inner_along. simpl. intros H v. destruct v as [i j k].
  set (p := b * z - c * y) in *. set (q := c * x - a * z) in *. set (r := a * y - b * x) in *.
  pose proof (Z.square_nonneg p). pose proof (Z.square_nonneg q). pose proof (Z.square_nonneg r).
  assert (P : p * p = 0) by lia. assert (Q : q * q = 0) by lia. assert (R : r * r = 0) by lia.
  apply Z.mul_eq_0 in P, Q, R. assert (P0 : p = 0) by lia. assert (Q0 : q = 0) by lia. assert (R0 : r = 0) by lia.
  split; [simpl; rewrite P0, Q0, R0; ring|]. unfold area_along, vSize2_3. simpl.
  replace ((a * a + b * b + c * c) * (a * (y * k - z * j) + b * (z * i - x * k) + c * (x * j - y * i)))
    with ((a * a + b * b + c * c) * (p * i + q * j + r * k)) by (unfold p, q, r; ring).
  rewrite P0, Q0, R0. ring.
Qed.
Lemma not_passed e a b c : 0 < vSize2_3 e ->
  angle_lt (turn_of e a c) (turn_of e a b) = false -> ~ passes e (Pt3 (- px a) (- py a) (- pz a)) b c.
Proof.
  intros He Hlt Hp. set (u := Pt3 (- px a) (- py a) (- pz a)) in *.
  assert (Hn : ~ less (norm (turn_of e a c)) (norm (turn_of e a b))) by (rewrite <-angle_less, Hlt; done). clear Hlt.
  assert (Ec : (turn_of e a c) = (inner_along e u c, vSize2_3 e * area_along e u c)).
  { rewrite (surjective_pairing (turn_of e a c)), turn_inner, turn_area. done. }
  assert (Eb : (turn_of e a b) = (inner_along e u b, vSize2_3 e * area_along e u b)).
  { rewrite (surjective_pairing (turn_of e a b)), turn_inner, turn_area. done. }
  pose proof (turns_cross e u c b) as K. pose proof (inner_nonneg e u) as Hu.
  pose proof (area_skew e c b) as Sk.
  destruct (decide (inner_along e u u = 0)) as [Z0|Z0].
  { pose proof (inner_zero e u Z0) as Hz. destruct (Hz b) as [B1 B2], (Hz c) as [C1 C2].
    assert (area_along e u b = 0) by nia. assert (area_along e u c = 0) by nia.
    unfold passes in Hp. lia. }
  rewrite Ec, Eb in Hn. clear Ec Eb. set (N := vSize2_3 e) in *.
  set (ib := inner_along e u b) in *. set (ic := inner_along e u c) in *. set (ab := area_along e u b) in *. set (ac := area_along e u c) in *.
  set (bc := area_along e c b) in *. set (uu := inner_along e u u) in *. 
  apply Hn. clear Hn. unfold norm. simpl.
  assert (Hab : (N * ab =? 0) = (ab =? 0)) by (destruct (Z.eqb_spec (N * ab) 0), (Z.eqb_spec ab 0); try done; nia).
  assert (Hac : (N * ac =? 0) = (ac =? 0)) by (destruct (Z.eqb_spec (N * ac) 0), (Z.eqb_spec ac 0); try done; nia).
  rewrite Hab, Hac. clear Hab Hac.
  unfold passes in Hp. fold ab ac in Hp. fold bc in Hp. fold ib in Hp.
  assert (Hnz : ~ (ab = 0 /\ 0 <= ib)) by (intros [-> ?]; destruct Hp as [Hp|[Hp|Hp]]; lia).
  assert (Eb : (ib =? 0) && (ab =? 0) = false) by (destruct (Z.eqb_spec ib 0), (Z.eqb_spec ab 0); try done; lia).
  rewrite Eb.
  assert (Hcz : ~ (ic = 0 /\ ac = 0) \/ (ic = 0 /\ ac = 0)) by lia.
  assert (K' : ic * (N * ab) - N * ac * ib = N * (uu * bc)) by nia.
  destruct Hcz as [Hcz|[Hc1 Hc2]].
  2:{ (* the other vector has no component across the edge *)
      exfalso. assert (bc = 0) by nia. destruct Hp as [Hp|[Hp|Hp]]; lia. }
  assert (Ec : (ic =? 0) && (ac =? 0) = false) by (destruct (Z.eqb_spec ic 0), (Z.eqb_spec ac 0); try done; lia).
  rewrite Ec. unfold less. simpl.
  destruct (second_half (ic, N * ac)) eqn:Hc; [apply second_half_true in Hc|apply second_half_false in Hc];
    (destruct (second_half (ib, N * ab)) eqn:Hb; [apply second_half_true in Hb|apply second_half_false in Hb]); simpl in *;
    try (right; split; [done|]; rewrite K'; apply Z.mul_pos_pos; [done|]; apply Z.mul_pos_pos; [lia|]).
  - destruct Hp as [Hp|[Hp|Hp]]; [nia|nia|nia].
  - exfalso. destruct Hp as [Hp|[Hp|Hp]]; [nia| |nia]. nia.
  - by left.
  - destruct Hp as [Hp|[Hp|Hp]]; [lia| |]; nia.
Qed.

Lemma third_corner_spec g i0 i1 : proper (face_numbers g) -> i0 <> i1 -> touches g i0 -> touches g i1 ->
  exists k, third_corner g i0 i1 = Ok k /\ touches g k /\ k <> i0 /\ k <> i1 /\
    forall j, touches g j -> j <> i0 -> j <> i1 -> j = k.
Proof.
  unfold proper, touches, third_corner, face_numbers. simpl. intros (A & B & C) Hne T0 T1.
  destruct (Nat.eqb_spec (vi0 g) i0), (Nat.eqb_spec (vi0 g) i1); simpl;
    (destruct (Nat.eqb_spec (vi1 g) i0), (Nat.eqb_spec (vi1 g) i1); simpl);
    (destruct (Nat.eqb_spec (vi2 g) i0), (Nat.eqb_spec (vi2 g) i1); simpl);
    first [lia | (eexists; split; [reflexivity|]; split; [lia|]; split; [lia|]; split; [lia|]; intros; lia)].
Qed.

(** What linking one edge gives. *)
Lemma link_spec b f fi i : inv b -> mfaces (bmesh b) !! fi = Some f -> (i < 3)%nat ->
  exists r, getFaceIdxWithPoints (bmesh b) (directed_edge f i).1 (directed_edge f i).2 fi (apex f i) = Ok r /\
    (r = None <-> forall gi, ~ across (bmesh b) fi i gi) /\
    forall gi, r = Some gi -> across (bmesh b) fi i gi /\
      forall hi g h, across (bmesh b) fi i hi -> mfaces (bmesh b) !! gi = Some g -> mfaces (bmesh b) !! hi = Some h ->
        ~ comes_before (bmesh b) f i g h.
Proof.
  intros Hi Hf Hlt. set (m := bmesh b) in *.
  destruct (inv_faces b Hi fi f Hf) as (R0 & R1 & R2 & Hp). fold m in R0, R1, R2.
  set (i0 := (directed_edge f i).1). set (i1 := (directed_edge f i).2). set (ia := apex f i).
  assert (Hr : (i0 < length (mvertices m))%nat /\ (i1 < length (mvertices m))%nat /\ (ia < length (mvertices m))%nat /\ i0 <> i1).
  { unfold proper, face_numbers in Hp. simpl in Hp. subst i0 i1 ia. destruct i as [|[|[|i]]]; simpl; lia. }
  destruct Hr as (L0 & L1 & La & Hne).
  destruct (lookup_lt_is_Some_2 _ _ L0) as [v0 E0], (lookup_lt_is_Some_2 _ _ L1) as [v1 E1], (lookup_lt_is_Some_2 _ _ La) as [va Ea].
  pose proof (inv_connected b Hi i0 v0 E0) as Hconn. fold m in Hconn.
  unfold getFaceIdxWithPoints. rewrite E0. cbn [of_opt rbind].
  destruct (candidates_spec (mfaces m) i1 fi (mv_faces v0)) as (cands & Ec & Hc).
  { intros g Hg. rewrite Hconn in Hg. apply elem_of_list_filter in Hg as [Hg _]. unfold face_touches in Hg.
    destruct (mfaces m !! g) eqn:E; by eauto. }
  rewrite Ec. cbn [rbind].
  assert (Hacross : forall g, g ∈ cands <-> across m fi i g).
  { intros g. rewrite Hc, Hconn, elem_of_list_filter, elem_of_seq. split.
    - intros ((A & _) & B & gf & Eg & T). unfold face_touches in A. rewrite Eg in A. exists f, gf. done.
    - intros (f' & gf & Ef & Eg & Hn & T0 & T1). rewrite Hf in Ef. injection Ef as <-. split; [split|].
      + unfold face_touches. by rewrite Eg.
      + apply lookup_lt_Some in Eg. lia.
      + split; [done|]. by exists gf. }
  assert (Hturn : forall g, g ∈ cands -> exists t, turns m i0 i1 (mv_p v0) (p3sub (mv_p v1) (mv_p v0)) (p3sub (mv_p va) (mv_p v0)) g t).
  { intros g Hg. apply Hacross in Hg as (f' & gf & Ef & Eg & Hn & T0 & T1). rewrite Hf in Ef. injection Ef as <-.
    destruct (inv_faces b Hi g gf Eg) as (S0 & S1 & S2 & Hpg). fold m in S0, S1, S2.
    destruct (third_corner_spec gf i0 i1 Hpg Hne T0 T1) as (k & Ek & Tk & _).
    assert (Hk : (k < length (mvertices m))%nat) by (unfold touches in Tk; lia).
    destruct (lookup_lt_is_Some_2 _ _ Hk) as [w Ew]. eexists. by exists gf, k, w. }
  assert (Hmain : cands <> [] -> exists gi, (match cands with [] => Ok None | [g] => Ok (Some g) | _ =>
      let! v1 := of_opt (mvertices m !! i1) in let! vn := of_opt (mvertices m !! ia) in
      best_candidate m i0 i1 (mv_p v0) (p3sub (mv_p v1) (mv_p v0)) (p3sub (mv_p vn) (mv_p v0)) None cands end) = Ok (Some gi) /\
      gi ∈ cands /\ exists s, turns m i0 i1 (mv_p v0) (p3sub (mv_p v1) (mv_p v0)) (p3sub (mv_p va) (mv_p v0)) gi s /\
      forall h t, h ∈ cands -> turns m i0 i1 (mv_p v0) (p3sub (mv_p v1) (mv_p v0)) (p3sub (mv_p va) (mv_p v0)) h t -> angle_lt t s = false).
  { intros Hnil. destruct cands as [|c1 [|c2 rest]]; [done| |].
    - exists c1. split; [done|]. split; [left|]. destruct (Hturn c1) as [s Hs]; [left|]. exists s. split; [done|].
      intros h t Hh Ht. apply elem_of_list_singleton in Hh as ->.
      destruct Hs as (g & k & w & F1 & F2 & F3 & F4), Ht as (g' & k' & w' & G1 & G2 & G3 & G4).
      assert (t = s) as -> by congruence. apply angle_lt_irrefl.
    - rewrite E1, Ea. cbn [of_opt rbind].
      destruct (best_spec m i0 i1 (mv_p v0) (p3sub (mv_p v1) (mv_p v0)) (p3sub (mv_p va) (mv_p v0)) (c1 :: c2 :: rest) None [])
        as (g & s & Eg & Hg & Hs & Hmin); [done|done|done|].
      exists g. split; [done|]. split; [done|]. by exists s. }
  destruct (decide (cands = [])) as [Enil|Enil].
  { rewrite Enil. exists None. split; [done|]. split; [|done]. split; [|done].
    intros _ gi Hgi. apply Hacross in Hgi. rewrite Enil in Hgi. by apply elem_of_nil in Hgi. }
  destruct (Hmain Enil) as (gi & Eg & Hg & s & Hs & Hmin). exists (Some gi). split; [exact Eg|]. split.
  { split; [done|]. intros H. apply Hacross in Hg. by apply H in Hg. }
  intros gi' [= <-]. split; [by apply Hacross|]. intros hi g h Hh Egi Ehi Hcb.
  apply Hacross in Hh as Hhc.
  destruct Hcb as (p & q & a & b' & c & kb & kc & (? & P1 & P2) & (? & Q1 & Q2) & (? & A1 & A2) & Tb & Nb0 & Nb1 & (wb & B1 & B2) & Tc & Nc0 & Nc1 & (wc & C1 & C2) & Hpass).
  fold i0 in P1, Nb0, Nc0. fold i1 in Q1, Nb1, Nc1. fold ia in A1. rewrite E0 in P1. injection P1 as <-. rewrite E1 in Q1. injection Q1 as <-. rewrite Ea in A1. injection A1 as <-.
  apply Hacross in Hg as (f1 & g1 & Ef1 & Eg1 & _ & G0 & G1). rewrite Hf in Ef1. injection Ef1 as <-. rewrite Egi in Eg1. injection Eg1 as <-.
  destruct Hh as (f2 & h1 & Ef2 & Eh1 & _ & H0 & H1). rewrite Hf in Ef2. injection Ef2 as <-. rewrite Ehi in Eh1. injection Eh1 as <-.
  destruct (inv_faces b Hi gi g Egi) as (_ & _ & _ & Hpg). destruct (inv_faces b Hi hi h Ehi) as (_ & _ & _ & Hph).
  destruct (third_corner_spec g i0 i1 Hpg Hne G0 G1) as (k1 & K1 & _ & _ & _ & U1).
  destruct (third_corner_spec h i0 i1 Hph Hne H0 H1) as (k2 & K2 & _ & _ & _ & U2).
  assert (kb = k1) as -> by (by apply U1). assert (kc = k2) as -> by (by apply U2).
  destruct Hs as (g' & k' & w' & S1 & S2 & S3 & S4). rewrite Egi in S1. injection S1 as <-. rewrite K1 in S2. injection S2 as <-.
  rewrite B1 in S3. injection S3 as <-.
  specialize (Hmin hi _ Hhc (ex_intro _ h (ex_intro _ k2 (ex_intro _ wc (conj Ehi (conj K2 (conj C1 eq_refl))))))).
  subst s. revert Hpass. subst p q a b' c.
  assert (Hv : 0 < vSize2_3 (p3sub (mv_p v1) (mv_p v0))).
  { destruct (decide (dist2 (mv_p v1) (mv_p v0) <= 0)) as [Hz|Hz].
    - exfalso. apply dist2_0 in Hz. apply Hne.
      assert (P0 : places b !! i0 = Some (mv_p v0)) by (rewrite list_lookup_fmap; unfold m in E0; by rewrite E0).
      assert (P1 : places b !! i1 = Some (mv_p v1)) by (rewrite list_lookup_fmap; unfold m in E1; by rewrite E1).
      apply (inv_vertex b Hi) in P0, P1. rewrite Hz in P1. by eapply found_fun.
    - unfold vSize2_3, p3sub. cbn [px py pz]. unfold dist2 in Hz. lia. }
  intros Hpass. eapply not_passed; [exact Hv|exact Hmin|].
  match goal with |- passes _ ?u _ _ => replace u with (from_to (mv_p va) (mv_p v0)) end; [exact Hpass|].
  unfold from_to, p3sub. cbn [px py pz]. f_equal; lia.
Qed.

Lemma finish_faces_spec b : inv b -> forall fs i, (forall j f, fs !! j = Some f -> mfaces (bmesh b) !! (i + j)%nat = Some f) ->
  exists r, finish_faces (bmesh b) i fs = Ok r /\ face_numbers <$> r = face_numbers <$> fs /\
    forall j f', r !! j = Some f' -> exists f, fs !! j = Some f /\ face_numbers f' = face_numbers f /\
      forall k, (k < 3)%nat -> getFaceIdxWithPoints (bmesh b) (directed_edge f k).1 (directed_edge f k).2 (i + j) (apex f k) = Ok (face_connected f' k).
Proof.
  intros Hi fs. induction fs as [|f fs IH]; intros i Hfs.
  - exists []. done.
  - assert (Hf : mfaces (bmesh b) !! i = Some f) by (specialize (Hfs 0%nat f eq_refl); by rewrite Nat.add_0_r in Hfs).
    destruct (link_spec b f i 0 Hi Hf) as (c0 & E0 & _); [lia|]. destruct (link_spec b f i 1 Hi Hf) as (c1 & E1 & _); [lia|].
    destruct (link_spec b f i 2 Hi Hf) as (c2 & E2 & _); [lia|]. simpl in E0, E1, E2. simpl.
    rewrite E0. cbn [rbind]. rewrite E1. cbn [rbind]. rewrite E2. cbn [rbind].
    destruct (IH (S i)) as (r & Er & Hn & Hr).
    { intros j g Hg. replace (S i + j)%nat with (i + S j)%nat by lia. by apply Hfs. }
    rewrite Er. cbn [rbind]. eexists. split; [done|]. split; [by rewrite !fmap_cons, Hn|].
    intros [|j] f' Hj.
    + injection Hj as <-. exists f. split; [done|]. split; [done|]. rewrite Nat.add_0_r.
      intros [|[|[|k]]] Hk; [done|done|done|lia].
    + simpl in Hj. destruct (Hr j f' Hj) as (g & A & B & C). exists g. split; [done|]. split; [done|].
      intros k Hk. replace (i + S j)%nat with (S i + j)%nat by lia. by apply C.
Qed.
