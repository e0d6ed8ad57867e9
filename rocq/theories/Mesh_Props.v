(** C50 (building a mesh keeps the faces and links neighbours) and C60 (placing the meshes of a group). *)
From Coq Require Import ZArith QArith Lia Lqa.
From stdpp Require Import list.
From Verif Require Import Common Geo_Model Layers_Model Slicer_Model Slicer_Spec Slicer_Props Box_Model Box_Props Mesh_Model Mesh_Spec Mesh_Proofs.
Open Scope Z_scope.

Lemma load_spec ts : exists b m, add_faces new_mesh ts = Ok b /\ load_mesh ts = Ok m /\ inv b /\
  mvertices m = mvertices (bmesh b) /\ face_numbers <$> mfaces m = face_numbers <$> mfaces (bmesh b) /\
  (forall t p, t ∈ ts -> is_corner p t -> exists k, found b p k) /\
  face_numbers <$> mfaces (bmesh b) = filter proper (in_numbers (rep b) <$> ts) /\
  (forall w, w ∈ places b -> exists t, t ∈ ts /\ is_corner w t) /\
  (forall j f', mfaces m !! j = Some f' -> exists f, mfaces (bmesh b) !! j = Some f /\ face_numbers f' = face_numbers f /\
      forall k, (k < 3)%nat -> getFaceIdxWithPoints (bmesh b) (directed_edge f k).1 (directed_edge f k).2 j (apex f k) = Ok (face_connected f' k)).
Proof.
  destruct (add_faces_spec ts new_mesh inv_new) as (b & E & I & _ & HC & M & P).
  destruct (finish_faces_spec b I (mfaces (bmesh b)) 0) as (fs & Ef & Hn & Hl); [done|].
  exists b, (Mesh (mvertices (bmesh b)) fs). split; [done|]. unfold load_mesh, finish. rewrite E. cbn [rbind]. rewrite Ef. cbn [rbind].
  split; [done|]. split; [done|]. split; [done|]. split; [done|]. split; [done|]. split; [done|]. split; [|done].
  intros w Hw. destruct (P w Hw) as [H|?]; [by apply elem_of_nil in H|done].
Qed.

(** C50.  Loading any list of triangles succeeds, and there is one vertex number for every point so that: a corner is
    represented by a vertex within 30 micron; the faces are exactly the triangles whose three corners got different
    numbers, in order; every vertex is a corner of the input and represents itself; the faces listed at a vertex are the
    faces that have it as a corner. *)
Theorem C50_faces : forall ts, exists m number, load_mesh ts = Ok m /\
  (forall t p, t ∈ ts -> is_corner p t -> exists q, located m (number p) q /\ dist2 p q <= 30 * 30) /\
  face_numbers <$> mfaces m = filter proper (in_numbers number <$> ts) /\
  (forall k q, located m k q -> number q = k /\ exists t, t ∈ ts /\ is_corner q t) /\
  (forall k v, mvertices m !! k = Some v -> mv_faces v = filter (face_touches m k) (seq 0 (length (mfaces m)))).
Proof.
  intros ts. destruct (load_spec ts) as (b & m & _ & E & I & Ev & Ef & HC & M & P & _).
  exists m, (rep b). split; [done|]. split; [|split; [|split]].
  - intros t p Ht Hp. destruct (HC t p Ht Hp) as [k Hk]. rewrite (rep_found b p k I Hk).
    destruct Hk as (pre & post & w & _ & Hw & Hd & _). rewrite list_lookup_fmap in Hw.
    destruct (mvertices (bmesh b) !! k) as [v|] eqn:Hv; [|done]. injection Hw as <-. exists (mv_p v). split.
    + exists v. by rewrite Ev.
    + unfold dist2 in *. lia.
  - by rewrite Ef.
  - intros k q (v & Hv & Hq). rewrite Ev in Hv.
    assert (Hk : places b !! k = Some q) by (rewrite list_lookup_fmap, Hv; simpl; by rewrite Hq). split.
    + apply rep_found; [done|]. by apply (inv_vertex b I).
    + apply P. by apply elem_of_list_lookup_2 in Hk.
  - intros k v Hv. rewrite Ev in Hv. rewrite (inv_connected b I k v Hv).
    assert (El : length (mfaces m) = length (mfaces (bmesh b))) by (apply (f_equal length) in Ef; by rewrite !fmap_length in Ef).
    rewrite El. apply filter_iff_in. intros fi _. unfold face_touches.
    assert (El' : face_numbers <$> mfaces m !! fi = face_numbers <$> mfaces (bmesh b) !! fi)
      by (rewrite <-!list_lookup_fmap; by rewrite Ef).
    destruct (mfaces m !! fi) as [f|], (mfaces (bmesh b) !! fi) as [f'|]; try done. injection El' as A B C.
    unfold touches. by rewrite A, B, C.
Qed.

Lemma numbers_edge f g i : face_numbers f = face_numbers g -> directed_edge f i = directed_edge g i /\ apex f i = apex g i.
Proof. unfold face_numbers. intros [= A B C]. unfold directed_edge, apex. destruct i as [|[|i]]; by rewrite ?A, ?B, ?C. Qed.
Lemma numbers_touch f g k : face_numbers f = face_numbers g -> touches f k <-> touches g k.
Proof. unfold face_numbers. intros [= A B C]. unfold touches. by rewrite A, B, C. Qed.
Lemma numbers_lookup m m' fi f : face_numbers <$> mfaces m = face_numbers <$> mfaces m' -> mfaces m !! fi = Some f ->
  exists f', mfaces m' !! fi = Some f' /\ face_numbers f = face_numbers f'.
Proof.
  intros E Hf. assert (El : face_numbers <$> mfaces m !! fi = face_numbers <$> mfaces m' !! fi)
    by (rewrite <-!list_lookup_fmap; by rewrite E).
  rewrite Hf in El. destruct (mfaces m' !! fi) as [f'|]; [|done]. exists f'. split; [done|]. simpl in El. congruence.
Qed.
Lemma across_numbers m m' fi i gi : face_numbers <$> mfaces m = face_numbers <$> mfaces m' -> across m fi i gi -> across m' fi i gi.
Proof.
  intros E (f & g & Hf & Hg & Hn & T0 & T1). destruct (numbers_lookup m m' fi f E Hf) as (f' & Hf' & Nf).
  destruct (numbers_lookup m m' gi g E Hg) as (g' & Hg' & Ng). exists f', g'. split; [done|]. split; [done|]. split; [done|].
  destruct (numbers_edge f f' i Nf) as [<- _]. split; by apply (numbers_touch g).
Qed.
Lemma before_numbers m m' f f' i g g' h h' : mvertices m = mvertices m' -> face_numbers f = face_numbers f' ->
  face_numbers g = face_numbers g' -> face_numbers h = face_numbers h' -> comes_before m f i g h -> comes_before m' f' i g' h'.
Proof.
  intros Ev Nf Ng Nh (p & q & a & b & c & kb & kc & H). exists p, q, a, b, c, kb, kc.
  unfold located in *. rewrite <-Ev. destruct (numbers_edge f f' i Nf) as [<- <-].
  rewrite <-(numbers_touch g g' kb Ng), <-(numbers_touch h h' kc Nh). done.
Qed.

(** C50.  An edge of a face has no link exactly if no other face has both its end points.  If it is linked, then to another
    face with both its end points, and turning around the edge from the continuation of the face to that neighbour one
    passes none of the other faces at the edge. *)
Theorem C50_links : forall ts m fi f i, load_mesh ts = Ok m -> mfaces m !! fi = Some f -> (i < 3)%nat ->
  (face_connected f i = None <-> forall gi, ~ across m fi i gi) /\
  (forall gi, face_connected f i = Some gi -> across m fi i gi /\
     forall g hi h, mfaces m !! gi = Some g -> across m fi i hi -> mfaces m !! hi = Some h -> ~ comes_before m f i g h).
Proof.
  intros ts m fi f i E Hf Hi. destruct (load_spec ts) as (b & m' & _ & E' & I & Ev & Ef & _ & _ & _ & Hl).
  rewrite E in E'. injection E' as <-. destruct (Hl fi f Hf) as (f0 & Hf0 & Nf & Hk).
  destruct (link_spec b f0 fi i I Hf0 Hi) as (r & Er & Hnone & Hsome). rewrite (Hk i Hi) in Er. injection Er as Er.
  split.
  - rewrite Er, Hnone. split; intros H gi Hg; apply (H gi); eapply across_numbers; try done; by symmetry.
  - intros gi Hgi. rewrite Er in Hgi. destruct (Hsome gi Hgi) as [Ha Hb]. split; [eapply across_numbers; [|exact Ha]; by symmetry|].
    intros g hi h Hg Hh Hhi Hcb.
    destruct (numbers_lookup _ _ gi g Ef Hg) as (g0 & Hg0 & Ng). destruct (numbers_lookup _ _ hi h Ef Hhi) as (h0 & Hh0 & Nh).
    eapply (Hb hi g0 h0); [by eapply across_numbers|done|done|]. by eapply before_numbers.
Qed.

Lemma touch_two g i0 i1 : proper (face_numbers g) -> i0 <> i1 -> touches g i0 -> touches g i1 ->
  exists j, (j < 3)%nat /\ (directed_edge g j = (i0, i1) \/ directed_edge g j = (i1, i0)).
Proof.
  unfold touches. intros _ Hne [-> |[-> | ->]] [-> |[-> | ->]]; try done.
  - exists 0%nat. simpl. auto with lia.
  - exists 2%nat. simpl. auto with lia.
  - exists 0%nat. simpl. auto with lia.
  - exists 1%nat. simpl. auto with lia.
  - exists 2%nat. simpl. auto with lia.
  - exists 1%nat. simpl. auto with lia.
Qed.
Lemma edge_touch g j : touches g (directed_edge g j).1 /\ touches g (directed_edge g j).2.
Proof. unfold touches, directed_edge. destruct j as [|[|j]]; simpl; auto. Qed.

Lemma loaded_proper ts m fi f : load_mesh ts = Ok m -> mfaces m !! fi = Some f -> proper (face_numbers f) /\
  (vi0 f < length (mvertices m))%nat /\ (vi1 f < length (mvertices m))%nat /\ (vi2 f < length (mvertices m))%nat.
Proof.
  intros E Hf. destruct (load_spec ts) as (b & m' & _ & E' & I & Ev & Ef & _). rewrite E in E'. injection E' as <-.
  destruct (numbers_lookup _ _ fi f Ef Hf) as (f0 & Hf0 & Nf). destruct (inv_faces b I fi f0 Hf0) as (A & B & C & D).
  rewrite Nf, Ev. injection Nf as -> -> ->. done.
Qed.

(** C50.  If the faces are watertight in terms of the vertex numbers, the loaded mesh is closed in the sense slicing
    relies on (C07): every edge is linked to the face that has the same edge in the other direction. *)
Theorem C50_closed : forall ts m, load_mesh ts = Ok m -> watertight_numbers (mfaces m) -> closed_mesh m.
Proof.
  intros ts m E [Huniq Hopp]. split; [|split].
  - intros fi f Hf. by apply (loaded_proper ts m fi f).
  - exact Huniq.
  - intros fi f i Hf Hi. destruct (Hopp fi f i Hf Hi) as (gi & g & j & Hg & Hj & Ej).
    destruct (C50_links ts m fi f i E Hf Hi) as [Hnone Hsome].
    destruct (loaded_proper ts m fi f E Hf) as (Hp & _).
    assert (Hne : (directed_edge f i).1 <> (directed_edge f i).2).
    { unfold proper, face_numbers in Hp. simpl in Hp. destruct i as [|[|[|i]]]; simpl; lia. }
    assert (Hgf : gi <> fi).
    { intros ->. rewrite Hf in Hg. injection Hg as <-. unfold proper, face_numbers in Hp. simpl in Hp.
      pose proof (f_equal fst Ej) as E1. pose proof (f_equal snd Ej) as E2.
      destruct i as [|[|[|i]]], j as [|[|[|j]]]; simpl in E1, E2; lia. }
    assert (Ha : across m fi i gi).
    { exists f, g. split; [done|]. split; [done|]. split; [done|]. destruct (edge_touch g j) as [T0 T1]. rewrite Ej in T0, T1. done. }
    destruct (face_connected f i) as [ki|] eqn:Ek; [|by destruct (proj1 Hnone eq_refl gi)].
    destruct (Hsome ki eq_refl) as [(f' & k & Ef' & Hk & Hkf & T0 & T1) _]. rewrite Hf in Ef'. injection Ef' as <-.
    destruct (loaded_proper ts m ki k E Hk) as (Hpk & _).
    destruct (touch_two k _ _ Hpk Hne T0 T1) as (l & Hl & [El|El]).
    + exfalso. apply Hkf. destruct (Huniq ki k l fi f i Hk Hf Hl Hi) as [? _]; [|done]. by rewrite El, <-surjective_pairing.
    + exists ki, k, l. done.
Qed.

(** C50 and C07 together.  Triangles whose corners are equal or more than 30 micron apart, none degenerate, every edge used
    once in each direction: no face is lost, corners are kept exactly, and slicing at a height where no corner lies
    gives closed contours only. *)
Theorem C50_watertight : forall ts, separated ts -> no_slivers ts -> watertight ts ->
  exists m, load_mesh ts = Ok m /\ closed_mesh m /\
    Forall2 (fun t f => located m (vi0 f) t.1.1 /\ located m (vi1 f) t.1.2 /\ located m (vi2 f) t.2) ts (mfaces m) /\
    forall tol z, (forall t p, t ∈ ts -> is_corner p t -> height tol z p <> z) ->
      exists polys, slice_layer_loops m tol z = Ok (polys, []).
Proof.
  intros ts Hsep Hsl [Huniq Hopp]. destruct (C50_faces ts) as (m & num & E & Hc & Hf & Hv & _).
  assert (Hexact : forall t p, t ∈ ts -> is_corner p t -> located m (num p) p).
  { intros t p Ht Hp. destruct (Hc t p Ht Hp) as (q & Hq & Hd). destruct (Hv _ _ Hq) as (_ & u & Hu & Hqu).
    destruct (Hsep t u p q Ht Hu Hp Hqu) as [-> |?]; [done|lia]. }
  assert (Hinj : forall t p u q, t ∈ ts -> is_corner p t -> u ∈ ts -> is_corner q u -> num p = num q -> p = q).
  { intros t p u q Ht Hp Hu Hq Hn. destruct (Hexact t p Ht Hp) as (v & Ev & Hvp), (Hexact u q Hu Hq) as (w & Ew & Hwq).
    rewrite Hn in Ev. congruence. }
  assert (Hall : filter proper (in_numbers num <$> ts) = in_numbers num <$> ts).
  { clear - Hsl Hinj. assert (HP : Forall proper (in_numbers num <$> ts)).
    { apply Forall_fmap, Forall_forall. intros t Ht. destruct (Hsl t Ht) as (A & B & C).
      assert (C0 : is_corner t.1.1 t) by (by left). assert (C1 : is_corner t.1.2 t) by (by right; left).
      assert (C2 : is_corner t.2 t) by (by right; right).
      unfold proper, in_numbers. simpl. split; [|split]; intros En; [apply A|apply B|apply C]; by eapply (Hinj t _ t). }
    induction HP as [|x l Hx _ IH]; [done|]. by rewrite filter_cons, decide_True, IH. }
  rewrite Hall in Hf. clear Hall.
  assert (Hlook : forall a f, mfaces m !! a = Some f -> exists t, ts !! a = Some t /\ face_numbers f = in_numbers num t).
  { intros a f Ha. assert (El : (face_numbers <$> mfaces m) !! a = (in_numbers num <$> ts) !! a) by (by rewrite Hf).
    rewrite !list_lookup_fmap, Ha in El. destruct (ts !! a) as [t|]; [|done]. exists t. split; [done|]. simpl in El. congruence. }
  assert (Hlook' : forall a t, ts !! a = Some t -> exists f, mfaces m !! a = Some f /\ face_numbers f = in_numbers num t).
  { intros a t Ha. assert (El : (face_numbers <$> mfaces m) !! a = (in_numbers num <$> ts) !! a) by (by rewrite Hf).
    rewrite !list_lookup_fmap, Ha in El. destruct (mfaces m !! a) as [f|]; [|done]. exists f. split; [done|]. simpl in El. congruence. }
  assert (Hedge : forall f t i, face_numbers f = in_numbers num t -> directed_edge f i = (num (triangle_edge t i).1, num (triangle_edge t i).2)).
  { intros f t i Hn. unfold face_numbers, in_numbers in Hn. injection Hn as A B C. destruct i as [|[|i]]; simpl; congruence. }
  assert (Hcor : forall t i, is_corner (triangle_edge t i).1 t /\ is_corner (triangle_edge t i).2 t).
  { intros t i. unfold is_corner. destruct i as [|[|i]]; simpl; auto. }
  assert (Hclosed : closed_mesh m).
  { apply (C50_closed ts m E). split.
    - intros fi f i gi g j Hfi Hgi Hi Hj Ee. destruct (Hlook fi f Hfi) as (t & Ht & Nt), (Hlook gi g Hgi) as (u & Hu & Nu).
      rewrite (Hedge f t i Nt), (Hedge g u j Nu) in Ee. injection Ee as E1 E2.
      pose proof (elem_of_list_lookup_2 _ _ _ Ht) as It. pose proof (elem_of_list_lookup_2 _ _ _ Hu) as Iu.
      apply (Huniq fi t i gi u j Ht Hu Hi Hj). rewrite (surjective_pairing (triangle_edge t i)), (surjective_pairing (triangle_edge u j)).
      destruct (Hcor t i), (Hcor u j). f_equal; by eapply (Hinj t _ u).
    - intros fi f i Hfi Hi. destruct (Hlook fi f Hfi) as (t & Ht & Nt).
      destruct (Hopp fi t i Ht Hi) as (b & u & j & Hu & Hj & Ee). destruct (Hlook' b u Hu) as (g & Hg & Nu).
      exists b, g, j. split; [done|]. split; [done|]. by rewrite (Hedge f t i Nt), (Hedge g u j Nu), Ee. }
  exists m. split; [done|]. split; [done|]. split.
  - apply Forall2_same_length_lookup. split; [apply (f_equal length) in Hf; by rewrite !fmap_length in Hf|].
    intros a t f Ht Ha. destruct (Hlook a f Ha) as (t' & Ht' & Nt). rewrite Ht in Ht'. injection Ht' as <-.
    injection Nt as -> -> ->. apply elem_of_list_lookup_2 in Ht.
    split; [|split]; apply (Hexact t); try done; unfold is_corner; auto.
  - intros tol z Hz. apply C07_closed_mesh_closed_contours; [done|]. intros k v Hk.
    destruct (Hv k (mv_p v)) as (_ & t & Ht & Hp); [by exists v|]. by apply (Hz t).
Qed.

(** C50.  The box kept while adding faces is the bounding box of the vertices (coordinates within 32 bits). *)
Theorem C50_box : forall ts b, add_faces new_mesh ts = Ok b -> ts <> [] ->
  (forall t p, t ∈ ts -> is_corner p t -> pt3_32 p) -> bounds (mv_p <$> mvertices (bmesh b)) (bbox b).
Proof.
  intros ts b E Hne H32. destruct (load_spec ts) as (b' & m & E' & _ & I & _ & _ & HC & _ & P & _).
  rewrite E in E'. injection E' as <-. rewrite (inv_box b I). rewrite include3_fold.
  assert (Hq : exists q, q ∈ places b).
  { destruct ts as [|t ts]; [done|]. destruct (HC t t.1.1) as [k (pre & post & w & _ & Hw & _)]; [left|by left|].
    exists w. by apply elem_of_list_lookup_2 in Hw. }
  destruct Hq as (q & Hq). assert (H : forall p, p ∈ places b -> pt3_32 p) by (intros p Hp; destruct (P p Hp) as (t & ? & ?); by apply (H32 t)).
  pose proof (H q Hq) as Hq32. unfold pt3_32, c32 in Hq32. unfold bounds. cbn [b3min b3max px py pz].
  pose proof (lows_spec px (places b) INT32_MAX) as (A1 & B1 & C1). pose proof (lows_spec py (places b) INT32_MAX) as (A2 & B2 & C2).
  pose proof (lows_spec pz (places b) INT32_MAX) as (A3 & B3 & C3). pose proof (highs_spec px (places b) INT32_MIN) as (A4 & B4 & C4).
  pose proof (highs_spec py (places b) INT32_MIN) as (A5 & B5 & C5). pose proof (highs_spec pz (places b) INT32_MIN) as (A6 & B6 & C6).
  pose proof (B1 q Hq). pose proof (B2 q Hq). pose proof (B3 q Hq). pose proof (B4 q Hq). pose proof (B5 q Hq). pose proof (B6 q Hq).
  cbn [aabb3_empty b3min b3max px py pz].
  split; [intros p Hp; specialize (B1 p Hp); specialize (B2 p Hp); specialize (B3 p Hp); specialize (B4 p Hp); specialize (B5 p Hp); specialize (B6 p Hp); lia|].
  split; [destruct C1 as [E1|?]; [exists q; split; [done|lia]|done]|].
  split; [destruct C4 as [E1|?]; [exists q; split; [done|lia]|done]|].
  split; [destruct C2 as [E1|?]; [exists q; split; [done|lia]|done]|].
  split; [destruct C5 as [E1|?]; [exists q; split; [done|lia]|done]|].
  split; [destruct C3 as [E1|?]; [exists q; split; [done|lia]|done]|].
  destruct C6 as [E1|?]; [exists q; split; [done|lia]|done].
Qed.

(** Close corners are not always merged: two corners one micron apart in different cells stay two vertices. *)
Theorem C50_merge_refuted : exists ts m f g, load_mesh ts = Ok m /\ mfaces m = [f; g] /\
  (exists p q, located m (vi0 f) p /\ located m (vi0 g) q /\ dist2 p q = 1) /\ vi0 f <> vi0 g.
Proof.
  exists [(Pt3 14 0 0, Pt3 1000 0 0, Pt3 0 1000 0); (Pt3 15 0 0, Pt3 1000 0 0, Pt3 0 1000 0)].
  eexists _, _, _. split; [vm_compute; reflexivity|]. split; [reflexivity|]. split; [|done].
  exists (Pt3 14 0 0), (Pt3 15 0 0). split; [by eexists|]. split; [by eexists|]. done.
Qed.

(** Where four faces meet at an edge, the documented link via the outside is not made: in this watertight pair of
    tetrahedra touching at an edge, the face linked over that edge runs along the edge in the same direction. *)
Definition two_wedges : list triangle :=
  let a := Pt3 0 0 0 in let b := Pt3 0 0 10000 in
  let e := Pt3 10000 0 0 in let n := Pt3 0 10000 0 in let w := Pt3 (-10000) 0 0 in let s := Pt3 0 (-10000) 0 in
  [(a, b, n); (b, a, e); (a, n, e); (b, e, n); (a, b, s); (b, a, w); (a, s, w); (b, w, s)].
Theorem C50_outside_refuted : exists m f g, load_mesh two_wedges = Ok m /\ mfaces m !! 0%nat = Some f /\
  face_connected f 0 = Some 4%nat /\ mfaces m !! 4%nat = Some g /\ directed_edge g 0 = directed_edge f 0.
Proof. eexists _, _, _. split; [vm_compute; reflexivity|]. done. Qed.

(** Clearing a mesh keeps its old bounding box, so a mesh built afterwards has a box that is too large. *)
Theorem C50_clear_refuted : exists b b', add_faces new_mesh [(Pt3 0 0 0, Pt3 9000 0 0, Pt3 0 9000 0)] = Ok b /\
  add_faces (clear b) [(Pt3 0 0 0, Pt3 1000 0 0, Pt3 0 1000 0)] = Ok b' /\ ~ bounds (mv_p <$> mvertices (bmesh b')) (bbox b').
Proof.
  eexists _, _. split; [reflexivity|]. split; [vm_compute; reflexivity|]. intros (_ & _ & (p & Hp & Ep) & _). simpl in *.
  repeat (apply elem_of_cons in Hp as [-> |Hp]; [done|]). by apply elem_of_nil in Hp.
Qed.

(** A tetrahedron meets the hypotheses of C50_watertight; one corner is entered four times. *)
Definition tetra : list triangle :=
  let a := Pt3 0 0 0 in let b := Pt3 9000 0 0 in let c := Pt3 0 9000 0 in let d := Pt3 0 0 9000 in
  [(a, c, b); (a, b, d); (b, c, d); (c, a, d)].
Example C50_example : separated tetra /\ no_slivers tetra /\ watertight tetra /\
  exists m, load_mesh tetra = Ok m /\ length (mvertices m) = 4%nat /\ slice_layer_loops m MIDDLE 4500 = Ok ([[(0, 0); (4499, 0); (0, 4499); (0, 0)]], []).
Proof.
  split; [|split; [|split]].
  - intros t u p q Ht Hu Hp Hq. unfold tetra in Ht, Hu.
    assert (Hin : forall v x, v ∈ tetra -> is_corner x v -> x ∈ [Pt3 0 0 0; Pt3 9000 0 0; Pt3 0 9000 0; Pt3 0 0 9000]).
    { intros v x Hv Hx. unfold tetra in Hv. repeat (apply elem_of_cons in Hv as [-> |Hv]; [destruct Hx as [-> |[-> | ->]]; simpl; set_solver|]). by apply elem_of_nil in Hv. }
    pose proof (Hin t p Ht Hp) as Ip. pose proof (Hin u q Hu Hq) as Iq. clear - Ip Iq.
    repeat (apply elem_of_cons in Ip as [-> |Ip]; [repeat (apply elem_of_cons in Iq as [-> |Iq]; [first [by left|by right]|]); by apply elem_of_nil in Iq|]).
    by apply elem_of_nil in Ip.
  - intros t Ht. unfold tetra in Ht. repeat (apply elem_of_cons in Ht as [-> |Ht]; [done|]). by apply elem_of_nil in Ht.
  - split.
    + intros a t i b u j Ht Hu Hi Hj.
      do 4 (destruct a as [|a]; [injection Ht as <-;
        do 4 (destruct b as [|b]; [injection Hu as <-;
          destruct i as [|[|[|i]]]; [..|lia]; (destruct j as [|[|[|j]]]; [..|lia]); simpl; intros [= ]; done|]); by destruct b|]). by destruct a.
    + intros a t i Ht Hi.
      do 4 (destruct a as [|a]; [injection Ht as <-; destruct i as [|[|[|i]]]; [..|lia]; simpl;
        first [exists 0%nat; eexists; first [exists 0%nat; split; [reflexivity|]; split; [lia|]; reflexivity|exists 1%nat; split; [reflexivity|]; split; [lia|]; reflexivity|exists 2%nat; split; [reflexivity|]; split; [lia|]; reflexivity]
        |exists 1%nat; eexists; first [exists 0%nat; split; [reflexivity|]; split; [lia|]; reflexivity|exists 1%nat; split; [reflexivity|]; split; [lia|]; reflexivity|exists 2%nat; split; [reflexivity|]; split; [lia|]; reflexivity]
        |exists 2%nat; eexists; first [exists 0%nat; split; [reflexivity|]; split; [lia|]; reflexivity|exists 1%nat; split; [reflexivity|]; split; [lia|]; reflexivity|exists 2%nat; split; [reflexivity|]; split; [lia|]; reflexivity]
        |exists 3%nat; eexists; first [exists 0%nat; split; [reflexivity|]; split; [lia|]; reflexivity|exists 1%nat; split; [reflexivity|]; split; [lia|]; reflexivity|exists 2%nat; split; [reflexivity|]; split; [lia|]; reflexivity]]|]). by destruct a.
  - eexists. split; [vm_compute; reflexivity|]. split; [reflexivity|]. vm_compute. reflexivity.
Qed.

(** ** C60 *)
Lemma Qtrunc_nonneg (q : Q) : (0 <= q)%Q -> (inject_Z (GCode_Model.Qtrunc q) <= q < inject_Z (GCode_Model.Qtrunc q) + 1)%Q.
Proof.
  destruct q as [n d]. unfold GCode_Model.Qtrunc, Qle, Qlt, inject_Z. simpl. intros H.
  assert (Hn : 0 <= n) by lia. pose proof (Z.quot_rem n (Z.pos d) ltac:(lia)) as K. pose proof (Z.rem_bound_pos n (Z.pos d) Hn ltac:(lia)) as B.
  set (x := n ÷ Z.pos d) in *. set (y := Z.rem n (Z.pos d)) in *. clearbody x y. rewrite ?Pos.mul_1_r. split; lia.
Qed.
Lemma Qtrunc_nonpos (q : Q) : (q <= 0)%Q -> (inject_Z (GCode_Model.Qtrunc q) - 1 < q <= inject_Z (GCode_Model.Qtrunc q))%Q.
Proof.
  destruct q as [n d]. unfold GCode_Model.Qtrunc, Qle, Qlt, inject_Z. simpl. intros H.
  assert (Hn : n <= 0) by lia. pose proof (Z.quot_rem n (Z.pos d) ltac:(lia)) as K. pose proof (Z.rem_bound_pos_neg n (Z.pos d) ltac:(lia) Hn) as B.
  set (x := n ÷ Z.pos d) in *. set (y := Z.rem n (Z.pos d)) in *. clearbody x y. rewrite ?Pos.mul_1_r. split; lia.
Qed.
Lemma inj_lt a b : (inject_Z a < inject_Z b + 1)%Q -> a <= b.
Proof. change 1%Q with (inject_Z 1). rewrite <-inject_Z_plus, <-Zlt_Qlt. lia. Qed.
Lemma Qtrunc_mono q r : (q <= r)%Q -> GCode_Model.Qtrunc q <= GCode_Model.Qtrunc r.
Proof.
  intros H. destruct (Qlt_le_dec q 0) as [Hq|Hq].
  - pose proof (Qtrunc_nonpos q) as A. destruct (Qlt_le_dec r 0) as [Hr|Hr].
    + pose proof (Qtrunc_nonpos r) as B. apply inj_lt. lra.
    + pose proof (Qtrunc_nonneg r Hr) as B. assert (X : GCode_Model.Qtrunc q <= 0).
      { apply inj_lt. change (inject_Z 0) with 0%Q. lra. }
      assert (Y : 0 <= GCode_Model.Qtrunc r) by (apply inj_lt; change (inject_Z 0) with 0%Q; lra). lia.
  - pose proof (Qtrunc_nonneg q Hq) as A. pose proof (Qtrunc_nonneg r) as B. apply inj_lt. lra.
Qed.
Lemma scale_mono f o c c' : (0 <= f)%Q -> c <= c' -> scale_coord f o c <= scale_coord f o c'.
Proof.
  intros Hf Hc. unfold scale_coord. apply Qtrunc_mono. rewrite Zle_Qle in Hc.
  apply Qplus_le_compat; [|apply Qle_refl]. rewrite !(Qmult_comm f). by apply Qmult_le_compat_r.
Qed.
Lemma scale_scaled f o c : scaled f o c (scale_coord f o c).
Proof.
  unfold scaled, scale_coord. cbv zeta. set (e := (inject_Z o + f * (inject_Z c - inject_Z o))%Q).
  set (q := (f * inject_Z c + (f - 1) * inject_Z (- o))%Q).
  assert (E : q == e) by (unfold q, e; rewrite inject_Z_opp; ring).
  split; intros H.
  - rewrite <-E in H |- *. by apply Qtrunc_nonneg.
  - rewrite <-E in H |- *. by apply Qtrunc_nonpos.
Qed.
Lemma scaled_fun f o c a b : scaled f o c a -> scaled f o c b -> a = b.
Proof.
  unfold scaled. cbv zeta. set (e := (inject_Z o + f * (inject_Z c - inject_Z o))%Q). intros [A1 A2] [B1 B2].
  assert (a <= b /\ b <= a); [|lia]. destruct (Qlt_le_dec e 0) as [H|H]; split; apply inj_lt; lra.
Qed.

(** The displacement place uses. *)
Definition move_of (s : group_settings) (m : placed) : pt3 :=
  p3add (if center_object m
         then p3add (position m) (Pt3 (- px (b3min (pbox m)) - (px (b3max (pbox m)) - px (b3min (pbox m))) ÷ 2)
                (- py (b3min (pbox m)) - (py (b3max (pbox m)) - py (b3min (pbox m))) ÷ 2) (- pz (b3min (pbox m))))
         else position m) (group_offset s).
Lemma place_moved s m : pverts (place s m) = shifted (move_of s m) <$> pverts m /\
  pbox (place s m) = Aabb3 (shifted (move_of s m) (b3min (pbox m))) (shifted (move_of s m) (b3max (pbox m))) /\
  is_model (place s m) = is_model m.
Proof.
  unfold place. fold (move_of s m). set (d := move_of s m). change (p3add _ (group_offset s)) with d. unfold translate.
  destruct (bool_decide (px d = 0)) eqn:E1, (bool_decide (py d = 0)) eqn:E2, (bool_decide (pz d = 0)) eqn:E3; simpl; try done.
  apply bool_decide_eq_true in E1, E2, E3.
  assert (Hid : forall p, shifted d p = p) by (intros []; unfold shifted; rewrite E1, E2, E3; simpl; f_equal; lia).
  split; [|split; [rewrite !Hid; by destruct (pbox m)|done]].
  rewrite <-(list_fmap_id (pverts m)) at 1. apply list_fmap_ext. intros i p _. simpl. by rewrite Hid.
Qed.
Lemma half_bounds x : 0 <= x -> 0 <= x - 2 * (x ÷ 2) <= 1.
Proof. intros H. pose proof (Z.quot_rem x 2). pose proof (Z.rem_bound_pos x 2). lia. Qed.
Lemma move_placement s m : px (b3min (pbox m)) <= px (b3max (pbox m)) -> py (b3min (pbox m)) <= py (b3max (pbox m)) ->
  placement s m (move_of s m).
Proof.
  intros Hx Hy. unfold placement, move_of, bed_centre, group_offset.
  pose proof (half_bounds (px (b3max (pbox m)) - px (b3min (pbox m)))) as A.
  pose proof (half_bounds (py (b3max (pbox m)) - py (b3min (pbox m)))) as B.
  destruct (center_object m), (center_is_zero s); unfold p3add; cbn [px py pz fst snd]; lia.
Qed.

Lemma group_lo (ms : list placed) r : let f := fun r m => if is_model m
     then Pt3 (Z.min (px r) (px (b3min (pbox m)))) (Z.min (py r) (py (b3min (pbox m)))) (Z.min (pz r) (pz (b3min (pbox m)))) else r in
  px (fold_left f ms r) = fold_left (fun a m => if is_model m then Z.min a (px (b3min (pbox m))) else a) ms (px r) /\
  py (fold_left f ms r) = fold_left (fun a m => if is_model m then Z.min a (py (b3min (pbox m))) else a) ms (py r).
Proof. cbv zeta. revert r. induction ms as [|m ms IH]; intros r; [done|]. simpl. destruct (IH (if is_model m then Pt3 (Z.min (px r) (px (b3min (pbox m)))) (Z.min (py r) (py (b3min (pbox m)))) (Z.min (pz r) (pz (b3min (pbox m)))) else r)) as [-> ->]. by destruct (is_model m). Qed.
Lemma group_hi (ms : list placed) r : let f := fun r m => if is_model m
     then Pt3 (Z.max (px r) (px (b3max (pbox m)))) (Z.max (py r) (py (b3max (pbox m)))) (Z.max (pz r) (pz (b3max (pbox m)))) else r in
  px (fold_left f ms r) = fold_left (fun a m => if is_model m then Z.max a (px (b3max (pbox m))) else a) ms (px r) /\
  py (fold_left f ms r) = fold_left (fun a m => if is_model m then Z.max a (py (b3max (pbox m))) else a) ms (py r).
Proof. cbv zeta. revert r. induction ms as [|m ms IH]; intros r; [done|]. simpl. destruct (IH (if is_model m then Pt3 (Z.max (px r) (px (b3max (pbox m)))) (Z.max (py r) (py (b3max (pbox m)))) (Z.max (pz r) (pz (b3max (pbox m)))) else r)) as [-> ->]. by destruct (is_model m). Qed.
Lemma fold_min (g : placed -> Z) ms : forall a, let r := fold_left (fun a m => if is_model m then Z.min a (g m) else a) ms a in
  r <= a /\ (forall m, m ∈ ms -> is_model m = true -> r <= g m) /\ (r = a \/ exists m, m ∈ ms /\ is_model m = true /\ r = g m).
Proof.
  induction ms as [|m ms IH]; intros a; simpl.
  - split; [lia|]. split; [intros m H; by apply elem_of_nil in H|by left].
  - destruct (IH (if is_model m then Z.min a (g m) else a)) as (A & B & C). destruct (is_model m) eqn:Em.
    + split; [lia|]. split.
      * intros n Hn Hm. apply elem_of_cons in Hn as [-> |Hn]; [lia|by apply B].
      * destruct C as [C|(n & Hn & Hm & C)].
        -- destruct (Z.min_spec a (g m)) as [[? E]|[? E]]; rewrite E in C at 2; [by left|]. right. exists m. split; [left|done].
        -- right. exists n. split; [by right|done].
    + split; [lia|]. split.
      * intros n Hn Hm. apply elem_of_cons in Hn as [-> |Hn]; [congruence|by apply B].
      * destruct C as [C|(n & Hn & Hm & C)]; [by left|]. right. exists n. split; [by right|done].
Qed.
Lemma fold_max (g : placed -> Z) ms : forall a, let r := fold_left (fun a m => if is_model m then Z.max a (g m) else a) ms a in
  a <= r /\ (forall m, m ∈ ms -> is_model m = true -> g m <= r) /\ (r = a \/ exists m, m ∈ ms /\ is_model m = true /\ r = g m).
Proof.
  induction ms as [|m ms IH]; intros a; simpl.
  - split; [lia|]. split; [intros m H; by apply elem_of_nil in H|by left].
  - destruct (IH (if is_model m then Z.max a (g m) else a)) as (A & B & C). destruct (is_model m) eqn:Em.
    + split; [lia|]. split.
      * intros n Hn Hm. apply elem_of_cons in Hn as [-> |Hn]; [lia|by apply B].
      * destruct C as [C|(n & Hn & Hm & C)].
        -- destruct (Z.max_spec a (g m)) as [[? E]|[? E]]; rewrite E in C at 2; [|by left]. right. exists m. split; [left|done].
        -- right. exists n. split; [by right|done].
    + split; [lia|]. split.
      * intros n Hn Hm. apply elem_of_cons in Hn as [-> |Hn]; [congruence|by apply B].
      * destruct C as [C|(n & Hn & Hm & C)]; [by left|]. right. exists n. split; [by right|done].
Qed.

Definition lo_x (m : placed) := px (b3min (pbox m)).
(** One axis: the middle of the extreme box coordinates is the middle of the vertices. *)
Lemma middle_axis coord s ms lo hi (blo bhi : placed -> Z) :
  (forall m, m ∈ ms -> is_model m = true ->
     (forall p, p ∈ pverts m -> blo (place s m) <= coord (shifted (move_of s m) p) <= bhi (place s m)) /\
     (exists p, p ∈ pverts m /\ coord (shifted (move_of s m) p) = blo (place s m)) /\
     (exists p, p ∈ pverts m /\ coord (shifted (move_of s m) p) = bhi (place s m)) /\
     INT32_MIN <= bhi (place s m) /\ blo (place s m) <= INT64_MAX) ->
  (exists m, m ∈ ms /\ is_model m = true) ->
  lo = fold_left (fun a m => if is_model m then Z.min a (blo m) else a) (place s <$> ms) INT64_MAX ->
  hi = fold_left (fun a m => if is_model m then Z.max a (bhi m) else a) (place s <$> ms) INT32_MIN ->
  middle coord ms (move_of s <$> ms) ((lo + hi) ÷ 2).
Proof.
  intros Hb (m0 & Hm0 & Hmod0) Elo Ehi.
  destruct (fold_min blo (place s <$> ms) INT64_MAX) as (A1 & A2 & A3). rewrite <-Elo in A1, A2, A3.
  destruct (fold_max bhi (place s <$> ms) INT32_MIN) as (B1 & B2 & B3). rewrite <-Ehi in B1, B2, B3. clear Elo Ehi.
  assert (Hin : forall m, m ∈ ms -> is_model m = true -> lo <= blo (place s m) /\ bhi (place s m) <= hi).
  { intros m Hm Hmod. destruct (place_moved s m) as (_ & _ & Em). split.
    - apply A2; [by apply elem_of_list_fmap_1|congruence].
    - apply B2; [by apply elem_of_list_fmap_1|congruence]. }
  exists lo, hi. split; [done|]. split; [|split].
  - intros k m d p Hm Hd Hmod Hp. rewrite list_lookup_fmap, Hm in Hd. injection Hd as <-.
    apply elem_of_list_lookup_2 in Hm. destruct (Hb m Hm Hmod) as (H1 & _). specialize (H1 p Hp). destruct (Hin m Hm Hmod). lia.
  - assert (Hx : exists m, m ∈ ms /\ is_model m = true /\ blo (place s m) = lo).
    { destruct A3 as [A3|(m' & Hm' & Hmod' & A3)].
      - exists m0. split; [done|]. split; [done|]. destruct (Hin m0 Hm0 Hmod0). destruct (Hb m0 Hm0 Hmod0) as (_ & _ & _ & _ & ?). lia.
      - apply elem_of_list_fmap in Hm' as (m & -> & Hm). destruct (place_moved s m) as (_ & _ & Em). exists m. split; [done|]. split; congruence. }
    destruct Hx as (m & Hm & Hmod & E). destruct (Hb m Hm Hmod) as (_ & (p & Hp & Ep) & _).
    apply elem_of_list_lookup in Hm as [k Hk]. exists k, m, (move_of s m), p. rewrite list_lookup_fmap, Hk. split; [done|]. split; [done|].
    split; [done|]. split; [done|]. congruence.
  - assert (Hx : exists m, m ∈ ms /\ is_model m = true /\ bhi (place s m) = hi).
    { destruct B3 as [B3|(m' & Hm' & Hmod' & B3)].
      - exists m0. split; [done|]. split; [done|]. destruct (Hin m0 Hm0 Hmod0). destruct (Hb m0 Hm0 Hmod0) as (_ & _ & _ & ? & _). lia.
      - apply elem_of_list_fmap in Hm' as (m & -> & Hm). destruct (place_moved s m) as (_ & _ & Em). exists m. split; [done|]. split; congruence. }
    destruct Hx as (m & Hm & Hmod & E). destruct (Hb m Hm Hmod) as (_ & _ & (p & Hp & Ep) & _).
    apply elem_of_list_lookup in Hm as [k Hk]. exists k, m, (move_of s m), p. rewrite list_lookup_fmap, Hk. split; [done|]. split; [done|].
    split; [done|]. split; [done|]. congruence.
Qed.

(** C60.  For meshes with exact boxes of which at least one is a model: there is a displacement for each mesh that puts it in
    its place, and every vertex ends where its displaced position is after scaling away from the middle of the displaced
    models in x and y and from the build plate in z. *)
Theorem C60_placed : forall s ms, Forall (fun m => bounds (pverts m) (pbox m)) ms -> Exists (fun m => is_model m = true) ms ->
  (forall m d p, m ∈ ms -> placement s m d -> p ∈ pverts m -> pt3_32 (shifted d p)) ->
  exists ds ox oy, Forall2 (placement s) ms ds /\ middle px ms ds ox /\ middle py ms ds oy /\
    length (finalize s ms) = length ms /\
    forall k m m' d, ms !! k = Some m -> finalize s ms !! k = Some m' -> ds !! k = Some d ->
      Forall2 (fun p p' => scaled (shrink_xy s) ox (px (shifted d p)) (px p') /\
                           scaled (shrink_xy s) oy (py (shifted d p)) (py p') /\
                           scaled (shrink_z s) 0 (pz (shifted d p)) (pz p')) (pverts m) (pverts m').
Proof.
  intros s ms Hb Hmod H32. rewrite Forall_forall in Hb. apply Exists_exists in Hmod.
  assert (Hpl : forall m, m ∈ ms -> placement s m (move_of s m)).
  { intros m Hm. destruct (Hb m Hm) as (A & (p & Hp & _) & _). specialize (A p Hp). apply move_placement; lia. }
  exists (move_of s <$> ms), ((px (group_max (place s <$> ms)) + px (group_min (place s <$> ms))) ÷ 2),
    ((py (group_max (place s <$> ms)) + py (group_min (place s <$> ms))) ÷ 2).
  assert (Hne : exists m0 ms0, place s <$> ms = m0 :: ms0).
  { destruct Hmod as (m & Hm & _). destruct ms; [by apply elem_of_nil in Hm|]. simpl. by eexists _, _. }
  destruct Hne as (m0 & ms0 & Ems).
  assert (Emn : group_min (place s <$> ms) = fold_left (fun r m => if is_model m
           then Pt3 (Z.min (px r) (px (b3min (pbox m)))) (Z.min (py r) (py (b3min (pbox m)))) (Z.min (pz r) (pz (b3min (pbox m))))
           else r) (place s <$> ms) (Pt3 INT64_MAX INT64_MAX INT64_MAX)) by (by rewrite Ems).
  assert (Emx : group_max (place s <$> ms) = fold_left (fun r m => if is_model m
           then Pt3 (Z.max (px r) (px (b3max (pbox m)))) (Z.max (py r) (py (b3max (pbox m)))) (Z.max (pz r) (pz (b3max (pbox m))))
           else r) (place s <$> ms) (Pt3 INT32_MIN INT32_MIN INT32_MIN)) by (by rewrite Ems).
  destruct (group_lo (place s <$> ms) (Pt3 INT64_MAX INT64_MAX INT64_MAX)) as [Lx Ly]. cbv zeta in Lx, Ly.
  destruct (group_hi (place s <$> ms) (Pt3 INT32_MIN INT32_MIN INT32_MIN)) as [Hx Hy]. cbv zeta in Hx, Hy.
  rewrite <-Emn in Lx, Ly. rewrite <-Emx in Hx, Hy. cbn [px py] in Lx, Ly, Hx, Hy.
  split; [|split; [|split; [|split]]].
  - apply Forall2_same_length_lookup. split; [by rewrite fmap_length|]. intros k m d Hm Hd. rewrite list_lookup_fmap, Hm in Hd.
    injection Hd as <-. apply Hpl. by apply elem_of_list_lookup_2 in Hm.
  - rewrite Z.add_comm. eapply (middle_axis px s ms _ _ (fun m => px (b3min (pbox m))) (fun m => px (b3max (pbox m)))); [|exact Hmod|exact Lx|exact Hx].
    intros m Hm Hm1. destruct (place_moved s m) as (_ & Eb & _). rewrite Eb. cbn [b3min b3max shifted px].
    destruct (Hb m Hm) as (A & (p1 & Hp1 & E1) & (p2 & Hp2 & E2) & _).
    split; [intros p Hp; specialize (A p Hp); lia|]. split; [exists p1; split; [done|lia]|]. split; [exists p2; split; [done|lia]|].
    pose proof (H32 m _ p2 Hm (Hpl m Hm) Hp2) as (X2 & _). pose proof (H32 m _ p1 Hm (Hpl m Hm) Hp1) as (X1 & _).
    unfold c32 in X1, X2. cbn [shifted px] in X1, X2. unfold INT64_MAX, INT32_MAX in *. lia.
  - rewrite Z.add_comm. eapply (middle_axis py s ms _ _ (fun m => py (b3min (pbox m))) (fun m => py (b3max (pbox m)))); [|exact Hmod|exact Ly|exact Hy].
    intros m Hm Hm1. destruct (place_moved s m) as (_ & Eb & _). rewrite Eb. cbn [b3min b3max shifted py].
    destruct (Hb m Hm) as (A & _ & _ & (p1 & Hp1 & E1) & (p2 & Hp2 & E2) & _).
    split; [intros p Hp; specialize (A p Hp); lia|]. split; [exists p1; split; [done|lia]|]. split; [exists p2; split; [done|lia]|].
    pose proof (H32 m _ p2 Hm (Hpl m Hm) Hp2) as (_ & X2 & _). pose proof (H32 m _ p1 Hm (Hpl m Hm) Hp1) as (_ & X1 & _).
    unfold c32 in X1, X2. cbn [shifted py] in X1, X2. unfold INT64_MAX, INT32_MAX in *. lia.
  - unfold finalize, scaleFromBottom. by rewrite !fmap_length.
  - intros k m m' d Hm Hm' Hd. unfold finalize, scaleFromBottom in Hm'. cbv zeta in Hm'.
    rewrite !list_lookup_fmap, Hm in Hm'. rewrite list_lookup_fmap, Hm in Hd. injection Hd as <-. injection Hm' as <-.
    destruct (place_moved s m) as (Ev & _ & _). simpl. rewrite Ev.
    apply Forall2_same_length_lookup. split; [by rewrite !fmap_length|]. intros j p p' Hp Hp'.
    rewrite !list_lookup_fmap, Hp in Hp'. injection Hp' as <-. unfold scale_apply. cbn [px py pz].
    split; [apply scale_scaled|]. split; [apply scale_scaled|]. apply scale_scaled.
Qed.

Lemma bounds_map (g : pt3 -> pt3) ps b :
  (forall p q, px p <= px q -> px (g p) <= px (g q)) -> (forall p q, py p <= py q -> py (g p) <= py (g q)) ->
  (forall p q, pz p <= pz q -> pz (g p) <= pz (g q)) -> bounds ps b -> bounds (g <$> ps) (Aabb3 (g (b3min b)) (g (b3max b))).
Proof.
  intros Mx My Mz (A & (p1 & I1 & E1) & (p2 & I2 & E2) & (p3 & I3 & E3) & (p4 & I4 & E4) & (p5 & I5 & E5) & (p6 & I6 & E6)).
  unfold bounds. cbn [b3min b3max]. split.
  - intros p Hp. apply elem_of_list_fmap in Hp as (q & -> & Hq). specialize (A q Hq).
    pose proof (Mx (b3min b) q). pose proof (Mx q (b3max b)). pose proof (My (b3min b) q). pose proof (My q (b3max b)).
    pose proof (Mz (b3min b) q). pose proof (Mz q (b3max b)). lia.
  - assert (Hin : forall p, p ∈ ps -> g p ∈ g <$> ps) by (intros p Hp; by apply elem_of_list_fmap_1).
    assert (Ex : forall p q, px p = px q -> px (g p) = px (g q)) by (intros p q H; apply Z.le_antisymm; apply Mx; lia).
    assert (Ey : forall p q, py p = py q -> py (g p) = py (g q)) by (intros p q H; apply Z.le_antisymm; apply My; lia).
    assert (Ez : forall p q, pz p = pz q -> pz (g p) = pz (g q)) by (intros p q H; apply Z.le_antisymm; apply Mz; lia).
    split; [exists (g p1); auto|]. split; [exists (g p2); auto|]. split; [exists (g p3); auto|].
    split; [exists (g p4); auto|]. split; [exists (g p5); auto|]. exists (g p6). auto.
Qed.
(** C60.  With factors that are not negative, the boxes are still exact afterwards. *)
Theorem C60_boxes : forall s ms, (0 <= shrink_xy s)%Q -> (0 <= shrink_z s)%Q ->
  Forall (fun m => bounds (pverts m) (pbox m)) ms -> Forall (fun m => bounds (pverts m) (pbox m)) (finalize s ms).
Proof.
  intros s ms Hxy Hz Hb. unfold finalize, scaleFromBottom. cbv zeta. apply Forall_fmap, Forall_fmap.
  eapply Forall_impl; [done|]. intros m Hm. simpl. destruct (place_moved s m) as (Ev & Eb & _). rewrite Ev, Eb. cbn [b3min b3max].
  apply (bounds_map (scale_apply _ _ _) _ (Aabb3 _ _)).
  - intros p q H. by apply scale_mono.
  - intros p q H. by apply scale_mono.
  - intros p q H. by apply scale_mono.
  - apply (bounds_map (shifted (move_of s m))); [| | |exact Hm]; intros p q H; simpl; lia.
Qed.

(** C60.  Without shrinkage compensation every mesh is just displaced. *)
Theorem C60_unscaled : forall s ms, Forall (fun m => bounds (pverts m) (pbox m)) ms -> shrink_xy s = 1%Q -> shrink_z s = 1%Q ->
  forall k m m', ms !! k = Some m -> finalize s ms !! k = Some m' -> exists d, placement s m d /\ pverts m' = shifted d <$> pverts m.
Proof.
  intros s ms Hb Exy Ez k m m' Hm Hm'. rewrite Forall_forall in Hb.
  pose proof (elem_of_list_lookup_2 _ _ _ Hm) as Hin. exists (move_of s m). split.
  - destruct (Hb m Hin) as (A & (p & Hp & _) & _). specialize (A p Hp). apply move_placement; lia.
  - unfold finalize, scaleFromBottom in Hm'. cbv zeta in Hm'. rewrite !list_lookup_fmap, Hm in Hm'. injection Hm' as <-.
    destruct (place_moved s m) as (Ev & _ & _). simpl. rewrite Ev, Exy, Ez. rewrite <-list_fmap_compose. apply list_fmap_ext.
    intros i p _. simpl. unfold scale_apply.
    assert (H1 : forall o c, scale_coord 1 o c = c).
    { intros o c. apply (scaled_fun 1 o c); [apply scale_scaled|]. unfold scaled. cbv zeta. split; intros _; split; lra. }
    rewrite !H1. by destruct (shifted (move_of s m) p).
Qed.

(** C60.  The build plate stays where it is: height 0 stays 0, and nothing gets below it. *)
Theorem C60_bottom : forall f c c', scaled f 0 c c' -> (c = 0 -> c' = 0) /\ ((0 <= f)%Q -> 0 <= c -> 0 <= c').
Proof.
  intros f c c' H. pose proof (scaled_fun f 0 c _ _ H (scale_scaled f 0 c)) as ->. split.
  - intros ->. unfold scale_coord. apply (scaled_fun f 0 0); [apply scale_scaled|]. unfold scaled. cbv zeta.
    change (inject_Z 0) with 0%Q. split; intros _; split; lra.
  - intros Hf Hc. assert (E : scale_coord f 0 0 = 0).
    { apply (scaled_fun f 0 0); [apply scale_scaled|]. unfold scaled. cbv zeta. change (inject_Z 0) with 0%Q. split; intros _; split; lra. }
    pose proof (scale_mono f 0 0 c Hf Hc). lia.
Qed.

(** A group without models is scaled away from a point far outside the machine: a mesh at the origin, with a factor of
    1.01, ends more than 46 million kilometres away. *)
Theorem C60_no_model_refuted : exists s ms m', finalize s ms = [m'] /\
  ms = [Placed [Pt3 0 0 0; Pt3 1000 1000 1000] (Aabb3 (Pt3 0 0 0) (Pt3 1000 1000 1000)) false (Pt3 0 0 0) false] /\
  exists p, pverts m' !! 0%nat = Some p /\ px p < - 46 * 10 ^ 15.
Proof.
  eexists (GroupSettings true 0 0 (101 # 100) 1), _, _. split; [|split; [reflexivity|]]; [vm_compute; reflexivity|].
  eexists. split; [reflexivity|]. reflexivity.
Qed.

(** Two meshes, one of them centred, on a machine of 200 by 300 mm, enlarged by 1%. *)
Example C60_example :
  let s := GroupSettings false 200000 300000 (101 # 100) (102 # 100) in
  let m1 := Placed [Pt3 0 0 0; Pt3 1001 1000 1000] (Aabb3 (Pt3 0 0 0) (Pt3 1001 1000 1000)) true (Pt3 5000 0 0) true in
  let m2 := Placed [Pt3 0 0 100; Pt3 1000 2000 300] (Aabb3 (Pt3 0 0 100) (Pt3 1000 2000 300)) true (Pt3 0 0 0) false in
  Forall (fun m => bounds (pverts m) (pbox m)) [m1; m2] /\
  pverts <$> finalize s [m1; m2] = [[Pt3 104517 149487 0; Pt3 105528 150497 1020]; [Pt3 99972 149992 102; Pt3 100982 152012 306]].
Proof.
  cbv zeta. split; [|vm_compute; reflexivity].
  assert (Hb : forall p q, px p <= px q -> py p <= py q -> pz p <= pz q -> bounds [p; q] (Aabb3 p q)).
  { intros p q Hx Hy Hz. unfold bounds. cbn [b3min b3max]. split.
    - intros r Hr. apply elem_of_cons in Hr as [-> |Hr]; [lia|]. apply elem_of_list_singleton in Hr as ->. lia.
    - split; [exists p; split; [left|done]|]. split; [exists q; split; [right; left|done]|].
      split; [exists p; split; [left|done]|]. split; [exists q; split; [right; left|done]|].
      split; [exists p; split; [left|done]|]. exists q; split; [right; left|done]. }
  constructor; [|constructor; [|done]]; apply Hb; simpl; lia.
Qed.

Print Assumptions C50_faces.
Print Assumptions C50_links.
Print Assumptions C50_closed.
Print Assumptions C50_watertight.
Print Assumptions C50_box.
Print Assumptions C50_merge_refuted.
Print Assumptions C50_outside_refuted.
Print Assumptions C50_clear_refuted.
Print Assumptions C60_placed.
Print Assumptions C60_boxes.
Print Assumptions C60_unscaled.
Print Assumptions C60_bottom.
Print Assumptions C60_no_model_refuted.
