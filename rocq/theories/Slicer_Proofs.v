From Coq Require Import ZArith Lia.
From stdpp Require Import list.
From Verif Require Import Common Math_Model Math_Spec Math_Proofs Geo_Model Layers_Model Slicer_Model Slicer_Spec.
Open Scope Z_scope.

Lemma shorterThen_true a len : 0 <= len -> shorterThen a len = true <-> vSize2 a <= len * len.
Proof.
  intros Hl. unfold shorterThen, vSize2. destruct a as [x y]; cbn [fst snd]. split.
  - repeat case_match; try done. by intros ?%Z.leb_le.
  - intros H. assert (Hx : x * x <= len * len) by (pose proof (Z.square_nonneg y); lia).
    assert (Hy : y * y <= len * len) by (pose proof (Z.square_nonneg x); lia).
    assert (- len <= x <= len) by (apply Z.abs_le, Z.square_le_simpl_nonneg; [lia|];
      rewrite Z.abs_square; lia).
    assert (- len <= y <= len) by (apply Z.abs_le, Z.square_le_simpl_nonneg; [lia|];
      rewrite Z.abs_square; lia).
    destruct (Z.ltb_spec len x); [lia|]. destruct (Z.ltb_spec x (- len)); [lia|]. simpl.
    destruct (Z.ltb_spec len y); [lia|]. destruct (Z.ltb_spec y (- len)); [lia|]. simpl.
    by apply Z.leb_le.
Qed.

Lemma compensate_height tol z p : pz (compensate tol z p) = height tol z p /\
  px (compensate tol z p) = px p /\ py (compensate tol z p) = py p.
Proof.
  unfold compensate, height. destruct tol; cbn [pz px py]; (split; [|done]); try done.
  - destruct (decide _) as [[H1 H2]|H]; destruct (Z.eqb_spec (pz p) z), (Z.ltb_spec (pz p) 1); lia.
  - destruct (decide _) as [[H1 H2]|H]; destruct (Z.eqb_spec (pz p) z), (Z.ltb_spec (pz p) 1); lia.
Qed.
Lemma height_le tol z p : height tol z p <= pz p /\ (z < pz p -> z < height tol z p) /\ (pz p < z -> height tol z p < z).
Proof. unfold height. destruct tol; [case_decide|case_decide|]; lia. Qed.

(** the two coordinate interpolations *)
Lemma interpolate_total z az bz ac bc : az <> bz -> Z.min az bz <= z <= Z.max az bz ->
  exists q, interpolate z az bz ac bc = Ok q /\ meets_edge_coord z az bz ac bc q.
Proof.
  intros Hne Hz. unfold meets_edge_coord.
  assert (exists q, interpolate z az bz ac bc = Ok q) as [q Hq].
  { unfold interpolate. destruct (Z.eqb_spec (bz - az) 0); [lia|]. by eexists. }
  exists q. split; [done|]. pose proof (interpolate_spec _ _ _ _ _ q Hne Hz Hq). tauto.
Qed.

Definition edge_point (z : Z) (a b : pt3) (q : pt) : Prop :=
  interpolate z (pz a) (pz b) (px a) (px b) = Ok q.1 /\
  interpolate z (pz a) (pz b) (py a) (py b) = Ok q.2.

Lemma edge_point_total z a b : pz a <> pz b -> Z.min (pz a) (pz b) <= z <= Z.max (pz a) (pz b) ->
  exists q, edge_point z a b q.
Proof.
  intros H1 H2. destruct (interpolate_total z _ _ (px a) (px b) H1 H2) as (x & Hx & _).
  destruct (interpolate_total z _ _ (py a) (py b) H1 H2) as (y & Hy & _). by exists (x, y).
Qed.

Lemma project2D_ok p0 p1 p2 z s e : project2D p0 p1 p2 z = Ok (s, e) <->
  edge_point z p0 p1 s /\ edge_point z p0 p2 e.
Proof.
  unfold project2D, edge_point. split.
  - intros (sx & Hsx & H)%rbind_ok. apply rbind_ok in H as (sy & Hsy & H).
    apply rbind_ok in H as (ex & Hex & H). apply rbind_ok in H as (ey & Hey & H).
    injection H as <- <-. done.
  - destruct s, e; cbn [fst snd]. intros [[-> ->] [-> ->]]. done.
Qed.

(** characterisation of slice_cases: [a] the lone vertex. *)
Definition sgn (z h : Z) : bool := z <? h.

Lemma project2D_total p0 p1 p2 z : pz p0 <> pz p1 -> pz p0 <> pz p2 ->
  Z.min (pz p0) (pz p1) <= z <= Z.max (pz p0) (pz p1) -> Z.min (pz p0) (pz p2) <= z <= Z.max (pz p0) (pz p2) ->
  exists s e, project2D p0 p1 p2 z = Ok (s, e) /\ edge_point z p0 p1 s /\ edge_point z p0 p2 e.
Proof.
  intros. destruct (edge_point_total z p0 p1) as [s Hs]; [done..|].
  destruct (edge_point_total z p0 p2) as [e He]; [done..|]. exists s, e.
  split; [|done]. by apply project2D_ok.
Qed.

(** either direction of the edge *)
Definition edge_point_either (z : Z) (a b : pt3) (q : pt) : Prop :=
  (edge_point z a b q \/ edge_point z b a q) /\ pz a <> pz b /\
  Z.min (pz a) (pz b) <= z <= Z.max (pz a) (pz b).

Lemma slice_cases_spec p0 p1 p2 z :
  exists r, slice_cases p0 p1 p2 z = Ok r /\
  match r with
  | None => (z < pz p0 /\ z < pz p1 /\ z < pz p2) \/ (pz p0 <= z /\ pz p1 <= z /\ pz p2 <= z)
            \/ (pz p0 = z /\ z < pz p1 /\ z < pz p2) \/ (z < pz p0 /\ pz p1 = z /\ z < pz p2)
            \/ (z < pz p0 /\ z < pz p1 /\ pz p2 = z)
  | Some (s, e, edge, ev) =>
     exists i, (i < 3)%nat /\ (edge < 3)%nat /\ i <> edge /\
       let t := (p0, p1, p2) in
       z < pz (corner t i) /\ pz (corner t (S i)) <= z /\
       pz (corner t edge) <= z /\ z < pz (corner t (S edge)) /\
       edge_point_either z (corner t i) (corner t (S i)) s /\
       edge_point_either z (corner t edge) (corner t (S edge)) e /\
       ev = (if pz (corner t edge) =? z then Some edge else None) /\
       (* a lone lower vertex is strictly below *)
       ((pz (corner t (S i)) = z /\ (S i mod 3)%nat = edge) -> False)
  end.
Proof.
  unfold slice_cases.
  destruct (Z.ltb_spec (pz p0) z), (Z.ltb_spec z (pz p1)), (Z.ltb_spec z (pz p2)); simpl;
  destruct (Z.ltb_spec z (pz p0)), (Z.leb_spec (pz p1) z), (Z.leb_spec (pz p2) z); simpl; try lia;
  destruct (Z.ltb_spec (pz p1) z); simpl; try lia;
  destruct (Z.leb_spec (pz p0) z); simpl; try lia;
  destruct (Z.ltb_spec (pz p2) z); simpl; try lia;
  try (eexists; split; [reflexivity|]; simpl; lia).
  all: match goal with
  | |- context [project2D ?a ?b ?c ?w] =>
     destruct (project2D_total a b c w) as (s & e & -> & Hs & He); [lia..|]
  end; cbn [rbind fst snd]; eexists; (split; [reflexivity|]); cbv beta iota.
  all: unfold edge_point_either.
  all: first
   [ solve [exists 2%nat; cbn; repeat split; try lia; try (by left); try (by right); repeat case_match; try done; try lia; congruence]
   | solve [exists 0%nat; cbn; repeat split; try lia; try (by left); try (by right); repeat case_match; try done; try lia; congruence]
   | solve [exists 1%nat; cbn; repeat split; try lia; try (by left); try (by right); repeat case_match; try done; try lia; congruence]
   ].
Qed.

Lemma z_skip_spec p0 p1 p2 z : z_skip p0 p1 p2 z = true ->
  (z < pz p0 /\ z < pz p1 /\ z < pz p2) \/ (pz p0 < z /\ pz p1 < z /\ pz p2 < z).
Proof.
  unfold z_skip. intros H%orb_true_iff. rewrite !Z.ltb_lt in H.
  repeat (case_match; rewrite ?Z.ltb_lt, ?Z.ltb_ge in *); lia.
Qed.

Definition comp3 (tol : slicing_tolerance) (z : Z) (t : pt3 * pt3 * pt3) : pt3 * pt3 * pt3 :=
  let '(a, b, c) := t in (compensate tol z a, compensate tol z b, compensate tol z c).
Lemma corner_comp3 tol z t i : corner (comp3 tol z t) i = compensate tol z (corner t i).
Proof. destruct t as [[a b] c]. destruct i as [|[|[|[|i]]]]; done. Qed.

Lemma edge_point_either_meets tol z a b q :
  edge_point_either z (compensate tol z a) (compensate tol z b) q -> meets_edge tol z a b q.
Proof.
  intros ([[Hx Hy]|[Hx Hy]] & Hne & Hz);
  destruct (compensate_height tol z a) as (Ea & Ex & Ey); destruct (compensate_height tol z b) as (Eb & Fx & Fy);
  rewrite Ea, Eb, ?Ex, ?Ey, ?Fx, ?Fy in *.
  - destruct (interpolate_total z _ _ (px a) (px b) Hne Hz) as (x & Hx' & ?).
    destruct (interpolate_total z _ _ (py a) (py b) Hne Hz) as (y & Hy' & ?).
    rewrite Hx in Hx'; rewrite Hy in Hy'. injection Hx' as <-. injection Hy' as <-. done.
  - assert (Hne' : height tol z b <> height tol z a) by done.
    assert (Hz' : Z.min (height tol z b) (height tol z a) <= z <= Z.max (height tol z b) (height tol z a)) by lia.
    destruct (interpolate_total z _ _ (px b) (px a) Hne' Hz') as (x & Hx' & Mx).
    destruct (interpolate_total z _ _ (py b) (py a) Hne' Hz') as (y & Hy' & My).
    rewrite Hx in Hx'; rewrite Hy in Hy'. injection Hx' as <-. injection Hy' as <-.
    assert (forall ac bc r, meets_edge_coord z (height tol z b) (height tol z a) bc ac r ->
      meets_edge_coord z (height tol z a) (height tol z b) ac bc r) as Hsym.
    { clear. intros ac bc r (H1 & H2 & H3 & H4). repeat split; lia. }
    split; by apply Hsym.
Qed.

Lemma slice_triangle_spec tol z p0 p1 p2 :
  let t := (p0, p1, p2) in let h i := height tol z (corner t i) in
  exists r, slice_triangle tol z p0 p1 p2 = Ok r /\
  match r with
  | None => (z < h 0%nat /\ z < h 1%nat /\ z < h 2%nat) \/ (h 0%nat <= z /\ h 1%nat <= z /\ h 2%nat <= z)
            \/ (h 0%nat = z /\ z < h 1%nat /\ z < h 2%nat) \/ (z < h 0%nat /\ h 1%nat = z /\ z < h 2%nat)
            \/ (z < h 0%nat /\ z < h 1%nat /\ h 2%nat = z)
  | Some (s, e, edge, ev) =>
     exists i, (i < 3)%nat /\ (edge < 3)%nat /\ i <> edge /\
       z < h i /\ h (S i) <= z /\ h edge <= z /\ z < h (S edge) /\
       edge_point_either z (compensate tol z (corner t i)) (compensate tol z (corner t (S i))) s /\
       edge_point_either z (compensate tol z (corner t edge)) (compensate tol z (corner t (S edge))) e /\
       ev = (if h edge =? z then Some edge else None) /\
       ((h (S i) = z /\ (S i mod 3)%nat = edge) -> False)
  end.
Proof.
  intros t h. unfold slice_triangle. destruct (z_skip p0 p1 p2 z) eqn:Es.
  - eexists. split; [done|]. simpl. apply z_skip_spec in Es. unfold h, t; simpl.
    pose proof (height_le tol z p0). pose proof (height_le tol z p1). pose proof (height_le tol z p2). lia.
  - destruct (slice_cases_spec (compensate tol z p0) (compensate tol z p1) (compensate tol z p2) z)
      as (r & -> & Hr). exists r. split; [done|].
    assert (Hc : forall i, pz (corner (compensate tol z p0, compensate tol z p1, compensate tol z p2) i) = h i).
    { intros i. change (compensate tol z p0, compensate tol z p1, compensate tol z p2) with (comp3 tol z t).
      rewrite corner_comp3. apply compensate_height. }
    destruct r as [[[[s e] edge] ev]|].
    + destruct Hr as (i & Hi & He & Hie & Hr). cbv zeta in Hr. rewrite !Hc in Hr.
      change (compensate tol z p0, compensate tol z p1, compensate tol z p2) with (comp3 tol z t) in Hr.
      rewrite !corner_comp3 in Hr. by exists i.
    + pose proof (Hc 0%nat) as H0. pose proof (Hc 1%nat) as H1. pose proof (Hc 2%nat) as H2.
      simpl in H0, H1, H2. rewrite H0, H1, H2 in Hr. done.
Qed.

(** ** joining *)
Section join.
  Context (segs : list segment) (fts : nat -> option nat) (vf : nat -> list nat).
  Hypothesis fts_ok : forall f k, fts f = Some k -> (k < length segs)%nat.

  Definition falses (added : list bool) : nat := length (filter (fun b => b = false) added).

  Lemma falses_insert added i : added !! i = Some false -> S (falses (<[i:=true]> added)) = falses added.
  Proof.
    unfold falses. revert i. induction added as [|b added IH]; intros i; [done|].
    destruct i as [|i]; simpl.
    - intros [= ->]. by rewrite filter_cons_False, filter_cons_True.
    - intros H. destruct b.
      + rewrite !filter_cons_False by done. by apply IH.
      + rewrite !filter_cons_True by done. simpl. f_equal. by apply IH.
  Qed.
  Lemma falses_pos added i : added !! i = Some false -> (0 < falses added)%nat.
  Proof. intros H%falses_insert. lia. Qed.

  Definition next_ok (added : list bool) (s : segment) (start : nat) (o : option nat) : Prop :=
    match o with None => True | Some k =>
      (k < length segs)%nat /\ (k = start \/ added !! k = Some false) /\
      exists t, segs !! k = Some t /\ vSize2 (psub (seg_end s) (seg_start t)) <= 10 * 10 end.

  Lemma tryFace_ok added s f start : length added = length segs ->
    exists o, tryFaceNextSegmentIdx segs fts added s f start = Ok o /\ next_ok added s start o.
  Proof.
    intros Hl. unfold tryFaceNextSegmentIdx. destruct (fts f) as [k|] eqn:E; [|by eexists].
    apply fts_ok in E. destruct (lookup_lt_is_Some_2 segs k E) as [t Ht]. rewrite Ht. cbn [of_opt rbind].
    destruct (shorterThen _ _) eqn:Es; [|by eexists].
    apply shorterThen_true in Es; [|unfold largest_neglected_gap_first_phase; lia].
    destruct (Nat.eqb_spec k start) as [->|].
    - eexists. split; [done|]. simpl. split; [done|]. split; [by left|]. eauto.
    - rewrite <- Hl in E. destruct (lookup_lt_is_Some_2 added k E) as [a Ha]. rewrite Ha. cbn [of_opt rbind].
      destruct a; eexists; (split; [done|]); simpl; [done|]. rewrite <- Hl. split; [done|]. split; [by right|]. eauto.
  Qed.
  Lemma try_faces_ok added s fs start next : length added = length segs -> next_ok added s start next ->
    exists o, try_faces segs fts added s fs start next = Ok o /\ next_ok added s start o.
  Proof.
    intros Hl. revert next. induction fs as [|f fs IH]; intros next Hn; cbn [try_faces]; [by eexists|].
    destruct (tryFace_ok added s f start Hl) as (o & -> & Ho). cbn [rbind].
    destruct o as [k|]; [|by apply IH]. destruct (Nat.eqb_spec k start) as [->|]; [by eexists|by apply IH].
  Qed.
  Lemma getNext_ok added s start : length added = length segs ->
    exists o, getNextSegmentIdx segs fts vf added s start = Ok o /\ next_ok added s start o.
  Proof.
    intros Hl. unfold getNextSegmentIdx. destruct (seg_endVertex s); [by apply try_faces_ok|].
    destruct (seg_otherFace s); [by apply tryFace_ok|by eexists].
  Qed.

  Lemma basic_loop_ok fuel added idx start acc :
    length added = length segs -> added !! idx = Some false -> (falses added <= fuel)%nat ->
    (idx = start \/ added !! start = Some true) ->
    exists added' closed rest ss last,
      basic_loop segs fts vf fuel added idx start acc = Ok (added', closed, acc ++ map seg_end ss) /\
      length added' = length segs /\ NoDup (idx :: rest) /\
      (forall i, i ∈ idx :: rest -> added !! i = Some false) /\
      (forall i, added' !! i = Some true <-> added !! i = Some true \/ i ∈ idx :: rest) /\
      mapM (fun i => segs !! i) (idx :: rest) = Some ss /\
      chain_linked segs (idx :: rest) /\ list.last (idx :: rest) = Some last /\
      (closed = true -> linked segs last start).
  Proof.
    revert added idx acc. induction fuel as [|fuel IH]; intros added idx acc Hl Hidx Hf Hst.
    { apply falses_pos in Hidx. lia. }
    cbn [basic_loop].
    assert (Hlt : (idx < length segs)%nat) by (rewrite <- Hl; by eapply lookup_lt_Some).
    destruct (lookup_lt_is_Some_2 segs idx Hlt) as [s Hs]. rewrite Hs. cbn [of_opt rbind].
    set (added1 := <[idx:=true]> added).
    assert (Hl1 : length added1 = length segs) by (unfold added1; by rewrite insert_length).
    assert (Hadd1 : forall i, added1 !! i = Some true <-> added !! i = Some true \/ i = idx).
    { intros i. unfold added1. destruct (decide (i = idx)) as [->|].
      - rewrite list_lookup_insert by lia. naive_solver.
      - rewrite list_lookup_insert_ne by done. naive_solver. }
    destruct (getNext_ok added1 s start Hl1) as (o & -> & Ho). cbn [rbind].
    assert (Hstop : forall closed, (closed = true -> linked segs idx start) ->
     exists added' closed0 rest ss last,
      Ok (added1, closed, acc ++ [seg_end s]) = Ok (added', closed0, acc ++ map seg_end ss) /\
      length added' = length segs /\ NoDup (idx :: rest) /\
      (forall i, i ∈ idx :: rest -> added !! i = Some false) /\
      (forall i, added' !! i = Some true <-> added !! i = Some true \/ i ∈ idx :: rest) /\
      mapM (fun i => segs !! i) (idx :: rest) = Some ss /\
      chain_linked segs (idx :: rest) /\ list.last (idx :: rest) = Some last /\
      (closed0 = true -> linked segs last start)).
    { intros closed Hc. exists added1, closed, [], [s], idx. split; [done|]. split; [done|].
      split; [apply NoDup_singleton|]. split; [intros i ->%elem_of_list_singleton; done|].
      split; [intros i; by rewrite Hadd1, elem_of_list_singleton|].
      split; [simpl; by rewrite Hs|]. done. }
    destruct o as [k|]; [|by apply Hstop].
    destruct Ho as (Hk & Hkf & t & Ht & Hd).
    assert (Hlink : linked segs idx k) by (exists s, t; done).
    destruct (Nat.eqb_spec k start) as [->|Hks].
    { by apply Hstop. }
    destruct Hkf as [?|Hkf]; [done|].
    destruct (IH added1 k (acc ++ [seg_end s]) Hl1 Hkf) as (added' & closed & rest & ss & last & Hb & Hlen & Hnd & Hfa & Had & Hm & Hch & Hlast & Hcl).
    { unfold added1. apply falses_insert in Hidx. lia. }
    { right. apply Hadd1. destruct Hst as [->|]; [by right|by left]. }
    exists added', closed, (k :: rest), (s :: ss), last.
    rewrite Hb. cbn [map]. rewrite <- app_assoc. split; [done|]. split; [done|].
    assert (Hni : idx ∉ k :: rest).
    { intros Hin%Hfa. assert (added1 !! idx = Some true) by (apply Hadd1; by right). congruence. }
    split; [by constructor|]. split; [|split; [|split; [|split]]].
    - intros i [->|Hi]%elem_of_cons; [done|].
      pose proof (Hfa i Hi) as Hi'. unfold added1 in Hi'.
      rewrite list_lookup_insert_ne in Hi'; [done|]. intros <-. done.
    - intros i. rewrite Had, Hadd1, (elem_of_cons _ i idx). tauto.
    - change (mapM (fun i => segs !! i) (idx :: k :: rest)) with
        (segs !! idx ≫= (fun y => mapM (fun i => segs !! i) (k :: rest) ≫= fun ys => mret (y :: ys))).
      rewrite Hs. cbn [mbind option_bind]. rewrite Hm. done.
    - cbn [chain_linked]. split; [done|]. exact Hch.
    - split; [|done]. rewrite <- Hlast. done.
  Qed.

  Definition is_chain (chain : list nat) (points : list pt) : Prop :=
    chain_points segs chain points /\ chain_linked segs chain.
  Definition is_loop (chain : list nat) (points : list pt) : Prop :=
    is_chain chain points /\ exists first last, head chain = Some first /\ list.last chain = Some last /\
      linked segs last first.

  Lemma basic_loops_ok starts added polys opens pc oc :
    length added = length segs -> (forall i, i ∈ starts -> (i < length segs)%nat) ->
    Forall2 is_loop pc polys -> Forall2 is_chain oc opens ->
    NoDup (concat pc ++ concat oc) ->
    (forall i, added !! i = Some true <-> i ∈ concat pc ++ concat oc) ->
    exists polys' opens' pc' oc', basic_loops segs fts vf starts added polys opens = Ok (polys', opens') /\
      Forall2 is_loop pc' polys' /\ Forall2 is_chain oc' opens' /\
      NoDup (concat pc' ++ concat oc') /\
      (forall i, i ∈ concat pc' ++ concat oc' -> (i < length segs)%nat) /\
      (forall i, i ∈ concat pc ++ concat oc \/ i ∈ starts -> i ∈ concat pc' ++ concat oc').
  Proof.
    revert added polys opens pc oc. induction starts as [|i starts IH]; intros added polys opens pc oc Hl Hst Hp Ho Hnd Had.
    - exists polys, opens, pc, oc. do 4 (split; [done|]). split.
      + intros i Hi%Had. rewrite <- Hl. by eapply lookup_lt_Some.
      + intros i [?|Hi]; [done|]. by apply elem_of_nil in Hi.
    - cbn [basic_loops].
      assert (Hi : (i < length segs)%nat) by (apply Hst; by left).
      destruct (lookup_lt_is_Some_2 added i ltac:(lia)) as [a Ha]. rewrite Ha. cbn [of_opt rbind].
      destruct a.
      + destruct (IH added polys opens pc oc) as (p' & o' & pc' & oc' & -> & ? & ? & ? & ? & Hin); try done.
        { intros j Hj. apply Hst. by right. }
        exists p', o', pc', oc'. do 5 (split; [done|]). intros j [Hj|[->|Hj]%elem_of_cons]; apply Hin; auto.
        left. by apply Had.
      + destruct (lookup_lt_is_Some_2 segs i Hi) as [s Hs]. rewrite Hs. cbn [of_opt rbind].
        destruct (basic_loop_ok (S (length segs)) added i i [seg_start s] Hl Ha) as
          (added' & closed & rest & ss & last & Hb & Hlen & Hndc & Hfa & Had' & Hm & Hch & Hlast & Hcl).
        { unfold falses. pose proof (filter_length (fun b => b = false) added). lia. }
        { by left. }
        rewrite Hb. cbn [rbind].
        assert (Hss : exists ss', ss = s :: ss').
        { simpl in Hm. rewrite Hs in Hm. cbn [mbind option_bind] in Hm.
          destruct (mapM _ rest) as [ss'|]; [|done]. injection Hm as <-. eauto. }
        destruct Hss as [ss' ->].
        assert (Hchain : is_chain (i :: rest) ([seg_start s] ++ map seg_end (s :: ss'))).
        { split; [|done]. by exists s, ss'. }
        assert (Hdisj : forall j, j ∈ concat pc ++ concat oc -> j ∈ i :: rest -> False).
        { intros j Hj%Had Hj2%Hfa. congruence. }
        assert (Hst' : forall j, j ∈ starts -> (j < length segs)%nat) by (intros j Hj; apply Hst; by right).
        destruct closed.
        * assert (HP : concat (pc ++ [i :: rest]) ++ concat oc ≡ₚ (i :: rest) ++ (concat pc ++ concat oc)).
          { rewrite concat_app. cbn [concat]. rewrite app_nil_r.
            rewrite (Permutation_app_comm (concat pc) (i :: rest)). by rewrite <- app_assoc. }
          destruct (IH added' (polys ++ [[seg_start s] ++ map seg_end (s :: ss')]) opens (pc ++ [i :: rest]) oc)
            as (p' & o' & pc' & oc' & -> & ? & ? & ? & ? & Hin); try done.
          { apply Forall2_app; [done|]. constructor; [|done]. split; [done|].
            exists i, last. split; [done|]. split; [done|]. by apply Hcl. }
          { rewrite HP. apply NoDup_app. split; [done|]. split; [|done]. intros j H1 H2. by eapply Hdisj. }
          { intros j. rewrite Had', HP, elem_of_app, Had. tauto. }
          exists p', o', pc', oc'. do 5 (split; [done|]). intros j [Hj|[->|Hj]%elem_of_cons].
          -- apply Hin. left. rewrite HP. apply elem_of_app. by right.
          -- apply Hin. left. rewrite HP. by left.
          -- apply Hin. by right.
        * assert (HP : concat pc ++ concat (oc ++ [i :: rest]) ≡ₚ (i :: rest) ++ (concat pc ++ concat oc)).
          { rewrite concat_app. cbn [concat]. rewrite app_nil_r. rewrite app_assoc. apply Permutation_app_comm. }
          destruct (IH added' polys (opens ++ [[seg_start s] ++ map seg_end (s :: ss')]) pc (oc ++ [i :: rest]))
            as (p' & o' & pc' & oc' & -> & ? & ? & ? & ? & Hin); try done.
          { apply Forall2_app; [done|]. constructor; [|done]. done. }
          { rewrite HP. apply NoDup_app. split; [done|]. split; [|done]. intros j H1 H2. by eapply Hdisj. }
          { intros j. rewrite Had', HP, elem_of_app, Had. tauto. }
          exists p', o', pc', oc'. do 5 (split; [done|]). intros j [Hj|[->|Hj]%elem_of_cons].
          -- apply Hin. left. rewrite HP. apply elem_of_app. by right.
          -- apply Hin. left. rewrite HP. by left.
          -- apply Hin. by right.
  Qed.

  Lemma makeBasic_ok : exists polys opens pc oc,
    makeBasicPolygonLoops segs fts vf = Ok (polys, opens) /\
    Forall2 is_loop pc polys /\ Forall2 is_chain oc opens /\
    concat pc ++ concat oc ≡ₚ seq 0 (length segs).
  Proof.
    unfold makeBasicPolygonLoops.
    destruct (basic_loops_ok (seq 0 (length segs)) (replicate (length segs) false) [] [] [] [])
      as (p' & o' & pc' & oc' & E & ? & ? & Hnd & Hr & Hin); try done.
    - by rewrite replicate_length.
    - intros i [_ Hi]%elem_of_seq. lia.
    - constructor.
    - intros i. rewrite lookup_replicate. simpl. split; [intros []|intros []%elem_of_nil]. done.
    - exists p', o', pc', oc'. do 3 (split; [done|]). apply NoDup_Permutation; [done|apply NoDup_seq|].
      intros i. split.
      + intros Hi%Hr. apply elem_of_seq. lia.
      + intros Hi. apply Hin. by right.
  Qed.

  (** ** permutation case (closed meshes) *)
  Context (nx : nat -> nat).
  Hypothesis nx_range : forall i, (i < length segs)%nat -> (nx i < length segs)%nat.
  Hypothesis nx_inj : forall i j, (i < length segs)%nat -> (j < length segs)%nat -> nx i = nx j -> i = j.
  Hypothesis nx_next : forall i s, segs !! i = Some s -> seg_endVertex s = None /\
     exists f, seg_otherFace s = Some f /\ fts f = Some (nx i) /\
       exists t, segs !! (nx i) = Some t /\ vSize2 (psub (seg_end s) (seg_start t)) <= 10 * 10.

  (** [added] minus the current chain is closed under [nx] and its inverse. *)
  Definition closed_set (P : nat -> Prop) : Prop :=
    forall i, (i < length segs)%nat -> P i <-> P (nx i).

  Lemma basic_loop_closed fuel added idx start acc old chain :
    length added = length segs -> added !! idx = Some false -> (falses added <= fuel)%nat ->
    closed_set old -> 
    (forall i, added !! i = Some true <-> (old i /\ (i < length segs)%nat) \/ i ∈ chain) ->
    (forall i, i ∈ chain -> (i < length segs)%nat /\ ~ old i) ->
    (* chain = start, nx start, ..., then idx: every element other than start has its
       predecessor in the chain *)
    (forall i, i ∈ chain -> i <> start -> exists j, j ∈ chain /\ nx j = i) ->
    (forall i, i ∈ chain -> nx i = idx \/ nx i ∈ chain) ->
    (idx = start /\ chain = [] \/ start ∈ chain /\ exists j, j ∈ chain /\ nx j = idx) ->
    ~ old idx ->
    exists added' pts, basic_loop segs fts vf fuel added idx start acc = Ok (added', true, pts) /\
      length added' = length segs /\
      closed_set (fun i => added' !! i = Some true) /\
      (forall i, added !! i = Some true -> added' !! i = Some true).
  Proof.
    revert added idx acc chain. induction fuel as [|fuel IH];
      intros added idx acc chain Hl Hidx Hf Hold Hadd Hch Hpred Hsucc Hst Hnold.
    { apply falses_pos in Hidx. lia. }
    cbn [basic_loop].
    assert (Hlt : (idx < length segs)%nat) by (rewrite <- Hl; by eapply lookup_lt_Some).
    destruct (lookup_lt_is_Some_2 segs idx Hlt) as [s Hs]. rewrite Hs. cbn [of_opt rbind].
    set (added1 := <[idx:=true]> added).
    assert (Hl1 : length added1 = length segs) by (unfold added1; by rewrite insert_length).
    assert (Hadd1 : forall i, added1 !! i = Some true <-> added !! i = Some true \/ i = idx).
    { intros i. unfold added1. destruct (decide (i = idx)) as [->|].
      - rewrite list_lookup_insert by lia. naive_solver.
      - rewrite list_lookup_insert_ne by done. naive_solver. }
    destruct (nx_next idx s Hs) as (Hev & f & Hof & Hfts & t & Ht & Hd).
    unfold getNextSegmentIdx. rewrite Hev, Hof. unfold tryFaceNextSegmentIdx. rewrite Hfts, Ht.
    cbn [of_opt rbind]. apply shorterThen_true in Hd; [|lia].
    unfold largest_neglected_gap_first_phase. rewrite Hd.
    pose proof (nx_range idx Hlt) as Hnr.
    assert (Hidx_nc : idx ∉ chain) by (intros H; assert (added !! idx = Some true) by (apply Hadd; by right); congruence).
    assert (Hstart_in : start ∈ idx :: chain).
    { destruct Hst as [[-> ->]|[? _]]; [by left|by right]. }
    assert (Hpred' : forall i, i ∈ idx :: chain -> i <> start -> exists j, j ∈ idx :: chain /\ nx j = i).
    { intros i [->|Hi]%elem_of_cons Hne.
      - destruct Hst as [[? _]|[_ (j & Hj & Hnj)]]; [done|]. exists j. split; [by right|done].
      - destruct (Hpred i Hi Hne) as (j & ? & ?). exists j. split; [by right|done]. }
    assert (Hch' : forall i, i ∈ idx :: chain -> (i < length segs)%nat /\ ~ old i).
    { intros i [->|Hi]%elem_of_cons; [done|by apply Hch]. }
    destruct (Nat.eqb_spec (nx idx) start) as [Heq|Hne].
    - cbn [rbind]. rewrite Nat.eqb_refl. eexists _, _. split; [done|]. split; [done|]. split.
      + (* closed *)
        intros i Hi. rewrite !Hadd1, !Hadd. split.
        * intros [[[Ho _]|Hc]| -> ].
          -- left. left. split; [by apply (Hold i Hi)|by apply nx_range].
          -- destruct (Hsucc i Hc) as [->|?]; [by right|left; by right].
          -- rewrite Heq. apply elem_of_cons in Hstart_in as [->|?]; [by right|left; by right].
        * intros H. destruct (decide (nx i = start)) as [E|NE].
          { right. apply nx_inj; [done|done|congruence]. }
          destruct H as [[[Ho _]|Hc]|E].
          -- left. left. split; [by apply (Hold i Hi)|done].
          -- destruct (Hpred' (nx i)) as (j & Hj & Hnj); [by right|done|].
             apply nx_inj in Hnj; [|by apply Hch'|done]. subst j.
             apply elem_of_cons in Hj as [->|?]; [by right|left; by right].
          -- destruct (Hpred' (nx i)) as (j & Hj & Hnj); [rewrite E; by left|done|].
             apply nx_inj in Hnj; [|by apply Hch'|done]. subst j.
             apply elem_of_cons in Hj as [->|?]; [by right|left; by right].
      + intros i Hi. apply Hadd1. by left.
    - (* not the start: must be unadded *)
      assert (Hna : added1 !! nx idx = Some false).
      { destruct (lookup_lt_is_Some_2 added1 (nx idx) ltac:(lia)) as [b Hb]. rewrite Hb. destruct b; [|done].
        exfalso. apply Hadd1 in Hb. rewrite Hadd in Hb. destruct Hb as [[[Ho _]|Hc]|E].
        - apply Hnold. by apply (Hold idx Hlt).
        - destruct (Hpred (nx idx) Hc Hne) as (j & Hj & Hnj). apply nx_inj in Hnj; [|by apply Hch|done].
          subst j. done.
        - destruct (Hpred' (nx idx)) as (j & Hj & Hnj); [rewrite E; by left|done|].
          destruct Hst as [[-> ->]|[_ (j' & Hj' & Hnj')]]; [congruence|].
          assert (j' = idx) by (apply nx_inj; [by apply Hch|done|congruence]). subst j'. done. }
      rewrite Hna. cbn [of_opt rbind]. destruct (Nat.eqb_spec (nx idx) start); [done|].
      destruct (IH added1 (nx idx) (acc ++ [seg_end s]) (idx :: chain)) as (a' & pts & -> & ? & ? & Hmono); try done.
      + unfold added1. apply falses_insert in Hidx. lia.
      + intros i. rewrite Hadd1, Hadd, elem_of_cons. tauto.
      + intros i [->|Hi]%elem_of_cons; [by left|]. right. destruct (Hsucc i Hi) as [->|?]; [by left|by right].
      + right. split; [done|]. exists idx. split; [by left|done].
      + intros Ho. apply Hnold. by apply (Hold idx Hlt).
      + exists a', pts. split; [done|]. split; [done|]. split; [done|]. intros i Hi. apply Hmono, Hadd1. by left.
  Qed.

  Lemma basic_loops_closed starts added polys opens :
    length added = length segs -> (forall i, i ∈ starts -> (i < length segs)%nat) ->
    closed_set (fun i => added !! i = Some true) ->
    exists polys', basic_loops segs fts vf starts added polys opens = Ok (polys', opens).
  Proof.
    revert added polys. induction starts as [|i starts IH]; intros added polys Hl Hst Hc; cbn [basic_loops].
    { by eexists. }
    assert (Hi : (i < length segs)%nat) by (apply Hst; by left).
    destruct (lookup_lt_is_Some_2 added i ltac:(lia)) as [a Ha]. rewrite Ha. cbn [of_opt rbind].
    assert (Hst' : forall j, j ∈ starts -> (j < length segs)%nat) by (intros j Hj; apply Hst; by right).
    destruct a; [by apply IH|].
    destruct (lookup_lt_is_Some_2 segs i Hi) as [s Hs]. rewrite Hs. cbn [of_opt rbind].
    destruct (basic_loop_closed (S (length segs)) added i i [seg_start s] (fun j => added !! j = Some true) [])
      as (a' & pts & -> & Hl' & Hc' & _); try done.
    - unfold falses. pose proof (filter_length (fun b => b = false) added). lia.
    - intros j. split; [|intros [[? _]|Hn]; [done|by apply elem_of_nil in Hn]]. intros Hj. left. split; [done|].
      rewrite <- Hl. by eapply lookup_lt_Some.
    - intros j []%elem_of_nil.
    - intros j []%elem_of_nil.
    - intros j []%elem_of_nil.
    - by left.
    - congruence.
    - cbn [rbind]. by apply IH.
  Qed.

  Lemma makeBasic_closed : exists polys, makeBasicPolygonLoops segs fts vf = Ok (polys, []).
  Proof.
    unfold makeBasicPolygonLoops. apply basic_loops_closed.
    - by rewrite replicate_length.
    - intros i [_ Hi]%elem_of_seq. lia.
    - intros i Hi. rewrite !lookup_replicate. naive_solver.
  Qed.
End join.
