(** C22: stitching polylines conserves the lines and joins only what may be joined. *)
From Coq Require Import ZArith Lia.
From stdpp Require Import list.
From Verif Require Import Common Geo_Model Geo_Spec Order_Model Order_Props Grid_Model Grid_Proofs Grid_Props Ooze_Props
  PolyStitch_Model PolyStitch_Spec PolyStitch_Proofs.
Open Scope Z_scope.

(** What the caller must give: a positive stitch distance (far below 2^63), no empty lines; the grid
    may store its elements in any order. *)
Definition well_called {J} (order : gridmap (nat * nat) -> gridmap (nat * nat)) (lines : list (list J * bool)) (mx : Z) : Prop :=
  (forall g, order g ≡ₚ g) /\ 0 < mx /\ mx + 10 < 2 ^ 63 - 1 /\
  (forall i l o, lines !! i = Some (l, o) -> l <> []).

Definition parts_of {J} (bs : list (built (J:=J))) : list nat := concat (map (fun x => used (parts x)) bs).

(** The call returns.  What is added to the results is a list of finished lines, in the order they were
    finished, each put together from input lines by joining ends, and each input line is used exactly once.
    Lines left open could not be joined to any line finished later, and could not be closed. *)
Theorem C22_stitch {J} (make_point : J -> pt) walls order (lines : list (list J * bool)) rl rp mx sn :
  well_called order lines mx ->
  exists bs : list built,
    stitch make_point walls order lines rl rp mx sn =
      Ok (rl ++ map out (List.filter (fun x => negb (closed x)) bs), rp ++ map out (List.filter closed bs)) /\
    Forall (fits make_point lines mx sn walls) bs /\
    parts_of bs ≡ₚ seq 0 (length lines) /\
    (forall k x j, bs !! k = Some x -> closed x = false -> j ∈ parts_of (drop (S k) bs) ->
       apart make_point lines mx sn walls x j) /\
    ((forall i l o, lines !! i = Some (l, o) -> (2 <= length l)%nat) -> sn <> 0 ->
     forall x h l, x ∈ bs -> closed x = false -> head (out x) = Some h -> last (out x) = Some l ->
       within make_point h l mx -> (2 < length (out x))%nat -> path_length make_point (out x) + dist make_point h l < 3 * mx).
Proof.
  intros (Hord & Hmx & Hmax & Hne). unfold stitch. destruct (bool_decide_reflect (lines = [])) as [-> |Hnil].
  { exists []. cbn. rewrite !app_nil_r. split; [done|]. split; [constructor|]. split; [done|]. split; [done|].
    intros _ _ x h l Hx. by apply elem_of_nil in Hx. }
  destruct (Z.leb_spec mx 0); [lia|]. unfold populate.
  replace (forallb _ lines) with true; [cbn [rbind]|].
  2:{ symmetry. apply forallb_forall. intros [l o] Hin. apply elem_of_list_In, elem_of_list_lookup in Hin as [i Hi].
      cbn [fst]. rewrite bool_decide_eq_false_2; [done|]. by eapply Hne. }
  destruct (stitch_lines_ok make_point walls lines mx sn Hmx Hmax Hne
              (order (fold_left (point_insert (p_of make_point lines) mx) (ends lines) []))
              (Hord _) (S (length lines)) (seq 0 (length lines)) (replicate (length lines) false) rl rp)
    as (bs & E & Hfits & Hnd & Hall & Hopen).
  { by rewrite replicate_length. }
  { unfold free. etrans; [apply filter_length|]. rewrite replicate_length. lia. }
  { intros j Hj. apply lookup_replicate in Hj as [_ Hj]. apply elem_of_seq. lia. }
  exists bs. split; [done|]. split; [done|]. split; [|split].
  - apply NoDup_Permutation; [done|apply NoDup_seq|]. intros j. rewrite elem_of_seq. unfold parts_of. rewrite Hall, lookup_replicate.
    split; [intros [_ ?]; lia|]. intros [_ ?]. split; [done|lia].
  - intros k x j Hx Hc Hj. by apply (Hopen k x Hx Hc).
  - intros H2 Hsn x h l Hx Hc Hh Hl Hw Hlen. apply elem_of_list_lookup in Hx as [k Hx].
    destruct (Hopen k x Hx Hc) as [_ Hno]. specialize (Hno H2 Hsn).
    destruct (Z.lt_ge_cases (path_length make_point (out x) + dist make_point h l) (3 * mx)) as [|Hge]; [done|]. exfalso.
    apply Hno. rewrite Forall_lookup in Hfits. destruct (Hfits _ _ Hx) as (_ & _ & Hout). rewrite Hc in Hout.
    assert (Hwsym : forall u v, within make_point u v mx -> within make_point v u mx).
    { unfold within, vSize2, psub. cbn [fst snd]. intros. nia. }
    destruct Hout as [Hout|[Hout _]]; rewrite Hout in *.
    + exists h, l. rewrite last_reverse, head_reverse, path_length_reverse, reverse_length, (dist_sym _ l h). by auto.
    + exists l, h. done.
Qed.
Print Assumptions C22_stitch.

(** Which line comes next: the closest end that may be used, or one within the snap distance.  Closing the
    line counts as an end 10 further away (10 less if wanted). *)
Theorem C22_next_line {J} (make_point : J -> pt) walls order (lines : list (list J * bool)) mx sn grid backwards i (st : chain_st) b f cl :
  well_called order lines mx -> populate make_point lines mx = Ok grid -> (i < length lines)%nat ->
  last (chain st) = Some b -> head (chain st) = Some f -> chain_length st = path_length make_point (chain st) ->
  let s := find_next make_point walls lines mx sn (order grid) backwards (odd_of lines i) (make_point b) (make_point f) st cl in
  let may_follow := allowed make_point lines mx sn walls backwards i (fun j => processed st !! j <> Some false) (chain st) in
  match closest s with
  | None => forall n x, may_follow n x -> ~ within make_point x b mx
  | Some n => exists x d, may_follow n x /\ cost make_point sn (should_close st) (chain st) x d /\
      (closing s = true <-> snaps make_point sn x f) /\
      (d < sn \/ forall n' x' d', may_follow n' x' -> within make_point x' b mx ->
                 cost make_point sn (should_close st) (chain st) x' d' -> d <= d')
  end.
Proof.
  intros (Hord & Hmx & Hmax & Hne) Hg Hi Hb Hf Hlen. cbv zeta. unfold populate in Hg.
  destruct (forallb _ lines); [|done]. injection Hg as <-.
  assert (Hi' : exists l o, lines !! i = Some (l, o)). { apply lookup_lt_is_Some in Hi as [[l o] Hl]. eauto. }
  pose proof (find_next_spec make_point walls lines mx sn Hmx Hmax Hne
     (order (fold_left (point_insert (p_of make_point lines) mx) (ends lines) [])) (Hord _) backwards i b f st cl Hi' Hb Hf Hlen) as H.
  cbv zeta in H.
  assert (Hal : forall n x, allowed make_point lines mx sn walls backwards i (fun j => processed st !! j <> Some false) (chain st) n x <->
                            allowed make_point lines mx sn walls backwards i (taken (processed st)) (chain st) n x).
  { assert (Ht : forall j, taken (processed st) j <-> processed st !! j <> Some false).
    { intros j. unfold taken. destruct (processed st !! j) as [[]|]; simpl; split; try done. }
    intros n x. unfold allowed. setoid_rewrite Ht. done. }
  destruct (closest _) as [n|].
  - destruct H as (x & d & H1 & H2 & H3 & _ & H4). exists x, d. split; [by apply Hal|]. split; [done|]. split; [done|].
    destruct H4 as [H4|H4]; [by left|right]. intros n' x' d' Hn' Hw Hc. apply Hal in Hn'. by eapply H4.
  - destruct H as [_ H]. intros n x Hn. apply Hal in Hn. by apply H in Hn.
Qed.
Print Assumptions C22_next_line.

(** ** Consequences *)
Section consequences.
  Context {J : Type} (mp : J -> pt) (walls : bool) (lines : list (list J * bool)) (mx sn : Z).
  Definition contains (m o : list J) : Prop := exists s1 s2, o = s1 ++ m ++ s2.
  Lemma contains_trans a b c : contains a b -> contains b c -> contains a c.
  Proof. intros (s1 & s2 & ->) (t1 & t2 & ->). exists (t1 ++ s1), (s2 ++ t2). by rewrite <- !app_assoc. Qed.
  Lemma contains_reverse a b : contains a b -> contains (reverse a) (reverse b).
  Proof. intros (s1 & s2 & ->). exists (reverse s2), (reverse s1). by rewrite !reverse_app, <- app_assoc. Qed.

  Lemma joined_contains c ls c' : joined mp mx sn c ls c' ->
    (exists s, c' = c ++ s) /\ forall l, l ∈ ls -> contains (tail l) c'.
  Proof.
    induction 1 as [c|c b a l ls c' Hb Hd Hj [[s IH1] IH2]].
    - split; [exists []; by rewrite app_nil_r|]. intros l Hl. by apply elem_of_nil in Hl.
    - split; [exists ((if dist mp b a <? sn then l else a :: l) ++ s); by rewrite IH1, <- app_assoc|].
      intros l' [-> |Hl]%elem_of_cons; [|by apply IH2]. cbn [tail]. rewrite IH1.
      destruct (dist mp b a <? sn); [exists c, s|exists (c ++ [a]), s]; by rewrite <- ?app_assoc.
  Qed.

  Lemma joined_points c ls c' : joined mp mx sn c ls c' ->
    exists dropped, c' ++ dropped ≡ₚ c ++ concat ls /\ (length dropped <= length ls)%nat /\
      Forall (fun d => exists y, y ∈ c' /\ dist mp y d < sn) dropped.
  Proof.
    induction 1 as [c|c b a l ls c' Hb Hd Hj (dropped & IH1 & IH2 & IH3)].
    - exists []. cbn. rewrite !app_nil_r. done.
    - destruct (joined_contains _ _ _ Hj) as [[s Hs] _]. destruct (Z.ltb_spec (dist mp b a) sn) as [Hlt|Hge].
      + exists (a :: dropped). split; [|split].
        * rewrite <- Permutation_middle, IH1. cbn [concat]. rewrite <- app_assoc, <- app_comm_cons. apply Permutation_middle.
        * simpl. lia.
        * constructor; [|done]. exists b. split; [|done]. rewrite Hs. apply elem_of_app. left. apply elem_of_app. left.
          apply last_Some_elem_of in Hb. done.
      + exists dropped. split; [|split; [simpl; lia|done]]. rewrite IH1. cbn [concat]. by rewrite <- app_assoc.
  Qed.

  Lemma the_line_perm j r : the_line lines (j, r) ≡ₚ default [] (fst <$> lines !! j).
  Proof. unfold the_line. cbn [fst snd]. destruct (lines !! j) as [[l o]|]; simpl; destruct r; rewrite ?reverse_Permutation; done. Qed.

  Lemma concat_lines_perm (g : nat * bool -> list J) (ps : list (nat * bool)) :
    (forall j r, g (j, r) ≡ₚ default [] (fst <$> lines !! j)) ->
    concat (map g ps) ≡ₚ concat (map (fun j => default [] (fst <$> lines !! j)) (map fst ps)).
  Proof. intros Hg. induction ps as [|[j r] ps IH]; [done|]. cbn [map concat fst]. by rewrite Hg, IH. Qed.

  Lemma fits_points x : fits mp lines mx sn walls x ->
    exists dropped, out x ++ dropped ≡ₚ concat (map (fun j => default [] (fst <$> lines !! j)) (used (parts x))) /\
      (S (length dropped) <= length (used (parts x)))%nat /\ Forall (fun d => exists y, y ∈ out x /\ dist mp y d < sn) dropped.
  Proof.
    intros ((Hj1 & Hj2) & _ & Hout). destruct (joined_points _ _ _ Hj1) as (d1 & P1 & L1 & F1).
    destruct (joined_points _ _ _ Hj2) as (d2 & P2 & L2 & F2). destruct (joined_contains _ _ _ Hj2) as [[s Hs] _].
    assert (Ho : out x ≡ₚ line x).
    { destruct (closed x); [destruct Hout as [-> _]; done|]. destruct Hout as [-> |[-> _]]; [done|apply reverse_Permutation]. }
    exists (d1 ++ d2). rewrite map_length in L1, L2. split; [|split].
    - rewrite Ho. rewrite !reverse_Permutation in P2. rewrite (Permutation_app_comm d1), app_assoc, P2.
      rewrite <- app_assoc, (Permutation_app_comm (concat _)), app_assoc, P1. unfold used. rewrite map_app, concat_app. cbn [map concat].
      rewrite (concat_lines_perm (the_line lines)) by apply the_line_perm.
      rewrite (concat_lines_perm (fun jr => reverse (the_line lines jr))) by (intros j r; rewrite reverse_Permutation; apply the_line_perm).
      rewrite (the_line_perm (start (parts x)) false). rewrite (Permutation_app_comm _ (_ ++ concat (map _ (map fst (after _))))). done.
    - rewrite app_length. unfold used. rewrite app_length. cbn [length]. rewrite !map_length. lia.
    - apply Forall_app_2.
      + eapply Forall_impl; [exact F1|]. intros d (y & Hy & Hd). exists y. split; [|done]. rewrite Ho. 
        assert (H : y ∈ reverse (line x)) by (rewrite Hs; apply elem_of_app; left; by apply elem_of_reverse). exact (proj1 (elem_of_reverse _ _) H).
      + eapply Forall_impl; [exact F2|]. intros d (y & Hy & Hd). exists y. split; [|done]. rewrite Ho. exact (proj1 (elem_of_reverse _ _) Hy).
  Qed.

  Lemma fits_contains x j l o a m b : fits mp lines mx sn walls x -> j ∈ used (parts x) -> lines !! j = Some (l, o) ->
    l = a :: m ++ [b] -> contains m (out x) \/ contains (reverse m) (out x).
  Proof.
    intros ((Hj1 & Hj2) & _ & Hout) Hu Hl El. destruct (joined_contains _ _ _ Hj1) as [[s Hs] Hc1].
    destruct (joined_contains _ _ _ Hj2) as [[t Ht] Hc2].
    assert (Hline : contains m (line x) \/ contains (reverse m) (line x)).
    { assert (Hmid : forall u, contains u (mid x) -> contains u (line x)).
      { intros u Hu'. apply (contains_trans _ (mid x)); [done|]. apply (f_equal reverse) in Ht. rewrite reverse_involutive in Ht.
        rewrite Ht, reverse_app, reverse_involutive. exists (reverse t), []. by rewrite app_nil_r. }
      assert (Hm : contains m l). { exists [a], [b]. by rewrite El. }
      unfold used in Hu. apply elem_of_app in Hu as [Hu|[-> |Hu]%elem_of_cons].
      - apply elem_of_list_In, in_map_iff in Hu as ([j' r] & Hjr & Hu). cbn [fst] in Hjr. subst j'.
        specialize (Hc2 (reverse (the_line lines (j, r)))). 
        assert (Hin : reverse (the_line lines (j, r)) ∈ map (fun jr => reverse (the_line lines jr)) (before (parts x))).
        { apply elem_of_list_In, in_map_iff. exists (j, r). split; [done|]. done. }
        specialize (Hc2 Hin). unfold the_line in Hc2. cbn [fst snd] in Hc2. rewrite Hl, El in Hc2.
        apply contains_reverse in Hc2. rewrite reverse_involutive in Hc2. destruct r.
        + rewrite reverse_involutive in Hc2. cbn [tail] in Hc2. rewrite reverse_snoc in Hc2. right.
          eapply contains_trans; [|exact Hc2]. exists [b], []. by rewrite app_nil_r.
        + rewrite reverse_cons, reverse_snoc in Hc2. cbn [app tail] in Hc2. left.
          rewrite reverse_snoc, reverse_involutive in Hc2. eapply contains_trans; [|exact Hc2]. exists [a], []. by rewrite app_nil_r.
      - left. apply Hmid. rewrite Hs. unfold the_line. cbn [fst snd]. rewrite Hl. apply (contains_trans _ l); [done|]. exists [], s. done.
      - apply elem_of_list_In, in_map_iff in Hu as ([j' r] & Hjr & Hu). cbn [fst] in Hjr. subst j'.
        specialize (Hc1 (the_line lines (j, r))). 
        assert (Hin : the_line lines (j, r) ∈ map (the_line lines) (after (parts x))).
        { apply elem_of_list_In, in_map_iff. exists (j, r). split; [done|]. done. }
        specialize (Hc1 Hin). unfold the_line in Hc1. cbn [fst snd] in Hc1. rewrite Hl, El in Hc1. destruct r.
        + right. apply Hmid. rewrite reverse_cons, reverse_snoc in Hc1. cbn [app tail] in Hc1.
          eapply contains_trans; [|exact Hc1]. exists [], [a]. done.
        + left. apply Hmid. cbn [tail] in Hc1. eapply contains_trans; [|exact Hc1]. exists [], [b]. done. }
    assert (Ho : out x = line x \/ out x = reverse (line x)).
    { destruct (closed x); [left; by destruct Hout|]. destruct Hout as [?|[? _]]; auto. }
    destruct Ho as [-> | ->]; [done|]. destruct Hline as [H|H]; apply contains_reverse in H; [by right|].
    left. by rewrite reverse_involutive in H.
  Qed.
End consequences.

(** Every point is kept, except line ends within the snap distance of a kept point; the interior of every
    line is found unbroken in a result, in its own or in the opposite direction. *)
Theorem C22_points {J} (make_point : J -> pt) walls order (lines : list (list J * bool)) mx sn rl rp :
  well_called order lines mx ->
  stitch make_point walls order lines [] [] mx sn = Ok (rl, rp) ->
  (exists dropped, concat (rl ++ rp) ++ dropped ≡ₚ concat (map fst lines) /\
     (length (rl ++ rp) + length dropped <= length lines)%nat /\
     Forall (fun d => exists r y, r ∈ rl ++ rp /\ y ∈ r /\ dist make_point y d < sn) dropped) /\
  (forall i a m b o, lines !! i = Some (a :: m ++ [b], o) ->
     exists r, r ∈ rl ++ rp /\ (contains m r \/ contains (reverse m) r)).
Proof.
  intros Hw E. destruct (C22_stitch make_point walls order lines [] [] mx sn Hw) as (bs & E' & Hfits & Hperm & _).
  rewrite E in E'. injection E' as -> ->. cbn [app].
  set (rs := map out (List.filter (fun x => negb (closed x)) bs) ++ map out (List.filter closed bs)).
  assert (Hrs : rs ≡ₚ map out bs).
  { unfold rs. rewrite <- map_app. apply Permutation_map. clear. induction bs as [|x bs IH]; [done|]. cbn [List.filter].
    destruct (closed x); cbn [negb]; [by rewrite <- Permutation_middle, IH|by rewrite <- app_comm_cons, IH]. }
  split.
  - assert (H : exists dropped, concat (map out bs) ++ dropped ≡ₚ concat (map (fun j => default [] (fst <$> lines !! j)) (parts_of bs)) /\
       (length bs + length dropped <= length (parts_of bs))%nat /\
       Forall (fun d => exists r y, r ∈ map out bs /\ y ∈ r /\ dist make_point y d < sn) dropped).
    { clear - Hfits. induction Hfits as [|x bs Hx Hbs (d & P & L & F)]; [exists []; done|].
      destruct (fits_points _ _ _ _ _ _ Hx) as (d' & P' & L' & F'). exists (d' ++ d). unfold parts_of in *. cbn [map concat]. split; [|split].
      - rewrite map_app, concat_app, <- P', <- P, <- !app_assoc. apply Permutation_app_head. rewrite !app_assoc.
        apply Permutation_app_tail, Permutation_app_comm.
      - rewrite !app_length. cbn [length]. lia.
      - apply Forall_app_2.
        + eapply Forall_impl; [exact F'|]. intros e (y & Hy & Hd). exists (out x), y. split; [apply elem_of_list_here|done].
        + eapply Forall_impl; [exact F|]. intros e (r & y & Hr & Hy). exists r, y. split; [by apply elem_of_list_further|done]. }
    destruct H as (d & P & L & F). exists d. split; [|split].
    + rewrite Hrs, P, Hperm. apply reflexive_eq. f_equal. apply list_eq. intros i. rewrite !list_lookup_fmap.
      destruct (lines !! i) as [[l o]|] eqn:El; simpl.
      * rewrite lookup_seq_lt by by eapply lookup_lt_Some. simpl. by rewrite El.
      * rewrite lookup_seq_ge by by apply lookup_ge_None. done.
    + rewrite Hrs, map_length. rewrite Hperm, seq_length in L. lia.
    + eapply Forall_impl; [exact F|]. intros e (r & y & Hr & Hy). exists r, y. by rewrite Hrs.
  - intros i a m b o Hi. assert (Hin : i ∈ parts_of bs). { rewrite Hperm. apply elem_of_seq. apply lookup_lt_Some in Hi. lia. }
    unfold parts_of in Hin. apply elem_of_list_In, in_concat in Hin as (us & Hus & Hi'). apply in_map_iff in Hus as (x & <- & Hx).
    exists (out x). split; [rewrite Hrs; apply elem_of_list_In, in_map_iff; by exists x|].
    rewrite Forall_forall in Hfits. eapply fits_contains; [|by apply elem_of_list_In|done|done]. by apply Hfits, elem_of_list_In.
Qed.
Print Assumptions C22_points.

(** Closed polygons have at least three points, twice the stitch distance of line, and a gap of less than
    the stitch distance, the snap distance and one unit together. *)
Theorem C22_closed {J} (make_point : J -> pt) walls order (lines : list (list J * bool)) mx sn rl rp r :
  well_called order lines mx -> 0 <= sn ->
  stitch make_point walls order lines [] [] mx sn = Ok (rl, rp) -> r ∈ rp ->
  (3 <= length r)%nat /\ 2 * mx <= path_length make_point r /\
  exists h l, head r = Some h /\ last r = Some l /\
    dist2 (make_point h) (make_point l) < (mx + sn + 1) * (mx + sn + 1).
Proof.
  intros Hw Hsn E Hr. destruct (C22_stitch make_point walls order lines [] [] mx sn Hw) as (bs & E' & Hfits & _).
  rewrite E in E'. injection E' as -> ->. cbn [app] in Hr. apply elem_of_list_In, in_map_iff in Hr as (x & <- & Hx).
  apply filter_In in Hx as [Hx Hc]. rewrite Forall_forall in Hfits. destruct (Hfits x) as (_ & _ & Hf); [by apply elem_of_list_In|].
  rewrite Hc in Hf. destruct Hf as [-> Hcl].
  assert (Hgen : forall c, can_close make_point lines mx sn c -> (3 <= length c)%nat /\ 2 * mx <= path_length make_point c /\
     exists h l, head c = Some h /\ last c = Some l /\ dist2 (make_point h) (make_point l) < (mx + sn + 1) * (mx + sn + 1)).
  { intros c (b & f & n & e & Hb & Hf & _ & Hd & Hs & Hlen & Hsz). split; [lia|]. split; [lia|]. exists f, b. split; [done|]. split; [done|].
    pose proof (vSize_nearest (psub (make_point e) (make_point b))) as (H0 & _ & H2).
    unfold dist in Hd. set (v := vSize _) in *. clearbody v. unfold snaps in Hs. unfold dist2.
    unfold vSize2, psub in *. cbn [fst snd] in *. destruct (make_point e) as [ex ey], (make_point b) as [bx byy], (make_point f) as [fx fy].
    cbn [fst snd] in *. set (p := ex - bx) in *. set (q := ey - byy) in *. set (u := ex - fx) in *. set (w := ey - fy) in *.
    replace (fx - bx) with (p - u) by (unfold p, u; lia). replace (fy - byy) with (q - w) by (unfold q, w; lia). clearbody p q u w.
    assert (Hpq : p * p + q * q < (mx + 1) * (mx + 1)).
    { destruct Hw as (_ & Hmx & _). nia. }
    assert (Hdot : - ((mx + 1) * sn) <= p * u + q * w).
    { destruct Hw as (_ & Hmx & _). destruct (Z.le_gt_cases (- ((mx + 1) * sn)) (p * u + q * w)) as [|Hlt]; [done|]. exfalso.
      assert (Hcs : (p * u + q * w) * (p * u + q * w) <= (p * p + q * q) * (u * u + w * w)).
      { pose proof (Z.square_nonneg (p * w - q * u)). nia. }
      assert (((mx + 1) * sn) * ((mx + 1) * sn) < (p * u + q * w) * (p * u + q * w)) by nia.
      assert ((p * p + q * q) * (u * u + w * w) <= ((mx + 1) * (mx + 1)) * (sn * sn)) by (apply Z.mul_le_mono_nonneg; nia).
      nia. }
    nia. }
  destruct Hcl as [Hcl|Hcl]; [by apply Hgen|]. apply Hgen in Hcl as (H1 & H2 & h & l & Hh & Hl & Hd).
  rewrite reverse_length in H1. rewrite path_length_reverse in H2. rewrite head_reverse in Hh. rewrite last_reverse in Hl.
  split; [done|]. split; [done|]. exists l, h. split; [done|]. split; [done|]. unfold dist2 in *. nia.
Qed.
Print Assumptions C22_closed.

(** For walls: a result has only odd or only even lines, and even lines keep their direction. *)
Theorem C22_walls {J} (make_point : J -> pt) order (lines : list (list J * bool)) mx sn rl rp r :
  well_called order lines mx ->
  stitch make_point true order lines [] [] mx sn = Ok (rl, rp) -> r ∈ rl ++ rp ->
  exists x, fits make_point lines mx sn true x /\ out x = r /\
    ((forall j, j ∈ used (parts x) -> odd lines j) \/
     (forall j, j ∈ used (parts x) -> even lines j) /\ r = line x /\
     forall j rev, (j, rev) ∈ before (parts x) ++ after (parts x) -> rev = false).
Proof.
  intros Hw E Hr. destruct (C22_stitch make_point true order lines [] [] mx sn Hw) as (bs & E' & Hfits & Hperm & _).
  rewrite E in E'. injection E' as -> ->. cbn [app] in Hr.
  assert (Hx : exists x, x ∈ bs /\ out x = r).
  { apply elem_of_app in Hr as [Hr|Hr]; apply elem_of_list_In, in_map_iff in Hr as (x & <- & Hx); apply filter_In in Hx as [Hx _];
      exists x; split; try done; by apply elem_of_list_In. }
  destruct Hx as (x & Hx & <-). rewrite Forall_forall in Hfits. pose proof (Hfits x Hx) as Hf. exists x. split; [done|]. split; [done|].
  assert (Hin : forall j, j ∈ used (parts x) -> exists l o, lines !! j = Some (l, o)).
  { intros j Hj. assert (Hj' : j ∈ seq 0 (length lines)).
    { rewrite <- Hperm. unfold parts_of. apply elem_of_list_In, in_concat. exists (used (parts x)). split; [|by apply elem_of_list_In].
      apply in_map_iff. exists x. split; [done|]. by apply elem_of_list_In. }
    apply elem_of_seq in Hj'. destruct (lookup_lt_is_Some_2 lines j) as [[l o] Hl]; [lia|]. eauto. }
  destruct Hf as (_ & Hk & Ho). specialize (Hk eq_refl).
  assert (Hs : start (parts x) ∈ used (parts x)). { unfold used. apply elem_of_app. right. apply elem_of_list_here. }
  assert (Hu : forall j, j ∈ used (parts x) -> j = start (parts x) \/ exists rev, (j, rev) ∈ before (parts x) ++ after (parts x)).
  { intros j. unfold used. rewrite elem_of_app, elem_of_cons. intros [Hj|[Hj|Hj]]; [right|by left|right];
      apply elem_of_list_In, in_map_iff in Hj as ([j' rev] & <- & Hj); exists rev; apply elem_of_app; [left|right]; by apply elem_of_list_In. }
  destruct (Hin _ Hs) as (ls & os & Hls). destruct os.
  - left. intros j Hj. destruct (Hu j Hj) as [-> |[rev Hj']]; [by exists ls|]. apply (Hk j rev Hj'). by exists ls.
  - right. assert (Heven : forall j, j ∈ used (parts x) -> even lines j).
    { intros j Hj. destruct (Hu j Hj) as [-> |[rev Hj']]; [by exists ls|]. destruct (Hin j Hj) as (l & o & Hl). destruct o; [|by exists l].
      exfalso. destruct (Hk j rev Hj') as [[_ Hodd] _]. destruct Hodd as [l' Hl']; [by exists l|]. congruence. }
    split; [done|]. split.
    + destruct (closed x); [by destruct Ho|]. destruct Ho as [?|[_ Hn]]; [done|]. exfalso. apply Hn. split; [done|]. by exists ls.
    + intros j rev Hj. apply (Hk j rev Hj). apply Heven. unfold used. rewrite elem_of_app, elem_of_cons.
      apply elem_of_app in Hj as [Hj|Hj]; [left|right; right]; apply elem_of_list_In, in_map_iff; exists (j, rev); split; try done; by apply elem_of_list_In.
Qed.
Print Assumptions C22_walls.

(** ** What does not hold *)
(** An empty line is read out of bounds. *)
Theorem C22_empty_line_refuted : exists lines : list (list pt * bool),
  stitch id false id lines [] [] 100 10 = UB.
Proof. exists [([(0, 0); (5, 5)], false); ([], false)]. vm_compute. done. Qed.
Print Assumptions C22_empty_line_refuted.

(** A polygon can be closed over a gap longer than the stitch distance, also backwards. *)
Theorem C22_gap_refuted : exists (lines : list (list pt * bool)) rp r h l,
  well_called id lines 100 /\ stitch id false id lines [] [] 100 10 = Ok ([], rp) /\ r ∈ rp /\
  head r = Some h /\ last r = Some l /\ 100 * 100 < dist2 h l /\ r = [(65, 80); (65, 500); (0, 500); (0, 0)].
Proof.
  exists [([(5, 0); (5, -400); (65, -400); (65, -80)], false); ([(65, 80); (65, 500); (0, 500); (0, 0)], false)].
  exists [[(5, 0); (5, -400); (65, -400); (65, -80)]; [(65, 80); (65, 500); (0, 500); (0, 0)]].
  exists [(65, 80); (65, 500); (0, 500); (0, 0)], (65, 80), (0, 0). split.
  { split; [done|]. split; [lia|]. split; [lia|]. intros i l o Hi. destruct i as [|[|i]]; simpl in Hi; [| |done]; by injection Hi as <- <-. }
  split; [by vm_compute|]. split; [apply elem_of_list_further, elem_of_list_here|]. done.
Qed.
Print Assumptions C22_gap_refuted.

(** The comment at the adjustment of the distance says that closing is preferred for contours of even
    lines only.  It is the other way around: the even contour is extended to a farther line. *)
Theorem C22_prefer_closing_even_refuted : exists (l1 l2 : list pt),
  let h := (0, 0) in let e := (12, 0) in let other := (27, 0) in
  head l1 = Some h /\ last l1 = Some e /\ head l2 = Some other /\ dist2 h e < dist2 other e /\
  stitch id true id [(l1, false); (l2, false)] [] [] 400 10 = Ok ([l1 ++ l2], []) /\
  stitch id true id [(l1, true); (l2, true)] [] [] 400 10 = Ok ([reverse l2], [l1]).
Proof. exists [(0, 0); (0, 1000); (12, 1000); (12, 0)], [(27, 0); (5000, 0)]. vm_compute. done. Qed.
Print Assumptions C22_prefer_closing_even_refuted.

(** ** Non-vacuity: four pieces of a square, one of them to be reversed, and a loose line *)
Definition example_lines : list (list pt * bool) :=
  [([(0, 0); (1000, 0)], false); ([(1000, 1000); (1000, 4)], false); ([(1000, 1030); (0, 1000); (0, 40)], false);
   ([(5000, 0); (6000, 0)], false)].
Example C22_example :
  well_called id example_lines 100 /\
  stitch id false id example_lines [] [] 100 10 =
    Ok ([[(6000, 0); (5000, 0)]],
        [[(0, 0); (1000, 0); (1000, 1000); (1000, 1030); (0, 1000); (0, 40)]]).
Proof.
  split; [|by vm_compute]. split; [done|]. split; [lia|]. split; [lia|].
  intros i l o Hi. do 4 (destruct i as [|i]; [by injection Hi as <- <-|]). done.
Qed.
