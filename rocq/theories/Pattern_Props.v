(** C70: infill patterns made of connected lines. *)
From Coq Require Import ZArith QArith Lia Lqa Sorting.Sorted.
From stdpp Require Import prelude list gmap.
From Verif Require Import Common Geo_Model Box_Model Box_Props LineInfill_Model LineInfill_Spec LineInfill_Props Connect_Model Connect_Spec Connect_Props Pattern_Model Pattern_Spec.
Open Scope Z_scope.

(** ** the crossings of a scanline, with their edges *)
Section rows.
  Context (d shift lo : Z) (Hd : 0 < d).

  Fixpoint row_walk (k : Z) (poly_idx : nat) (p0 : pt) (point : nat) (poly : list pt) : list crossing :=
    match poly with [] => [] | p1 :: poly => row_of d shift k p0 p1 poly_idx point ++ row_walk k poly_idx p1 (S point) poly end.
  Fixpoint row_polys (k : Z) (poly_idx : nat) (polys : list (list pt)) : list crossing :=
    match polys with
    | [] => []
    | poly :: polys => (match last poly with Some p0 => row_walk k poly_idx p0 0 poly | None => [] end) ++ row_polys k (S poly_idx) polys
    end.

  Lemma cut_polygon_rows fuel poly_idx : forall poly p0 point rows, within d shift lo (length rows) p0 -> (forall p, p ∈ poly -> within d shift lo (length rows) p) -> (length rows < fuel)%nat ->
    exists rows', cut_polygon d shift lo fuel p0 poly_idx point poly rows = Ok rows' /\ length rows' = length rows /\
      forall r c, rows !! r = Some c -> rows' !! r = Some (c ++ row_walk (lo + Z.of_nat r) poly_idx p0 point poly).
  Proof.
    induction poly as [|p1 poly IH]; intros p0 point rows H0 Hp Hf; cbn [cut_polygon row_walk].
    { exists rows. split; [done|]. split; [done|]. intros r c E. by rewrite app_nil_r. }
    assert (H1 : within d shift lo (length rows) p1) by (apply Hp; left).
    destruct (cut_edge_ok d shift lo Hd fuel p0 p1 poly_idx point rows H0 H1 Hf) as (rows1 & E1 & Hl1 & Hr1). rewrite E1. cbn [rbind].
    destruct (IH p1 (S point) rows1) as (rows' & E & Hl & Hr); [by rewrite Hl1|intros p Hq; rewrite Hl1; apply Hp; by right|lia|].
    exists rows'. split; [done|]. split; [lia|]. intros r c Ec. rewrite app_assoc. apply Hr, Hr1, Ec.
  Qed.
  Lemma cut_polygons_rows fuel : forall polys poly_idx rows, (forall poly, poly ∈ polys -> poly <> [] /\ forall p, p ∈ poly -> within d shift lo (length rows) p) -> (length rows < fuel)%nat ->
    exists rows', cut_polygons d shift lo fuel poly_idx polys rows = Ok rows' /\ length rows' = length rows /\
      forall r c, rows !! r = Some c -> rows' !! r = Some (c ++ row_polys (lo + Z.of_nat r) poly_idx polys).
  Proof.
    induction polys as [|poly polys IH]; intros poly_idx rows Hp Hf; cbn [cut_polygons row_polys].
    { exists rows. split; [done|]. split; [done|]. intros r c E. by rewrite app_nil_r. }
    destruct (Hp poly ltac:(left)) as [Hne Hin]. destruct (last poly) as [p0|] eqn:El; [|by apply last_None in El]. cbn [of_opt rbind].
    destruct (cut_polygon_rows fuel poly_idx poly p0 0 rows) as (rows1 & E1 & Hl1 & Hr1); [|done|done|].
    { apply Hin. apply last_Some in El as [l' ->]. apply elem_of_app. right. left. }
    rewrite E1. cbn [rbind]. destruct (IH (S poly_idx) rows1) as (rows' & E & Hl & Hr); [rewrite Hl1; intros q Hq; apply Hp; by right|lia|].
    exists rows'. split; [done|]. split; [lia|]. intros r c Ec. rewrite app_assoc. apply Hr, Hr1, Ec.
  Qed.

  Lemma row_walk_elem k poly_idx c : forall poly p0 point, c ∈ row_walk k poly_idx p0 point poly ->
    polygon_index c = poly_idx /\ exists v e, vertex_index c = (point + v)%nat /\ poly !! v = Some e.2 /\ (if (v =? 0)%nat then Some p0 else poly !! (v - 1)%nat) = Some e.1 /\
      cuts (x_of d shift k) e = true /\ cy c = edge_y e.1 e.2 (x_of d shift k).
  Proof.
    induction poly as [|p1 poly IH]; intros p0 point H; cbn [row_walk] in H; [by apply elem_of_nil in H|]. apply elem_of_app in H as [H|H].
    - unfold row_of in H. destruct (cuts _ (p0, p1)) eqn:Ec; [|by apply elem_of_nil in H]. apply elem_of_list_singleton in H as ->. split; [done|].
      exists 0%nat, (p0, p1). cbn. split; [lia|done].
    - destruct (IH _ _ H) as (Hi & v & e & Hv & E1 & E2 & Hc & Hy). split; [done|]. exists (S v), e. split; [lia|]. split; [done|]. split; [|done].
      cbn [Nat.eqb]. replace (S v - 1)%nat with v by lia. destruct v as [|v]; [done|]. cbn [Nat.eqb] in E2. by replace (S v - 1)%nat with v in E2 by lia.
  Qed.
  Lemma row_walk_nodup k poly_idx : forall poly p0 point, NoDup (map vertex_index (row_walk k poly_idx p0 point poly)).
  Proof.
    induction poly as [|p1 poly IH]; intros p0 point; cbn [row_walk map]; [constructor|]. rewrite map_app. apply NoDup_app. split; [|split; [|apply IH]].
    - unfold row_of. destruct (cuts _ _); cbn; [apply NoDup_singleton|constructor].
    - intros i Hi Hi2. assert (i = point) as ->. { unfold row_of in Hi. destruct (cuts _ _); cbn in Hi; [by apply elem_of_list_singleton in Hi|by apply elem_of_nil in Hi]. }
      change (map ?f ?l) with (f <$> l) in Hi2. apply elem_of_list_fmap in Hi2 as (c & Hv & Hc). apply row_walk_elem in Hc as (_ & v & e & Hv2 & _). lia.
  Qed.
  Lemma row_polys_elem k c : forall polys poly_idx, c ∈ row_polys k poly_idx polys ->
    exists p e, polygon_index c = (poly_idx + p)%nat /\ edge_of polys p (vertex_index c) e /\ cuts (x_of d shift k) e = true /\ cy c = edge_y e.1 e.2 (x_of d shift k).
  Proof.
    induction polys as [|poly polys IH]; intros poly_idx H; cbn [row_polys] in H; [by apply elem_of_nil in H|]. apply elem_of_app in H as [H|H].
    - destruct (last poly) as [p0|] eqn:El; [|by apply elem_of_nil in H]. apply row_walk_elem in H as (Hi & v & e & Hv & E1 & E2 & Hc & Hy).
      exists 0%nat, e. split; [lia|]. split; [|done]. exists poly. split; [done|]. rewrite Hv, Nat.add_0_l. split; [done|]. by rewrite El.
    - destruct (IH _ H) as (p & e & Hp & (polygon & E & Hrest) & Hc). exists (S p), e. split; [lia|]. split; [|done]. by exists polygon.
  Qed.
  Definition place (c : crossing) : nat * nat := (polygon_index c, vertex_index c).
  Lemma row_polys_nodup k : forall polys poly_idx, NoDup (map place (row_polys k poly_idx polys)).
  Proof.
    induction polys as [|poly polys IH]; intros poly_idx; cbn [row_polys map]; [constructor|]. rewrite map_app. apply NoDup_app. split; [|split; [|apply IH]].
    - destruct (last poly) as [p0|]; [|constructor]. apply (NoDup_fmap_1 snd). change (snd <$> ?l) with (map snd l). rewrite map_map. cbn. apply row_walk_nodup.
    - intros i Hi Hi2. change (map ?f ?l) with (f <$> l) in Hi, Hi2. apply elem_of_list_fmap in Hi as (c & -> & Hc). apply elem_of_list_fmap in Hi2 as (c' & Ec & Hc').
      destruct (last poly) as [p0|]; [|by apply elem_of_nil in Hc]. apply row_walk_elem in Hc as (Hi & _). apply row_polys_elem in Hc' as (p & e & Hp & _). unfold place in Ec. injection Ec. intros. lia.
  Qed.
End rows.

Lemma pairs_elem {A} : forall n (l : list A) a b, (length l <= n)%nat -> (a, b) ∈ pairs l -> a ∈ l /\ b ∈ l.
Proof.
  induction n as [|n IH]; intros l a b Hl H; (destruct l as [|u [|v l]]; [by apply elem_of_nil in H|by apply elem_of_nil in H|]); cbn in Hl; [lia|].
  cbn in H. apply elem_of_cons in H as [[= -> ->]|H]; [split; [left|right; left]|]. destruct (IH l a b) as [? ?]; [lia|done|]. split; by do 2 right.
Qed.
Lemma pairs_ne {A B} (f : A -> B) : forall n (l : list A) a b, (length l <= n)%nat -> NoDup (map f l) -> (a, b) ∈ pairs l -> f a <> f b.
Proof.
  induction n as [|n IH]; intros l a b Hl Hn H; (destruct l as [|u [|v l]]; [by apply elem_of_nil in H|by apply elem_of_nil in H|]); cbn in Hl; [lia|].
  cbn in H, Hn. inversion Hn as [|? ? H1 H2]; subst. apply elem_of_cons in H as [[= -> ->]|H].
  - intros E. apply H1. rewrite E. left.
  - inversion H2; subst. apply (IH l a b); [lia|done|done].
Qed.

(** ** gathering *)
(** what becomes a line: its ends and the places of these *)
Record cand := Cand { ca : pt; cb : pt; pa : nat * nat; pb : nat * nat }.
Definition ends (c : cand) : pt * pt := (ca c, cb c).
Definition seg_of (c : cand) : seg := new_seg (ca c) (pa c).2 (pa c).1 (cb c).

Section gathering.
  Context (outline : list (list pt)).
  Definition in_range (q : nat * nat) : Prop := exists polygon, outline !! q.1 = Some polygon /\ (q.2 < length polygon)%nat.
  Definition good (c : cand) : Prop := ca c <> cb c /\ pa c <> pb c /\ in_range (pa c) /\ in_range (pb c).
  Definition shaped (crossings : list (list (list nat))) : Prop := map length crossings = map length outline.
  Record holds (g : gathered) (L : list cand) : Prop := {
    h_count : g.1.2 = length L;
    h_lines : forall i s, g.1.1 !! i = Some s <-> exists c, L !! i = Some c /\ s = seg_of c;
    h_shape : shaped g.2;
    h_on : forall p v i, i ∈ lines_on g.2 p v <-> exists c, L !! i = Some c /\ ((p, v) = pa c \/ (p, v) = pb c);
    h_nodup : forall p v, NoDup (lines_on g.2 p v);
    h_good : Forall good L
  }.

  Lemma shaped_lookup crossings q : shaped crossings -> in_range q -> exists on_polygon l, crossings !! q.1 = Some on_polygon /\ on_polygon !! q.2 = Some l.
  Proof.
    intros Hs (polygon & E & Hl). assert (El : map length outline !! q.1 = Some (length polygon)). { change (map ?f ?l) with (f <$> l). by rewrite list_lookup_fmap, E. }
    rewrite <- Hs in El. change (map ?f ?l) with (f <$> l) in El. rewrite list_lookup_fmap in El. destruct (crossings !! q.1) as [on_polygon|] eqn:Ec; [|done]. cbn in El. injection El as El.
    destruct (lookup_lt_is_Some_2 on_polygon q.2) as [l Hl2]; [lia|]. by exists on_polygon, l.
  Qed.
  Lemma put_ok c i crossings : shaped crossings -> in_range (place c) ->
    exists crossings', put c i crossings = Ok crossings' /\ shaped crossings' /\
      forall p v, lines_on crossings' p v = lines_on crossings p v ++ (if decide ((p, v) = place c) then [i] else []).
  Proof.
    intros Hs Hr. destruct (shaped_lookup crossings (place c) Hs Hr) as (on_polygon & l & E1 & E2). cbn [place fst snd] in E1, E2. unfold put. rewrite E1. cbn [of_opt rbind]. rewrite E2. cbn [of_opt rbind].
    eexists. split; [done|]. split.
    - unfold shaped in *. rewrite <- Hs. change (map ?f ?l) with (f <$> l). rewrite list_fmap_insert, insert_length. apply list_insert_id. by rewrite list_lookup_fmap, E1.
    - intros p v. unfold lines_on. destruct (decide (p = polygon_index c)) as [->|Hp].
      + rewrite list_lookup_insert by (by eapply lookup_lt_Some). rewrite E1. cbn [mbind option_bind]. destruct (decide (v = vertex_index c)) as [->|Hv].
        * rewrite list_lookup_insert by (by eapply lookup_lt_Some). rewrite E2. cbn. rewrite decide_True by done. done.
        * rewrite list_lookup_insert_ne by done. rewrite decide_False by (intros [=]; done). by rewrite app_nil_r.
      + rewrite list_lookup_insert_ne by done. rewrite decide_False by (intros [=]; done). by rewrite app_nil_r.
  Qed.

  Definition cand_of (un : pt -> pt) (x : Z) (p : crossing * crossing) : cand := Cand (un (x, cy p.1)) (un (x, cy p.2)) (place p.1) (place p.2).
  Definition long : list cand -> list cand := filter (fun c => ca c <> cb c).
  Definition sound_pair (p : crossing * crossing) : Prop := place p.1 <> place p.2 /\ in_range (place p.1) /\ in_range (place p.2).

  Lemma gather_pair_ok un x p g L : holds g L -> sound_pair p -> exists g', gather_pair un x p.1 p.2 g = Ok g' /\ holds g' (L ++ long [cand_of un x p]).
  Proof.
    intros H (Hne & Hra & Hrb). unfold gather_pair. destruct (decide (un (x, cy p.1) = un (x, cy p.2))) as [Eq|Hd].
    { exists g. split; [done|]. unfold long. rewrite filter_cons_False by (cbn; intros Hx; by apply Hx). by rewrite filter_nil, app_nil_r. }
    unfold long. rewrite filter_cons_True by done. rewrite filter_nil. set (c := cand_of un x p).
    destruct (put_ok p.1 g.1.2 g.2 (h_shape _ _ H) Hra) as (cr1 & E1 & Hs1 & Hon1). rewrite E1. cbn [rbind].
    destruct (put_ok p.2 g.1.2 cr1 Hs1 Hrb) as (cr2 & E2 & Hs2 & Hon2). rewrite E2. cbn [rbind].
    eexists. split; [done|]. rewrite (h_count _ _ H). assert (Hlt : forall i c', L !! i = Some c' -> (i < length L)%nat) by (intros i c' E; by eapply lookup_lt_Some).
    assert (Happ : forall i c', (L ++ [c]) !! i = Some c' <-> (i = length L /\ c' = c) \/ L !! i = Some c').
    { intros i c'. rewrite lookup_app_Some. split.
      - intros [E|[Hl E]]; [by right|]. left. destruct (i - length L)%nat as [|k] eqn:Ek; cbn in E; [split; [lia|congruence]|done].
      - intros [[-> ->]|E]; [|by left]. right. split; [done|]. by replace (length L - length L)%nat with 0%nat by lia. }
    assert (Hon : forall q v, lines_on cr2 q v = lines_on g.2 q v ++ (if decide ((q, v) = pa c \/ (q, v) = pb c) then [length L] else [])).
    { intros q v. rewrite Hon2, Hon1, <- app_assoc, (h_count _ _ H). f_equal. cbn [pa pb c cand_of]. 
      destruct (decide ((q, v) = place p.1)) as [Ea|Ea], (decide ((q, v) = place p.2)) as [Eb|Eb].
      - congruence.
      - rewrite decide_True by auto. done.
      - rewrite decide_True by auto. done.
      - rewrite decide_False by naive_solver. done. }
    assert (Hfresh : forall q v, length L ∉ lines_on g.2 q v). { intros q v Hin. apply (h_on _ _ H) in Hin as (c' & Ec & _). apply Hlt in Ec. lia. }
    constructor; cbn [fst snd].
    - rewrite app_length. cbn. lia.
    - intros i s. rewrite lookup_insert_Some. split.
      + intros [[<- <-]|[Hi E]].
        * exists c. split; [apply Happ; by left|done].
        * apply (h_lines _ _ H) in E as (c' & Ec & ->). exists c'. split; [apply Happ; by right|done].
      + intros (c' & Ec & ->). apply Happ in Ec as [[-> ->]|Ec]; [by left|]. right. split; [apply Hlt in Ec; lia|]. apply (h_lines _ _ H). by exists c'.
    - done.
    - intros q v i. rewrite Hon, elem_of_app, (h_on _ _ H). split.
      + intros [(c' & Ec & Hc)|Hi]; [exists c'; split; [apply Happ; by right|done]|]. destruct (decide _) as [Hq|Hq]; [|by apply elem_of_nil in Hi]. apply elem_of_list_singleton in Hi as ->.
        exists c. split; [apply Happ; by left|done].
      + intros (c' & Ec & Hc). apply Happ in Ec as [[-> ->]|Ec]; [right; rewrite decide_True by done; left|]. left. by exists c'.
    - intros q v. rewrite Hon. apply NoDup_app. split; [apply (h_nodup _ _ H)|]. split.
      + intros i Hi Hi2. destruct (decide _) as [Hq|Hq]; [|by apply elem_of_nil in Hi2]. apply elem_of_list_singleton in Hi2 as ->. by apply (Hfresh q v).
      + destruct (decide _); [apply NoDup_singleton|constructor].
    - apply Forall_app. split; [apply (h_good _ _ H)|]. apply Forall_singleton. done.
  Qed.
  Lemma gather_row_ok un x : forall ps g L, holds g L -> Forall sound_pair ps -> exists g', gather_row un x ps g = Ok g' /\ holds g' (L ++ long (map (cand_of un x) ps)).
  Proof.
    induction ps as [|p ps IH]; intros g L H Hs; cbn [gather_row map]; [exists g; split; [done|]; by rewrite app_nil_r|]. inversion Hs as [|? ? Hp Hps]; subst.
    destruct (gather_pair_ok un x p g L H Hp) as (g1 & E1 & H1). rewrite E1. cbn [rbind]. destruct (IH g1 _ H1 Hps) as (g' & E & H'). exists g'. split; [done|].
    unfold long in *. rewrite <- app_assoc, <- filter_app in H'. exact H'.
  Qed.
  Fixpoint cands (un : pt -> pt) (d x : Z) (rows : list (list crossing)) : list cand :=
    match rows with [] => [] | c :: rows => map (cand_of un x) (pairs (sort_crossings c)) ++ cands un d (x + d) rows end.
  Definition sound_row (c : list crossing) : Prop := NoDup (map place c) /\ Forall (fun c => in_range (place c)) c.
  Lemma sound_pairs c : sound_row c -> Forall sound_pair (pairs (sort_crossings c)).
  Proof.
    intros [Hn Hr]. apply Forall_forall. intros [a b] Hp. rewrite Forall_forall in Hr. destruct (pairs_elem _ _ a b (le_n _) Hp) as [Ha Hb]. rewrite sort_perm in Ha, Hb.
    split; [|split; by apply Hr]. apply (pairs_ne place _ _ a b (le_n _)) in Hp; [done|]. change (map ?f ?l) with (f <$> l). by rewrite sort_perm.
  Qed.
  Lemma gather_rows_ok un d : forall rows x g L, holds g L -> Forall sound_row rows -> exists g', gather_rows un d x rows g = Ok g' /\ holds g' (L ++ long (cands un d x rows)).
  Proof.
    induction rows as [|c rows IH]; intros x g L H Hs; cbn [gather_rows cands]; [exists g; split; [done|]; by rewrite app_nil_r|]. inversion Hs as [|? ? Hc Hrows]; subst.
    destruct (gather_row_ok un x _ g L H (sound_pairs c Hc)) as (g1 & E1 & H1). rewrite E1. cbn [rbind]. destruct (IH (x + d) g1 _ H1 Hrows) as (g' & E & H'). exists g'. split; [done|].
    unfold long in *. rewrite <- app_assoc, <- filter_app in H'. exact H'.
  Qed.

  Lemma holds_valid g L : holds g L -> valid_lines outline g.1.1 g.2 g.1.2.
  Proof.
    intros H. pose proof (h_shape _ _ H) as Hs. unfold shaped in Hs. change (map ?f ?l) with (f <$> l) in Hs. split; [|split; [|split; [|split]]].
    - intros p polygon E. assert (El : (length <$> g.2) !! p = Some (length polygon)) by (rewrite Hs, list_lookup_fmap, E; done). rewrite list_lookup_fmap in El.
      destruct (g.2 !! p) as [on_polygon|]; [|done]. exists on_polygon. split; [done|]. cbn in El. congruence.
    - intros p v [l E]. destruct (g.2 !! p) as [on_polygon|] eqn:Ep; [|done]. cbn in E. assert (El : (length <$> outline) !! p = Some (length on_polygon)) by (rewrite <- Hs, list_lookup_fmap, Ep; done).
      rewrite list_lookup_fmap in El. destruct (outline !! p) as [polygon|]; [|done]. exists polygon. split; [done|]. cbn in El. injection El as El. apply lookup_lt_Some in E. lia.
    - apply (h_nodup _ _ H).
    - intros p v i Hi. apply (h_on _ _ H) in Hi as (c & Ec & _). exists (seg_of c). apply (h_lines _ _ H). by exists c.
    - intros i s E. apply (h_lines _ _ H) in E as (c & Ec & ->). pose proof (h_good _ _ H) as Hg. rewrite Forall_forall in Hg. destruct (Hg c ltac:(by eapply elem_of_list_lookup_2)) as (Hd & Hne & _).
      split; [rewrite (h_count _ _ H); by eapply lookup_lt_Some|]. split; [done|]. split; [done|]. exists (pb c).1, (pb c).2. cbn [seg_of new_seg start_polygon start_segment].
      rewrite <- !surjective_pairing. split; [done|]. intros p' v'. rewrite (h_on _ _ H). split; [intros (c' & Ec' & Hc); by assert (c' = c) as -> by congruence|]. intros Hc. by exists c.
  Qed.
  Lemma holds_init : holds (∅, O, no_crossings outline) [].
  Proof.
    assert (Hno : forall p v, lines_on (no_crossings outline) p v = []).
    { intros p v. unfold lines_on, no_crossings. change (map ?f ?l) with (f <$> l). rewrite list_lookup_fmap. destruct (outline !! p) as [polygon|]; [|done]. cbn.
      destruct (replicate (length polygon) [] !! v) as [l|] eqn:E; [|done]. apply lookup_replicate in E as [-> _]. done. }
    constructor; cbn [fst snd].
    - done.
    - intros i s. rewrite lookup_empty. split; [done|]. by intros (c & E & _).
    - unfold shaped, no_crossings. rewrite map_map. apply map_ext. intros poly. apply replicate_length.
    - intros p v i. rewrite Hno. split; [intros Hi; by apply elem_of_nil in Hi|]. by intros (c & E & _).
    - intros p v. rewrite Hno. constructor.
    - constructor.
  Qed.
End gathering.

(** ** one direction *)
Lemma scanline_all x c : scanline_lines 0 x c = map (fun p => ((x, cy p.1), (x, cy p.2))) (pairs (sort_crossings c)).
Proof.
  unfold scanline_lines. assert (H : Forall (fun p : crossing * crossing => cy p.1 <= cy p.2) (pairs (sort_crossings c))).
  { apply Forall_forall. intros [a b] Hp. cbn. assert (Hp' : (cy a, cy b) ∈ pairs (map cy (sort_crossings c))).
    { rewrite pairs_map. change (map ?f ?l) with (f <$> l). apply elem_of_list_fmap. by exists (a, b). }
    destruct (exists_fresh (map cy (sort_crossings c))) as [y Hy]. destruct (pairs_inside y _ _ (le_n _) (sort_sorted c) Hy) as [Hq _]. by destruct (Hq _ _ Hp'). }
  induction H as [|p l Hp _ IH]; [done|]. cbn [foldr map]. change (0 ÷ 5) with 0 in *. destruct (Z.ltb_spec (cy p.2 - cy p.1) 0); [lia|]. by rewrite IH.
Qed.
Fixpoint all_spans (d x : Z) (rows : list (list crossing)) : list (pt * pt) :=
  match rows with [] => [] | c :: rows => map (fun p => ((x, cy p.1), (x, cy p.2))) (pairs (sort_crossings c)) ++ all_spans d (x + d) rows end.
Lemma all_spans_add d : 0 < d -> forall rows x max, (forall r, (r < length rows)%nat -> x + Z.of_nat r * d < max) -> all_spans d x rows = addLineInfill d 0 x max rows.
Proof.
  intros Hd. induction rows as [|c rows IH]; intros x max Hmax; [done|]. cbn [all_spans addLineInfill]. assert (Hx : x < max) by (specialize (Hmax 0%nat ltac:(cbn; lia)); lia).
  replace (x <? max) with true by (symmetry; by apply Z.ltb_lt). rewrite scanline_all. f_equal. apply IH. intros r Hr. specialize (Hmax (S r) ltac:(cbn; lia)). lia.
Qed.
Lemma cands_ends un d : forall rows x, map ends (cands un d x rows) = map (fun s => (un s.1, un s.2)) (all_spans d x rows).
Proof. induction rows as [|c rows IH]; intros x; [done|]. cbn [cands all_spans]. rewrite !map_app, IH. f_equal. rewrite !map_map. done. Qed.
Lemma cands_elem un d c : forall rows x, c ∈ cands un d x rows -> exists r row p, rows !! r = Some row /\ p ∈ pairs (sort_crossings row) /\ c = cand_of un (x + Z.of_nat r * d) p.
Proof.
  induction rows as [|row rows IH]; intros x H; cbn [cands] in H; [by apply elem_of_nil in H|]. apply elem_of_app in H as [H|H].
  - change (map ?f ?l) with (f <$> l) in H. apply elem_of_list_fmap in H as (p & -> & Hp). exists 0%nat, row, p. split; [done|]. split; [done|]. by replace (x + Z.of_nat 0 * d) with x by lia.
  - destruct (IH _ H) as (r & row' & p & E & Hp & ->). exists (S r), row', p. split; [done|]. split; [done|]. f_equal. lia.
Qed.

Section direction.
  Context (outline : list (list pt)) (dir : direction).
  Hypothesis Hd : 0 < distance dir.
  Hypothesis Hne : forall poly, poly ∈ outline -> poly <> [].
  Notation d := (distance dir).
  Notation ts := (total_shift dir).
  Notation shift := (shift_of d ts).
  Notation turned := (map (map (apply dir)) outline).

  (** the end of a line on an edge *)
  Definition cut_at (q : nat * nat) (z : pt) : Prop :=
    exists e k y, edge_of outline q.1 q.2 e /\ let x := k * d + ts in let e' := (apply dir e.1, apply dir e.2) in
      cuts x e' = true /\ (inject_Z y - 1 < height x e')%Q /\ (height x e' < inject_Z y + 1)%Q /\ z = unapply dir (x, y).

  Lemma turned_edge p v e : edge_of turned p v e -> exists e0, edge_of outline p v e0 /\ e = (apply dir e0.1, apply dir e0.2).
  Proof.
    intros (polygon & E & E1 & E2). change (map ?f ?l) with (f <$> l) in E. rewrite list_lookup_fmap in E. destruct (outline !! p) as [poly|] eqn:Ep; [|done]. cbn in E. injection E as <-.
    change (map ?f ?l) with (f <$> l) in E1, E2. rewrite list_lookup_fmap in E1. destruct (poly !! v) as [b|] eqn:Eb; [|done]. cbn in E1. injection E1 as E1.
    assert (exists a, (if (v =? 0)%nat then last poly else poly !! (v - 1)%nat) = Some a /\ apply dir a = e.1) as (a & Ea & Ea1).
    { destruct (v =? 0)%nat; [rewrite fmap_last in E2; destruct (last poly) as [a|]|rewrite list_lookup_fmap in E2; destruct (poly !! (v - 1)%nat) as [a|]]; try done; cbn in E2; injection E2 as E2; by exists a. }
    exists (a, b). split; [exists poly; done|]. cbn [fst snd]. rewrite Ea1, E1. by destruct e.
  Qed.

  Definition enough : nat := Z.to_nat ((bmax (aabb_calculate_shape turned)).1 - (bmin (aabb_calculate_shape turned)).1) + 2.
  Lemma gather_ok g L : holds outline g L ->
    exists g' C spans, (forall fuel, (enough <= fuel)%nat -> gather fuel outline dir g = Ok g') /\ holds outline g' (L ++ long C) /\
      map ends C = map (fun s => (unapply dir s.1, unapply dir s.2)) spans /\ spans_of outline dir spans /\
      forall c, c ∈ C -> cut_at (pa c) (ca c) /\ cut_at (pb c) (cb c).
  Proof.
    intros Hg. unfold gather. cbv zeta. replace (d =? 0) with false by (symmetry; apply Z.eqb_neq; lia). cbn [orb].
    destruct outline as [|poly0 rest] eqn:Eout.
    { exists g, [], []. split; [done|]. split; [unfold long; by rewrite filter_nil, app_nil_r|]. split; [done|]. split; [|intros c Hc; by apply elem_of_nil in Hc].
      split; [constructor|]. split; [intros a b H; by apply elem_of_nil in H|]. intros k y x H. by cbn in H. }
    rewrite <- Eout in *. destruct (shift_of_ok d ts Hd) as [ks Hks].
    unfold enough. set (box := aabb_calculate_shape turned) in *. set (lo := ((bmin box).1 - shift) / d). set (n := Z.to_nat (((bmax box).1 - shift) / d + 1 - lo)).
    assert (Hbox : forall p, p ∈ concat turned -> in_box box p).
    { intros p Hp. unfold box. rewrite C24_shape_box. unfold aabb_calculate. by apply include_points_spec. }
    assert (Hn : forall fuel, (Z.to_nat ((bmax box).1 - (bmin box).1) + 2 <= fuel)%nat -> (n < fuel)%nat).
    { intros fuel Hfuel. unfold n, lo. pose proof (Z.div_mod ((bmin box).1 - shift) d ltac:(lia)). pose proof (Z.mod_pos_bound ((bmin box).1 - shift) d Hd).
      pose proof (Z.div_mod ((bmax box).1 - shift) d ltac:(lia)). pose proof (Z.mod_pos_bound ((bmax box).1 - shift) d Hd).
      set (q1 := ((bmin box).1 - shift) / d) in *. set (q2 := ((bmax box).1 - shift) / d) in *.
      assert (d * (q2 - q1) < (bmax box).1 - (bmin box).1 + d) by lia.
      destruct (decide (q2 - q1 <= 0)); [lia|]. assert (q2 - q1 - 1 < (bmax box).1 - (bmin box).1 \/ (q2 - q1 - 1 = 0 /\ 0 <= (bmax box).1 - (bmin box).1 )) by nia. lia. }
    set (rows := map (fun r => row_polys d shift (lo + Z.of_nat r) 0 turned) (seq 0 n)).
    assert (Hrow2 : forall r, (r < n)%nat -> rows !! r = Some (row_polys d shift (lo + Z.of_nat r) 0 turned)).
    { intros r Hr. unfold rows. change (map ?f ?l) with (f <$> l). rewrite list_lookup_fmap, lookup_seq_lt by done. done. }
    assert (Hlen0 : length rows = n) by (unfold rows; by rewrite map_length, seq_length).
    assert (Hfind : forall fuel, (n < fuel)%nat -> find_crossings (apply dir) fuel outline d shift = Ok (rows, lo, box)).
    { intros fuel Hf. destruct (cut_polygons_rows d shift lo Hd fuel turned 0 (replicate n [])) as (rows' & E' & Hl & Hr).
      - intros poly Hp. change (map ?f ?l) with (f <$> l) in Hp. apply elem_of_list_fmap in Hp as (poly1 & -> & Hp). split.
        + intros H. apply fmap_nil_inv in H. by apply (Hne poly1).
        + intros p Hin. rewrite replicate_length. unfold within. assert (Hb : in_box box p).
          { apply Hbox. apply elem_of_list_In, in_concat. exists (map (apply dir) poly1). split; [|by apply elem_of_list_In]. apply in_map. by apply elem_of_list_In. }
          destruct Hb as [[H1 H2] _]. assert (lo <= (p.1 - shift) / d) by (unfold lo; apply Z.div_le_mono; lia).
          assert ((p.1 - shift) / d <= ((bmax box).1 - shift) / d) by (apply Z.div_le_mono; lia). unfold n. lia.
      - by rewrite replicate_length.
      - unfold find_crossings. cbv zeta. fold box. rewrite !scan_idx by done. fold lo n. rewrite E'. cbn [rbind]. f_equal. f_equal. f_equal. apply (list_eq_same_length _ _ n); [done| |].
        + by rewrite Hl, replicate_length.
        + intros r u v Hrn Eu Ev. rewrite (Hr r []) in Eu by (by apply lookup_replicate_2). rewrite (Hrow2 r Hrn) in Ev. cbn in Eu. congruence. }
    destruct (crossings_ok (apply dir) outline d ts Hd Hne (S n) ltac:(by rewrite Eout) ltac:(unfold n, lo, box; lia)) as (rows0 & E & Hlen & Hrows). fold box lo n in E, Hlen, Hrows.
    rewrite Hfind in E by lia. assert (rows0 = rows) as -> by congruence. clear E.
    assert (Hx : forall r, x_of d shift (lo + 1) + Z.of_nat r * d = x_of d shift (lo + Z.of_nat (S r))) by (intros r; unfold x_of; lia).
    assert (Hsound : Forall (sound_row outline) (tail rows)).
    { apply Forall_forall. intros row Hrow. apply elem_of_list_lookup in Hrow as [r Er]. rewrite lookup_tail in Er.
      assert (Hr : (S r < n)%nat) by (apply lookup_lt_Some in Er; lia). rewrite (Hrow2 _ Hr) in Er. injection Er as <-. split; [apply row_polys_nodup|].
      apply Forall_forall. intros c Hc. apply row_polys_elem in Hc as (p & e & Hp & He & _). apply turned_edge in He as (e0 & (polygon & E1 & E2 & _) & _). exists polygon. cbn. rewrite Hp. split; [done|].
      by eapply lookup_lt_Some. }
    destruct (gather_rows_ok outline (unapply dir) d (tail rows) (x_of d shift (lo + 1)) g L Hg Hsound) as (g' & Eg & Hg').
    eexists g', _, (all_spans d (x_of d shift (lo + 1)) (tail rows)). split; [intros fuel Hfuel; rewrite Hfind by (by apply Hn); exact Eg|]. split; [exact Hg'|]. split; [apply cands_ends|]. split.
    - rewrite (all_spans_add d Hd _ _ ((bmax box).1 + 1)).
      2:{ intros r Hr. rewrite Hx. assert (Hr2 : (S r < n)%nat) by (destruct rows; cbn in Hr, Hlen; lia). pose proof (x_of_lt d shift Hd (lo + Z.of_nat (S r)) (bmax box).1) as Hxl. unfold n in Hr2. lia. }
      split; [by apply add_sorted|]. split.
      + intros a b Hab. apply add_elem in Hab as (r & c & Er & Hmax & Hs); [|done]. rewrite Hx in Hmax, Hs. rewrite lookup_tail in Er. set (x := x_of d shift (lo + Z.of_nat (S r))) in *.
        destruct (Hrows (S r)) as (c' & Ec' & Hc); [apply lookup_lt_Some in Er; lia|]. assert (c' = c) as -> by congruence. fold x in Hc.
        destruct (row_pairs (apply dir) outline c x Hc) as (Hsort & Heven & Hmem & Hin). apply scanline_elem in Hs as (c1 & c2 & Hp & Hw & [= -> ->]). cbn [fst snd].
        assert (Hp' : (cy c1, cy c2) ∈ pairs (map cy (sort_crossings c))).
        { rewrite pairs_map. change (map ?f ?l) with (f <$> l). apply elem_of_list_fmap. by exists (c1, c2). }
        assert (Hab : cy c1 <= cy c2 /\ cy c1 ∈ map cy (sort_crossings c) /\ cy c2 ∈ map cy (sort_crossings c)).
        { clear - Hp' Hsort. revert Hp' Hsort. generalize (map cy (sort_crossings c)) (cy c1) (cy c2). intros l u v.
          destruct (exists_fresh l) as [y Hy]. intros Hp Hs. destruct (pairs_inside y (length l) l (le_n _) Hs Hy) as [H _]. destruct (H u v Hp) as (A & B & C & _). done. }
        destruct Hab as (Hle & Ha & Hb). split; [done|]. split; [exists (lo + Z.of_nat (S r) - ks); unfold x, x_of; lia|]. split; [done|].
        split; [|split; apply ys_boundary, Hmem; done].
        intros y Hy. destruct (decide (y ∈ map cy (sort_crossings c))) as [Hyin|Hyn].
        * exfalso. revert Hp' Hsort Hyin Hy. clear. generalize (map cy (sort_crossings c)) (cy c1) (cy c2). intros l u v Hp Hs Hyin Hy. by apply (pairs_gap (length l) l (le_n _) Hs u v Hp y).
        * apply Hin; [done|]. destruct (pairs_inside y _ _ (le_n _) Hsort Hyn) as [H _]. by apply (H _ _ Hp').
      + intros k y x Hins.
        assert (Hcut : exists e, e ∈ all_edges turned /\ cuts x e = true).
        { unfold inside in Hins. destruct (List.filter _ _) as [|e es] eqn:Ef; [done|]. assert (He : In e (e :: es)) by (by left). rewrite <- Ef in He.
          apply filter_In in He as [He1 He2]. apply andb_true_iff in He2 as [He2 _]. exists e. split; [by apply elem_of_list_In|done]. }
        destruct Hcut as (e & He & Hcut).
        assert (Hends : in_box box e.1 /\ in_box box e.2) by (destruct (edge_ends turned e He) as [H1 H2]; split; by apply Hbox).
        destruct Hends as [[[H1 H2] _] [[H3 H4] _]].
        assert (Hxb : (bmin box).1 < x <= (bmax box).1).
        { unfold cuts in Hcut. rewrite orb_true_iff, !andb_true_iff, !Z.ltb_lt, !Z.leb_le in Hcut. lia. }
        set (kk := k + ks). assert (Hxk : x = x_of d shift kk) by (unfold x, kk, x_of; lia).
        assert (Hkk : lo < kk < lo + Z.of_nat n).
        { assert (kk <= ((bmax box).1 - shift) / d) by (apply x_of_lt; [done|lia]).
          assert (lo < kk) by (pose proof (x_of_lt d shift Hd kk (bmin box).1) as Hxl; fold lo in Hxl; lia). unfold n. lia. }
        set (r := Z.to_nat (kk - lo - 1)). assert (Hr : lo + Z.of_nat (S r) = kk) by (unfold r; lia). destruct (Hrows (S r)) as (c & Er & Hc); [lia|].
        rewrite Hr in Hc. rewrite <- Hxk in Hc.
        destruct (row_pairs (apply dir) outline c x Hc) as (Hsort & Heven & Hmem & Hin).
        destruct (decide (y ∈ map cy (sort_crossings c))) as [Hyin|Hyn]; [right; by apply ys_boundary, Hmem|]. left.
        destruct (pairs_inside y _ _ (le_n _) Hsort Hyn) as [Hpa Hpb]. destruct (Hpb Heven (proj1 (Hin y Hyn) Hins)) as (u & v & Huv & Hy).
        rewrite pairs_map in Huv. change (map ?f ?l) with (f <$> l) in Huv. apply elem_of_list_fmap in Huv as ([c1 c2] & [= -> ->] & Hp).
        exists (x, cy c1), (x, cy c2). split; [|done]. apply add_elem; [done|]. exists r, c. rewrite lookup_tail, Hx, Hr, <- Hxk. split; [done|]. split; [lia|].
        apply scanline_elem. exists c1, c2. split; [done|]. split; [|done]. change (0 ÷ 5) with 0. cbn [fst snd] in Hy. lia.
    - intros c Hc. apply cands_elem in Hc as (r & row & [c1 c2] & Er & Hp & ->). rewrite lookup_tail in Er. rewrite Hx. assert (Hr : (S r < n)%nat) by (apply lookup_lt_Some in Er; lia).
      rewrite (Hrow2 _ Hr) in Er. injection Er as <-. destruct (pairs_elem _ _ c1 c2 (le_n _) Hp) as [H1 H2]. rewrite sort_perm in H1, H2.
      assert (Hcut : forall c, c ∈ row_polys d shift (lo + Z.of_nat (S r)) 0 turned -> cut_at (place c) (unapply dir (x_of d shift (lo + Z.of_nat (S r)), cy c))).
      { intros c Hc. apply row_polys_elem in Hc as (p & e & Hpi & He & Hcut & Hy). apply turned_edge in He as (e0 & He0 & ->). 
        assert (Hxx : x_of d shift (lo + Z.of_nat (S r)) = (lo + Z.of_nat (S r) - ks) * d + ts) by (unfold x_of; lia).
        exists e0, (lo + Z.of_nat (S r) - ks), (cy c). cbn [place fst snd]. rewrite Hpi. split; [done|]. cbv zeta. rewrite <- Hxx. split; [done|]. 
        destruct (height_close _ _ Hcut) as [Ha Hb]. rewrite Hy. done. }
      split; by apply Hcut.
  Qed.
End direction.

(** ** all directions *)
Lemma ends_long C : map ends (long C) = filter (fun s => s.1 <> s.2) (map ends C).
Proof.
  unfold long. induction C as [|c C IH]; [done|]. cbn [map]. rewrite !filter_cons. cbn [ends fst snd]. destruct (decide (ca c <> cb c)); cbn [map]; by rewrite IH.
Qed.
Lemma gather_all_ok outline : (forall poly, poly ∈ outline -> poly <> []) -> forall dirs g L, (forall dir, dir ∈ dirs -> 0 < distance dir) -> holds outline g L ->
  exists fuel0 g' M spans, (forall fuel, (fuel0 <= fuel)%nat -> gather_all fuel outline dirs g = Ok g') /\ holds outline g' (L ++ M) /\ Forall2 (spans_of outline) dirs spans /\
    map ends M = concat (zip_with turned_back dirs spans) /\ forall c, c ∈ M -> exists dir, dir ∈ dirs /\ cut_at outline dir (pa c) (ca c) /\ cut_at outline dir (pb c) (cb c).
Proof.
  intros Hne. induction dirs as [|dir dirs IH]; intros g L Hd Hg; cbn [gather_all].
  { exists 0%nat, g, [], []. split; [done|]. split; [by rewrite app_nil_r|]. split; [constructor|]. split; [done|]. intros c Hc. by apply elem_of_nil in Hc. }
  destruct (gather_ok outline dir (Hd dir ltac:(left)) Hne g L Hg) as (g1 & C & sp & E1 & Hg1 & Hends & Hsp & Hcut).
  destruct (IH g1 (L ++ long C)) as (fuel0 & g' & M & spans & E & Hg' & Hspans & HM & Hcuts); [intros d' Hin; apply Hd; by right|done|].
  exists (max fuel0 (enough outline dir)), g', (long C ++ M), (sp :: spans). split; [|split; [|split; [|split]]].
  - intros fuel Hf. rewrite E1 by lia. cbn [rbind]. apply E. lia.
  - by rewrite app_assoc.
  - by constructor.
  - rewrite map_app, HM, ends_long, Hends. done.
  - intros c Hc. apply elem_of_app in Hc as [Hc|Hc].
    + unfold long in Hc. apply elem_of_list_filter in Hc as [_ Hc]. exists dir. split; [left|]. by apply Hcut.
    + destruct (Hcuts c Hc) as (d' & Hin & H). exists d'. split; [by right|done].
Qed.

(** C70: infill patterns made of connected lines. *)
Theorem C70_pattern resolve outline dirs :
  (forall poly, poly ∈ outline -> poly <> []) -> (forall dir, dir ∈ dirs -> 0 < distance dir) -> sane resolve ->
  exists spans, Forall2 (spans_of outline) dirs spans /\
  let segs := concat (zip_with turned_back dirs spans) in
  exists fuel0 chains,
    (forall fuel, (fuel0 <= fuel)%nat -> connectedInfill resolve fuel outline dirs = Ok (map polyline chains)) /\
    (forall c, c ∈ chains -> contiguous c /\ exists q i, q ∈ c /\ line q = Some i) /\
    (forall q, q ∈ concat chains -> from q <> to q) /\
    (** every line is printed exactly once *)
    omap line (concat chains) ≡ₚ seq 0 (length segs) /\
    (** if no lines cross near the outline, straight from end to end, and connections follow the outline *)
    (quiet resolve -> forall q, q ∈ concat chains -> via q = [] /\
      match line q with
      | Some i => segs !! i = Some (from q, to q) \/ segs !! i = Some (to q, from q)
      | None => exists p v, on_edge outline dirs p v (from q) /\ on_edge outline dirs p v (to q)
      end) /\
    (** within one polygon at most one line remains alone *)
    (quiet resolve -> clear_corners outline dirs -> length outline = 1%nat -> forall i j, i <> j -> (i < length segs)%nat -> (j < length segs)%nat ->
      exists c k k', c ∈ chains /\ (k = i \/ k = j) /\ k' <> k /\ k ∈ omap line c /\ k' ∈ omap line c).
Proof.
  intros Hne Hd Hsane.
  destruct (gather_all_ok outline Hne dirs _ _ Hd (holds_init outline)) as (fuel1 & g & M & spans & E & Hg & Hspans & HM & Hcut). cbn [app] in Hg.
  exists spans. split; [done|]. cbv zeta. rewrite <- HM. set (segs := map ends M).
  assert (Hlen : length segs = length M) by (unfold segs; by rewrite map_length).
  assert (Hsegs : forall i c, M !! i = Some c -> segs !! i = Some (ends c)). { intros i c Ec. unfold segs. change (map ?f ?l) with (f <$> l). by rewrite list_lookup_fmap, Ec. }
  destruct (C69_connected resolve outline g.1.1 g.1.2 g.2 (holds_valid outline g M Hg) Hsane) as (fuel2 & chains & Hc & Hchain & Hft & Hnd & Hall & Hq & Hbends & Hlone).
  exists (max fuel1 fuel2), chains. split; [|split; [|split; [|split; [|split]]]].
  - intros fuel Hf. unfold connectedInfill. rewrite E by lia. cbn [rbind]. apply Hc. lia.
  - exact Hchain.
  - exact Hft.
  - apply NoDup_Permutation; [done|apply NoDup_seq|]. intros i. rewrite Hall, elem_of_seq, Hlen. split.
    + intros [s Es]. apply (h_lines _ _ _ Hg) in Es as (c & Ec & _). apply lookup_lt_Some in Ec. lia.
    + intros [_ Hi]. destruct (lookup_lt_is_Some_2 M i) as [c Ec]; [lia|]. exists (seg_of c). apply (h_lines _ _ _ Hg). by exists c.
  - intros Hquiet q Hin. destruct (Hq Hquiet q Hin) as [Hvia H]. split; [done|]. destruct (line q) as [i|].
    + destruct H as (s & Es & H). apply (h_lines _ _ _ Hg) in Es as (c & Ec & ->). rewrite (Hsegs i c Ec). cbn in H. unfold ends. destruct H as [[-> ->]|[-> ->]]; [by left|by right].
    + destruct H as (p & v & Hfrom & Hto). exists p, v.
      assert (Hend : forall z i s, i ∈ lines_on g.2 p v -> g.1.1 !! i = Some s -> z = (if bool_decide ((p, v) = (start_polygon s, start_segment s)) then start s else end_ s) -> on_edge outline dirs p v z).
      { intros z i s Hi Es ->. apply (h_lines _ _ _ Hg) in Es as (c & Ec & ->). apply (h_on _ _ _ Hg) in Hi as (c' & Ec' & Hpv). assert (c' = c) as -> by congruence. clear Ec'.
        cbn [seg_of new_seg start_polygon start_segment start end_]. rewrite <- surjective_pairing. destruct (Hcut c ltac:(by eapply elem_of_list_lookup_2)) as (dir & Hdir & Ha & Hb).
        assert (Hz : exists z', z' = (if bool_decide ((p, v) = pa c) then ca c else cb c) /\ cut_at outline dir (p, v) z').
        { destruct (bool_decide_reflect ((p, v) = pa c)) as [->|Hn]; [by exists (ca c)|]. destruct Hpv as [?| ->]; [done|]. by exists (cb c). }
        destruct Hz as (z' & <- & e & k & y & He & Hk). exists e. split; [exact He|]. right; right. by exists dir, k, y. }
      destruct Hfrom as (polygon & Ep & Hfrom), Hto as (polygon' & Ep' & Hto). assert (polygon' = polygon) as -> by congruence. clear Ep'.
      destruct (decide (v < length polygon)%nat) as [Hv|Hv].
      * destruct (lookup_lt_is_Some_2 polygon v Hv) as [b Eb].
        assert (exists a, (if (v =? 0)%nat then last polygon else polygon !! (v - 1)%nat) = Some a) as [a Ea].
        { destruct (v =? 0)%nat; [|apply lookup_lt_is_Some_2; lia]. destruct polygon; [cbn in Hv; lia|]. by apply last_is_Some. }
        assert (He : edge_of outline p v (a, b)) by (exists polygon; done).
        split; [destruct Hfrom as [H|[H|(i & s & Hi & Es & H)]]|destruct Hto as [H|[H|(i & s & Hi & Es & H)]]];
          try (by eapply Hend); exists (a, b); (split; [done|]); cbn [fst snd]; [right; left|left|right; left|left]; congruence.
      * exfalso. apply (Hft q Hin). assert (Hno : polygon !! v = None) by (apply lookup_ge_None; lia).
        assert (Hon : forall i, i ∉ lines_on g.2 p v).
        { intros i Hi. apply (h_on _ _ _ Hg) in Hi as (c & Ec & Hpv). pose proof (h_good _ _ _ Hg) as Hgood. rewrite Forall_forall in Hgood.
          destruct (Hgood c ltac:(by eapply elem_of_list_lookup_2)) as (_ & _ & Hra & Hrb). 
          assert (in_range outline (p, v)) as (polygon' & Ep' & Hl) by (destruct Hpv as [-> | ->]; done). cbn in Ep', Hl. assert (polygon' = polygon) as -> by congruence. lia. }
        destruct Hfrom as [H|[H|(i & s & Hi & _)]]; [congruence| |by apply Hon in Hi]. destruct Hto as [H'|[H'|(i & s & Hi & _)]]; [congruence| |by apply Hon in Hi]. congruence.
  - intros Hquiet Hclear Hone i j Hij Hi Hj. rewrite Hlen in Hi, Hj.
    destruct (lookup_lt_is_Some_2 M i Hi) as [ci Eci]. destruct (lookup_lt_is_Some_2 M j Hj) as [cj Ecj]. pose proof (h_good _ _ _ Hg) as Hgood. rewrite Forall_forall in Hgood.
    assert (Hzero : forall k c, M !! k = Some c -> exists v, k ∈ lines_on g.2 0 v).
    { intros k c Ek. exists (pa c).2. apply (h_on _ _ _ Hg). exists c. split; [done|]. left. destruct (Hgood c ltac:(by eapply elem_of_list_lookup_2)) as (_ & _ & (polygon & Ep & _) & _).
      apply lookup_lt_Some in Ep. rewrite Hone in Ep. destruct (pa c) as [[|p] v]; [done|cbn in Ep; lia]. }
    destruct (Hzero i ci Eci) as [v Hv]. destruct (Hzero j cj Ecj) as [w Hw]. apply (Hlone Hquiet) with (p := 0%nat) (v := v) (w := w); try done.
    intros p polygon u corner Ep Eu. destruct (Hclear polygon u corner ltac:(by eapply elem_of_list_lookup_2) Eu) as [H1 H2]. split; [done|]. intros k s Hk Es.
    apply (h_lines _ _ _ Hg) in Es as (c & Ec & ->). destruct (Hcut c ltac:(by eapply elem_of_list_lookup_2)) as (dir & Hdir & (e & kk & y & _ & Ha) & (e' & kk' & y' & _ & Hb)). cbv zeta in Ha, Hb.
    destruct Ha as (_ & _ & _ & Ha), Hb as (_ & _ & _ & Hb). cbn [seg_of new_seg start_polygon start_segment start end_]. destruct (bool_decide _); [rewrite Ha|rewrite Hb]; by apply H2.
Qed.
Print Assumptions C70_pattern.

(** In the tetrahedral patterns the lines of the two layers of lines in the same direction do not come too close to each other. *)
Theorem C70_tetrahedral_gap rotation line_distance shift w z_shift angle a b k k' : 0 <= w -> w <= line_distance ->
  half_tetrahedral rotation line_distance shift w z_shift angle = [a; b] ->
  apply a = apply b /\ unapply a = unapply b /\
  w - 1 <= Z.abs ((k * distance a + total_shift a) - (k' * distance b + total_shift b)).
Proof.
  intros Hw Hl [= <- <-]. split; [done|]. split; [done|]. cbn [distance total_shift lines_at]. set (s := half_tetrahedral_shift line_distance w z_shift).
  assert (Hs : w ÷ 2 <= s <= line_distance - w ÷ 2).
  { unfold s, half_tetrahedral_shift. cbv zeta. rewrite Z.quot_mul by lia. pose proof (Z.quot_rem w 2 ltac:(lia)). pose proof (Z.rem_bound_pos w 2 ltac:(lia) ltac:(lia)). lia. }
  pose proof (Z.quot_rem w 2 ltac:(lia)). pose proof (Z.rem_bound_pos w 2 ltac:(lia) ltac:(lia)).
  replace (k * (line_distance * 2) + (s + shift) - (k' * (line_distance * 2) + (- s + shift))) with (2 * ((k - k') * line_distance + s)) by lia.
  destruct (decide (k - k' <= -1)); [|destruct (decide (0 <= k - k')); [|lia]].
  - assert ((k - k') * line_distance <= - line_distance) by nia. lia.
  - assert (0 <= (k - k') * line_distance) by nia. lia.
Qed.
Print Assumptions C70_tetrahedral_gap.

(** ** an example: a triangle filled with a grid *)
Definition ex_triangle : list (list pt) := [[(5, 3); (97, 11); (41, 88)]].
Definition quarter (a : Z) : (pt -> pt) * (pt -> pt) := if a =? 90 then (fun p => (- p.2, p.1), fun p => (p.2, - p.1)) else (id, id).
Definition ex_grid : list direction := grid quarter 30 0.
Example C70_nonvacuous :
  (forall poly, poly ∈ ex_triangle -> poly <> []) /\ (forall dir, dir ∈ ex_grid -> 0 < distance dir) /\ sane never /\ quiet never /\ clear_corners ex_triangle ex_grid /\
  connectedInfill never 300 ex_triangle ex_grid =
    Ok [[(41, 88); (61, 60); (29, 60); (30, 62); (30, 6); (5, 3); (16, 30); (83, 30); (90, 21); (90, 11); (60, 8); (60, 62)]].
Proof.
  split; [intros poly H; apply elem_of_list_singleton in H as ->; done|]. split; [intros dir H; repeat (apply elem_of_cons in H as [->|H]; [done|]); by apply elem_of_nil in H|].
  split; [done|]. split; [done|]. split.
  - intros polygon v corner Hp Ev. apply elem_of_list_singleton in Hp as ->. assert (Hdir : forall dir k y, dir ∈ ex_grid -> (unapply dir (k * distance dir + total_shift dir, y)).1 = k * 30 \/ (unapply dir (k * distance dir + total_shift dir, y)).2 = - (k * 30)).
    { intros dir k y H. apply elem_of_cons in H as [->|H]; [left; cbn; lia|]. apply elem_of_list_singleton in H as ->. right. cbn. lia. }
    destruct v as [|[|[|v]]]; cbn in Ev; [injection Ev as <-..|done]; (split; [done|]); intros dir k y H E; destruct (Hdir dir k y H) as [H1|H1]; rewrite E in H1; cbn in H1; lia.
  - vm_compute. reflexivity.
Qed.
