(** C09: stitching of open polylines. *)
From Coq Require Import ZArith Lia Sorted.
From stdpp Require Import list.
From Verif Require Import Common Geo_Model Geo_Spec Order_Model Grid_Model Grid_Props OpenStitch_Model OpenStitch_Spec OpenStitch_Proofs OpenStitchExt_Proofs.
Open Scope Z_scope.

(** The stitches are taken from the queue in some order: any order here.  The grids hold the end points of the lines, in any
    order.  Stitching never fails, keeps the polygons there were, makes the lines and the new polygons by putting the input
    lines together over gaps of less than the distance, and leaves no two ends closer than that. *)
Theorem C09_stitch (L P : list (list pt)) (D c : Z) (backwards : bool) (grid_ends grid_starts : gridmap (nat * pt)) (order : list possible_stitch) :
  0 < c -> 0 <= D -> point_grid locator c (end_vals L) grid_ends -> (backwards = true -> point_grid locator c (start_vals L) grid_starts) ->
  order ≡ₚ findPossibleStitches grid_ends grid_starts L D c backwards ->
  exists st polys, connect (initial P L) order = Ok st /\ polygons st = P ++ polys /\ length (open_polylines st) = length L /\
    put_together D backwards L (open_polylines st) polys /\ ends_apart (D * D) backwards (open_polylines st).
Proof.
  intros Hc HD He Hs Ho.
  assert (V : Forall (valid L D backwards) order). { apply Forall_forall. intros s H. rewrite Ho in H. by apply (stitches_valid L D backwards c _ _ Hc HD He Hs). }
  destruct (connect_inv L D backwards P order V _ _ _ (initial_inv L D backwards P)) as (st & plans & pplans & E & I & _ & Dd).
  exists st, (map (assemble L) pplans). split; [done|]. split; [apply I|]. split; [rewrite (i_lines _ _ _ _ _ _ _ I), map_length; apply I|]. split.
  - exists plans, pplans. split; [apply I|]. split; [done|]. split; [apply I|]. split; [apply I|]. split; [apply I|]. apply I.
  - apply (apart L D backwards P c _ _ Hc HD He Hs _ _ _ _ I); [lia|]. intros s H. rewrite <- Ho in H. destruct (Dd s H); tauto.
Qed.
Print Assumptions C09_stitch.

(** An end point of a line *)
Definition is_end_of (p : pt) (l : list pt) : Prop := head l = Some p \/ last l = Some p.
(** When the stitches come from the queue in the order of their distance, the smallest gap is always closed first: when a stitch
    is taken, no two ends that may be stitched are closer than its distance, and if it changes anything there are two ends at
    its distance. *)
Theorem C09_smallest_first (L P : list (list pt)) (D c : Z) (backwards : bool) (grid_ends grid_starts : gridmap (nat * pt)) (before after : list possible_stitch) (s : possible_stitch) (st : state) :
  0 < c -> 0 <= D -> point_grid locator c (end_vals L) grid_ends -> (backwards = true -> point_grid locator c (start_vals L) grid_starts) ->
  before ++ s :: after ≡ₚ findPossibleStitches grid_ends grid_starts L D c backwards ->
  StronglySorted (fun s1 s2 => stitch_dist2 s1 <= stitch_dist2 s2) (before ++ s :: after) ->
  connect (initial P L) before = Ok st ->
  ends_apart (stitch_dist2 s) backwards (open_polylines st) /\ stitch_dist2 s < D * D /\
  exists st', connect_step st s = Ok st' /\
    (st' = st \/ exists (i j : nat) a b p q, open_polylines st !! i = Some a /\ open_polylines st !! j = Some b /\
                 is_end_of p a /\ is_end_of q b /\ dist2 p q = stitch_dist2 s).
Proof.
  intros Hc HD He Hs Ho Hsort Hrun.
  assert (V : forall x, x ∈ before ++ s :: after -> valid L D backwards x). { intros x H. rewrite Ho in H. by apply (stitches_valid L D backwards c _ _ Hc HD He Hs). }
  destruct (connect_inv L D backwards P before) with (plans := map (fun i => [(i, false)]) (seq 0 (length L))) (pplans := @nil (list piece)) (st := initial P L)
    as (st1 & plans & pplans & E & I & _ & Dd).
  { apply Forall_forall. intros x H. apply V, elem_of_app. by left. }
  { apply initial_inv. }
  rewrite Hrun in E. injection E as <-.
  assert (Hin : s ∈ before ++ s :: after) by (apply elem_of_app; right; apply elem_of_list_here).
  pose proof Hin as Hin'. rewrite Ho in Hin'. apply (stitches_elem L D backwards c _ _ Hc HD He Hs) in Hin' as (i & j & bi & bj & p & q & Tp & Tq & Hd & Es & _).
  assert (Hds : stitch_dist2 s = dist2 p q) by (by rewrite Es).
  split; [|split; [lia|]].
  - apply (apart L D backwards P c _ _ Hc HD He Hs _ _ _ _ I); [lia|]. intros x H. rewrite <- Ho in H. apply elem_of_app in H as [H|H]; [destruct (Dd x H); tauto|].
    right. right. apply elem_of_cons in H as [->|H]; [lia|]. clear -Hsort H. induction before as [|y before IH]; cbn in Hsort.
    + apply StronglySorted_inv in Hsort as [_ F]. rewrite List.Forall_forall in F. apply F. by apply elem_of_list_In.
    + apply IH. by apply StronglySorted_inv in Hsort as [? _].
  - destruct (step_inv L D backwards P _ _ _ _ I (V s Hin)) as (st' & plans' & pplans' & E' & _). exists st'. split; [done|].
    unfold connect_step in E'. destruct (get _ (terminus_0 s)) as [[c0|]| |] eqn:G0; cbn [rbind] in E'; [|left; congruence|done|done].
    destruct (get _ (terminus_1 s)) as [[c1|]| |] eqn:G1; cbn [rbind] in E'; [|left; congruence|done|done]. right. clear E'.
    assert (A0 : old_to_cur (tracked st) !! terminus_0 s = Some (Some c0)) by (unfold get in G0; destruct (_ !! _); [by injection G0 as ->|done]).
    assert (A1 : old_to_cur (tracked st) !! terminus_1 s = Some (Some c1)) by (unfold get in G1; destruct (_ !! _); [by injection G1 as ->|done]).
    rewrite Es in A0, A1. cbn [terminus_0 terminus_1] in A0, A1.
    destruct (alive_end L D backwards P _ _ _ _ _ _ I A0 Tp) as (a & Ha & Ea). destruct (alive_end L D backwards P _ _ _ _ _ _ I A1 Tq) as (b & Hb & Eb).
    exists (getPolylineIdx c0), (getPolylineIdx c1), a, b, p, q. rewrite Hds. done.
Qed.
Print Assumptions C09_smallest_first.

(** Both calls: connectOpenPolylines joins ends with starts over less than 20 micron; stitch joins any ends over less than 10 mm. *)
Theorem C09_connect (L P : list (list pt)) (order : list possible_stitch) :
  let '(D, c, backwards) := connectOpenPolylines_parameters in
  order ≡ₚ findPossibleStitches (grid_ends_of c L) (grid_starts_of c backwards L) L D c backwards ->
  exists st polys, connect (initial P L) order = Ok st /\ polygons st = P ++ polys /\ length (open_polylines st) = length L /\
    put_together 20 false L (open_polylines st) polys /\ ends_apart 400 false (open_polylines st).
Proof. cbn -[findPossibleStitches connect Z.mul]. intros H. apply (C09_stitch L P 20 20 false _ _ order ltac:(lia) ltac:(lia)) in H; [exact H|unfold point_grid; reflexivity|done]. Qed.
Print Assumptions C09_connect.
Theorem C09_stitch_10mm (L P : list (list pt)) (order : list possible_stitch) :
  let '(D, c, backwards) := stitch_parameters in
  order ≡ₚ findPossibleStitches (grid_ends_of c L) (grid_starts_of c backwards L) L D c backwards ->
  exists st polys, connect (initial P L) order = Ok st /\ polygons st = P ++ polys /\ length (open_polylines st) = length L /\
    put_together 10000 true L (open_polylines st) polys /\ ends_apart 100000000 true (open_polylines st).
Proof. cbn -[findPossibleStitches connect Z.mul]. intros H. apply (C09_stitch L P 10000 10000 true _ _ order ltac:(lia) ltac:(lia)) in H; [exact H|unfold point_grid; reflexivity|intros _; unfold point_grid; reflexivity]. Qed.
Print Assumptions C09_stitch_10mm.

(** Three lines that become a polygon, and one that stays. *)
Definition lines_ex : list (list pt) := [[(0, 0); (1000, 0)]; [(1010, 0); (1010, 1000); (0, 1000)]; [(0, 990); (0, 12)]; [(5000, 5000); (6000, 5000)]].
Example C09_connect_ex :
  let '(D, c, backwards) := connectOpenPolylines_parameters in
  let found := findPossibleStitches (grid_ends_of c lines_ex) (grid_starts_of c backwards lines_ex) lines_ex D c backwards in
  (stitch_dist2 <$> found) = [144; 100; 100] /\
  connect (initial [] lines_ex) (reverse found) =
    Ok (State [[]; []; []; [(5000, 5000); (6000, 5000)]] [[(0, 0); (1000, 0); (1010, 0); (1010, 1000); (0, 1000); (0, 990); (0, 12)]]
          (Tracking [None; None; None; None; None; None; Some 6%nat; Some 7%nat] [None; None; None; None; None; None; Some 6%nat; Some 7%nat])).
Proof. vm_compute. done. Qed.
Example C09_smallest_first_ex :
  let found := findPossibleStitches (grid_ends_of 20 lines_ex) (grid_starts_of 20 false lines_ex) lines_ex 20 20 false in
  StronglySorted (fun s1 s2 => stitch_dist2 s1 <= stitch_dist2 s2) (reverse found) /\ length found = 3%nat.
Proof. vm_compute. split; [repeat constructor; done|done]. Qed.
(** A line joined backwards *)
Example C09_stitch_10mm_ex :
  let L := [[(0, 0); (100000, 0)]; [(200000, 0); (101000, 0)]] in
  let found := findPossibleStitches (grid_ends_of 10000 L) (grid_starts_of 10000 true L) L 10000 10000 true in
  open_polylines <$> (match connect (initial [] L) found with Ok st => Some st | _ => None end) = Some [[]; [(200000, 0); (101000, 0); (100000, 0); (0, 0)]].
Proof. vm_compute. done. Qed.

(** The queue's comparison is no order: of two stitches that stitch finds, each can be less than the other, so which of two
    stitches of the same distance comes first is not determined by it. *)
Theorem C09_order_refuted : exists (L : list (list pt)) s1 s2,
  let '(D, c, backwards) := stitch_parameters in
  let found := findPossibleStitches (grid_ends_of c L) (grid_starts_of c backwards L) L D c backwards in
  s1 ∈ found /\ s2 ∈ found /\ stitch_less s1 s2 = true /\ stitch_less s2 s1 = true.
Proof.
  exists [[(0, 0); (50000, 50000); (4, 0)]; [(90000, 90000); (2, 0)]], (Stitch 4 3 0), (Stitch 4 1 3). cbn [stitch_parameters].
  split; [|split; [|split; vm_compute; done]].
  - vm_compute. repeat (apply elem_of_list_here || apply elem_of_list_further).
  - vm_compute. repeat (apply elem_of_list_here || apply elem_of_list_further).
Qed.
Print Assumptions C09_order_refuted.
(** It does put the nearer of two stitches first. *)
Theorem C09_nearer_first (s1 s2 : possible_stitch) : stitch_dist2 s1 < stitch_dist2 s2 -> stitch_less s2 s1 = true /\ stitch_less s1 s2 = false.
Proof.
  intros H. unfold stitch_less. rewrite (proj2 (Z.ltb_lt _ _) H). rewrite (proj2 (Z.ltb_ge (stitch_dist2 s2) (stitch_dist2 s1)) ltac:(lia)). done.
Qed.
Print Assumptions C09_nearer_first.

(** ** Extensive stitching *)
(** It comes to an end, after at most one round for each line, whatever the lines; it keeps the polygons there were; every line is
    a piece of exactly one line or new polygon afterwards, and all else these consist of are vertices of polygons; no gap that could
    be closed remains.  No polygon may be empty (its last point is read). *)
Theorem C09_extensive (L P : list (list pt)) :
  Forall (fun poly => poly <> []) P ->
  exists lines polys, stitch_extensive (length L + 1) P L = Ok (lines, P ++ polys) /\ length lines = length L /\ put_together_with_detours L P lines polys /\
    forall i j n A B w len, ~ closable (P ++ polys) lines i j n A B w len.
Proof.
  intros HP. destruct (rounds_spec L P (length L + 1) _ _ _ _ (xinv_initial L P HP)) as (lines & polys & plans & pplans & E & I & Hn).
  { pose proof (live_bound L). lia. }
  rewrite (x_polys _ _ _ _ _ _ I) in E, Hn. exists lines, (map (xassemble L) pplans). split; [done|]. split; [|split; [|done]].
  { rewrite (x_lines _ _ _ _ _ _ I), map_length. apply (x_len _ _ _ _ _ _ I). }
  exists plans, pplans. split; [apply I|]. split; [done|]. split; [apply I|]. intros l Hl. by apply (x_ok _ _ _ _ _ _ I _ Hl l).
Qed.
Print Assumptions C09_extensive.
(** One round: of all gaps that can be closed, one over the shortest way is, and then the rest is done. *)
Theorem C09_extensive_round (P L : list (list pt)) (fuel : nat) :
  Forall (fun poly => poly <> []) P ->
  ((forall i j n A B w len, ~ closable P L i j n A B w len) /\ stitch_extensive (S fuel) P L = Ok (L, P)) \/
  (exists i j n A B w len L' P', closable P L i j n A B w len /\
     (forall i' j' n' A' B' w' len', closable P L i' j' n' A' B' w' len' -> len <= len') /\
     gap_closed P L i j n A B w L' P' /\ stitch_extensive (S fuel) P L = stitch_extensive fuel P' L').
Proof.
  intros HP. cbn [stitch_extensive]. destruct (round_spec P L HP) as (best & Eb & Hb). rewrite Eb. cbn [rbind]. destruct best as [[[i j] g]|]; [|by left].
  right. destruct Hb as (w & L' & P' & H1 & H2 & H3 & H4). exists i, j, (gc_polygon g), (gc_A g), (gc_B g), w, (gc_len g), L', P'. rewrite H3. done.
Qed.
Print Assumptions C09_extensive_round.

(** A corner of a square between the end of the second line and the start of the first.  When the square runs from the end of the
    one to the start of the other, the first line is attached by its far end: the outcome jumps across its whole length. *)
Definition square_ex : list pt := [(0, 0); (100000, 0); (100000, 100000); (0, 100000)].
Definition gap_lines_ex : list (list pt) := [[(100050, 1000); (200000, 1000)]; [(99000, -50000); (99000, -50)]].
Theorem C09_extensive_turned_refuted : exists P L i j n A B w len line_1 line_2 L',
  Forall (fun poly => poly <> []) P /\ closable P L i j n A B w len /\ i <> j /\ L !! i = Some line_1 /\ L !! j = Some line_2 /\
  stitch_extensive (length L + 1) P L = Ok (L', P) /\ L' !! j = Some (line_2 ++ w ++ reverse line_1) /\ line_2 ++ w ++ reverse line_1 <> line_2 ++ w ++ line_1.
Proof.
  exists [square_ex], gap_lines_ex. assert (HP : Forall (fun poly => poly <> []) [square_ex]) by (constructor; done).
  destruct (round_spec [square_ex] gap_lines_ex HP) as (best & Eb & Hb).
  assert (E : best_pair [square_ex] gap_lines_ex None (all_pairs (length gap_lines_ex)) = Ok (Some (0%nat, 1%nat, GapCloser 2002 0 2 1 false))) by (vm_compute; reflexivity).
  rewrite E in Eb. injection Eb as <-. destruct Hb as (w & L' & P' & Hc & _ & Ec & Hg). cbn [gc_polygon gc_A gc_B gc_len] in *.
  assert (E' : close_gap [square_ex] gap_lines_ex 0 1 (GapCloser 2002 0 2 1 false) =
               Ok ([[]; [(99000, -50000); (99000, -50); (100000, 0); (200000, 1000); (100050, 1000)]], [square_ex])) by (vm_compute; reflexivity).
  rewrite E' in Ec. injection Ec as <- <-.
  destruct Hg as (l1 & l2 & poly & x & H1 & H2 & _ & _ & Hd). injection H1 as <-. injection H2 as <-. destruct (Hd ltac:(done)) as (El & _ & Hx). cbn in El. injection El as El.
  assert (w = [(100000, 0)]) as ->.
  { destruct Hx as [[_ ->]|(_ & _ & ->)].
    - exfalso. change [(100000, 0); (200000, 1000); (100050, 1000)] with ([(100000, 0)] ++ [(200000, 1000); (100050, 1000)]) in El. apply app_inj_2 in El as [_ El]; done.
    - change (reverse [(100050, 1000); (200000, 1000)]) with [(200000, 1000); (100050, 1000)] in El.
      change [(100000, 0); (200000, 1000); (100050, 1000)] with ([(100000, 0)] ++ [(200000, 1000); (100050, 1000)]) in El. apply app_inj_2 in El as [El _]; done. }
  exists 0%nat, 1%nat, 0%nat, 2%nat, 1%nat, [(100000, 0)], 2002, [(100050, 1000); (200000, 1000)], [(99000, -50000); (99000, -50)],
    [[]; [(99000, -50000); (99000, -50); (100000, 0); (200000, 1000); (100050, 1000)]].
  split; [done|]. split; [done|]. split; [done|]. split; [done|]. split; [done|]. split; [vm_compute; reflexivity|]. split; [vm_compute; reflexivity|]. vm_compute. done.
Qed.
Print Assumptions C09_extensive_turned_refuted.
(** The same square the other way around *)
Example C09_extensive_ex :
  stitch_extensive 3 [reverse square_ex] gap_lines_ex = Ok ([[]; [(99000, -50000); (99000, -50); (100000, 0); (100050, 1000); (200000, 1000)]], [reverse square_ex]) /\
  stitch_extensive 2 [square_ex] [[(100050, 1000); (200000, 1000); (200000, -50000); (99000, -50)]] =
    Ok ([[]], [square_ex; [(100050, 1000); (200000, 1000); (200000, -50000); (99000, -50); (100000, 0)]]).
Proof. vm_compute. done. Qed.
