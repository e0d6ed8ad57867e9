(** C19: nearby queries on sparse grids are complete.  C20: cells along a line are all visited. *)
From Coq Require Import ZArith QArith Lia Lqa.
From stdpp Require Import list.
From Verif Require Import Common Geo_Model Geo_Spec Grid_Model Grid_Proofs.
Open Scope Z_scope.

(** ** Specification *)
(** A point grid built by inserting [es] one by one, its entries then stored in any order. *)
Definition point_grid {E} (loc : E -> pt) (c : Z) (es : list E) (g : gridmap E) : Prop :=
  g ≡ₚ fold_left (point_insert loc c) es [].
(** Which coordinates belong to cell number g: cells are c wide, but cell 0 covers (-c, c). *)
Definition in_cell (c g : Z) (u : Q) : Prop :=
  (0 < g -> (inject_Z (g * c) <= u)%Q /\ (u < inject_Z ((g + 1) * c))%Q) /\
  (g < 0 -> (inject_Z ((g - 1) * c) < u)%Q /\ (u <= inject_Z (g * c))%Q) /\
  (g = 0 -> (inject_Z (- c) < u)%Q /\ (u < inject_Z c)%Q).
(** The same with its borders. *)
Definition in_closed_cell (c g : Z) (u : Q) : Prop :=
  (inject_Z ((if (0 <? g)%Z then g else g - 1) * c) <= u <= inject_Z ((if (g <? 0)%Z then g else g + 1) * c))%Q.

(** ** C19 *)
Lemma disc_in_square p q r : 0 <= r -> dist2 p q <= r * r -> Z.abs (p.1 - q.1) <= r /\ Z.abs (p.2 - q.2) <= r.
Proof.
  unfold dist2. intros Hr H. generalize dependent (p.1 - q.1). generalize (p.2 - q.2). intros b a H.
  pose proof (Z.square_nonneg a). pose proof (Z.square_nonneg b).
  split; apply Z.square_le_simpl_nonneg; try done; rewrite Z.abs_square; lia.
Qed.

Lemma point_grid_perm {E} (loc : E -> pt) c es g : point_grid loc c es g ->
  g ≡ₚ map (fun e => (toGridPoint c (loc e), e)) es.
Proof. unfold point_grid. rewrite point_grid_elems. done. Qed.

Lemma nearby_elems_of {E} (loc : E -> pt) c es g q r : point_grid loc c es g ->
  nearby_elems c g q r ≡ₚ filter (fun e => toGridPoint c (loc e) ∈ nearby_cells c q r) es.
Proof.
  intros Hg%point_grid_perm. rewrite nearby_elems_perm. rewrite Hg. clear Hg g.
  apply reflexive_eq. induction es as [|e es IH]; simpl; [done|]. rewrite !filter_cons. simpl.
  destruct (decide _); simpl; [by f_equal|done].
Qed.

Lemma cell_reach c a b : 0 < c -> toGridCoord c a = toGridCoord c b -> a < b + 2 * c.
Proof.
  intros Hc H. unfold toGridCoord in H. pose proof (quot_bounds a c Hc) as (A & B & C).
  pose proof (quot_bounds b c Hc) as (A' & B' & C'). rewrite <- H in A', B', C'.
  destruct (Z.lt_trichotomy (a ÷ c) 0) as [Hs|[Hs|Hs]]; nia.
Qed.

(** A radius query returns, each as often as it was inserted: every element within the radius, and
    only elements less than radius + 2 cell sizes away along each axis. *)
Theorem C19_nearby_complete {E} (loc : E -> pt) (c : Z) (es : list E) (g : gridmap E) (q : pt) (r : Z) :
  0 < c -> point_grid loc c es g ->
  exists returned_where : E -> bool,
    getNearby c g q r ≡ₚ List.filter returned_where es /\
    (forall e, e ∈ es -> 0 <= r -> dist2 (loc e) q <= r * r -> returned_where e = true) /\
    (forall e, e ∈ es -> returned_where e = true ->
       Z.abs ((loc e).1 - q.1) < r + 2 * c /\ Z.abs ((loc e).2 - q.2) < r + 2 * c).
Proof.
  intros Hc Hg. exists (fun e => bool_decide (toGridPoint c (loc e) ∈ nearby_cells c q r)). split; [|split].
  - rewrite getNearby_elems, (nearby_elems_of loc) by done. clear Hg. apply reflexive_eq.
    induction es as [|e es IH]; simpl; [done|]. rewrite filter_cons.
    destruct (decide _); [rewrite bool_decide_eq_true_2 by done|rewrite bool_decide_eq_false_2 by done];
      [by f_equal|done].
  - intros e He Hr Hd. apply bool_decide_eq_true_2. apply disc_in_square in Hd as [? ?]; [|done]. by apply within_cell.
  - intros e He Hin%bool_decide_eq_true_1. apply elem_of_nearby in Hin as [[A B] [A' B']]. simpl in *.
    assert (K : forall p q0, toGridCoord c (q0 - r) <= toGridCoord c p -> toGridCoord c p <= toGridCoord c (q0 + r) ->
                Z.abs (p - q0) < r + 2 * c).
    { intros p q0 H1 H2.
      assert (p < q0 + r + 2 * c).
      { destruct (Z.le_gt_cases p (q0 + r)); [lia|]. pose proof (toGridCoord_mono c (q0 + r) p Hc ltac:(lia)).
        pose proof (cell_reach c p (q0 + r) Hc ltac:(lia)). lia. }
      assert (q0 - r < p + 2 * c).
      { destruct (Z.le_gt_cases (q0 - r) p); [lia|]. pose proof (toGridCoord_mono c p (q0 - r) Hc ltac:(lia)).
        pose proof (cell_reach c (q0 - r) p Hc ltac:(lia)). lia. }
      lia. }
    split; apply K; done.
Qed.
Print Assumptions C19_nearby_complete.

(** The header's promise "up to radius + cell_size from query_pt" is too strong around zero, where a
    cell is twice as wide. *)
Theorem C19_reach_one_cell_refuted :
  exists (c r : Z) (q p : pt), 0 < c /\ p ∈ getNearby c [(toGridPoint c p, p)] q r /\
    r + c < Z.abs (p.1 - q.1) /\ (r + c) * (r + c) < dist2 p q.
Proof. exists 10, 1, (-9, 0), (9, 0). vm_compute. split; [done|]. split; [left|done]. Qed.
Print Assumptions C19_reach_one_cell_refuted.

Lemma getNearest_run {E} (point : E -> pt) (pre : E -> bool) q l : forall s : option E * Z,
  (match s.1 with Some e => dist2 (point e) q = s.2 | None => True end) ->
  let f (s : option E * Z) (e : E) :=
      if negb (pre e) then (s, true)
      else let d := vSize2 (psub (point e) q) in
           if d <? s.2 then ((Some e, d), true) else (s, true) in
  let s' := (run f s l).1 in
  (match s'.1 with
   | Some e => dist2 (point e) q = s'.2 /\ (s'.1 = s.1 \/ (e ∈ l /\ pre e = true /\ s'.2 < s.2))
   | None => s.1 = None
   end) /\ s'.2 <= s.2 /\ (forall e, e ∈ l -> pre e = true -> s'.2 <= dist2 (point e) q) /\
  (s'.1 = None -> s'.2 = s.2).
Proof.
  induction l as [|a l IH]; intros s Hs.
  - simpl. split; [destruct s.1; auto|]. split; [lia|]. split; [intros e He; by apply elem_of_nil in He|done].
  - cbn [run].
    assert (Ed : vSize2 (psub (point a) q) = dist2 (point a) q) by (unfold vSize2, psub, dist2; simpl; lia).
    destruct (pre a) eqn:Hpre; cbn [negb].
    + rewrite Ed. destruct (Z.ltb_spec (dist2 (point a) q) s.2) as [Hlt|Hge]; cbn iota.
      * specialize (IH (Some a, dist2 (point a) q) eq_refl). cbn zeta in IH. cbn [fst snd] in IH.
        destruct IH as (A & B & C & D). cbn zeta.
        match goal with |- context [run ?f _ l] => set (s' := (run f (Some a, dist2 (point a) q) l).1) in * end.
        split; [|split; [lia|split]].
        -- destruct s'.1 as [e|] eqn:E1; [|done]. destruct A as [A1 A2]. split; [done|]. right.
           destruct A2 as [[= ->]|(A2 & A3 & A4)]; [|split; [by right|split; [done|lia]]].
           split; [left|split; [done|lia]].
        -- intros e He Hp. apply elem_of_cons in He as [-> |He]; [lia|by apply C].
        -- intros E1. rewrite E1 in A. done.
      * specialize (IH s Hs). cbn zeta in IH. destruct IH as (A & B & C & D). cbn zeta.
        match goal with |- context [run ?f _ l] => set (s' := (run f s l).1) in * end.
        split; [|split; [lia|split]]; [| |done].
        -- destruct s'.1 as [e|] eqn:E1; [|done]. destruct A as [A1 A2]. split; [done|].
           destruct A2 as [?|(A2 & A3 & A4)]; [by left|right; split; [by right|done]].
        -- intros e He Hp. apply elem_of_cons in He as [-> |He]; [lia|by apply C].
    + specialize (IH s Hs). cbn zeta in IH. destruct IH as (A & B & C & D). cbn zeta.
      match goal with |- context [run ?f _ l] => set (s' := (run f s l).1) in * end.
      split; [|split; [lia|split]]; [| |done].
      * destruct s'.1 as [e|] eqn:E1; [|done]. destruct A as [A1 A2]. split; [done|].
        destruct A2 as [?|(A2 & A3 & A4)]; [by left|right; split; [by right|done]].
      * intros e He Hp. apply elem_of_cons in He as [-> |He]; [congruence|by apply C].
Qed.

(** getNearest finds an element nearest to the query among all inserted elements that satisfy the
    precondition and lie closer than the radius; it finds none only if there is none. *)
Theorem C19_get_nearest {E} (loc : E -> pt) (c : Z) (es : list E) (g : gridmap E) (q : pt) (r : Z) (pre : E -> bool) :
  0 < c -> 0 <= r -> point_grid loc c es g ->
  match getNearest loc c g q r pre with
  | Some e => e ∈ es /\ pre e = true /\ dist2 (loc e) q < r * r /\
              forall e', e' ∈ es -> pre e' = true -> dist2 (loc e) q <= dist2 (loc e') q
  | None => forall e, e ∈ es -> pre e = true -> r * r <= dist2 (loc e) q
  end.
Proof.
  intros Hc Hr Hg. unfold getNearest. rewrite processNearby_run.
  pose proof (getNearest_run loc pre q (nearby_elems c g q r) (None, r * r) I) as H. cbn zeta in H.
  match goal with |- context [run ?f _ _] => set (s' := (run f (None, r * r) (nearby_elems c g q r)).1) in * end.
  cbn [fst snd] in H. destruct H as (A & B & C & D).
  assert (Hin : forall e, e ∈ nearby_elems c g q r <-> e ∈ es /\ toGridPoint c (loc e) ∈ nearby_cells c q r).
  { intros e. rewrite (nearby_elems_of loc c es g q r Hg), elem_of_list_filter. tauto. }
  assert (Hnear : forall e, e ∈ es -> dist2 (loc e) q <= r * r -> e ∈ nearby_elems c g q r).
  { intros e He Hd. apply Hin. split; [done|]. apply disc_in_square in Hd as [? ?]; [|done]. by apply within_cell. }
  change (match s'.1 with Some e => e ∈ es /\ pre e = true /\ dist2 (loc e) q < r * r /\
              forall e', e' ∈ es -> pre e' = true -> dist2 (loc e) q <= dist2 (loc e') q
              | None => forall e, e ∈ es -> pre e = true -> r * r <= dist2 (loc e) q end).
  destruct s'.1 as [e|] eqn:E1.
  - destruct A as [A1 [A2|(A2 & A3 & A4)]]; [done|]. apply Hin in A2 as [A2 _].
    split; [done|]. split; [done|]. split; [lia|]. intros e' He' Hp'.
    destruct (Z.le_gt_cases (dist2 (loc e') q) (r * r)) as [Hle|]; [|lia].
    rewrite A1. apply C; [by apply Hnear|done].
  - specialize (D eq_refl). intros e He Hp.
    destruct (Z.le_gt_cases (dist2 (loc e) q) (r * r)) as [Hle|]; [|lia].
    pose proof (C e (Hnear e He Hle) Hp). lia.
Qed.
Print Assumptions C19_get_nearest.

(** An element exactly at the radius is not found: "within the radius" has to be read strictly. *)
Theorem C19_nearest_at_radius_refuted :
  exists (c r : Z) (q p : pt), 0 < c /\ dist2 p q = r * r /\
    getNearest id c [(toGridPoint c p, p)] q r (fun _ => true) = None.
Proof. exists 10, 5, (0, 0), (3, 4). vm_compute. done. Qed.
Print Assumptions C19_nearest_at_radius_refuted.

(** getAnyNearby finds an element at most the radius away iff there is one. *)
Theorem C19_any_nearby {E} (loc : E -> pt) (c : Z) (es : list E) (g : gridmap E) (q : pt) (r : Z) :
  0 < c -> 0 <= r -> point_grid loc c es g ->
  match getAnyNearby loc c g q r with
  | Some e => e ∈ es /\ dist2 (loc e) q <= r * r
  | None => forall e, e ∈ es -> r * r < dist2 (loc e) q
  end.
Proof.
  intros Hc Hr Hg. unfold getAnyNearby. rewrite processNearby_run.
  assert (Hsh : forall e, shorterThen (psub (loc e) q) r = true <-> dist2 (loc e) q <= r * r).
  { intros e. unfold shorterThen, psub, vSize2. cbn [fst snd]. fold (dist2 (loc e) q).
    destruct (Z.le_gt_cases (dist2 (loc e) q) (r * r)) as [Hle|Hgt].
    - pose proof (disc_in_square _ _ _ Hr Hle) as [? ?].
      destruct (Z.ltb_spec r ((loc e).1 - q.1)); [lia|]. destruct (Z.ltb_spec ((loc e).1 - q.1) (- r)); [lia|].
      destruct (Z.ltb_spec r ((loc e).2 - q.2)); [lia|]. destruct (Z.ltb_spec ((loc e).2 - q.2) (- r)); [lia|].
      simpl. rewrite Z.leb_le. done.
    - split; [|lia]. destruct (_ || _); [done|]. destruct (_ || _); [done|]. rewrite Z.leb_le. lia. }
  assert (Hin : forall e, e ∈ nearby_elems c g q r <-> e ∈ es /\ toGridPoint c (loc e) ∈ nearby_cells c q r).
  { intros e. rewrite (nearby_elems_of loc c es g q r Hg), elem_of_list_filter. tauto. }
  assert (Hrun : forall l, let res := (run (fun ret e => if shorterThen (psub (loc e) q) r then (Some e, false) else (ret, true)) None l).1 in
     match res with Some e => e ∈ l /\ dist2 (loc e) q <= r * r | None => forall e, e ∈ l -> r * r < dist2 (loc e) q end).
  { induction l as [|a l IH]; simpl.
    - intros e He. by apply elem_of_nil in He.
    - destruct (shorterThen (psub (loc a) q) r) eqn:Es; simpl.
      + split; [left|by apply Hsh].
      + simpl in IH. destruct (run _ None l).1 as [e|].
        * destruct IH. split; [by right|done].
        * intros e He. apply elem_of_cons in He as [-> |He]; [|by apply IH].
          destruct (Z.le_gt_cases (dist2 (loc a) q) (r * r)) as [Hle|]; [|lia]. apply Hsh in Hle. congruence. }
  specialize (Hrun (nearby_elems c g q r)). simpl in Hrun.
  destruct (run _ None (nearby_elems c g q r)).1 as [e|].
  - destruct Hrun as [H1 H2]. apply Hin in H1 as [H1 _]. done.
  - intros e He. destruct (Z.le_gt_cases (dist2 (loc e) q) (r * r)) as [Hle|]; [|lia].
    apply Hrun. apply Hin. split; [done|]. apply disc_in_square in Hle as [? ?]; [|done]. by apply within_cell.
Qed.
Print Assumptions C19_any_nearby.

(** ** C20 *)
Lemma in_cell_quot c g t n k a d : 0 < c -> t = (k # n)%Q ->
  in_cell c g (inject_Z a + t * inject_Z d)%Q -> g = (a * Z.pos n + k * d) ÷ (Z.pos n * c).
Proof.
  intros Hc -> (A & B & C). set (X := a * Z.pos n + k * d).
  assert (L : forall m, (inject_Z m <= inject_Z a + (k # n) * inject_Z d)%Q <-> m * Z.pos n <= X).
  { intros m. unfold X, Qle, Qplus, Qmult, inject_Z. simpl. rewrite !Z.mul_1_r, ?Pos.mul_1_r. lia. }
  assert (U : forall m, (inject_Z a + (k # n) * inject_Z d <= inject_Z m)%Q <-> X <= m * Z.pos n).
  { intros m. unfold X, Qle, Qplus, Qmult, inject_Z. simpl. rewrite !Z.mul_1_r, ?Pos.mul_1_r. lia. }
  assert (L' : forall m, (inject_Z m < inject_Z a + (k # n) * inject_Z d)%Q <-> m * Z.pos n < X).
  { intros m. unfold X, Qlt, Qplus, Qmult, inject_Z. simpl. rewrite !Z.mul_1_r, ?Pos.mul_1_r. lia. }
  assert (U' : forall m, (inject_Z a + (k # n) * inject_Z d < inject_Z m)%Q <-> X < m * Z.pos n).
  { intros m. unfold X, Qlt, Qplus, Qmult, inject_Z. simpl. rewrite !Z.mul_1_r, ?Pos.mul_1_r. lia. }
  rewrite L, U' in A. rewrite L', U in B. rewrite L', U' in C. clear L U L' U'. clearbody X.
  pose proof (quot_bounds X (Z.pos n * c) ltac:(lia)) as (A' & B' & C').
  set (h := X ÷ (Z.pos n * c)) in *. set (N := Z.pos n) in *. assert (0 < N * c) by (unfold N; lia).
  destruct (Z.lt_trichotomy g 0) as [Hg|[Hg|Hg]]; destruct (Z.lt_trichotomy h 0) as [Hh|[Hh|Hh]];
    try specialize (A Hg); try specialize (B Hg); try specialize (C Hg);
    try specialize (A' Hh); try specialize (B' Hh); try specialize (C' Hh); try nia.
Qed.

Lemma closed_cell_clos c g a d n k : clos c (Z.pos n) (a * Z.pos n + k * d) g ->
  in_closed_cell c g (inject_Z a + (k # n) * inject_Z d)%Q.
Proof.
  unfold clos, in_closed_cell. intros [H1 H2].
  set (lo := if 0 <? g then g else g - 1) in *. set (hi := if g <? 0 then g else g + 1) in *.
  split; unfold Qle, Qplus, Qmult, inject_Z; simpl; rewrite !Z.mul_1_r, ?Pos.mul_1_r; lia.
Qed.

(** There is a duplicate-free list of cells, from the cell of the leftmost end to the cell of the
    other end, containing every cell that contains a point of the line and otherwise only cells
    whose border the line touches, such that processLineCells calls the callback on these cells in
    order up to and including the first on which it returns false, and returns false exactly then. *)
Theorem C20_line_cells (c : Z) (a b : pt) :
  0 < c ->
  exists cells : list pt,
    (forall S (f : S -> pt -> S * bool) s, processLineCells f c (a, b) s = Ok (run f s cells)) /\
    NoDup cells /\
    ((head cells = Some (toGridPoint c a) /\ last cells = Some (toGridPoint c b)) \/
     (head cells = Some (toGridPoint c b) /\ last cells = Some (toGridPoint c a))) /\
    (forall (t : Q) (cell : pt), (0 <= t <= 1)%Q -> in_cell c cell.1 (along a b t).1 -> in_cell c cell.2 (along a b t).2 ->
       cell ∈ cells) /\
    (forall cell, cell ∈ cells -> exists t : Q, (0 <= t <= 1)%Q /\
       in_closed_cell c cell.1 (along a b t).1 /\ in_closed_cell c cell.2 (along a b t).2).
Proof.
  intros Hc. unfold processLineCells. cbn [fst snd].
  assert (Hgen : forall (s e : pt), s.1 <= e.1 ->
     exists cells, (forall S (f : S -> pt -> S * bool) s0,
         line_rows f c s e (Datatypes.S (Z.to_nat (Z.abs ((end_cell c e).2 - (start_cell c s).2)))) s0 (start_cell c s).1 (start_cell c s).2 = Ok (run f s0 cells)) /\
      NoDup cells /\ head cells = Some (toGridPoint c s) /\ last cells = Some (toGridPoint c e) /\
      (forall (t : Q) (cell : pt), (0 <= t <= 1)%Q -> in_cell c cell.1 (along s e t).1 -> in_cell c cell.2 (along s e t).2 -> cell ∈ cells) /\
      (forall cell, cell ∈ cells -> exists t : Q, (0 <= t <= 1)%Q /\
         in_closed_cell c cell.1 (along s e t).1 /\ in_closed_cell c cell.2 (along s e t).2)).
  { intros s e Hse. destruct (line_cells_spec c Hc s e Hse) as (cells & H1 & H2 & H3 & H4 & H5 & H6).
    exists cells. do 4 (split; [done|]). split.
    - intros t cell Ht I1 I2. destruct t as [k n]. 
      apply (in_cell_quot c _ _ n k) in I1; [|done|done]. apply (in_cell_quot c _ _ n k) in I2; [|done|done].
      replace cell with (cell.1, cell.2) by (by destruct cell). rewrite I1, I2.
      apply (H5 (Z.pos n) k); [lia|]. destruct Ht as [Ht1 Ht2]. unfold Qle in Ht1, Ht2. simpl in *. lia.
    - intros cell Hin. destruct (H6 cell Hin) as (n & k & Hn & Hk & C1 & C2).
      destruct n as [|n|n]; try lia. exists (k # n)%Q. split.
      + split; unfold Qle; simpl; lia.
      + split; apply closed_cell_clos; [exact C1|exact C2]. }
  destruct (Z.ltb_spec b.1 a.1) as [Hlt|Hge].
  - destruct (Hgen b a ltac:(lia)) as (cells & H1 & H2 & H3 & H4 & H5 & H6).
    exists cells. split; [exact H1|]. split; [done|]. split; [by right|].
    assert (Hal : forall t, ((along b a (1 - t)).1 == (along a b t).1)%Q /\ ((along b a (1 - t)).2 == (along a b t).2)%Q).
    { intros t. unfold along. simpl. unfold Zminus. rewrite !inject_Z_plus, !inject_Z_opp. split; ring. }
    split.
    + intros t cell Ht I1 I2. destruct (Hal t) as [E1 E2]. apply (H5 (1 - t)%Q); [lra| |].
      * unfold in_cell in *. rewrite E1. done.
      * unfold in_cell in *. rewrite E2. done.
    + intros cell Hin. destruct (H6 cell Hin) as (t & Ht & I1 & I2). exists (1 - t)%Q. split; [lra|].
      destruct (Hal (1 - t)%Q) as [E1 E2].
      assert (Et : (1 - (1 - t) == t)%Q) by ring. unfold along in *. simpl in *. rewrite Et in E1, E2.
      unfold in_closed_cell in *. rewrite E1 in I1. rewrite E2 in I2. done.
  - destruct (Hgen a b ltac:(lia)) as (cells & H1 & H2 & H3 & H4 & H5 & H6).
    exists cells. split; [exact H1|]. split; [done|]. split; [by left|]. done.
Qed.
Print Assumptions C20_line_cells.

(** Every point of the plane is in exactly one cell, so the theorem above covers the whole line. *)
Theorem C20_cells_partition (c : Z) (u : Q) : 0 < c -> exists! g, in_cell c g u.
Proof.
  intros Hc. destruct u as [k n]. 
  assert (Hu : forall g, in_cell c g (k # n) -> g = k ÷ (Z.pos n * c)).
  { intros g H. assert (H' : in_cell c g (inject_Z 0 + (k # n) * inject_Z 1)%Q).
    { assert (E : (inject_Z 0 + (k # n) * inject_Z 1 == k # n)%Q) by (change (inject_Z 0) with 0%Q; change (inject_Z 1) with 1%Q; ring).
      unfold in_cell in *. rewrite E. done. }
    apply (in_cell_quot c g _ n k) in H'; [|done|done]. rewrite H'. f_equal. lia. }
  exists (k ÷ (Z.pos n * c)). split; [|intros g Hg; by rewrite (Hu g Hg)].
  pose proof (quot_bounds k (Z.pos n * c) ltac:(lia)) as (A & B & C).
  set (h := k ÷ (Z.pos n * c)) in *. unfold in_cell.
  split; [|split]; intros Hh; [specialize (A Hh)|specialize (B Hh)|specialize (C Hh)];
    unfold Qle, Qlt, inject_Z; simpl; lia.
Qed.
Print Assumptions C20_cells_partition.

Lemma line_insert_ok {E} (loc : E -> pt * pt) c g (e : E) : 0 < c ->
  exists cells, line_insert loc c g e = Ok (g ++ map (fun cell => (cell, e)) cells) /\
    forall t cell, (0 <= t <= 1)%Q -> in_cell c cell.1 (along (loc e).1 (loc e).2 t).1 ->
      in_cell c cell.2 (along (loc e).1 (loc e).2 t).2 -> cell ∈ cells.
Proof.
  intros Hc. destruct (C20_line_cells c (loc e).1 (loc e).2 Hc) as (cells & H1 & _ & _ & H4 & _).
  exists cells. split; [|done]. unfold line_insert. replace (loc e) with ((loc e).1, (loc e).2) by (by destruct (loc e)).
  rewrite H1. cbn [rbind]. f_equal. rewrite (run_total (fun g cell => g ++ [(cell, e)])). simpl.
  clear H1 H4. revert g. induction cells as [|x l IH]; intros g; simpl; [by rewrite app_nil_r|].
  rewrite IH. by rewrite <- app_assoc.
Qed.

Fixpoint insert_lines {E} (loc : E -> pt * pt) (c : Z) (g : gridmap E) (es : list E) : res (gridmap E) :=
  match es with [] => Ok g | e :: es' => let! g' := line_insert loc c g e in insert_lines loc c g' es' end.

(** A radius query on a line grid returns every line that has a point within the radius. *)
Theorem C19_line_grid_complete {E} (loc : E -> pt * pt) (c : Z) (es : list E) :
  0 < c ->
  exists stored, insert_lines loc c [] es = Ok stored /\
  forall (g : gridmap E) (q : pt) (r : Z) (e : E) (t : Q),
    g ≡ₚ stored -> e ∈ es -> (0 <= t <= 1)%Q ->
    (let p := along (loc e).1 (loc e).2 t in
     inject_Z (q.1 - r) <= p.1 <= inject_Z (q.1 + r) /\ inject_Z (q.2 - r) <= p.2 <= inject_Z (q.2 + r))%Q ->
    e ∈ getNearby c g q r.
Proof.
  intros Hc.
  assert (Hgen : forall g0, exists stored, insert_lines loc c g0 es = Ok stored /\
     (forall ce, ce ∈ g0 -> ce ∈ stored) /\
     forall e t cell, e ∈ es -> (0 <= t <= 1)%Q -> in_cell c cell.1 (along (loc e).1 (loc e).2 t).1 ->
      in_cell c cell.2 (along (loc e).1 (loc e).2 t).2 -> (cell, e) ∈ stored).
  { induction es as [|e es IH]; intros g0; simpl.
    - exists g0. split; [done|]. split; [done|]. intros e t cell He. by apply elem_of_nil in He.
    - destruct (line_insert_ok loc c g0 e Hc) as (cells & -> & Hcells). cbn [rbind].
      destruct (IH (g0 ++ map (fun cell => (cell, e)) cells)) as (stored & E1 & Hkeep & Hall).
      exists stored. split; [done|]. split.
      + intros ce Hce. apply Hkeep. apply elem_of_app. by left.
      + intros e' t cell He Ht I1 I2. apply elem_of_cons in He as [-> |He]; [|by eapply Hall].
        apply Hkeep. apply elem_of_app. right. apply elem_of_list_In, in_map_iff. exists cell. split; [done|].
        apply elem_of_list_In. by eapply Hcells. }
  destruct (Hgen []) as (stored & E1 & _ & Hall). exists stored. split; [done|].
  intros g q r e t Hg He Ht [[X1 X2] [Y1 Y2]]. rewrite getNearby_elems. apply elem_of_nearby_elems.
  destruct (C20_cells_partition c (along (loc e).1 (loc e).2 t).1 Hc) as (gx & Igx & _).
  destruct (C20_cells_partition c (along (loc e).1 (loc e).2 t).2 Hc) as (gy & Igy & _).
  exists (gx, gy). split; [rewrite Hg; by eapply (Hall e t (gx, gy))|].
  apply elem_of_nearby. simpl. unfold along in *. cbn [fst snd] in *. destruct t as [k n].
  apply (in_cell_quot c _ _ n k) in Igx, Igy; [|done|done|done|done]. rewrite Igx, Igy. unfold toGridCoord.
  rewrite <- !(Z.quot_mul_cancel_l _ c (Z.pos n)) by lia.
  unfold Qle, Qplus, Qmult, inject_Z in X1, X2, Y1, Y2. simpl in X1, X2, Y1, Y2.
  rewrite ?Z.mul_1_r, ?Pos.mul_1_r in X1, X2, Y1, Y2.
  repeat split; apply Z.quot_le_mono; lia.
Qed.
Print Assumptions C19_line_grid_complete.

(** Non-vacuity: negative coordinates, several cells. *)
Example C20_nonvacuous :
  processLineCells (fun s cell => (s ++ [cell], true)) 10 ((-25, -15), (17, 22)) []
  = Ok ([(-2, -1); (-1, -1); (-1, 0); (0, 0); (0, 1); (1, 1); (1, 2)], true)
  /\ processLineCells (fun s cell => (s ++ [cell], negb (bool_decide (cell = (-1, 0))))) 10 ((17, 22), (-25, -15)) []
  = Ok ([(-2, -1); (-1, -1); (-1, 0)], false).
Proof. vm_compute. done. Qed.
Example C19_nonvacuous :
  let es := [(-12, 3); (4, -9); (30, 0); (4, -9)] in
  let g := fold_left (point_insert id 10) es [] in
  point_grid id 10 es g /\ getNearby 10 g (-5, -5) 9 = [(-12, 3); (4, -9); (4, -9)] /\
  getNearest id 10 g (-5, -5) 12 (fun _ => true) = Some (4, -9) /\
  getAnyNearby id 10 g (25, 1) 6 = Some (30, 0) /\ getAnyNearby id 10 g (25, 1) 5 = None.
Proof. split; [apply (reflexivity (R := (≡ₚ)))|]. vm_compute. done. Qed.
