(** C86: the initial extruder and the bounding box of the first layer.  C87: speeds of wide and narrow lines. *)
From Coq Require Import ZArith QArith Qminmax Lia Lqa Qfield.
From stdpp Require Import prelude list.
From Verif Require Import Common Box_Model PrintInfo_Model PrintInfo_Spec.
Open Scope Z_scope.

Lemma sb_ext (P Q : Z * Z -> Prop) b : (forall x, P x <-> Q x) -> smallest_box P b -> smallest_box Q b.
Proof.
  intros E [A B]. split; [intros x Hx; apply A; by apply E|].
  destruct B as [[B ->]|((x1 & ? & ?) & (x2 & ? & ?) & (x3 & ? & ?) & (x4 & ? & ?))].
  - left. split; [intros x Hx; apply (B x); by apply E|done].
  - right. repeat split; [exists x1|exists x2|exists x3|exists x4]; by rewrite <- E.
Qed.
Lemma sb_empty : smallest_box (fun _ => False) aabb_empty.
Proof. split; [done|]. left. split; [by intros ? ?|done]. Qed.

Lemma sb_box (P Q : Z * Z -> Prop) b c :
  (forall x, P x -> coord_range x) -> (forall x, Q x -> coord_range x) ->
  smallest_box P b -> smallest_box Q c -> smallest_box (fun x => P x \/ Q x) (aabb_include_box b c).
Proof.
  intros RP RQ [A B] [C D]. split.
  - intros x [Hx|Hx]; [specialize (A x Hx)|specialize (C x Hx)]; unfold inside in *; cbn; lia.
  - destruct B as [[B ->]|((x1 & P1 & E1) & (x2 & P2 & E2) & (x3 & P3 & E3) & (x4 & P4 & E4))];
      destruct D as [[D ->]|((y1 & Q1 & F1) & (y2 & Q2 & F2) & (y3 & Q3 & F3) & (y4 & Q4 & F4))].
    + left. split; [intros x [H|H]; [by apply (B x)|by apply (D x)]|done].
    + right. unfold aabb_include_box, aabb_empty. cbn [bmin bmax fst snd].
      pose proof (RQ _ Q1) as [? ?]. pose proof (RQ _ Q2) as [? ?]. pose proof (RQ _ Q3) as [? ?]. pose proof (RQ _ Q4) as [? ?].
      split; [exists y1|split; [exists y2|split; [exists y3|exists y4]]]; (split; [by right|lia]).
    + right. unfold aabb_include_box, aabb_empty. cbn [bmin bmax fst snd].
      pose proof (RP _ P1) as [? ?]. pose proof (RP _ P2) as [? ?]. pose proof (RP _ P3) as [? ?]. pose proof (RP _ P4) as [? ?].
      split; [exists x1|split; [exists x2|split; [exists x3|exists x4]]]; (split; [by left|lia]).
    + right. unfold aabb_include_box. cbn [bmin bmax fst snd]. split; [|split; [|split]].
      * destruct (Z.min_spec (bmin b).1 (bmin c).1) as [[_ ->]|[_ ->]]; [exists x1|exists y1]; auto.
      * destruct (Z.max_spec (bmax b).1 (bmax c).1) as [[_ ->]|[_ ->]]; [exists y2|exists x2]; auto.
      * destruct (Z.min_spec (bmin b).2 (bmin c).2) as [[_ ->]|[_ ->]]; [exists x3|exists y3]; auto.
      * destruct (Z.max_spec (bmax b).2 (bmax c).2) as [[_ ->]|[_ ->]]; [exists y4|exists x4]; auto.
Qed.

Lemma sb_point (P : Z * Z -> Prop) b x :
  (forall x, P x -> coord_range x) -> coord_range x -> smallest_box P b ->
  smallest_box (fun y => P y \/ y = x) (aabb_include b x).
Proof.
  intros R Rx S. apply (sb_box P (fun y => y = x) b (Aabb x x)); [done|by intros ? ->|done|].
  split; [intros ? ->; unfold inside; cbn; lia|]. right. cbn. repeat split; by exists x.
Qed.

Lemma sb_points xs : forall (P : Z * Z -> Prop) b,
  (forall x, P x -> coord_range x) -> (forall x, x ∈ xs -> coord_range x) -> smallest_box P b ->
  smallest_box (fun y => P y \/ y ∈ xs) (fold_left aabb_include xs b).
Proof.
  induction xs as [|x xs IH]; intros P b R Rx S; cbn [fold_left].
  - eapply sb_ext; [|exact S]. intros y. rewrite elem_of_nil. tauto.
  - assert (Hx : coord_range x) by (apply Rx; by left).
    eapply sb_ext; [|apply (IH (fun y => P y \/ y = x)); [intros y [H| ->]; [by apply R|done]|intros y Hy; apply Rx; by right|by apply sb_point]].
    intros y. cbn. rewrite elem_of_cons. tauto.
Qed.

(** The points printed by paths, the position before being [cur]. *)
Fixpoint pp (ps : list ipath) (cur : option (Z * Z)) (x : Z * Z) : Prop :=
  match ps with
  | [] => False
  | p :: ps => match last (ipoints p) with
    | None => pp ps cur x
    | Some e => (line_width p <> 0 /\ (x ∈ ipoints p \/ cur = Some x)) \/ pp ps (Some e) x
    end
  end.

Lemma pp_range ps : forall cur x, (forall p y, p ∈ ps -> y ∈ ipoints p -> coord_range y) ->
  (forall c, cur = Some c -> coord_range c) -> pp ps cur x -> coord_range x.
Proof.
  induction ps as [|p ps IH]; intros cur x R C; cbn [pp]; [done|].
  assert (R' : forall q y, q ∈ ps -> y ∈ ipoints q -> coord_range y) by (intros q y Hq; apply (R q); by right).
  destruct (last (ipoints p)) as [e|] eqn:E; [|by apply IH].
  intros [[_ [H|H]]|H]; [apply (R p); [by left|done]|by apply C|].
  apply (IH (Some e) x R'); [|done]. intros c [= <-]. apply (R p); [by left|]. by apply last_Some_elem_of.
Qed.

Lemma box_paths_spec ps : forall (P : Z * Z -> Prop) cur b, (forall p y, p ∈ ps -> y ∈ ipoints p -> coord_range y) ->
  (forall c, cur = Some c -> coord_range c) -> (forall x, P x -> coord_range x) -> smallest_box P b ->
  smallest_box (fun x => P x \/ pp ps cur x) (box_paths ps cur b).
Proof.
  induction ps as [|p ps IH]; intros P cur b R C RP S; cbn [box_paths pp].
  - eapply sb_ext; [|exact S]. tauto.
  - assert (R' : forall q y, q ∈ ps -> y ∈ ipoints q -> coord_range y) by (intros q y Hq; apply (R q); by right).
    assert (Rp : forall y, y ∈ ipoints p -> coord_range y) by (intros y; apply (R p); by left).
    destruct (last (ipoints p)) as [e|] eqn:E; [|by apply IH].
    assert (Ce : forall c, Some e = Some c -> coord_range c) by (intros c [= <-]; apply Rp; by apply last_Some_elem_of).
    cbn zeta. unfold isTravelPath. destruct (Z.eqb_spec (line_width p) 0) as [L|L].
    + eapply sb_ext; [|by apply IH]. intros x. cbn. tauto.
    + set (P1 := fun x => P x \/ cur = Some x).
      assert (S1 : smallest_box P1 (match cur with Some c => aabb_include b c | None => b end)).
      { unfold P1. destruct cur as [c|].
        - eapply sb_ext; [|apply sb_point; [exact RP|by apply C|exact S]]. intros x. cbn. split; intros [?|H]; auto; [right; by rewrite H|right; congruence].
        - eapply sb_ext; [|exact S]. intros x. split; [by left|]. intros [?|?]; done. }
      assert (RP1 : forall x, P1 x -> coord_range x) by (intros x [H|H]; [by apply RP|by apply C]).
      eapply sb_ext; [|apply (IH (fun x => P1 x \/ x ∈ ipoints p)); [done|done| |by apply sb_points]].
      * intros x. cbn. unfold P1. tauto.
      * intros x [H|H]; auto.
Qed.

Lemma pp_iff ps : forall cur x, pp ps cur x <->
  exists i p, ps !! i = Some p /\ line_width p <> 0 /\ ipoints p <> [] /\
    (x ∈ ipoints p \/
     (exists j q, (j < i)%nat /\ ps !! j = Some q /\ last (ipoints q) = Some x /\
        forall k r, (j < k < i)%nat -> ps !! k = Some r -> ipoints r = []) \/
     (cur = Some x /\ forall k r, (k < i)%nat -> ps !! k = Some r -> ipoints r = [])).
Proof.
  induction ps as [|p ps IH]; intros cur x; cbn [pp].
  - split; [done|]. intros (i & p & H & _). done.
  - destruct (last (ipoints p)) as [e|] eqn:E.
    + assert (Np : ipoints p <> []) by (intros X; by rewrite X in E).
      split.
      * intros [[L H]|H].
        -- exists 0%nat, p. split; [done|]. split; [done|]. split; [done|]. destruct H as [H|H]; [by left|].
           right. right. split; [done|]. intros k r Hk. lia.
        -- apply IH in H as (i & q & Hi & L & N & H). exists (S i), q. split; [done|]. split; [done|]. split; [done|].
           destruct H as [H|[(j & r & Hj & Hr & Hl & Hk)|[H Hk]]]; [by left| |].
           ++ right. left. exists (S j), r. split; [lia|]. split; [done|]. split; [done|].
              intros k r' Hk' Hr'. destruct k as [|k]; [lia|]. apply (Hk k); [lia|done].
           ++ right. left. exists 0%nat, p. split; [lia|]. split; [done|]. split; [congruence|].
              intros k r Hk' Hr. destruct k as [|k]; [lia|]. apply (Hk k); [lia|done].
      * intros (i & q & Hi & L & N & H). destruct i as [|i].
        -- injection Hi as <-. left. split; [done|]. destruct H as [H|[(j & ? & ? & _)|[H _]]]; [by left|lia|by right].
        -- right. apply IH. exists i, q. split; [done|]. split; [done|]. split; [done|].
           destruct H as [H|[(j & r & Hj & Hr & Hl & Hk)|[H Hk]]]; [by left| |].
           ++ destruct j as [|j].
              ** injection Hr as <-. right. right. split; [congruence|]. intros k r Hk' Hr. apply (Hk (S k)); [lia|done].
              ** right. left. exists j, r. split; [lia|]. split; [done|]. split; [done|].
                 intros k r' Hk' Hr'. apply (Hk (S k)); [lia|done].
           ++ exfalso. apply Np. apply (Hk 0%nat); [lia|done].
    + apply last_None in E. rewrite IH. split.
      * intros (i & q & Hi & L & N & H). exists (S i), q. split; [done|]. split; [done|]. split; [done|].
        destruct H as [H|[(j & r & Hj & Hr & Hl & Hk)|[H Hk]]]; [by left| |].
        -- right. left. exists (S j), r. split; [lia|]. split; [done|]. split; [done|].
           intros k r' Hk' Hr'. destruct k as [|k]; [lia|]. apply (Hk k); [lia|done].
        -- right. right. split; [done|]. intros k r Hk' Hr. destruct k as [|k]; [by injection Hr as <-|]. apply (Hk k); [lia|done].
      * intros (i & q & Hi & L & N & H). destruct i as [|i]; [injection Hi as <-; done|]. exists i, q.
        split; [done|]. split; [done|]. split; [done|].
        destruct H as [H|[(j & r & Hj & Hr & Hl & Hk)|[H Hk]]]; [by left| |].
        -- destruct j as [|j]; [injection Hr as <-; by rewrite E in Hl|]. right. left. exists j, r. split; [lia|]. split; [done|]. split; [done|].
           intros k r' Hk' Hr'. apply (Hk (S k)); [lia|done].
        -- right. right. split; [done|]. intros k r Hk' Hr. apply (Hk (S k)); [lia|done].
Qed.

Lemma printed_pp e x : printed_point e x <-> pp (ipaths e) None x.
Proof.
  rewrite pp_iff. unfold printed_point, prints, starts_at. split.
  - intros (i & p & (A & B & C) & H). exists i, p. split; [done|]. split; [done|]. split; [done|]. tauto.
  - intros (i & p & A & B & C & H). exists i, p. split; [done|]. destruct H as [H|[H|[H _]]]; [by left|by right|done].
Qed.

Lemma plan_box_spec e : (forall p y, p ∈ ipaths e -> y ∈ ipoints p -> coord_range y) -> smallest_box (printed_point e) (plan_box e).
Proof.
  intros R. eapply sb_ext; [|apply (box_paths_spec (ipaths e) (fun _ => False) None aabb_empty R); [done|done|apply sb_empty]].
  intros x. cbn. rewrite printed_pp. tauto.
Qed.
Lemma printed_range e x : (forall p y, p ∈ ipaths e -> y ∈ ipoints p -> coord_range y) -> printed_point e x -> coord_range x.
Proof. intros R H%printed_pp. by apply (pp_range _ _ _ R) in H. Qed.

Lemma layer_box_spec l : in_range l -> smallest_box (fun x => exists e, e ∈ iplans l /\ printed_point e x) (layer_box l).
Proof.
  unfold in_range, layer_box. generalize (iplans l). intros es R.
  assert (G : forall es (P : Z * Z -> Prop) b, (forall e p x, e ∈ es -> p ∈ ipaths e -> x ∈ ipoints p -> coord_range x) ->
    (forall x, P x -> coord_range x) -> smallest_box P b ->
    smallest_box (fun x => P x \/ exists e, e ∈ es /\ printed_point e x) (fold_left (fun b e => aabb_include_box b (plan_box e)) es b)).
  { clear. induction es as [|e es IH]; intros P b R RP S; cbn [fold_left].
    - eapply sb_ext; [|exact S]. intros x. split; [by left|]. intros [?|(e & He & _)]; [done|by apply elem_of_nil in He].
    - assert (Re : forall p y, p ∈ ipaths e -> y ∈ ipoints p -> coord_range y) by (intros p y; apply R; by left).
      eapply sb_ext; [|apply (IH (fun x => P x \/ printed_point e x)); [intros e' p x He; apply R; by right| |
        apply sb_box; [done|intros x; by apply printed_range|done|by apply plan_box_spec]]].
      + intros x. cbn. setoid_rewrite elem_of_cons. split.
        * intros [[?|?]|(e' & ? & ?)]; [by left|right; exists e; auto|right; exists e'; auto].
        * intros [?|(e' & [-> |?] & ?)]; [auto|auto|right; exists e'; auto].
      + intros x [H|H]; [by apply RP|by apply (printed_range e)]. }
  eapply sb_ext; [|apply (G es (fun _ => False)); [done|done|apply sb_empty]]. intros x. cbn. tauto.
Qed.

Lemma hasExtrusion_iff e : hasExtrusion e = true <-> exists i p, prints e i p.
Proof.
  unfold hasExtrusion, prints. rewrite existsb_exists. split.
  - intros (p & Hp%elem_of_list_In & H). apply elem_of_list_lookup in Hp as [i Hi]. exists i, p. split; [done|].
    apply andb_true_iff in H as [A B]. unfold isTravelPath in A. apply negb_true_iff, Z.eqb_neq in A. split; [done|]. by destruct (ipoints p).
  - intros (i & p & A & B & C). exists p. split; [apply elem_of_list_In, elem_of_list_lookup; eauto|].
    unfold isTravelPath. rewrite (proj2 (Z.eqb_neq _ _) B). by destruct (ipoints p).
Qed.
Lemma no_extrusion e : hasExtrusion e = false -> prints_nothing e.
Proof. intros H i p X. assert (hasExtrusion e = true) by (apply hasExtrusion_iff; eauto). congruence. Qed.

Lemma find_split es : match List.find hasExtrusion es with
  | Some e => exists es1 es2, es = es1 ++ e :: es2 /\ hasExtrusion e = true /\ forall e', e' ∈ es1 -> prints_nothing e'
  | None => forall e, e ∈ es -> prints_nothing e
  end.
Proof.
  induction es as [|e es IH]; cbn [List.find]; [by intros e ?%elem_of_nil|].
  destruct (hasExtrusion e) eqn:E.
  - exists [], es. split; [done|]. split; [done|]. by intros ? ?%elem_of_nil.
  - destruct (List.find hasExtrusion es) as [e0|].
    + destruct IH as (es1 & es2 & -> & H & N). exists (e :: es1), es2. split; [done|]. split; [done|].
      intros e' [-> |He]%elem_of_cons; [by apply no_extrusion|by apply N].
    + intros e' [-> |He]%elem_of_cons; [by apply no_extrusion|by apply IH].
Qed.

(** C86. *)
Theorem C86_info ls :
  (forall l, l ∈ ls -> in_range l) ->
  let r := fold_left updateWithLayer ls pinfo_0 in
  match initial_extruder r with
  | Some n => prints_first ls n
  | None => forall l e, l ∈ ls -> e ∈ iplans l -> prints_nothing e
  end /\
  smallest_box (fun x => exists l e, l ∈ ls /\ ilayer_nr l = 0 /\ e ∈ iplans l /\ printed_point e x) (initial_bb r).
Proof.
  intros R. cbn zeta. induction ls as [|l ls IH] using rev_ind.
  - cbn. split; [by intros l e ?%elem_of_nil|]. eapply sb_ext; [|apply sb_empty]. intros x. split; [done|].
    by intros (l & e & ?%elem_of_nil & _).
  - rewrite fold_left_app. cbn [fold_left]. destruct IH as [A B]; [intros l' H; apply R; apply elem_of_app; by left|].
    set (r := fold_left updateWithLayer ls pinfo_0) in *. clearbody r.
    assert (Rl : in_range l) by (apply R; apply elem_of_app; right; by left).
    unfold updateWithLayer. cbn [initial_extruder initial_bb]. split.
    + destruct (initial_extruder r) as [n|].
      * destruct A as (ls1 & l0 & ls2 & es1 & e & es2 & -> & H). exists ls1, l0, (ls2 ++ [l]), es1, e, es2.
        split; [by rewrite <- app_assoc|done].
      * unfold findInitialExtruderNr. pose proof (find_split (iplans l)) as F. destruct (List.find hasExtrusion (iplans l)) as [e|].
        -- destruct F as (es1 & es2 & E & H & N). exists ls, l, [], es1, e, es2. split; [done|]. split; [done|]. split; [done|].
           split; [by apply hasExtrusion_iff|]. split; [done|]. exact A.
        -- intros l' e [H|H]%elem_of_app; [by apply A|]. apply elem_of_list_singleton in H as ->. by apply F.
    + destruct (Z.eqb_spec (ilayer_nr l) 0) as [Z0|Z0].
      * eapply sb_ext; [|apply sb_box; [| |exact B|by apply layer_box_spec]].
        -- intros x. cbn. setoid_rewrite elem_of_app. setoid_rewrite elem_of_list_singleton. split.
           ++ intros [(l' & e & ? & ? & ? & ?)|(e & ? & ?)]; [exists l', e; auto|exists l, e; auto].
           ++ intros (l' & e & [H| ->] & ? & ? & ?); [left; exists l', e; auto|right; exists e; auto].
        -- intros x (l' & e & Hl & _ & He & Hx). apply (printed_range e); [|done].
           intros p y. apply (R l'); [apply elem_of_app; by left|done].
        -- intros x (e & He & Hx). apply (printed_range e); [|done]. intros p y. by apply Rl.
      * eapply sb_ext; [|exact B]. intros x. cbn. setoid_rewrite elem_of_app. setoid_rewrite elem_of_list_singleton. split.
        -- intros (l' & e & ? & ? & ? & ?). exists l', e; auto.
        -- intros (l' & e & [H| ->] & ? & ? & ?); [exists l', e; auto|done].
Qed.
Print Assumptions C86_info.

(** A plan that starts with a line, without a travel move: the start of the line, where the plan before ended, can be outside. *)
Theorem C86_start_refuted :
  exists l x e1 e2, in_range l /\ iplans l = [e1; e2] /\ ilayer_nr l = 0 /\
    (exists p, ipaths e1 = [p] /\ line_width p = 0 /\ ipoints p = [x]) /\ (exists p, prints e2 0 p) /\
    ~ inside (initial_bb (updateWithLayer pinfo_0 l)) x.
Proof.
  set (e1 := IPlan 0 [IPath 0 false [(0, 0)] 1 1]). set (e2 := IPlan 0 [IPath 400 false [(1000, 500); (2000, 500)] 1 1]).
  exists (ILayer 0 [e1; e2]), (0, 0), e1, e2. split.
  { intros e p x [-> |[-> |[]%elem_of_nil]%elem_of_cons]%elem_of_cons ->%elem_of_list_singleton; cbn.
    - intros ->%elem_of_list_singleton. done.
    - intros [-> | ->%elem_of_list_singleton]%elem_of_cons; done. }
  split; [done|]. split; [done|]. split; [eexists; done|]. split; [eexists; done|]. unfold inside. vm_compute. intros [[H _] _]. by apply H.
Qed.
Print Assumptions C86_start_refuted.

Example C86_nonvacuous :
  fold_left updateWithLayer
    [ILayer (-1) [IPlan 2 [IPath 0 false [(7, 7)] 1 1]]; ILayer 0 [IPlan 1 [IPath 0 false [(3, 9)] 1 1; IPath 400 false [(5, 1)] 1 1; IPath 0 false [(99, 99)] 1 1]];
     ILayer 1 [IPlan 0 [IPath 400 false [(50, 50)] 1 1]]] pinfo_0
  = PInfo (Some 1%nat) (Aabb (3, 1) (5, 9)).
Proof. by vm_compute. Qed.

Open Scope Q_scope.
Lemma compensate_path_ok c p : compensated c p (compensate_path c p).
Proof.
  unfold compensate_path, isTravelPath.
  destruct (Qle_bool (width_factor p) 0) eqn:E1.
  { apply Qle_bool_iff in E1. cbn [orb]. do 4 (split; [done|]). split; [done|]. intros [H _]. exfalso. apply (Qlt_not_le _ _ H E1). }
  assert (W : 0 < width_factor p) by (apply Qnot_le_lt; intros X; apply Qle_bool_iff in X; congruence).
  destruct (Z.leb_spec (line_width p) 0) as [L|L]; cbn [orb].
  { do 4 (split; [done|]). split; [done|]. intros (_ & H & _). lia. }
  rewrite (proj2 (Z.eqb_neq _ _)) by lia. cbn [orb]. destruct (bridge p) eqn:B.
  { do 4 (split; [done|]). split; [done|]. intros (_ & _ & H). congruence. }
  unfold compensated. cbn [line_width bridge ipoints width_factor back_pressure].
  split; [done|]. split; [done|]. split; [done|]. split; [done|]. split; [by intros []|]. intros _.
  set (n := inject_Z (line_width p)). assert (N : 0 < n) by (unfold n; rewrite <- (Zlt_Qlt 0); done). clearbody n.
  set (w := width_factor p) in *. clearbody w. cbn zeta.
  assert (Hn : ~ n == 0) by (intros X; rewrite X in N; by apply Qlt_irrefl in N).
  assert (Hw : ~ w == 0) by (intros X; rewrite X in W; by apply Qlt_irrefl in W).
  set (v := 1 + (n / (w * n) - 1) * c). assert (V : v * w == w + (1 - w) * c) by (unfold v; field; done). clearbody v.
  split; [apply Q.le_max_l|]. rewrite <- V. split.
  - intros H. apply Qmult_le_r in H; [|done]. by rewrite (Q.max_r _ _ H).
  - intros H. apply Qmult_le_r in H; [|done]. by rewrite (Q.max_l _ _ H).
Qed.

(** C87. *)
Theorem C87_compensation setting l :
  let l' := applyBackPressureCompensation setting l in
  ilayer_nr l' = ilayer_nr l /\
  Forall2 (fun e e' => iextruder e' = iextruder e /\
    (setting (iextruder e) == 0 -> e' = e) /\
    (~ setting (iextruder e) == 0 -> Forall2 (compensated (setting (iextruder e))) (ipaths e) (ipaths e'))) (iplans l) (iplans l').
Proof.
  cbn. split; [done|]. induction (iplans l) as [|e es IH]; cbn [map]; [constructor|]. constructor; [|done].
  destruct (Qeq_bool (setting (iextruder e)) 0) eqn:E.
  - apply Qeq_bool_iff in E. done.
  - assert (~ setting (iextruder e) == 0) by (intros X; apply Qeq_bool_iff in X; congruence).
    cbn. split; [done|]. split; [done|]. intros _. induction (ipaths e) as [|p ps IH']; cbn [map]; constructor; [apply compensate_path_ok|done].
Qed.
Print Assumptions C87_compensation.

(** With full compensation, speed times width is that of a line of the nominal width. *)
Theorem C87_constant_flow p p' : compensated 1 p p' -> treated p -> width_factor p <= 1000 -> back_pressure p' * width_factor p' == 1.
Proof.
  intros (_ & _ & _ & -> & _ & H) T W. destruct (H T) as (_ & A & _). cbn zeta in A. rewrite A; [ring|]. lra.
Qed.
Print Assumptions C87_constant_flow.
(** With a compensation from 0 to 1, narrower lines are printed faster and wider lines slower, but not by more than that. *)
Theorem C87_between c p p' : compensated c p p' -> treated p -> 0 <= c <= 1 -> width_factor p <= 1000 ->
  (width_factor p <= 1 -> 1 <= back_pressure p' /\ back_pressure p' * width_factor p <= 1) /\
  (1 <= width_factor p -> back_pressure p' <= 1 /\ 1 <= back_pressure p' * width_factor p).
Proof.
  intros (_ & _ & _ & _ & _ & H) T [C0 C1] W. destruct (H T) as (A & B & _). cbn zeta in *. destruct T as (T & _).
  set (w := width_factor p) in *. set (b := back_pressure p') in *. clearbody w b.
  destruct (Qlt_le_dec 1 w) as [H1|H1].
  - assert (X : (1 - w) * 1 <= (1 - w) * c) by nra. assert (Y : (1 - w) * c <= 0) by nra.
    assert (Z : b * w == w + (1 - w) * c) by (apply B; lra).
    split; [intros; lra|]. intros _. split; [|lra]. apply (Qmult_le_r _ _ w T). lra.
  - assert (X : (1 - w) * c <= (1 - w) * 1) by nra. assert (Y : 0 <= (1 - w) * c) by nra.
    assert (Z : b * w == w + (1 - w) * c) by (apply B; lra).
    assert (1 <= b) by (apply (Qmult_le_r _ _ w T); lra).
    split; [intros _; split; [done|lra]|]. intros. assert (w == 1) by lra. split; [|nra].
    apply (Qmult_le_r _ _ w T). nra.
Qed.
Print Assumptions C87_between.

(** A line much wider than nominal is not printed with the same flow. *)
Theorem C87_wide_refuted : exists p p', compensated 1 p p' /\ treated p /\ ~ back_pressure p' * width_factor p' == 1.
Proof.
  set (p := IPath 400 false [] 2000 1). exists p, (compensate_path 1 p). split; [apply compensate_path_ok|]. split; [done|]. by vm_compute.
Qed.
Print Assumptions C87_wide_refuted.

Example C87_nonvacuous :
  map (fun p => Qred (back_pressure p)) (ipaths (default (IPlan 0 []) (iplans (applyBackPressureCompensation (fun _ => 1 # 2)
    (ILayer 0 [IPlan 0 [IPath 400 false [] (1 # 2) 1; IPath 400 true [] (1 # 2) 1; IPath 0 false [] 1 1; IPath 400 false [] 2 1]])) !! 0%nat)))
  = [3 # 2; 1; 1; 3 # 4].
Proof. by vm_compute. Qed.
