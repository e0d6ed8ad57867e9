(** C68: zigzag infill. *)
From Coq Require Import ZArith QArith Lia Lqa Sorting.Sorted.
From stdpp Require Import prelude list.
From Verif Require Import Common Geo_Model Box_Model Box_Props LineInfill_Model LineInfill_Spec LineInfill_Props Zigzag_Model Zigzag_Spec.
Open Scope Z_scope.

(** ** the walk *)
Section walk.
  Context (ue ce sk : bool) (zc d shift : Z) (Hd : 0 < d).
  Notation x_of := (x_of d shift).
  Definition proc (st : stop) (s : zigzag) : zigzag :=
    match st with
    | Corner p => registerVertex p s
    | Cross k p => registerScanlineSegmentIntersection ue ce sk zc p k (d ÷ 4) s
    end.
  Definition procs (stops : list stop) (s : zigzag) : zigzag := foldl (fun s st => proc st s) s stops.
  Lemma procs_app l l' s : procs (l ++ l') s = procs l' (procs l s).
  Proof. unfold procs. by rewrite foldl_app. Qed.

  Definition crossing_at (p0 p1 : pt) (k : Z) : Z * pt := (k, (x_of k, edge_y p0 p1 (x_of k))).
  Fixpoint run (idx dir : Z) (n : nat) : list Z := match n with O => [] | S n => idx :: run (idx + dir) dir n end.
  Lemma run_elem dir : forall n idx k, k ∈ run idx dir n <-> exists i, 0 <= i < Z.of_nat n /\ k = idx + dir * i.
  Proof.
    induction n as [|n IH]; intros idx k; cbn [run].
    - split; [intros H; by apply elem_of_nil in H|intros (i & ? & _); lia].
    - rewrite elem_of_cons, IH. split.
      + intros [->|(i & Hi & ->)]; [exists 0; lia|exists (i + 1); lia].
      + intros (i & Hi & ->). destruct (decide (i = 0)) as [->|]; [left; lia|right; exists (i - 1); lia].
  Qed.
  Lemma run_sorted (right : bool) : forall n idx, StronglySorted (fun k l => if right then k < l else l < k) (run idx (if right then 1 else -1) n).
  Proof.
    induction n as [|n IH]; intros idx; cbn [run]; constructor; [apply IH|]. apply Forall_forall. intros k Hk. apply run_elem in Hk as (i & Hi & ->). destruct right; lia.
  Qed.
  Lemma zig_scan_ok p0 p1 dir : dir = 1 \/ dir = -1 -> forall n fuel idx s, (n < fuel)%nat ->
    zig_scan ue ce sk zc d shift fuel p0 p1 idx (idx + dir * Z.of_nat n) dir s
    = Ok (procs (map (fun c => Cross c.1 c.2) (map (crossing_at p0 p1) (run idx dir n))) s).
  Proof.
    intros Hdir. induction n as [|n IH]; intros fuel idx s Hf; (destruct fuel as [|fuel]; [lia|]); cbn [zig_scan run map].
    - replace (idx =? idx + dir * Z.of_nat 0) with true by (symmetry; apply Z.eqb_eq; lia). done.
    - replace (idx =? idx + dir * Z.of_nat (S n)) with false by (symmetry; apply Z.eqb_neq; lia).
      replace (idx + dir * Z.of_nat (S n)) with (idx + dir + dir * Z.of_nat n) by lia. rewrite IH by lia. done.
  Qed.

  Definition slot (p : pt) : Z := (p.1 - shift) / d.
  Lemma cuts_slots k p0 p1 : cuts (k * d + shift) (p0, p1) = true <-> slot p0 < k <= slot p1 \/ slot p1 < k <= slot p0.
  Proof.
    change (k * d + shift) with (x_of k). unfold cuts. cbn [fst snd]. rewrite orb_true_iff, !andb_true_iff, !Z.ltb_lt, !Z.leb_le, !(x_of_lt d shift Hd).
    assert (forall p : pt, p.1 < x_of k <-> (p.1 - shift) / d < k) as Hlt.
    { intros p. pose proof (x_of_lt d shift Hd k p.1). lia. }
    rewrite !Hlt. unfold slot. lia.
  Qed.

  Lemma zig_edge_ok fuel p0 p1 s : (Z.to_nat (Z.abs (slot p1 - slot p0)) < fuel)%nat ->
    exists ks, zig_edge ue ce sk zc d shift fuel p0 p1 s = Ok (procs (map (fun c => Cross c.1 c.2) (map (crossing_at p0 p1) ks) ++ [Corner p1]) s) /\
      (forall k, k ∈ ks <-> cuts (k * d + shift) (p0, p1) = true) /\
      StronglySorted (fun k l => if p0.1 <? p1.1 then k < l else l < k) ks.
  Proof.
    intros Hf. unfold zig_edge. rewrite !scan_idx by done. fold (slot p0) (slot p1). destruct (Z.eqb_spec p1.1 p0.1) as [Eq|Hne].
    { exists []. split; [done|]. split; [|constructor]. intros k. rewrite cuts_slots. assert (slot p1 = slot p0) by (unfold slot; by rewrite Eq).
      split; [intros Hn; by apply elem_of_nil in Hn|lia]. }
    destruct (Z.ltb_spec p0.1 p1.1) as [Hlt|Hge].
    - assert (slot p0 <= slot p1) by (apply Z.div_le_mono; lia).
      pose proof (zig_scan_ok p0 p1 1 ltac:(by left) (Z.to_nat (slot p1 - slot p0)) fuel (slot p0 + 1) s ltac:(lia)) as E.
      replace (slot p0 + 1 + 1 * Z.of_nat (Z.to_nat (slot p1 - slot p0))) with (slot p1 + 1) in E by lia. rewrite E. cbn [rbind].
      exists (run (slot p0 + 1) 1 (Z.to_nat (slot p1 - slot p0))). split; [by rewrite procs_app|]. split; [|apply (run_sorted true)].
      intros k. rewrite run_elem, cuts_slots. split; [intros (i & Hi & ->); lia|]. intros Hk. exists (k - (slot p0 + 1)). lia.
    - assert (slot p1 <= slot p0) by (apply Z.div_le_mono; lia).
      pose proof (zig_scan_ok p0 p1 (-1) ltac:(by right) (Z.to_nat (slot p0 - slot p1)) fuel (slot p0) s ltac:(lia)) as E.
      replace (slot p0 + -1 * Z.of_nat (Z.to_nat (slot p0 - slot p1))) with (slot p1 + 1 + -1) in E by lia. rewrite E. cbn [rbind].
      exists (run (slot p0) (-1) (Z.to_nat (slot p0 - slot p1))). split; [by rewrite procs_app|]. split; [|apply (run_sorted false)].
      intros k. rewrite run_elem, cuts_slots. split; [intros (i & Hi & ->); lia|]. intros Hk. exists (slot p0 - k). lia.
  Qed.

  (** the crossings of the walk with their exact heights *)
  Definition exact (es : list (pt * pt)) (stops : list stop) : Prop :=
    forall k p, Cross k p ∈ stops -> exists e, e ∈ es /\ p = (x_of k, edge_y e.1 e.2 (x_of k)) /\ cuts (x_of k) e = true.

  Lemma zig_polygon_ok fuel : forall poly p0 s, (forall p q, p ∈ p0 :: poly -> q ∈ p0 :: poly -> (Z.to_nat (Z.abs (slot p - slot q)) < fuel)%nat) ->
    exists parts, zig_polygon ue ce sk zc d shift fuel p0 poly s = Ok (procs (concat parts) s) /\
      Forall2 (along d shift) (zip (p0 :: poly) poly) parts /\ exact (walk p0 poly) (concat parts).
  Proof.
    induction poly as [|p1 poly IH]; intros p0 s Hf.
    { exists []. split; [done|]. split; [constructor|]. intros k p H. by apply elem_of_nil in H. }
    destruct (zig_edge_ok fuel p0 p1 s) as (ks & E & Hks & Hs); [apply Hf; [right; left|left]|].
    cbn [zig_polygon]. rewrite E. cbn [rbind]. destruct (IH p1 (procs (map (fun c => Cross c.1 c.2) (map (crossing_at p0 p1) ks) ++ [Corner p1]) s)) as (parts & E2 & Hp & Hx).
    { intros p q Hp Hq. apply Hf; by right. }
    assert (Hfst : map fst (map (crossing_at p0 p1) ks) = ks) by (rewrite map_map; apply map_id).
    exists ((map (fun c => Cross c.1 c.2) (map (crossing_at p0 p1) ks) ++ [Corner p1]) :: parts). rewrite E2. split; [cbn [concat]; symmetry; f_equal; exact (procs_app _ _ _)|]. split.
    - cbn [zip zip_with]. constructor; [|exact Hp]. exists (map (crossing_at p0 p1) ks). rewrite Hfst. cbn [fst snd]. split; [done|]. split; [exact Hks|]. split; [exact Hs|].
      intros k p Hin. change (map ?f ?l) with (f <$> l) in Hin. apply elem_of_list_fmap in Hin as (k' & Ek & Hk'). unfold crossing_at in Ek. injection Ek as <- ->. cbn [fst snd].
      split; [done|]. apply (height_close (x_of k) (p0, p1)). by apply Hks.
    - intros k p Hin. cbn [concat] in Hin. apply elem_of_app in Hin as [Hin|Hin].
      + apply elem_of_app in Hin as [Hin|Hin]; [|by apply elem_of_list_singleton in Hin]. rewrite map_map in Hin. change (map ?f ?l) with (f <$> l) in Hin.
        apply elem_of_list_fmap in Hin as (k' & Ek & Hk'). cbn in Ek. injection Ek as -> ->. exists (p0, p1). split; [left|]. split; [done|]. by apply Hks.
      + destruct (Hx k p Hin) as (e & He & H). exists e. split; [by right|done].
  Qed.

  (** ** the crossings and corners of a walk *)
  Lemma stops_of_ex (stops : list stop) : exists C0 gs, stops = stops_of C0 gs.
  Proof.
    induction stops as [|[p|k p] stops (C0 & gs & ->)].
    - by exists [], [].
    - by exists (p :: C0), gs.
    - exists [], ((k, p, C0) :: gs). done.
  Qed.

  (** the slot the walk is in *)
  Fixpoint chain (i : Z) (stops : list stop) (j : Z) : Prop :=
    match stops with
    | [] => i = j
    | Corner p :: stops => chain i stops j
    | Cross k _ :: stops => (k = i + 1 /\ chain (i + 1) stops j) \/ (k = i /\ chain (i - 1) stops j)
    end.
  Lemma chain_app l l' i j k : chain i l j -> chain j l' k -> chain i (l ++ l') k.
  Proof.
    revert i. induction l as [|[p|m p] l IH]; intros i H1 H2; cbn [chain app] in *; [by subst|by apply IH|].
    destruct H1 as [[? H1]|[? H1]]; [left|right]; (split; [done|by apply IH]).
  Qed.
  Lemma along_chain p0 p1 part : along d shift (p0, p1) part -> chain (slot p0) part (slot p1).
  Proof.
    intros (cs & -> & Hk & Hs & _). cbn [fst snd] in *. assert (Hk' : forall k, k ∈ map fst cs <-> slot p0 < k <= slot p1 \/ slot p1 < k <= slot p0).
    { intros k. rewrite Hk. apply cuts_slots. } clear Hk.
    destruct (Z.ltb_spec p0.1 p1.1) as [Hlt|Hge].
    - assert (Hle : slot p0 <= slot p1) by (apply Z.div_le_mono; lia). clear Hlt. revert Hle Hk' Hs. generalize (slot p0) (slot p1). clear. intros i j.
      revert i. induction cs as [|[k p] cs IH]; intros i Hle Hk Hs; cbn [map app chain fst snd] in *.
      + destruct (decide (i = j)); [done|]. assert (H : j ∈ @nil Z) by (apply Hk; lia). by apply elem_of_nil in H.
      + inversion Hs as [|? ? Hs' Hf]; subst. rewrite Forall_forall in Hf. assert (Hki : i < k <= j) by (pose proof (proj1 (Hk k) ltac:(left)); lia).
        assert (k = i + 1). { assert (Hi : i + 1 ∈ k :: map fst cs) by (apply Hk; lia). apply elem_of_cons in Hi as [?|Hi]; [lia|]. specialize (Hf _ Hi). lia. }
        subst k. left. split; [done|]. apply IH; [lia| |done]. intros l. split.
        * intros Hl. pose proof (Hf _ Hl). assert (l ∈ i + 1 :: map fst cs) as Hl2 by (by right). apply Hk in Hl2. lia.
        * intros Hl. assert (Hl2 : l ∈ i + 1 :: map fst cs) by (apply Hk; lia). apply elem_of_cons in Hl2 as [?|?]; [lia|done].
    - assert (Hle : slot p1 <= slot p0) by (apply Z.div_le_mono; lia). clear Hge. revert Hle Hk' Hs. generalize (slot p0) (slot p1). clear. intros i j.
      revert i. induction cs as [|[k p] cs IH]; intros i Hle Hk Hs; cbn [map app chain fst snd] in *.
      + destruct (decide (i = j)); [done|]. assert (H : i ∈ @nil Z) by (apply Hk; lia). by apply elem_of_nil in H.
      + inversion Hs as [|? ? Hs' Hf]; subst. rewrite Forall_forall in Hf. assert (Hki : j < k <= i) by (pose proof (proj1 (Hk k) ltac:(left)); lia).
        assert (k = i). { assert (Hi : i ∈ k :: map fst cs) by (apply Hk; lia). apply elem_of_cons in Hi as [?|Hi]; [lia|]. specialize (Hf _ Hi). lia. }
        subst k. right. split; [done|]. apply IH; [lia| |done]. intros l. split.
        * intros Hl. pose proof (Hf _ Hl). assert (l ∈ i :: map fst cs) as Hl2 by (by right). apply Hk in Hl2. lia.
        * intros Hl. assert (Hl2 : l ∈ i :: map fst cs) by (apply Hk; lia). apply elem_of_cons in Hl2 as [?|?]; [lia|done].
  Qed.
  Lemma parts_chain : forall poly p0 parts, Forall2 (along d shift) (zip (p0 :: poly) poly) parts -> chain (slot p0) (concat parts) (slot (default p0 (last poly))).
  Proof.
    induction poly as [|p1 poly IH]; intros p0 parts H; cbn [zip zip_with] in H.
    - inversion H; subst. done.
    - inversion H as [|? part ? parts' Ha Hr]; subst. cbn [concat]. eapply chain_app; [by apply along_chain|].
      assert (E : default p0 (last (p1 :: poly)) = default p1 (last poly)).
      { destruct poly as [|q poly]; [done|]. change (last (p1 :: q :: poly)) with (last (q :: poly)). destruct (last (q :: poly)) eqn:El; [done|]. by apply last_None in El. }
      rewrite E. by apply IH.
  Qed.
  Lemma tour_chain poly stops : tour d shift poly stops -> exists i, chain i stops i.
  Proof.
    intros (p0 & parts & El & Hp & ->). exists (slot p0). cbn [chain]. pose proof (parts_chain poly p0 parts Hp) as H. by rewrite El in H.
  Qed.
  Lemma chain_corners i C l j : chain i (map Corner C ++ l) j <-> chain i l j.
  Proof. induction C as [|p C IH]; [done|]. exact IH. Qed.

  (** successive crossings are on the same or on neighbouring scanlines *)
  Lemma stretches_steps C0 first : forall gs i j, chain i (concat (map (fun c => Cross c.1.1 c.1.2 :: map Corner c.2) gs)) j ->
    (first.1 = j \/ first.1 = j + 1) -> Forall (fun st => Z.abs (from st - to st) <= 1) (stretches_from C0 first gs).
  Proof.
    induction gs as [|[[k p] cs] gs IH]; intros i j Hc Hfirst; cbn [stretches_from]; [constructor|].
    cbn [map concat app chain fst snd] in Hc. destruct gs as [|[[l q] cs'] gs].
    - constructor; [|constructor]. cbn [from to]. cbn [map concat app] in Hc. destruct Hc as [[-> Hc]|[-> Hc]]; rewrite chain_corners in Hc; cbn [chain] in Hc; lia.
    - assert (exists i', (i' = k \/ i' = k - 1) /\ chain i' (concat (map (fun c => Cross c.1.1 c.1.2 :: map Corner c.2) ((l, q, cs') :: gs))) j) as (i' & Hi' & Hc').
      { destruct Hc as [[-> Hc]|[-> Hc]]; rewrite chain_corners in Hc; eexists; (split; [|exact Hc]); lia. }
      constructor; [|by apply (IH i' j)]. cbn [from to]. cbn [map concat app chain fst snd] in Hc'. lia.
  Qed.
  Lemma tour_steps poly C0 gs : tour d shift poly (stops_of C0 gs) -> Forall (fun st => Z.abs (from st - to st) <= 1) (stretches C0 gs).
  Proof.
    intros Ht. destruct (tour_chain poly _ Ht) as [i Hc]. unfold stops_of in Hc. rewrite chain_corners in Hc. destruct gs as [|[[k p] cs] gs]; [constructor|].
    unfold stretches. cbn [fst]. eapply stretches_steps; [exact Hc|]. cbn [map concat app chain fst snd] in Hc. cbn. lia.
  Qed.

  (** ** the connectors *)
  Lemma procs_corners_first C k l f r : procs (map Corner C) (Zigzag true k l f [] r) = Zigzag true k l (f ++ C) [] r.
  Proof. revert f. induction C as [|p C IH]; intros f; [cbn; by rewrite app_nil_r|]. cbn [map procs foldl proc registerVertex is_first_connector]. 
    change (procs (map Corner C) (Zigzag true k l (f ++ [p]) [] r) = Zigzag true k l (f ++ p :: C) [] r). rewrite IH. by rewrite <- app_assoc. Qed.
  Lemma procs_corners C k l f c r : procs (map Corner C) (Zigzag false k l f c r) = Zigzag false k l f (c ++ C) r.
  Proof. revert c. induction C as [|p C IH]; intros c; [cbn; by rewrite app_nil_r|]. cbn [map procs foldl proc registerVertex is_first_connector]. 
    change (procs (map Corner C) (Zigzag false k l f (c ++ [p]) r) = Zigzag false k l f (c ++ p :: C) r). rewrite IH. by rewrite <- app_assoc. Qed.

  Lemma rem_mod k n : 0 < n -> (Z.rem k n =? 0) = (k mod n =? 0).
  Proof. intros Hn. apply eq_true_iff_eq. rewrite !Z.eqb_eq. rewrite Z.rem_divide, Z.mod_divide by lia. done. Qed.

  Notation printed := (printed ue ce sk zc d shift).
  Lemma add_ok points e r : (2 <= length points)%nat -> addZagConnector ce points e r = r ++ [if e && negb ce then removelast points else points].
  Proof. intros H. unfold addZagConnector. destruct (Nat.ltb_spec (length points) 2); [lia|done]. Qed.
  Lemma should_ok k l p cs ar : Z.abs (k - l) <= 1 -> shouldAddCurrentConnector ue sk zc k l =
    if k =? l then ue else Z.even k && negb (skipped sk zc (Stretch k l (p :: cs) ar)).
  Proof.
    intros Hkl. unfold shouldAddCurrentConnector, skipped. cbn [from to]. rewrite rem_mod by lia. assert (Hev : (k mod 2 =? 0) = Z.even k) by (rewrite Zeven_mod; apply eq_true_iff_eq; rewrite Z.eqb_eq; apply Zeq_is_eq_bool). rewrite Hev. destruct (Z.eqb_spec k l) as [->|Hne]; cbn [negb andb].
    { rewrite andb_false_r. cbn. by rewrite andb_true_r. }
    rewrite andb_true_r, andb_false_r, orb_false_r. f_equal. f_equal. destruct sk, (Z.ltb_spec 0 zc); cbn [andb]; try done. destruct (Z.ltb_spec 0 (l - k)).
    - rewrite rem_mod by done. by rewrite Z.min_l by lia.
    - rewrite rem_mod by done. replace (k - 1) with l by lia. by rewrite Z.min_r by lia.
  Qed.
  Lemma fold_ok C0 k1 p1 : forall gs k p cs r,
    Forall (fun st => Z.abs (from st - to st) <= 1) (stretches_from C0 (k1, p1) ((k, p, cs) :: gs)) ->
    p.1 = x_of k -> Forall (fun g : Z * pt * list pt => g.1.2.1 = x_of g.1.1) gs ->
    registerPolyFinished ue ce sk zc (procs (concat (map (fun c => Cross c.1.1 c.1.2 :: map Corner c.2) gs)) (Zigzag false k1 k (C0 ++ [p1]) (p :: cs) r))
    = reset (r ++ concat (map printed (stretches_from C0 (k1, p1) ((k, p, cs) :: gs)))).
  Proof.
    induction gs as [|[[l q] cs'] gs IH]; intros k p cs r Hst Hp Hgs.
    - cbn [map concat procs foldl stretches_from fst snd]. rewrite app_nil_r. unfold registerPolyFinished. cbn [last_connector_index first_connector_end_scanline_index is_first_connector current_connector first_connector result orb negb andb].
      inversion Hst as [|? ? Hs _]; subst. cbn [from to fst] in Hs. rewrite (should_ok k k1 p (cs ++ C0 ++ [p1]) true) by done. unfold Zigzag_Spec.printed, endpiece. cbn [from to around course].
      rewrite !add_ok by (cbn; rewrite !app_length; cbn; lia).
      destruct (k =? k1); cbn [andb orb negb].
      + rewrite orb_false_r. rewrite andb_true_r. destruct ue; [|by rewrite app_nil_r]. f_equal. f_equal. f_equal. destruct ce; done.
      + destruct (Z.even k && _); [done|by rewrite app_nil_r].
    - inversion Hst as [|? ? Hs Hst']; subst. cbn [from to] in Hs. inversion Hgs as [|? ? Hq Hgs']; subst. cbn [fst snd] in Hq.
      cbn [map concat fst snd]. change ((Cross l q :: map Corner cs') ++ concat (map (fun c => Cross c.1.1 c.1.2 :: map Corner c.2) gs))
        with ([Cross l q] ++ map Corner cs' ++ concat (map (fun c => Cross c.1.1 c.1.2 :: map Corner c.2) gs)).
      rewrite !procs_app. set (s1 := procs [Cross l q] _).
      assert (E1 : s1 = Zigzag false k1 l (C0 ++ [p1]) [q] (r ++ printed (Stretch k l (p :: cs ++ [q]) false))).
      { unfold s1. cbn [procs foldl proc]. unfold registerScanlineSegmentIntersection. cbn [is_first_connector first_connector_end_scanline_index last_connector_index first_connector current_connector result].
        f_equal. rewrite (should_ok k l p (cs ++ [q]) false) by done. rewrite add_ok by (cbn; rewrite app_length; cbn; lia).
        assert (Eclose : handleConnectorTooCloseToSegment (Zigzag false k1 k (C0 ++ [p1]) (p :: cs) r) q.1 (d ÷ 4) = negb (far_enough d shift (Stretch k l (p :: cs ++ [q]) false))).
        { unfold handleConnectorTooCloseToSegment, far_enough. cbn [current_connector course to]. f_equal. rewrite Hq. change (l * d + shift) with (x_of l). 
          change (p :: cs ++ [q]) with ((p :: cs) ++ [q]). rewrite existsb_app. cbn [existsb]. rewrite orb_false_r.
          destruct (Z.leb_spec (d ÷ 4) (Z.abs (q.1 - x_of l))) as [H0|H0]; [|by rewrite orb_false_r]. rewrite Hq, Z.sub_diag in H0. cbn in H0.
          rewrite orb_true_r. replace (d ÷ 4 <=? Z.abs (p.1 - x_of l)) with true; [done|]. symmetry. apply Z.leb_le. lia. }
        rewrite Eclose, negb_involutive. unfold Zigzag_Spec.printed, endpiece. cbn [from to around course orb]. rewrite (Z.eqb_sym l k).
        destruct (Z.eqb_spec k l) as [->|Hne]; cbn [andb].
        - destruct (ue && _); [|by rewrite app_nil_r]. destruct ce; done.
        - assert (Hfar : far_enough d shift (Stretch k l (p :: cs ++ [q]) false) = true).
          { unfold far_enough. cbn [course to existsb]. apply orb_true_iff. left. apply Z.leb_le. rewrite Hp. unfold LineInfill_Model.x_of.
            assert (d ÷ 4 <= d). { rewrite Z.quot_div_nonneg by lia. apply Z.div_le_upper_bound; lia. } nia. }
          rewrite Hfar, andb_true_r. destruct (Z.even k && _); [done|by rewrite app_nil_r]. }
      rewrite E1, procs_corners. cbn [app]. rewrite (IH l q cs') by done.
      change (stretches_from C0 (k1, p1) ((k, p, cs) :: (l, q, cs') :: gs)) with (Stretch k l (p :: cs ++ [q]) false :: stretches_from C0 (k1, p1) ((l, q, cs') :: gs)).
      cbn [map concat]. by rewrite app_assoc.
  Qed.

  Lemma polygon_ok fuel poly p0 r : last poly = Some p0 -> (forall p q, p ∈ poly -> q ∈ poly -> (Z.to_nat (Z.abs (slot p - slot q)) < fuel)%nat) ->
    exists C0 gs s, zig_polygon ue ce sk zc d shift fuel p0 poly (registerVertex p0 (reset r)) = Ok s /\
      registerPolyFinished ue ce sk zc s = reset (r ++ connectors ue ce sk zc d shift C0 gs) /\
      tour d shift poly (stops_of C0 gs) /\ exact (poly_walk poly) (stops_of C0 gs).
  Proof.
    intros El Hf. assert (Hp0 : p0 ∈ poly) by (apply last_Some in El as [l' ->]; apply elem_of_app; right; left).
    destruct (zig_polygon_ok fuel poly p0 (registerVertex p0 (reset r))) as (parts & E & Hparts & Hx).
    { intros p q Hp Hq. apply Hf; [apply elem_of_cons in Hp as [->|]|apply elem_of_cons in Hq as [->|]]; done. }
    destruct (stops_of_ex (Corner p0 :: concat parts)) as (C0 & gs & Est). exists C0, gs. eexists. split; [exact E|].
    assert (Ht : tour d shift poly (stops_of C0 gs)). { exists p0, parts. split; [done|]. split; [done|]. by rewrite Est. }
    assert (Hex : exact (poly_walk poly) (stops_of C0 gs)).
    { unfold poly_walk. rewrite El, <- Est. intros k p Hin. apply elem_of_cons in Hin as [?|Hin]; [done|]. by apply Hx. }
    split; [|done]. 
    change (procs (concat parts) (registerVertex p0 (reset r))) with (procs (Corner p0 :: concat parts) (reset r)). rewrite Est. unfold stops_of. rewrite procs_app.
    unfold reset at 1. rewrite procs_corners_first. cbn [app]. destruct gs as [|[[k p] cs] gs].
    - cbn [map concat procs foldl]. unfold registerPolyFinished. cbn [last_connector_index first_connector_end_scanline_index is_first_connector current_connector first_connector result orb negb andb app].
      rewrite orb_false_r. cbn [connectors]. destruct ue; [|by rewrite app_nil_r]. rewrite add_ok; [destruct ce; done|].
      assert (Hlen : length C0 = length (Corner p0 :: concat parts)). { rewrite Est. unfold stops_of. cbn. by rewrite app_nil_r, map_length. }
      rewrite Hlen. cbn [length]. destruct poly as [|a poly]; [done|]. cbn [zip zip_with] in Hparts. inversion Hparts as [|? part ? parts' Ha _]; subst.
      destruct Ha as (cr & -> & _). cbn [concat]. rewrite !app_length. cbn. lia.
    - pose proof (tour_steps poly C0 _ Ht) as Hsteps. assert (Hall : Forall (fun g : Z * pt * list pt => g.1.2.1 = x_of g.1.1) ((k, p, cs) :: gs)).
      { apply Forall_forall. intros [[k' p'] cs'] Hin. destruct (Hex k' p') as (e & _ & -> & _); [|done]. unfold stops_of. apply elem_of_app. right.
        apply elem_of_list_In, in_concat. exists (Cross k' p' :: map Corner cs'). split; [|by left]. apply in_map_iff. exists (k', p', cs'). split; [done|by apply elem_of_list_In]. }
      inversion Hall as [|? ? Hp Hgs]; subst. cbn [fst snd] in Hp. cbn [map concat fst snd].
      change ((Cross k p :: map Corner cs) ++ concat (map (fun c => Cross c.1.1 c.1.2 :: map Corner c.2) gs))
        with ([Cross k p] ++ map Corner cs ++ concat (map (fun c => Cross c.1.1 c.1.2 :: map Corner c.2) gs)).
      rewrite !procs_app. cbn [procs foldl proc]. unfold registerScanlineSegmentIntersection at 1. cbn [is_first_connector first_connector result].
      fold (procs (map Corner cs) (Zigzag false k k (C0 ++ [p]) [p] r)). rewrite procs_corners. cbn [app].
      fold (procs (concat (map (fun c => Cross c.1.1 c.1.2 :: map Corner c.2) gs)) (Zigzag false k k (C0 ++ [p]) (p :: cs) r)).
      rewrite fold_ok; [done|exact Hsteps|done|done].
  Qed.

  Lemma polygons_ok fuel : forall polys r, (forall poly, poly ∈ polys -> poly <> [] /\ forall p q, p ∈ poly -> q ∈ poly -> (Z.to_nat (Z.abs (slot p - slot q)) < fuel)%nat) ->
    exists conns, zig_polygons ue ce sk zc d shift fuel polys (reset r) = Ok (reset (r ++ concat conns)) /\
      Forall2 (fun poly conn => exists C0 gs, conn = connectors ue ce sk zc d shift C0 gs /\ tour d shift poly (stops_of C0 gs) /\ exact (poly_walk poly) (stops_of C0 gs)) polys conns.
  Proof.
    induction polys as [|poly polys IH]; intros r Hp; cbn [zig_polygons].
    { exists []. split; [by rewrite app_nil_r|constructor]. }
    destruct (Hp poly ltac:(left)) as [Hne Hf]. destruct (last poly) as [p0|] eqn:El; [|by apply last_None in El]. cbn [of_opt rbind].
    destruct (polygon_ok fuel poly p0 r El Hf) as (C0 & gs & s & E & Efin & Ht & Hx). rewrite E. cbn [rbind]. rewrite Efin.
    destruct (IH (r ++ connectors ue ce sk zc d shift C0 gs)) as (conns & E2 & Hc); [intros q Hq; apply Hp; by right|].
    exists (connectors ue ce sk zc d shift C0 gs :: conns). rewrite E2. cbn [concat]. rewrite app_assoc. split; [done|]. constructor; [|done]. by exists C0, gs.
  Qed.
End walk.

Lemma pairs_cover (y : Z) : forall n l, (length l <= n)%nat -> Nat.odd (length l) = false -> y ∈ l -> exists z, (y, z) ∈ pairs l \/ (z, y) ∈ pairs l.
Proof.
  induction n as [|n IH]; intros l Hn He Hy; (destruct l as [|u [|v l]]; [by apply elem_of_nil in Hy|done|]); cbn [length] in Hn; [lia|].
  cbn [pairs]. apply elem_of_cons in Hy as [->|Hy]; [exists v; left; left|]. apply elem_of_cons in Hy as [->|Hy]; [exists u; right; left|].
  destruct (IH l) as (z & [Hz|Hz]); [lia|by cbn [length] in He; rewrite Nat.odd_succ, Nat.even_succ in He|done|exists z; left; by right|exists z; right; by right].
Qed.
Lemma pairs_le (l : list Z) u v : StronglySorted Z.le l -> (u, v) ∈ pairs l -> u <= v.
Proof.
  intros Hs Hp. destruct (exists_fresh l) as [y Hy]. destruct (pairs_inside y (length l) l (le_n _) Hs Hy) as [H _]. by destruct (H u v Hp) as (A & _).
Qed.

Section main.
  Context (ue ce sk : bool) (zc : Z).
  Context (apply unapply : pt -> pt) (outline : list (list pt)) (d total_shift w : Z).
  Hypothesis Hd : 0 < d.
  Hypothesis Hw : 0 <= w.
  Hypothesis Hne : forall poly, poly ∈ outline -> poly <> [].
  Notation transformed := (map (map apply) outline).

  (** C68: zigzag infill is the lines of C67, and polylines along the outline according to [connectors]; these lead from one end of a line
      to another one. *)
  Theorem C68_zigzag fuel :
    (Z.to_nat ((bmax (aabb_calculate_shape transformed)).1 - (bmin (aabb_calculate_shape transformed)).1) + 2 <= fuel)%nat ->
    exists shift conns lines all,
      0 <= shift <= d /\ (exists k, total_shift = k * d + shift) /\
      generateZigZagInfill ue ce sk zc apply unapply fuel outline d total_shift w
        = Ok (map (map unapply) (concat conns ++ map (fun s => [s.1; s.2]) lines)) /\
      generateLines apply id fuel outline d total_shift w = Ok lines /\
      generateLines apply id fuel outline d total_shift 0 = Ok all /\
      (forall a b, (a, b) ∈ lines <-> (a, b) ∈ all /\ w ÷ 5 <= b.2 - a.2) /\
      Forall2 (fun poly conn => exists corners crossings,
        tour d shift poly (stops_of corners crossings) /\ conn = connectors ue ce sk zc d shift corners crossings /\
        (forall k p cs, (k, p, cs) ∈ crossings -> rightmost transformed p.1 \/ exists q, (p, q) ∈ all \/ (q, p) ∈ all)) transformed conns.
  Proof.
    intros Hfuel. set (shift := shift_of d total_shift). exists shift. unfold generateZigZagInfill, generateLines. replace (d =? 0) with false by (symmetry; apply Z.eqb_neq; lia). cbn [orb].
    assert (Hsh : 0 <= shift <= d).
    { unfold shift, shift_of. destruct (Z.ltb_spec total_shift 0).
      - pose proof (Z.rem_bound_pos (- total_shift) d ltac:(lia) Hd). lia.
      - pose proof (Z.rem_bound_pos total_shift d ltac:(lia) Hd). lia. }
    destruct outline as [|poly0 rest] eqn:Eout.
    { exists [], [], []. split; [done|]. split; [by apply shift_of_ok|]. split; [done|]. split; [done|]. split; [done|]. split; [|constructor].
      intros a b. split; [intros H; by apply elem_of_nil in H|intros [H _]; by apply elem_of_nil in H]. }
    rewrite <- Eout in *. cbv zeta. fold shift.
    set (box := aabb_calculate_shape transformed) in *. set (lo := ((bmin box).1 - shift) / d). set (n := Z.to_nat (((bmax box).1 - shift) / d + 1 - lo)).
    assert (Hn : (n < fuel)%nat).
    { unfold n, lo. pose proof (Z.div_mod ((bmin box).1 - shift) d ltac:(lia)). pose proof (Z.mod_pos_bound ((bmin box).1 - shift) d Hd).
      pose proof (Z.div_mod ((bmax box).1 - shift) d ltac:(lia)). pose proof (Z.mod_pos_bound ((bmax box).1 - shift) d Hd).
      set (q1 := ((bmin box).1 - shift) / d) in *. set (q2 := ((bmax box).1 - shift) / d) in *.
      assert (d * (q2 - q1) < (bmax box).1 - (bmin box).1 + d) by lia.
      destruct (decide (q2 - q1 <= 0)); [lia|]. assert (q2 - q1 - 1 < (bmax box).1 - (bmin box).1 \/ (q2 - q1 - 1 = 0 /\ 0 <= (bmax box).1 - (bmin box).1 )) by nia. lia. }
    assert (Hbox : forall p, p ∈ concat transformed -> in_box box p).
    { intros p Hp. unfold box. rewrite C24_shape_box. unfold aabb_calculate. by apply include_points_spec. }
    assert (Hin : forall poly p, poly ∈ transformed -> p ∈ poly -> p ∈ concat transformed).
    { intros poly p H1 H2. apply elem_of_list_In, in_concat. exists poly. split; by apply elem_of_list_In. }
    destruct (crossings_ok apply outline d total_shift Hd Hne fuel ltac:(by rewrite Eout) Hn) as (rows & E & Hlen & Hrows). fold shift in E, Hlen, Hrows. fold box in E, Hlen, Hrows. fold lo in E, Hlen, Hrows. fold n in Hlen, Hrows.
    destruct (polygons_ok ue ce sk zc d shift Hd fuel transformed []) as (conns & Ez & Hconns).
    { intros poly Hp. split.
      - change (map ?f ?l) with (f <$> l) in Hp. apply elem_of_list_fmap in Hp as (poly1 & -> & Hp). intros H. apply fmap_nil_inv in H. by apply (Hne poly1).
      - assert (Hslot : forall p, p ∈ poly -> lo <= slot d shift p < lo + Z.of_nat n).
        { intros p Hpp. destruct (Hbox p (Hin _ _ Hp Hpp)) as [[H1 H2] _]. assert (lo <= slot d shift p) by (unfold lo, slot; apply Z.div_le_mono; lia).
          assert (slot d shift p <= ((bmax box).1 - shift) / d) by (unfold slot; apply Z.div_le_mono; lia). unfold n. lia. }
        intros p q Hpp Hq. pose proof (Hslot p Hpp). pose proof (Hslot q Hq). lia. }
    rewrite Ez, E. cbn [rbind fst snd app]. set (lines := addLineInfill d w (lo * d + shift) (bmax box).1 rows).
    exists conns, lines, (addLineInfill d 0 (lo * d + shift) (bmax box).1 rows). split; [done|]. split; [by apply shift_of_ok|].
    assert (Hcuts : forall k e, e ∈ concat (map poly_walk transformed) -> cuts (x_of d shift k) e = true -> lo < k < lo + Z.of_nat n /\ x_of d shift k <= (bmax box).1).
    { intros k e He Hc. rewrite walks_edges in He. destruct (edge_ends _ _ He) as [He1 He2]. destruct (Hbox _ He1) as [[A1 A2] _]. destruct (Hbox _ He2) as [[B1 B2] _].
      assert (Hmin : (bmin box).1 < x_of d shift k <= (bmax box).1).
      { unfold cuts in Hc. rewrite orb_true_iff, !andb_true_iff, !Z.ltb_lt, !Z.leb_le in Hc. lia. }
      pose proof (x_of_lt d shift Hd k (bmin box).1) as Hx1. pose proof (x_of_lt d shift Hd k (bmax box).1) as Hx2. fold lo in Hx1. unfold n. lia. }
    split.
    { f_equal. f_equal. f_equal. destruct rows as [|row0 rows']; [done|]. destruct (ce && (length (row0 :: rows') =? 1)%nat && (length (default [] (head (row0 :: rows'))) <=? 2)%nat) eqn:Eret; [|done].
      apply andb_true_iff in Eret as [Eret _]. apply andb_true_iff in Eret as [_ Eret]. apply Nat.eqb_eq in Eret. destruct rows'; [|done].
      destruct (Hrows 0%nat) as (c & Ec & Hc); [rewrite <- Hlen; cbn; lia|]. cbn in Ec. injection Ec as <-.
      assert (row0 = []) as ->.
      { destruct row0 as [|c row0]; [done|]. exfalso. assert (Hc1 : cy c ∈ map cy (c :: row0)) by left. rewrite Hc in Hc1. unfold ys in Hc1. change (map ?f (List.filter ?g ?l)) with (f <$> List.filter g l) in Hc1.
        apply elem_of_list_fmap in Hc1 as (e & _ & He). apply elem_of_list_In, filter_In in He as [He1 He2]. apply elem_of_list_In in He1. destruct (Hcuts _ e He1 He2) as [? _]. lia. }
      unfold lines. cbn. by destruct (_ <? _). }
    split; [f_equal; rewrite <- (map_id lines) at 2; apply map_ext; by intros [? ?]|].
    split; [f_equal; rewrite <- (map_id (addLineInfill d 0 _ _ _)) at 2; apply map_ext; by intros [? ?]|].
    split.
    { intros a b. unfold lines. rewrite !add_elem by done. split.
      - intros (r & c & Er & Hmax & Hs). apply scanline_elem in Hs as (u & v & Huv & Hl & [= -> ->]). cbn [fst snd]. split; [|done].
        exists r, c. split; [done|]. split; [done|]. apply scanline_elem. exists u, v. split; [done|]. split; [|done]. change (0 ÷ 5) with 0.
        assert (0 <= w ÷ 5) by (apply Z.quot_pos; lia). lia.
      - intros [(r & c & Er & Hmax & Hs) Hl]. apply scanline_elem in Hs as (u & v & Huv & _ & [= -> ->]). cbn [fst snd] in Hl. exists r, c. split; [done|]. split; [done|].
        apply scanline_elem. by exists u, v. }
    assert (Hx : forall r, lo * d + shift + Z.of_nat r * d = x_of d shift (lo + Z.of_nat r)) by (intros r; unfold x_of; lia).
    assert (Hmem : forall poly, poly ∈ transformed -> poly ∈ transformed) by done. clear Ez. revert Hconns Hmem. generalize transformed at 1 2 5. intros polys Hconns Hmem.
    induction Hconns as [|poly conn polys conns' (C0 & gs & -> & Ht & Hex) _ IH]; [constructor|]. assert (Hp : poly ∈ transformed) by (apply Hmem; left). constructor; [|apply IH; intros q Hq; apply Hmem; by right].
    exists C0, gs. split; [done|]. split; [done|]. intros k p cs Hg.
    destruct (Hex k p) as (e & He & -> & Hc).
    { unfold stops_of. apply elem_of_app. right. apply elem_of_list_In, in_concat. exists (Cross k p :: map Corner cs). split; [|by left]. apply in_map_iff. exists (k, p, cs). split; [done|by apply elem_of_list_In]. }
    assert (He' : e ∈ concat (map poly_walk transformed)).
    { apply elem_of_list_In, in_concat. exists (poly_walk poly). split; [apply in_map; by apply elem_of_list_In|by apply elem_of_list_In]. }
    destruct (Hcuts k e He' Hc) as [Hk Hkmax]. cbn [fst]. destruct (decide (x_of d shift k = (bmax box).1)) as [Hr|Hr].
    { left. intros poly1 q H1 H2. destruct (Hbox q (Hin _ _ H1 H2)) as [[? ?] _]. lia. }
    right. set (r := Z.to_nat (k - lo)). destruct (Hrows r) as (c & Ec & Hcy); [unfold r; lia|]. replace (lo + Z.of_nat r) with k in Hcy by (unfold r; lia).
    destruct (row_pairs apply outline c (x_of d shift k) Hcy) as (Hsort & Heven & Hmem2 & _).
    assert (Hy : edge_y e.1 e.2 (x_of d shift k) ∈ map cy (sort_crossings c)).
    { apply Hmem2. rewrite <- ys_perm. unfold ys. change (map ?f (List.filter ?g ?l)) with (f <$> List.filter g l). apply elem_of_list_fmap. exists e. split; [done|].
      apply elem_of_list_In, filter_In. split; [by apply elem_of_list_In|done]. }
    destruct (pairs_cover _ _ _ (le_n _) Heven Hy) as (z & Hz).
    assert (Hadd : forall u v, (u, v) ∈ pairs (map cy (sort_crossings c)) -> ((x_of d shift k, u), (x_of d shift k, v)) ∈ addLineInfill d 0 (lo * d + shift) (bmax box).1 rows).
    { intros u v Huv. pose proof (pairs_le _ _ _ Hsort Huv) as Hle. apply add_elem; [done|]. exists r, c. rewrite Hx. replace (lo + Z.of_nat r) with k by (unfold r; lia). split; [done|].
      split; [lia|]. apply scanline_elem. rewrite pairs_map in Huv. change (map ?f ?l) with (f <$> l) in Huv. apply elem_of_list_fmap in Huv as ([ca cb] & [= -> ->] & Hp'). exists ca, cb. split; [done|]. change (0 ÷ 5) with 0. split; [lia|done]. }
    exists (x_of d shift k, z). destruct Hz as [Hz|Hz]; [left|right]; by apply Hadd.
  Qed.
End main.

(** ** which ends are connected *)
Lemma stretches_lookup C0 first : forall gs i st, stretches_from C0 first gs !! i = Some st ->
  exists k p cs, gs !! i = Some (k, p, cs) /\ from st = k /\ head (course st) = Some p /\
    match gs !! S i with
    | Some (l, q, _) => to st = l /\ last (course st) = Some q
    | None => S i = length gs /\ to st = first.1 /\ last (course st) = Some first.2
    end.
Proof.
  induction gs as [|[[k p] cs] gs IH]; intros i st E; [done|]. destruct gs as [|[[l q] cs'] gs].
  - destruct i as [|i]; [|done]. cbn in E. injection E as <-. exists k, p, cs. cbn [from to course]. split; [done|]. split; [done|]. split; [done|]. cbn. split; [done|]. split; [done|].
    rewrite app_assoc. by rewrite app_comm_cons, last_snoc.
  - change (stretches_from C0 first ((k, p, cs) :: (l, q, cs') :: gs)) with (Stretch k l (p :: cs ++ [q]) false :: stretches_from C0 first ((l, q, cs') :: gs)) in E.
    destruct i as [|i].
    + cbn in E. injection E as <-. exists k, p, cs. cbn. split; [done|]. split; [done|]. split; [done|]. split; [done|]. by rewrite app_comm_cons, last_snoc.
    + change (stretches_from C0 first ((l, q, cs') :: gs) !! i = Some st) in E. destruct (IH i st E) as (k' & p' & cs2 & E1 & H1 & H2 & H3). exists k', p', cs2. split; [exact E1|]. split; [done|]. split; [done|].
      change (((k, p, cs) :: (l, q, cs') :: gs) !! S (S i)) with (((l, q, cs') :: gs) !! S i). destruct (((l, q, cs') :: gs) !! S i) as [[[? ?] ?]|]; [done|]. cbn [length] in *. destruct H3 as (? & ? & ?). split; [lia|done].
Qed.
Lemma stretches_length C0 first gs : length (stretches_from C0 first gs) = length gs.
Proof. induction gs as [|[[k p] cs] gs IH]; [done|]. destruct gs as [|[[l q] cs'] gs]; [done|].
  change (S (length (stretches_from C0 first ((l, q, cs') :: gs))) = S (length ((l, q, cs') :: gs))). by rewrite IH. Qed.

(** C68: stretches lead to a neighbouring scanline or back to the same one, each begins where the one before it ends, and of two successive
    connections one is printed at most, or exactly one unless some are to be skipped. *)
Theorem C68_one_connector ue ce sk zc d shift poly corners crossings : 0 < d -> tour d shift poly (stops_of corners crossings) ->
  let sts := stretches corners crossings in
  forall i st st', sts !! i = Some st -> sts !! (S i mod length sts)%nat = Some st' ->
    Z.abs (from st - to st) <= 1 /\ to st = from st' /\ last (course st) = head (course st') /\
    (from st <> to st -> from st' <> to st' ->
      (printed ue ce sk zc d shift st = [] \/ printed ue ce sk zc d shift st' = []) /\
      (sk = false -> printed ue ce sk zc d shift st = [course st] \/ printed ue ce sk zc d shift st' = [course st'])).
Proof.
  intros Hd Ht sts i st st' Ei Ej. pose proof (tour_steps d shift Hd poly corners crossings Ht) as Hsteps. fold sts in Hsteps. rewrite Forall_forall in Hsteps.
  pose proof (Hsteps st ltac:(by eapply elem_of_list_lookup_2)) as H1. pose proof (Hsteps st' ltac:(by eapply elem_of_list_lookup_2)) as H2.
  split; [done|]. assert (Hto : to st = from st' /\ last (course st) = head (course st')).
  { unfold sts, stretches in *. destruct crossings as [|[[k1 p1] cs1] gs]; [done|]. set (g := (k1, p1, cs1) :: gs) in *. rewrite stretches_length in Ej.
    destruct (stretches_lookup _ _ _ _ _ Ei) as (k & p & cs & E1 & <- & Hh & Hn). apply lookup_lt_Some in E1 as Hlt.
    destruct (stretches_lookup _ _ _ _ _ Ej) as (k' & p' & cs' & E1' & <- & Hh' & _).
    destruct (g !! S i) as [[[l q] cs2]|] eqn:Es.
    - apply lookup_lt_Some in Es as Hlt2. rewrite Nat.mod_small in E1' by lia. rewrite Es in E1'. injection E1' as -> -> ->. destruct Hn as [-> ->]. by rewrite Hh'.
    - destruct Hn as (Hl & -> & ->). rewrite Hl, Nat.mod_same in E1' by (cbn; lia). cbn in E1'. injection E1' as <- <- <-. rewrite Hh'. done. }
  destruct Hto as [Hto Hlast]. split; [done|]. split; [done|]. intros Hn Hn'.
  assert (Heven : Z.even (from st') = negb (Z.even (from st))).
  { rewrite <- Hto. assert (to st = from st + 1 \/ to st = from st - 1) as [-> | ->] by lia.
    - by rewrite Z.add_1_r, Z.even_succ, <- Z.negb_even.
    - by rewrite Z.sub_1_r, Z.even_pred, <- Z.negb_even. }
  unfold printed, endpiece. rewrite (proj2 (Z.eqb_neq _ _) Hn), (proj2 (Z.eqb_neq _ _) Hn'), Heven. split.
  - destruct (Z.even (from st)); cbn [negb andb]; [by right|by left].
  - intros ->. unfold skipped. cbn [andb negb]. destruct (Z.even (from st)); [by left|by right].
Qed.

(** ** Refuted: end pieces are left out if they stay close to the scanline, except where the polygon begins: which ones are printed depends on the
    corner at which the same outline begins *)
Theorem C68_close_endpiece_refuted :
  exists poly d w, (forall p, p ∈ poly -> p ∈ tail poly ++ firstn 1 poly) /\
    generateZigZagInfill true true false 0 id id 300 [poly] d 0 w <> generateZigZagInfill true true false 0 id id 300 [tail poly ++ firstn 1 poly] d 0 w /\
    (forall r r', generateZigZagInfill true true false 0 id id 300 [poly] d 0 w = Ok r -> generateZigZagInfill true true false 0 id id 300 [tail poly ++ firstn 1 poly] d 0 w = Ok r' ->
      length r <> length r').
Proof.
  exists [(210, 0); (210, 90); (10, 90); (10, 0)], 100, 10. split; [intros p Hp; cbn in *; set_solver|]. split.
  - vm_compute. congruence.
  - intros r r' E E'. vm_compute in E, E'. injection E as <-. injection E' as <-. done.
Qed.

(** ** an example: a rectangle with four lines; tours as [C68_one_connector] needs them come from [C68_zigzag] *)
Example C68_nonvacuous :
  let outline := [[(0, 0); (110, 0); (110, 50); (0, 50)]] in
  let lines := [[(10, 0); (10, 50)]; [(40, 0); (40, 50)]; [(70, 0); (70, 50)]; [(100, 0); (100, 50)]] in
  (forall poly, poly ∈ outline -> poly <> []) /\
  generateZigZagInfill false false false 0 id id 300 outline 30 10 5 = Ok ([[(10, 0); (40, 0)]; [(70, 0); (100, 0)]; [(70, 50); (40, 50)]] ++ lines) /\
  generateZigZagInfill true false false 0 id id 300 outline 30 10 5
    = Ok ([[(10, 0); (40, 0)]; [(70, 0); (100, 0)]; [(100, 0); (110, 0); (110, 50)]; [(70, 50); (40, 50)]; [(10, 50); (0, 50); (0, 50); (0, 0)]] ++ lines) /\
  generateZigZagInfill true true true 2 id id 300 outline 30 10 5
    = Ok ([[(100, 0); (110, 0); (110, 50); (100, 50)]; [(70, 50); (40, 50)]; [(10, 50); (0, 50); (0, 50); (0, 0); (10, 0)]] ++ lines).
Proof.
  split; [intros poly H; apply elem_of_list_singleton in H as ->; done|]. split; [vm_compute; reflexivity|]. split; vm_compute; reflexivity.
Qed.

Print Assumptions C68_zigzag.
Print Assumptions C68_one_connector.
Print Assumptions C68_close_endpiece_refuted.
