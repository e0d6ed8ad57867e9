(** C66: combining the infill of several layers. *)
From Coq Require Import ZArith Lia.
From stdpp Require Import prelude list.
From Verif Require Import Common Geo_Model Box_Model Carve_Model Combine_Model Combine_Spec.
Local Open Scope nat_scope.

Definition cell (layer : clayer) (j d : nat) : option (list area) :=
  match layer !! j with Some q => c_areas q !! d | None => None end.
Definition has (layer : clayer) (j : nat) (p : pt) : Prop := exists q, layer !! j = Some q /\ c_infill q p = true.
Definition newest (l : list area) (p : pt) : Prop := exists a, last l = Some a /\ a p = true.

(** the parts and the numbers of their densities stay the same *)
Definition same_part (q q' : cpart) : Prop := c_infill q = c_infill q' /\ c_box q = c_box q' /\ length (c_areas q) = length (c_areas q').
Notation same_layer := (Forall2 same_part).

(** the thin infill gets smaller, where [P] holds *)
Definition shrunk (P : pt -> Prop) (o o' : option (list area)) : Prop :=
  match o with
  | None => o' = None
  | Some [] => o' = Some []
  | Some (h :: t) => exists h', o' = Some (h' :: t) /\
      forall p, (h' p = true -> h p = true) /\ (h p = true -> h' p = false -> P p)
  end.
Lemma shrunk_refl P o : shrunk P o o.
Proof. destruct o as [[|h t]|]; cbn; [done| |done]. exists h. split; [done|]. intros p. split; [done|]. intros H1 H2. congruence. Qed.
Lemma shrunk_trans (P Q R : pt -> Prop) o1 o2 o3 : shrunk P o1 o2 -> shrunk Q o2 o3 -> (forall p, P p \/ Q p -> R p) -> shrunk R o1 o3.
Proof.
  destruct o1 as [[|h t]|]; cbn; [intros -> H _; by cbn in H| |intros -> H _; by cbn in H].
  intros (h' & -> & H1) (h'' & -> & H2) HR. exists h''. split; [done|]. intros p. destruct (H1 p) as [A1 A2], (H2 p) as [B1 B2].
  split; [by intros Hp; apply A1, B1|]. intros Hp Hn. apply HR. destruct (h' p) eqn:E; [right; by apply B2|left; by apply A2].
Qed.
Lemma shrunk_mono (P Q : pt -> Prop) o o' : shrunk P o o' -> (forall p, P p -> Q p) -> shrunk Q o o'.
Proof. intros H HQ. apply (shrunk_trans P P _ _ o'); [done|apply shrunk_refl|]. intros p [?|?]; by apply HQ. Qed.
(** a place gone from the thin infill stays gone *)
Definition gone (o : option (list area)) (p : pt) : Prop := forall h t, o = Some (h :: t) -> h p = false.
Lemma gone_shrunk P o o' p : shrunk P o o' -> gone o p -> gone o' p.
Proof.
  destruct o as [[|h t]|]; cbn; [intros -> _ h t E; done| |intros -> _ h t E; done].
  intros (h' & -> & H) Hg h2 t2 [= <- <-]. destruct (h' p) eqn:E; [|done]. destruct (H p) as [H1 _]. specialize (H1 E). rewrite (Hg h t eq_refl) in H1. done.
Qed.

Lemma same_refl l : same_layer l l.
Proof. induction l; constructor; done. Qed.
Lemma same_trans l1 l2 l3 : same_layer l1 l2 -> same_layer l2 l3 -> same_layer l1 l3.
Proof.
  intros H. revert l3. induction H as [|q1 q2 l1 l2 (A & B & C) _ IH]; intros l3 H3; inversion H3 as [|? q3 ? l3' (A' & B' & C')]; subst; constructor; [|by apply IH].
  split_and!; congruence.
Qed.
Lemma same_has l l' j p : same_layer l l' -> has l j p -> has l' j p.
Proof. intros H (q & E & Hp). destruct (Forall2_lookup_l _ _ _ _ _ H E) as (q' & E' & (A & _)). exists q'. split; [done|congruence]. Qed.
Lemma same_sym l l' : same_layer l l' -> same_layer l' l.
Proof. induction 1 as [|q1 q2 l1 l2 (A & B & C) _ IH]; constructor; [done|done]. Qed.

Definition reach (d : nat) (last : bool) (d' : nat) : Prop := d' = d \/ (last = true /\ d <= d').
Definition nonempty_cells (l : clayer) : Prop := forall j d, cell l j d <> Some [].
Lemma nonempty_shrunk l l' : (forall j d, exists P, shrunk P (cell l j d) (cell l' j d)) -> nonempty_cells l -> nonempty_cells l'.
Proof.
  intros H Hne j d E. destruct (H j d) as [P HP]. rewrite E in HP. specialize (Hne j d). destruct (cell l j d) as [[|h t]|]; [done| |done].
  destruct HP as (h' & E' & _). done.
Qed.

Section combine.
  Variable open : area -> area.
  Hypothesis open_within : forall a p, open a p = true -> a p = true.

  Lemma remove_ok d lst a ls : forall i, (forall l, l ∈ ls -> l <> []) -> exists ls', remove_thin d lst a i ls = Ok ls' /\
    length ls' = length ls /\
    (forall x, shrunk (fun p => a p = true /\ reach d lst (i + x)) (ls !! x) (ls' !! x)) /\
    (forall x p, i + x = d -> a p = true -> gone (ls' !! x) p).
  Proof.
    induction ls as [|l ls IH]; intros i Hne; cbn [remove_thin].
    { exists []. split; [done|]. split; [done|]. split; [intros x; done|intros x p _ _ h t E; done]. }
    destruct (IH (S i)) as (ls' & E & Hlen & Hsh & Hg); [intros l' Hl'; apply Hne; by right|].
    destruct l as [|h t]; [exfalso; by apply (Hne [] (elem_of_list_here _ _))|].
    destruct ((i =? d) || (lst && (d <=? i))) eqn:Eb; cbn [rbind]; rewrite E; cbn [rbind]; eexists; (split; [reflexivity|]); cbn [length];
      (split; [by rewrite Hlen|]); split.
    - intros [|x]; cbn [lookup list_lookup].
      + exists (a_sub h a). split; [done|]. intros p. unfold a_sub. destruct (h p), (a p); cbn; (split; [done|]); try done. intros _ _. split; [done|].
        rewrite Nat.add_0_r. apply orb_true_iff in Eb as [Eb|Eb]; [left; by apply Nat.eqb_eq|right]. apply andb_true_iff in Eb as [-> Eb]. split; [done|by apply Nat.leb_le].
      + apply (shrunk_mono _ _ _ _ (Hsh x)). intros p. by replace (S i + x) with (i + S x) by lia.
    - intros [|x] p Hx Ha; cbn [lookup list_lookup]; [|apply Hg; [lia|done]]. intros h' t' [= <- <-]. unfold a_sub. by rewrite Ha, andb_false_r.
    - intros [|x]; cbn [lookup list_lookup]; [apply shrunk_refl|]. apply (shrunk_mono _ _ _ _ (Hsh x)). intros p. by replace (S i + x) with (i + S x) by lia.
    - intros [|x] p Hx Ha; cbn [lookup list_lookup]; [|apply Hg; [lia|done]]. apply orb_false_iff in Eb as [Eb _]. apply Nat.eqb_neq in Eb. lia.
  Qed.

  Lemma density_ok box d lst : forall lower here, nonempty_cells lower -> exists thick rest lower',
    combine_density open box d lst here lower = Ok (thick, rest, lower') /\ same_layer lower lower' /\
    (forall p, (rest p = true <-> here p = true /\ thick p = false) /\ (thick p = true -> here p = true)) /\
    (forall p, thick p = true -> exists j, has lower j p /\ gone (cell lower' j d) p) /\
    (forall j d', shrunk (fun p => thick p = true /\ reach d lst d') (cell lower j d') (cell lower' j d')).
  Proof.
    induction lower as [|q lower IH]; intros here Hne; cbn [combine_density].
    { exists a_empty, here, []. split; [done|]. split; [constructor|]. split; [intros p; split; [|done]; split; [done|by intros [? _]]|]. split; [done|].
      intros j d'. done. }
    assert (Hne' : nonempty_cells lower) by (intros j x; exact (Hne (S j) x)).
    destruct (aabb_hit box (c_box q)).
    2:{ destruct (IH here Hne') as (thick & rest & lower' & E & Hs & Hp & Hg & Hsh). rewrite E. cbn [rbind fst snd].
        eexists _, _, _. split; [reflexivity|]. split; [constructor; [done|done]|]. split; [done|]. split.
        - intros p Ht. destruct (Hg p Ht) as (j & (q' & Eq & Hq) & Hgone). exists (S j). split; [by exists q'|done].
        - intros [|j] d'; [apply shrunk_refl|apply Hsh]. }
    set (I := open (a_inter here (c_infill q))).
    assert (HI : forall p, I p = true -> here p = true /\ c_infill q p = true).
    { intros p Hp. apply open_within in Hp. unfold a_inter in Hp. by apply andb_true_iff in Hp. }
    destruct (remove_ok d lst I (c_areas q) 0) as (areas & Er & Hlen & Hrs & Hrg).
    { intros l Hl ->. apply elem_of_list_lookup in Hl as [x Hx]. apply (Hne 0 x). done. }
    cbv zeta. fold I. rewrite Er. cbn [rbind].
    destruct (IH (a_sub here I) Hne') as (thick & rest & lower' & E & Hs & Hp & Hg & Hsh). rewrite E. cbn [rbind fst snd].
    eexists _, _, _. split; [reflexivity|]. split; [constructor; [done|done]|]. split; [|split].
    - intros p. destruct (Hp p) as [H1 H2]. unfold a_sub in H1, H2. unfold a_union. split.
      + rewrite H1. rewrite andb_true_iff, negb_true_iff, orb_false_iff. tauto.
      + intros Hu. apply orb_true_iff in Hu as [Hu|Hu]; [by apply HI|]. specialize (H2 Hu). by apply andb_true_iff in H2 as [? _].
    - intros p Hu. unfold a_union in Hu. destruct (I p) eqn:EI.
      + exists 0. split; [exists q; split; [done|by apply HI]|]. intros h t. cbn. apply (Hrg d p eq_refl EI).
      + cbn [orb] in Hu. destruct (Hg p Hu) as (j & (q' & Eq & Hq) & Hgone). exists (S j). split; [by exists q'|done].
    - intros [|j] d'.
      + unfold cell. cbn [lookup list_lookup c_areas]. apply (shrunk_mono _ _ _ _ (Hrs d')). intros p [Hi Hr]. split; [unfold a_union; by rewrite Hi|done].
      + apply (shrunk_mono _ _ _ _ (Hsh j d')). intros p [Ht Hr]. split; [unfold a_union; by rewrite Ht, orb_true_r|done].
  Qed.

  (** what a round does to the areas of a density *)
  Definition raised (cc : nat) (lower lower' : clayer) (d : nat) (l l' : list area) : Prop :=
    exists r rest thick, l !! (cc - 1) = Some r /\ l' = <[cc - 1 := rest]> l ++ [thick] /\
      forall p, (rest p = true <-> r p = true /\ thick p = false) /\ (thick p = true -> r p = true) /\
        (thick p = true -> exists j, has lower j p /\ gone (cell lower' j d) p).

  Lemma densities_ok cc box : forall ls d lower, 1 <= cc -> (forall l, l ∈ ls -> length l = cc) -> nonempty_cells lower ->
    exists ls' lower', combine_densities open cc box d ls lower = Ok (ls', lower') /\ length ls' = length ls /\ same_layer lower lower' /\
      (forall i l, ls !! i = Some l -> exists l', ls' !! i = Some l' /\ raised cc lower lower' (d + i) l l') /\
      (forall j d', shrunk (fun p => exists i l', ls' !! i = Some l' /\ newest l' p /\ reach (d + i) (S i =? length ls) d') (cell lower j d') (cell lower' j d')).
  Proof.
    induction ls as [|l ls IH]; intros d lower Hcc Hlen Hne; cbn [combine_densities].
    { exists [], lower. split; [done|]. split; [done|]. split; [apply same_refl|]. split; [intros i l E; done|]. intros j d'. apply shrunk_refl. }
    assert (Hl : length l = cc) by (apply Hlen; left).
    destruct (lookup_lt_is_Some_2 l (cc - 1)) as [r Hr]; [lia|]. rewrite Hr. cbn [of_opt rbind].
    destruct (density_ok box d (match ls with [] => true | _ => false end) lower r Hne) as (thick & rest & low1 & E & Hs & Hp & Hg & Hsh).
    rewrite E. cbn [rbind fst snd].
    assert (Hne1 : nonempty_cells low1) by (apply (nonempty_shrunk lower); [intros j x; eexists; apply Hsh|done]).
    destruct (IH (S d) low1 Hcc ltac:(intros l' Hl'; apply Hlen; by right) Hne1) as (ls' & low2 & E2 & Hlen2 & Hs2 & Hr2 & Hsh2).
    rewrite E2. cbn [rbind fst snd]. eexists _, _. split; [reflexivity|]. split; [cbn [length]; by rewrite Hlen2|]. split; [by apply (same_trans _ low1)|]. split.
    - intros [|i] x Hx; cbn in Hx.
      + injection Hx as <-. eexists. split; [reflexivity|]. rewrite Nat.add_0_r. exists r, rest, thick. split; [done|]. split; [done|].
        intros p. destruct (Hp p) as [H1 H2]. split; [done|]. split; [done|]. intros Ht. destruct (Hg p Ht) as (j & Hj & Hgone).
        exists j. split; [done|]. by apply (gone_shrunk _ _ _ _ (Hsh2 j d)).
      + destruct (Hr2 i x Hx) as (l' & El' & (r' & rest' & thick' & R1 & R2 & R3)). exists l'. split; [done|].
        replace (d + S i) with (S d + i) by lia. exists r', rest', thick'. split; [done|]. split; [done|]. intros p. destruct (R3 p) as (P1 & P2 & P3).
        split; [done|]. split; [done|]. intros Ht. destruct (P3 Ht) as (j & Hj & Hgone). exists j. split; [|done]. by apply (same_has low1); [apply same_sym|].
    - intros j d'. eapply shrunk_trans; [apply Hsh|apply Hsh2|]. intros p [[Ht Hre]|(i & l' & El' & Hn & Hre)].
      + exists 0. eexists. split; [reflexivity|]. split; [exists thick; split; [by rewrite last_snoc|done]|]. rewrite Nat.add_0_r.
        cbn [length]. destruct ls as [|l2 ls2]; cbn; done.
      + exists (S i), l'. split; [done|]. split; [done|]. replace (d + S i) with (S d + i) by lia. exact Hre.
  Qed.

  Definition is_last (layer : clayer) (j d : nat) : bool := match layer !! j with Some q => S d =? length (c_areas q) | None => false end.

  Lemma layer_ok cc : forall layer lower, 1 <= cc -> (forall j d l, cell layer j d = Some l -> length l = cc) -> nonempty_cells lower ->
    exists layer' lower', combine_layer open cc layer lower = Ok (layer', lower') /\ same_layer layer layer' /\ same_layer lower lower' /\
      (forall j d l, cell layer j d = Some l -> exists l', cell layer' j d = Some l' /\ raised cc lower lower' d l l') /\
      (forall j d', shrunk (fun p => exists i d l', cell layer' i d = Some l' /\ newest l' p /\ reach d (is_last layer' i d) d') (cell lower j d') (cell lower' j d')).
  Proof.
    induction layer as [|q layer IH]; intros lower Hcc Hlen Hne; cbn [combine_layer].
    { exists [], lower. split; [done|]. split; [constructor|]. split; [apply same_refl|]. split; [intros j d l E; done|]. intros j d'. apply shrunk_refl. }
    destruct (densities_ok cc (c_box q) (c_areas q) 0 lower Hcc) as (ls' & low1 & E & Hl & Hs & Hr & Hsh); [|done|].
    { intros l Hl. apply elem_of_list_lookup in Hl as [x Hx]. by apply (Hlen 0 x). }
    rewrite E. cbn [rbind fst snd].
    assert (Hne1 : nonempty_cells low1) by (apply (nonempty_shrunk lower); [intros j x; eexists; apply Hsh|done]).
    destruct (IH low1 Hcc ltac:(intros j; apply (Hlen (S j))) Hne1) as (layer' & low2 & E2 & Hsl & Hs2 & Hr2 & Hsh2).
    rewrite E2. cbn [rbind fst snd]. eexists _, _. split; [reflexivity|]. split; [constructor; [split_and!; [done|done|by cbn]|done]|].
    split; [by apply (same_trans _ low1)|]. split.
    - intros [|j] d l Hx; cbn in Hx.
      + destruct (Hr d l Hx) as (l' & El' & (r' & rest' & thick' & R1 & R2 & R3)). exists l'. split; [done|].
        exists r', rest', thick'. split; [done|]. split; [done|]. intros p. destruct (R3 p) as (P1 & P2 & P3).
        split; [done|]. split; [done|]. intros Ht. destruct (P3 Ht) as (j & Hj & Hgone). exists j. split; [done|]. by apply (gone_shrunk _ _ _ _ (Hsh2 j d)).
      + destruct (Hr2 j d l Hx) as (l' & El' & (r' & rest' & thick' & R1 & R2 & R3)). exists l'. split; [done|].
        exists r', rest', thick'. split; [done|]. split; [done|]. intros p. destruct (R3 p) as (P1 & P2 & P3).
        split; [done|]. split; [done|]. intros Ht. destruct (P3 Ht) as (i & Hi & Hgone). exists i. split; [|done]. by apply (same_has low1); [apply same_sym|].
    - intros j d'. eapply shrunk_trans; [apply Hsh|apply Hsh2|]. intros p [(i & l' & El' & Hn & Hre)|(i & d & l' & El' & Hn & Hre)].
      + exists 0, i, l'. split; [done|]. split; [done|]. unfold is_last. cbn [lookup list_lookup c_areas]. rewrite Hl. exact Hre.
      + exists (S i), d, l'. done.
  Qed.

  Definition thin (layer : clayer) : Prop := forall j d l, cell layer j d = Some l -> length l = 1.
  Lemma thin_nonempty layer : thin layer -> nonempty_cells layer.
  Proof. intros H j d E. by specialize (H j d [] E). Qed.
  Lemma same_cell l l' j d x : same_layer l l' -> cell l' j d = Some x -> exists y, cell l j d = Some y.
  Proof.
    intros H E. unfold cell in *. destruct (l' !! j) as [q'|] eqn:Eq'; [|done]. destruct (Forall2_lookup_r _ _ _ _ _ H Eq') as (q & -> & (_ & _ & Hl)).
    apply lookup_lt_is_Some_2. rewrite Hl. by apply lookup_lt_Some in E.
  Qed.
  Lemma same_is_last l l' j d : same_layer l l' -> is_last l j d = is_last l' j d.
  Proof.
    intros H. unfold is_last. destruct (l !! j) as [q|] eqn:E.
    - destruct (Forall2_lookup_l _ _ _ _ _ H E) as (q' & -> & (_ & _ & Hl)). by rewrite Hl.
    - destruct (l' !! j) as [q'|] eqn:E'; [|done]. destruct (Forall2_lookup_r _ _ _ _ _ H E') as (q & E2 & _). congruence.
  Qed.

  Lemma lt_of (l : list area) t a cc : length l = cc -> l !! t = Some a -> t < cc.
  Proof. intros <- E. exact (lookup_lt_Some _ _ _ E). Qed.

  (** [cc - 1] rounds for layer [L] *)
  Definition block (L cc : nat) (m0 m : cmesh) : Prop :=
    exists layer0 layer, m0 !! L = Some layer0 /\ m !! L = Some layer /\ same_layer layer0 layer /\
      (forall j d h0, cell layer0 j d = Some [h0] -> exists l, cell layer j d = Some l /\ length l = cc /\
        (forall p, h0 p = true <-> exists t a, l !! t = Some a /\ a p = true) /\
        (forall p t1 t2 a1 a2, l !! t1 = Some a1 -> l !! t2 = Some a2 -> a1 p = true -> a2 p = true -> t1 = t2) /\
        (forall p t a i, l !! t = Some a -> a p = true -> 1 <= i <= t ->
          exists lo0 lo j', m0 !! (L - i) = Some lo0 /\ m !! (L - i) = Some lo /\ has lo0 j' p /\ gone (cell lo j' d) p)) /\
      (forall i, 1 <= i < cc -> exists lo0 lo, m0 !! (L - i) = Some lo0 /\ m !! (L - i) = Some lo /\ same_layer lo0 lo /\
        forall j d', shrunk (fun p => exists j' d t l a, cell layer j' d = Some l /\ l !! t = Some a /\ a p = true /\ i <= t /\ reach d (is_last layer j' d) d')
          (cell lo0 j d') (cell lo j d')).

  Lemma block_local L cc m0 m m0' m' : 1 <= cc -> cc <= S L -> block L cc m0 m ->
    (forall k, L < k + cc -> k <= L -> m0' !! k = m0 !! k /\ m' !! k = m !! k) -> block L cc m0' m'.
  Proof.
    intros Hcc HL (layer0 & layer & E0 & E & Hs & Hc & Hb) Hk. exists layer0, layer. destruct (Hk L) as [-> ->]; [lia|lia|].
    split; [done|]. split; [done|]. split; [done|]. split.
    - intros j d h0 Eh. destruct (Hc j d h0 Eh) as (l & El & Hl & H1 & H2 & H3). exists l. split; [done|]. split; [done|]. split; [done|]. split; [done|].
      intros p t a i Et Ha Hi. pose proof (lt_of _ _ _ _ Hl Et) as Ht. destruct (Hk (L - i)) as [-> ->]; [lia|lia|]. by apply (H3 p t a i).
    - intros i Hi. destruct (Hk (L - i)) as [-> ->]; [lia|lia|]. by apply Hb.
  Qed.

  Lemma block_start L m layer0 : m !! L = Some layer0 -> block L 1 m m.
  Proof.
    intros E. exists layer0, layer0. split; [done|]. split; [done|]. split; [apply same_refl|]. split; [|lia].
    intros j d h0 Eh. exists [h0]. split; [done|]. split; [done|]. split; [|split].
    - intros p. split; [intros Hp; by exists 0, h0|]. intros (t & a & Et & Ha). apply list_lookup_singleton_Some in Et as [-> ->]. done.
    - intros p t1 t2 a1 a2 E1 E2 _ _. apply list_lookup_singleton_Some in E1 as [-> _]. by apply list_lookup_singleton_Some in E2 as [-> _].
    - intros p t a i Et _ Hi. apply list_lookup_singleton_Some in Et as [-> _]. lia.
  Qed.

  (** a list after a round *)
  Lemma raised_lookup cc (l : list area) rest thick t a : 1 <= cc -> length l = cc -> (<[cc - 1 := rest]> l ++ [thick]) !! t = Some a ->
    (t < cc - 1 /\ l !! t = Some a) \/ (t = cc - 1 /\ a = rest) \/ (t = cc /\ a = thick).
  Proof.
    intros Hcc Hl E. apply lookup_app_Some in E as [E|[E1 E2]].
    - apply list_lookup_insert_Some in E as [(<- & -> & _)|[Hne E]]; [by right; left|]. left. split; [|done]. apply lookup_lt_Some in E. lia.
    - rewrite insert_length, Hl in E1. rewrite insert_length, Hl in E2. apply list_lookup_singleton_Some in E2 as [E2 ->]. right; right. split; [lia|done].
  Qed.

  Lemma raised_thick cc (l : list area) rest thick : length l = cc -> (<[cc - 1 := rest]> l ++ [thick]) !! cc = Some thick.
  Proof. intros Hl. apply lookup_app_Some. right. rewrite insert_length. split; [lia|]. replace (cc - length l) with 0 by lia. done. Qed.
  Lemma raised_rest cc (l : list area) rest thick : 1 <= cc -> length l = cc -> (<[cc - 1 := rest]> l ++ [thick]) !! (cc - 1) = Some rest.
  Proof. intros Hcc Hl. apply lookup_app_l_Some. apply list_lookup_insert. lia. Qed.
  Lemma raised_length cc (l : list area) rest thick : length l = cc -> length (<[cc - 1 := rest]> l ++ [thick]) = S cc.
  Proof. intros Hl. rewrite app_length, insert_length, Hl. cbn. lia. Qed.

  Lemma block_step L N cc m0 m : 1 <= cc <= L -> cc < N -> L < length m0 -> (forall k layer, m0 !! k = Some layer -> k <= L < k + N -> thin layer) -> block L cc m0 m ->
    (forall k, k + cc <= L \/ L < k -> m !! k = m0 !! k) -> length m = length m0 ->
    exists layer lower layer' lower', m !! L = Some layer /\ m !! (L - cc) = Some lower /\ combine_layer open cc layer lower = Ok (layer', lower') /\
      block L (S cc) m0 (<[L := layer']> (<[L - cc := lower']> m)).
  Proof.
    intros Hcc HN HL Hthin (layer0 & layer & E0 & E & Hs & Hc & Hb) Hfr Hlm.
    destruct (lookup_lt_is_Some_2 m0 (L - cc)) as [lower Elow]; [lia|].
    assert (Elow' : m !! (L - cc) = Some lower) by (rewrite Hfr; [done|lia]).
    assert (Hth0 : thin layer0) by (apply (Hthin L); [done|lia]).
    assert (Hthl : thin lower) by (apply (Hthin (L - cc)); [done|lia]).
    destruct (layer_ok cc layer lower) as (layer' & lower' & El & Hsl & Hslow & Hr & Hsh); [lia| |by apply thin_nonempty|].
    { intros j d l Ec. destruct (same_cell _ _ _ _ _ Hs Ec) as [l0 El0]. pose proof (Hth0 j d l0 El0) as Hl0. destruct l0 as [|h0 [|? ?]]; [done| |done].
      destruct (Hc j d h0 El0) as (l2 & El2 & Hl2 & _). congruence. }
    exists layer, lower, layer', lower'. split; [done|]. split; [done|]. split; [done|].
    assert (EL : <[L := layer']> (<[L - cc := lower']> m) !! L = Some layer') by (apply list_lookup_insert; rewrite insert_length; lia).
    assert (EC : <[L := layer']> (<[L - cc := lower']> m) !! (L - cc) = Some lower') by (rewrite list_lookup_insert_ne by lia; apply list_lookup_insert; lia).
    assert (EI : forall i, 1 <= i < cc -> <[L := layer']> (<[L - cc := lower']> m) !! (L - i) = m !! (L - i))
      by (intros i Hi; rewrite !list_lookup_insert_ne by lia; done).
    (* a place printed in layer L stays printed, not thinner *)
    assert (Hup : forall j d l t a p i, cell layer j d = Some l -> l !! t = Some a -> a p = true -> i <= t ->
      exists l' t' a', cell layer' j d = Some l' /\ l' !! t' = Some a' /\ a' p = true /\ i <= t').
    { intros j d l t a p i Ec Et Ha Hi. destruct (Hr j d l Ec) as (l' & Ec' & (r & rest & thick & R1 & -> & R3)). 
      assert (Hlen : length l = cc).
      { destruct (same_cell _ _ _ _ _ Hs Ec) as [l0 El0]. pose proof (Hth0 j d l0 El0) as Hl0. destruct l0 as [|h0 [|? ?]]; [done| |done].
        destruct (Hc j d h0 El0) as (l2 & El2 & Hl2 & _). congruence. }
      pose proof (lt_of _ _ _ _ Hlen Et) as Ht. destruct (decide (t = cc - 1)) as [->|Hne].
      - assert (a = r) as -> by congruence. destruct (R3 p) as (P1 & P2 & P3). destruct (thick p) eqn:Eth.
        + eexists _, cc, thick. split; [done|]. split; [|split; [done|lia]]. by apply raised_thick.
        + eexists _, (cc - 1), rest. split; [done|]. split; [|split; [by apply P1|lia]]. apply raised_rest; [lia|done].
      - eexists _, t, a. split; [done|]. split; [|done]. apply lookup_app_l_Some. rewrite list_lookup_insert_ne; [done|lia]. }
    exists layer0, layer'. split; [done|]. split; [done|]. split; [by apply (same_trans _ layer)|]. split.
    - intros j d h0 Eh. destruct (Hc j d h0 Eh) as (l & Ec & Hlen & H1 & H2 & H3).
      destruct (Hr j d l Ec) as (l' & Ec' & (r & rest & thick & R1 & El' & R3)). exists l'. split; [done|].
      assert (Hlk : forall t a, l' !! t = Some a -> (t < cc - 1 /\ l !! t = Some a) \/ (t = cc - 1 /\ a = rest) \/ (t = cc /\ a = thick))
        by (intros t a; rewrite El'; apply raised_lookup; [lia|done]).
      assert (Hold : forall p t a, l' !! t = Some a -> a p = true -> exists t0 a0, l !! t0 = Some a0 /\ a0 p = true /\ (t = t0 \/ (t0 = cc - 1 /\ t = cc /\ thick p = true))
         /\ (t = cc - 1 -> thick p = false)).
      { intros p t a Et Ha. destruct (R3 p) as (P1 & P2 & _). destruct (Hlk t a Et) as [[Ht Et0]|[[-> ->]|[-> ->]]].
        - exists t, a. split; [done|]. split; [done|]. split; [by left|lia].
        - exists (cc - 1), r. split; [done|]. apply P1 in Ha as [Ha1 Ha2]. split; [done|]. split; [by left|done].
        - exists (cc - 1), r. split; [done|]. split; [by apply P2|]. split; [by right|lia]. }
      assert (Hlen' : length l' = S cc) by (rewrite El'; by apply raised_length). split; [done|]. split; [|split].
      + intros p. rewrite H1. split.
        * intros (t & a & Et & Ha). destruct (Hup j d l t a p 0 Ec Et Ha) as (l2 & t' & a' & E2 & Et' & Ha' & _); [lia|]. assert (l2 = l') as -> by congruence. by exists t', a'.
        * intros (t & a & Et & Ha). destruct (Hold p t a Et Ha) as (t0 & a0 & Et0 & Ha0 & _). by exists t0, a0.
      + intros p t1 t2 a1 a2 Et1 Et2 Ha1 Ha2. destruct (Hold p t1 a1 Et1 Ha1) as (u1 & b1 & Eu1 & Hb1 & Hu1 & Hn1).
        destruct (Hold p t2 a2 Et2 Ha2) as (u2 & b2 & Eu2 & Hb2 & Hu2 & Hn2). pose proof (H2 p u1 u2 b1 b2 Eu1 Eu2 Hb1 Hb2) as Hu.
        destruct Hu1 as [Hu1|(Hu1 & Hv1 & Hw1)], Hu2 as [Hu2|(Hu2 & Hv2 & Hw2)]; [lia| | |lia].
        * rewrite Hn1 in Hw2 by lia. done.
        * rewrite Hn2 in Hw1 by lia. done.
      + intros p t a i Et Ha Hi. pose proof (lt_of _ _ _ _ Hlen' Et) as Ht.
        destruct (decide (i = cc)) as [->|Hne].
        * destruct (Hlk t a Et) as [[? _]|[[? _]|[-> ->]]]; [lia|lia|]. destruct (R3 p) as (_ & _ & P3). destruct (P3 Ha) as (j' & Hj' & Hg).
          exists lower, lower', j'. done.
        * destruct (Hold p t a Et Ha) as (t0 & a0 & Et0 & Ha0 & Hor & _). destruct (H3 p t0 a0 i Et0 Ha0) as (lo0 & lo & j' & F1 & F2 & F3 & F4); [lia|].
          exists lo0, lo, j'. rewrite EI by lia. done.
    - intros i Hi. destruct (decide (i = cc)) as [->|Hne].
      + exists lower, lower'. split; [done|]. split; [done|]. split; [done|]. intros j d'. apply (shrunk_mono _ _ _ _ (Hsh j d')).
        intros p (j' & d & l' & Ec' & (a & Ela & Ha) & Hre). exists j', d, cc, l', a. split; [done|]. split; [|split; [done|split; [lia|done]]].
        destruct (same_cell _ _ _ _ _ Hsl Ec') as [l Ec]. destruct (Hr j' d l Ec) as (l2 & Ec2 & (r & rest & thick & R1 & El' & R3)).
        assert (l2 = l') as -> by congruence.
        assert (Hlen : length l = cc).
        { destruct (same_cell _ _ _ _ _ Hs Ec) as [l0 El0]. pose proof (Hth0 j' d l0 El0) as Hl0. destruct l0 as [|h0 [|? ?]]; [done| |done].
          destruct (Hc j' d h0 El0) as (l2 & El2 & Hl2 & _). congruence. }
        rewrite El', last_snoc in Ela. injection Ela as <-. rewrite El'. by apply raised_thick.
      + destruct (Hb i) as (lo0 & lo & F1 & F2 & F3 & F4); [lia|]. exists lo0, lo. rewrite EI by lia. split; [done|]. split; [done|]. split; [done|].
        intros j d'. apply (shrunk_mono _ _ _ _ (F4 j d')). intros p (j' & d & t & l & a & G1 & G2 & G3 & G4 & G5).
        destruct (Hup j' d l t a p i G1 G2 G3 G4) as (l' & t' & a' & K1 & K2 & K3 & K4). exists j', d, t', l', a'.
        split; [done|]. split; [done|]. split; [done|]. split; [done|]. by rewrite <- (same_is_last _ _ _ _ Hsl).
  Qed.

  Lemma rounds_ok lo L N : forall count cc m0 m, 1 <= cc <= S L -> cc + count <= N -> L < length m0 ->
    (forall k layer, m0 !! k = Some layer -> k <= L < k + N -> thin layer) -> block L cc m0 m ->
    (forall k, k + cc <= L \/ L < k -> m !! k = m0 !! k) -> length m = length m0 ->
    exists m' cc', combine_rounds open lo L count cc m = Ok m' /\ block L cc' m0 m' /\ 1 <= cc' <= S L /\ (cc' <= cc + count /\ (cc' = cc \/ lo + cc' <= S L)) /\
      (forall k, k + cc' <= L \/ L < k -> m' !! k = m0 !! k) /\ length m' = length m0.
  Proof.
    induction count as [|count IH]; intros cc m0 m Hcc HN HL Hth Hbl Hfr Hlm; cbn [combine_rounds].
    { exists m, cc. split; [done|]. split; [done|]. split; [lia|]. split; [lia|]. done. }
    destruct ((L <? cc)%nat || (L - cc <? lo)%nat) eqn:Eb.
    { exists m, cc. split; [done|]. split; [done|]. split; [lia|]. split; [lia|]. done. }
    apply orb_false_iff in Eb as [Eb Eb2]. apply Nat.ltb_ge in Eb. apply Nat.ltb_ge in Eb2.
    destruct (block_step L N cc m0 m) as (layer & lower & layer' & lower' & E1 & E2 & E3 & Hbl'); [lia|lia|done|done|done|done|done|].
    rewrite E1. cbn [of_opt rbind]. rewrite E2. cbn [of_opt rbind]. rewrite E3. cbn [rbind fst snd].
    destruct (IH (S cc) m0 (<[L := layer']> (<[L - cc := lower']> m))) as (m' & cc' & F1 & F2 & F3 & F4 & F5 & F6); [lia|lia|done|done|done| | |].
    - intros k Hk. rewrite !list_lookup_insert_ne by lia. apply Hfr. lia.
    - by rewrite !insert_length.
    - exists m', cc'. split; [done|]. split; [done|]. split; [done|]. split; [lia|]. done.
  Qed.

  (** all blocks *)
  Definition covered (amount : nat) (Ls : list nat) (k : nat) : Prop := exists L, L ∈ Ls /\ k <= L < k + amount.
  Lemma all_gen lo amount : 2 <= amount -> forall Ls m0 m, (forall layer, layer ∈ m0 -> thin layer) -> length m = length m0 -> (forall L, L ∈ Ls -> L < length m0) ->
    (forall x y a b, Ls !! x = Some a -> Ls !! y = Some b -> x < y -> a + amount <= b) ->
    (forall k L, L ∈ Ls -> L < k + amount -> m !! k = m0 !! k) ->
    exists m', combine_all open lo amount Ls m = Ok m' /\ length m' = length m0 /\
      (forall L, L ∈ Ls -> exists cc, 1 <= cc <= amount /\ (cc <= S L /\ (cc = 1 \/ lo + cc <= S L)) /\ block L cc m0 m' /\ forall k, k + cc <= L < k + amount -> m' !! k = m0 !! k) /\
      (forall k, ~ covered amount Ls k -> m' !! k = m !! k).
  Proof.
    intros Ham.
    induction Ls as [|L Ls IH]; intros m0 m Hth Hlm Hlt Hgap Hsame; cbn [combine_all].
    { exists m. split; [done|]. split; [done|]. split; [intros L HL; by apply elem_of_nil in HL|done]. }
    assert (HL : L < length m0) by (apply Hlt; left).
    assert (Hrest : forall L2, L2 ∈ Ls -> L + amount <= L2).
    { intros L2 H2. apply elem_of_list_lookup in H2 as [x Hx]. apply (Hgap 0 (S x)); [done|done|lia]. }
    assert (Hm : forall k, L < k + amount -> m !! k = m0 !! k) by (intros k Hk; apply (Hsame k L); [left|done]).
    destruct (lookup_lt_is_Some_2 m0 L HL) as [layer0 E0].
    destruct (rounds_ok lo L amount (amount - 1) 1 m m) as (m1 & cc & F1 & F2 & F3 & F4 & F5 & F6); [lia|lia|lia| | |done|done|].
    { intros k layer Ek Hk. rewrite Hm in Ek by lia. apply Hth, elem_of_list_lookup. by exists k. }
    { apply (block_start L m layer0). rewrite Hm by lia. done. }
    rewrite F1. cbn [rbind].
    destruct (IH m0 m1) as (m' & G1 & G2 & G3 & G4); [done|lia|intros L2 H2; apply Hlt; by right| | |].
    { intros x y a b Hx Hy Hxy. apply (Hgap (S x) (S y)); [done|done|lia]. }
    { intros k L2 H2 Hk. specialize (Hrest L2 H2). rewrite F5 by lia. apply Hm. lia. }
    exists m'. split; [done|]. split; [done|].
    assert (Hlow : forall k, k <= L -> m' !! k = m1 !! k).
    { intros k Hk. apply G4. intros (L2 & H2 & HL2). specialize (Hrest L2 H2). lia. }
    split.
    - intros L2 H2. apply elem_of_cons in H2 as [->|H2]; [|by apply G3]. exists cc. split; [lia|]. split; [lia|]. split.
      + apply (block_local L cc m m1); [lia|lia|done|]. intros k Hk1 Hk2. split; [symmetry; apply Hm; lia|by apply Hlow].
      + intros k Hk. rewrite Hlow by lia. rewrite F5 by lia. apply Hm. lia.
    - intros k Hk. rewrite G4.
      + apply F5. destruct (decide (L < k)); [by right|left]. destruct (decide (k + cc <= L)); [done|]. exfalso. apply Hk. exists L. split; [left|lia].
      + intros (L2 & H2 & HL2). apply Hk. exists L2. split; [by right|done].
  Qed.
  Lemma all_ok lo amount : 2 <= amount -> forall Ls m0, (forall layer, layer ∈ m0 -> thin layer) -> (forall L, L ∈ Ls -> L < length m0) ->
    (forall x y a b, Ls !! x = Some a -> Ls !! y = Some b -> x < y -> a + amount <= b) ->
    exists m, combine_all open lo amount Ls m0 = Ok m /\ length m = length m0 /\
      (forall L, L ∈ Ls -> exists cc, 1 <= cc <= amount /\ (cc <= S L /\ (cc = 1 \/ lo + cc <= S L)) /\ block L cc m0 m /\ forall k, k + cc <= L < k + amount -> m !! k = m0 !! k) /\
      (forall k, ~ covered amount Ls k -> m !! k = m0 !! k).
  Proof. intros Ham Ls m0 H1 H2 H3. by apply all_gen. Qed.

  (** ** as thick as possible *)
  Definition meets (box : AABB) (lower : clayer) (p : pt) : Prop := exists j q, lower !! j = Some q /\ aabb_hit box (c_box q) = true /\ c_infill q p = true.
  Lemma meets_same box l l' p : same_layer l l' -> meets box l p -> meets box l' p.
  Proof.
    intros H (j & q & E & Hb & Hp). destruct (Forall2_lookup_l _ _ _ _ _ H E) as (q' & E' & (A & B & _)). exists j, q'. rewrite <- A, <- B. done.
  Qed.
  Section at_point.
    Variable p : pt.
    Hypothesis kept : forall a, a p = true -> open a p = true.

    Lemma density_thick box d lst : forall lower here thick rest lower', combine_density open box d lst here lower = Ok (thick, rest, lower') ->
      here p = true -> meets box lower p -> thick p = true.
    Proof.
      induction lower as [|q lower IH]; intros here thick rest lower' E Hh (j & q' & Ej & Hb & Hq); [done|]. cbn [combine_density] in E.
      destruct (aabb_hit box (c_box q)) eqn:Eh.
      - cbv zeta in E. apply rbind_ok in E as (areas & _ & E). apply rbind_ok in E as (r & Er & E). destruct r as [[th re] lw]. injection E as <- _ _. cbn [fst].
        unfold a_union. destruct (c_infill q p) eqn:Eq.
        + rewrite kept; [done|]. unfold a_inter. by rewrite Hh, Eq.
        + apply orb_true_iff. right. apply (IH _ _ _ _ Er).
          * unfold a_sub. rewrite Hh. cbn. destruct (open (a_inter here (c_infill q)) p) eqn:Eo; [|done]. apply open_within in Eo. unfold a_inter in Eo. by rewrite Eq, andb_false_r in Eo.
          * destruct j as [|j]; cbn in Ej; [congruence|]. by exists j, q'.
      - apply rbind_ok in E as (r & Er & E). destruct r as [[th re] lw]. injection E as <- _ _. cbn [fst]. apply (IH _ _ _ _ Er); [done|].
        destruct j as [|j]; cbn in Ej; [congruence|]. by exists j, q'.
    Qed.

    Lemma densities_thick cc box : forall ls d lower ls' lower' i l r, combine_densities open cc box d ls lower = Ok (ls', lower') ->
      nonempty_cells lower -> ls !! i = Some l -> length l = cc -> l !! (cc - 1) = Some r -> r p = true -> meets box lower p ->
      exists l' a, ls' !! i = Some l' /\ l' !! cc = Some a /\ a p = true.
    Proof.
      induction ls as [|l0 ls IH]; intros d lower ls' lower' i l r E Hne Hi Hl Hr Hrp Hm; [done|]. cbn [combine_densities] in E.
      apply rbind_ok in E as (here & Eh & E). apply rbind_ok in E as (x & Ex & E). apply rbind_ok in E as (y & Ey & E). destruct x as [[th re] lw], y as [ls2 lw2].
      injection E as <- _. cbn [fst snd] in *. destruct i as [|i]; cbn in Hi.
      - injection Hi as ->. apply of_opt_ok in Eh. assert (here = r) as -> by (assert (HH : Some here = Some r) by (etransitivity; [symmetry; exact Eh|exact Hr]); by injection HH).
        eexists _, th. split; [reflexivity|]. split; [by apply raised_thick|].
        by apply (density_thick _ _ _ _ _ _ _ _ Ex).
      - destruct (density_ok box d (match ls with [] => true | _ => false end) lower here Hne) as (thick & rest & low1 & E & Hs & Hp & Hg & Hsh).
        rewrite Ex in E. injection E as <- <- <-. destruct (IH (S d) lw ls2 lw2 i l r Ey) as (l' & a & H1 & H2 & H3); [|done|done|done|done|by apply (meets_same _ lower)|].
        + apply (nonempty_shrunk lower); [intros j x; eexists; apply Hsh|done].
        + exists l', a. done.
    Qed.

    Lemma layer_thick cc : forall layer lower layer' lower' j q d l r, 1 <= cc -> (forall j d l, cell layer j d = Some l -> length l = cc) ->
      combine_layer open cc layer lower = Ok (layer', lower') -> nonempty_cells lower ->
      layer !! j = Some q -> c_areas q !! d = Some l -> l !! (cc - 1) = Some r -> r p = true -> meets (c_box q) lower p ->
      exists l' a, cell layer' j d = Some l' /\ l' !! cc = Some a /\ a p = true.
    Proof.
      induction layer as [|q0 layer IH]; intros lower layer' lower' j q d l r Hcc Hlen E Hne Hj Hd Hr Hrp Hm; [done|]. cbn [combine_layer] in E.
      apply rbind_ok in E as (x & Ex & E). apply rbind_ok in E as (y & Ey & E). destruct x as [ls2 lw], y as [la2 lw2]. injection E as <- _. cbn [fst snd] in *.
      destruct j as [|j]; cbn in Hj.
      - injection Hj as ->. destruct (densities_thick cc (c_box q) (c_areas q) 0 lower ls2 lw d l r Ex Hne Hd) as (l' & a & H1 & H2 & H3); [|done|done|done|by exists l', a].
        apply (Hlen 0 d l). exact Hd.
      - destruct (densities_ok cc (c_box q0) (c_areas q0) 0 lower Hcc) as (ls' & low1 & E & Hl & Hs & Hrr & Hsh); [|done|].
        { intros l0 Hl0. apply elem_of_list_lookup in Hl0 as [x Hx]. by apply (Hlen 0 x). }
        rewrite Ex in E. injection E as <- <-.
        apply (IH lw la2 lw2 j q d l r Hcc ltac:(intros j0; apply (Hlen (S j0))) Ey); [|done|done|done|done|by apply (meets_same _ lower)].
        apply (nonempty_shrunk lower); [intros j0 x; eexists; apply Hsh|done].
    Qed.

    Definition top_here (m : cmesh) (L j d cc : nat) : Prop :=
      exists layer l a, m !! L = Some layer /\ cell layer j d = Some l /\ l !! (cc - 1) = Some a /\ a p = true.

    Lemma rounds_thick lo L N j d box : forall count cc m0 m m', 1 <= cc <= S L -> cc + count <= N -> lo + cc + count <= S L -> L < length m0 ->
      (forall k layer, m0 !! k = Some layer -> k <= L < k + N -> thin layer) -> block L cc m0 m ->
      (forall k, k + cc <= L \/ L < k -> m !! k = m0 !! k) -> length m = length m0 ->
      (forall layer q, m0 !! L = Some layer -> layer !! j = Some q -> c_box q = box) ->
      (forall i, cc <= i < cc + count -> exists lower, m0 !! (L - i) = Some lower /\ meets box lower p) ->
      top_here m L j d cc -> combine_rounds open lo L count cc m = Ok m' -> top_here m' L j d (cc + count).
    Proof.
      induction count as [|count IH]; intros cc m0 m m' Hcc HN Hlo HL Hth Hbl Hfr Hlm Hbox Hmeets Htop E; cbn [combine_rounds] in E.
      { injection E as <-. by rewrite Nat.add_0_r. }
      replace ((L <? cc)%nat || (L - cc <? lo)%nat) with false in E
        by (symmetry; apply orb_false_iff; split; apply Nat.ltb_ge; lia).
      destruct (block_step L N cc m0 m) as (layer & lower & layer' & lower' & E1 & E2 & E3 & Hbl'); [lia|lia|done|done|done|done|done|].
      rewrite E1 in E. cbn [of_opt rbind] in E. rewrite E2 in E. cbn [of_opt rbind] in E. rewrite E3 in E. cbn [rbind fst snd] in E.
      replace (cc + S count) with (S cc + count) by lia. revert E. apply (IH (S cc) m0); [lia|lia|lia|done|done|done| | |done| |].
      - intros k Hk. rewrite !list_lookup_insert_ne by lia. apply Hfr. lia.
      - by rewrite !insert_length.
      - intros i Hi. apply Hmeets. lia.
      - destruct Htop as (ly & l & a & T1 & T2 & T3 & T4). assert (ly = layer) as -> by congruence.
        destruct Hbl as (layer0 & ly & B1 & B2 & B3 & B4 & _). assert (ly = layer) as -> by congruence.
        assert (Hth0 : thin layer0) by (apply (Hth L); [done|lia]).
        unfold cell in T2. destruct (layer !! j) as [q|] eqn:Eq; [|done].
        destruct (Hmeets cc) as (lw & M1 & M2); [lia|]. assert (lw = lower) as -> by (rewrite Hfr in E2 by lia; congruence).
        assert (Hb : c_box q = box).
        { destruct (Forall2_lookup_r _ _ _ _ _ B3 Eq) as (q0 & Eq0 & (_ & Hqb & _)). rewrite <- Hqb. by apply (Hbox layer0). }
        destruct (layer_thick cc layer lower layer' lower' j q d l a) as (l' & a' & H1 & H2 & H3); [lia| |done| |done|done|done|done|by rewrite Hb|].
        + intros j1 d1 l1 Ec. destruct (same_cell _ _ _ _ _ B3 Ec) as [l0 El0]. pose proof (Hth0 j1 d1 l0 El0) as Hl0. destruct l0 as [|h0 [|? ?]]; [done| |done].
          destruct (B4 j1 d1 h0 El0) as (l2 & El2 & Hl2 & _). congruence.
        + apply thin_nonempty. apply (Hth (L - cc)); [done|lia].
        + exists layer', l', a'. split; [apply list_lookup_insert; rewrite insert_length; lia|]. split; [done|]. split; [|done].
          by replace (S cc - 1) with cc by lia.
    Qed.

    Lemma all_thick lo amount j d box L : 2 <= amount -> forall Ls m0 m m', (forall layer, layer ∈ m0 -> thin layer) -> length m = length m0 -> (forall L, L ∈ Ls -> L < length m0) ->
      (forall x y a b, Ls !! x = Some a -> Ls !! y = Some b -> x < y -> a + amount <= b) ->
      (forall k L, L ∈ Ls -> L < k + amount -> m !! k = m0 !! k) ->
      L ∈ Ls -> lo + amount <= L ->
      (forall layer q, m0 !! L = Some layer -> layer !! j = Some q -> c_box q = box) ->
      (forall i, 1 <= i < amount -> exists lower, m0 !! (L - i) = Some lower /\ meets box lower p) ->
      top_here m0 L j d 1 -> combine_all open lo amount Ls m = Ok m' -> top_here m' L j d amount.
    Proof.
      intros Ham. induction Ls as [|L0 Ls IH]; intros m0 m m' Hth Hlm Hlt Hgap Hsame HL Hlo Hbox Hmeets Htop E; [by apply elem_of_nil in HL|].
      cbn [combine_all] in E. apply rbind_ok in E as (m1 & E1 & E).
      assert (HL0 : L0 < length m0) by (apply Hlt; left).
      assert (Hrest : forall L2, L2 ∈ Ls -> L0 + amount <= L2).
      { intros L2 H2. apply elem_of_list_lookup in H2 as [x Hx]. apply (Hgap 0 (S x)); [done|done|lia]. }
      assert (Hm : forall k, L0 < k + amount -> m !! k = m0 !! k) by (intros k Hk; apply (Hsame k L0); [left|done]).
      destruct (lookup_lt_is_Some_2 m0 L0 HL0) as [layer0 E0].
      assert (Hthm : forall k layer, m !! k = Some layer -> k <= L0 < k + amount -> thin layer).
      { intros k layer Ek Hk. rewrite Hm in Ek by lia. apply Hth, elem_of_list_lookup. by exists k. }
      assert (Hstart : block L0 1 m m) by (apply (block_start L0 m layer0); rewrite Hm by lia; done).
      destruct (rounds_ok lo L0 amount (amount - 1) 1 m m) as (m1' & cc & F1 & F2 & F3 & F4 & F5 & F6); [lia|lia|lia|done|done|done|done|].
      rewrite E1 in F1. injection F1 as <-.
      assert (Hlt2 : forall L2, L2 ∈ Ls -> L2 < length m0) by (intros L2 H2; apply Hlt; by right).
      assert (Hgap2 : forall x y a b, Ls !! x = Some a -> Ls !! y = Some b -> x < y -> a + amount <= b).
      { intros x y a b Hx Hy Hxy. apply (Hgap (S x) (S y)); [done|done|lia]. }
      assert (Hsame2 : forall k L2, L2 ∈ Ls -> L2 < k + amount -> m1 !! k = m0 !! k).
      { intros k L2 H2 Hk. specialize (Hrest L2 H2). rewrite F5 by lia. apply Hm. lia. }
      apply elem_of_cons in HL as [->|HL]; [|by apply (IH m0 m1); try done; lia].
      assert (Htop1 : top_here m1 L0 j d amount).
      { replace amount with (1 + (amount - 1)) by lia.
        apply (rounds_thick lo L0 amount j d box (amount - 1) 1 m m); [lia|lia|lia|lia|done|done|done|done| | | |done].
        - intros layer q Hq. apply Hbox. by rewrite <- Hm by lia.
        - intros i Hi. destruct (Hmeets i) as (lower & M1 & M2); [lia|]. exists lower. rewrite Hm by lia. done.
        - destruct Htop as (ly & l & a & T). exists ly, l, a. rewrite Hm by lia. done. }
      destruct (all_gen lo amount Ham Ls m0 m1) as (m2 & G1 & G2 & G3 & G4); [done|lia|done|done|done|]. rewrite E in G1. injection G1 as <-.
      destruct Htop1 as (ly & l & a & T1 & T). exists ly, l, a. split; [|done]. rewrite G4; [done|]. intros (L2 & H2 & Hk2). specialize (Hrest L2 H2). lia.
    Qed.
  End at_point.
End combine.

(** what the whole run does to layer [k] *)
Definition keeps_within (open : area -> area) : Prop := forall a p, open a p = true -> a p = true.

Lemma thin_only_thin m layer : thin_only m -> layer ∈ m -> thin layer.
Proof.
  intros H Hl j d l E. unfold cell in E. destruct (layer !! j) as [q|] eqn:Eq; [|done]. apply (H layer q l); [done| |].
  - apply elem_of_list_lookup. by exists j.
  - apply elem_of_list_lookup. by exists d.
Qed.

(** the layers combined from, and the layers they take in *)
Definition block_layers (lo amount bottom top size : nat) (Ls : list nat) : Prop :=
  (forall L, L ∈ Ls -> L mod amount = 0 /\ lo <= L /\ L + top < size /\ (lo < L -> bottom + amount <= L)) /\
  (forall L, combining_layer amount bottom top size L -> L ∈ Ls /\ lo + amount <= L) /\
  (forall x y a b, Ls !! x = Some a -> Ls !! y = Some b -> x < y -> a + amount <= b).

Lemma the_layers amount bottom top size : 2 <= amount -> top < size ->
  let lo := min_layer bottom amount in let hi := max_layer size top amount in
  block_layers lo amount bottom top size (map (fun i => lo + i * amount) (seq 0 (if hi <? lo then 0 else (hi - lo) / amount + 1))).
Proof.
  intros Ham Hsz lo hi.
  assert (Hlo : exists u, lo = amount * u /\ bottom <= lo < bottom + amount).
  { unfold lo, min_layer. cbv zeta. exists ((bottom + amount - 1) / amount). pose proof (Nat.div_mod_eq (bottom + amount - 1) amount) as H1.
    pose proof (Nat.mod_upper_bound (bottom + amount - 1) amount ltac:(lia)). lia. }
  assert (Hhi : exists v, hi = amount * v /\ hi <= size - 1 - top < hi + amount).
  { unfold hi, max_layer. cbv zeta. exists ((size - 1 - top) / amount). pose proof (Nat.div_mod_eq (size - 1 - top) amount) as H1.
    pose proof (Nat.mod_upper_bound (size - 1 - top) amount ltac:(lia)). lia. }
  clearbody lo hi. destruct Hlo as (u & Hu & Hlo), Hhi as (v & Hv & Hhi). split; [|split].
  - intros L HL. change (map ?f ?a) with (f <$> a) in HL. apply elem_of_list_fmap in HL as (i & -> & Hi). apply elem_of_seq in Hi.
    destruct (hi <? lo) eqn:Eh; [lia|]. apply Nat.ltb_ge in Eh. pose proof (Nat.mul_div_le (hi - lo) amount ltac:(lia)).
    split; [|split; [lia|split; [nia|]]].
    + rewrite Hu. replace (amount * u + i * amount) with ((u + i) * amount) by lia. apply Nat.mod_mul. lia.
    + intros H1. assert (1 <= i) by (destruct i; lia). nia.
  - intros L (H1 & H2 & H3). apply Nat.mod_divides in H1 as [w Hw]; [|lia].
    assert (Hlo2 : lo + amount <= L). { assert (u + 1 <= w); [|nia]. destruct (decide (w <= u)); [|lia]. exfalso. assert (amount * w <= amount * u) by nia. nia. }
    split; [|done]. change (map ?f ?a) with (f <$> a). apply elem_of_list_fmap. exists (w - u). split; [nia|]. apply elem_of_seq.
    assert (L <= hi). { assert (w <= v); [|nia]. destruct (decide (v + 1 <= w)); [|lia]. exfalso. assert (amount * (v + 1) <= amount * w) by nia. nia. }
    replace (hi <? lo) with false by (symmetry; apply Nat.ltb_ge; lia). 
    replace (hi - lo) with ((v - u) * amount) by nia. rewrite Nat.div_mul by lia. assert (w <= v) by nia. lia.
  - intros x y a b Hx Hy Hxy. change (map ?f ?a) with (f <$> a) in Hx, Hy. rewrite list_lookup_fmap in Hx, Hy.
    apply fmap_Some in Hx as (i & Hi & ->). apply fmap_Some in Hy as (i2 & Hi2 & ->). apply lookup_seq in Hi as [-> _]. apply lookup_seq in Hi2 as [-> _]. nia.
Qed.

Lemma run_blocks open amount bottom top dist m : keeps_within open -> thin_only m ->
  exists m' Ls, combineInfillLayers open amount bottom top dist m = Ok m' /\ length m' = length m /\
    (forall L, L ∈ Ls -> exists cc, 1 <= cc <= amount /\ (cc <= S L /\ (cc = 1 \/ combining_layer amount bottom top (length m) L)) /\ block L cc m m' /\
      forall k, k + cc <= L < k + amount -> m' !! k = m !! k) /\
    (forall k, ~ covered amount Ls k -> m' !! k = m !! k).
Proof.
  intros Ho Hth. unfold combineInfillLayers.
  assert (Hnone : exists m' Ls, Ok m = Ok m' /\ length m' = length m /\
    (forall L, L ∈ Ls -> exists cc, 1 <= cc <= amount /\ (cc <= S L /\ (cc = 1 \/ combining_layer amount bottom top (length m) L)) /\ block L cc m m' /\
      forall k, k + cc <= L < k + amount -> m' !! k = m !! k) /\
    (forall k, ~ covered amount Ls k -> m' !! k = m !! k)).
  { exists m, []. split; [done|]. split; [done|]. split; [intros L HL; by apply elem_of_nil in HL|done]. }
  destruct ((length m =? 0)%nat || (length m - 1 <? top)%nat || (dist =? 0)%Z) eqn:E1; [exact Hnone|].
  destruct (amount <=? 1)%nat eqn:E2; [exact Hnone|]. apply Nat.leb_gt in E2. clear Hnone.
  apply orb_false_iff in E1 as [E1 _]. apply orb_false_iff in E1 as [E1 E3]. apply Nat.eqb_neq in E1. apply Nat.ltb_ge in E3.
  destruct (the_layers amount bottom top (length m) ltac:(lia) ltac:(lia)) as (L1 & L2 & L3). cbv zeta in L1, L2, L3 |- *.
  set (lo := min_layer bottom amount) in *. set (hi := max_layer (length m) top amount) in *.
  set (Ls := map (fun i => lo + i * amount) (seq 0 (if hi <? lo then 0 else (hi - lo) / amount + 1))) in *.
  clearbody Ls lo hi. destruct (all_ok open Ho lo amount ltac:(lia) Ls m) as (m' & F1 & F2 & F3 & F4).
  - intros layer Hl. by apply (thin_only_thin m).
  - intros L HL. destruct (L1 L HL) as (_ & _ & H & _). lia.
  - exact L3.
  - exists m', Ls. split; [done|]. split; [done|]. split; [|done]. intros L HL. destruct (F3 L HL) as (cc & H1 & [H2 H2'] & H3). exists cc. split; [done|]. split; [|done].
    split; [done|]. destruct (decide (cc = 1)); [by left|right]. destruct (L1 L HL) as (K1 & K2 & K3 & K4). split; [done|]. split; [apply K4; lia|done].
Qed.

Lemma run_layer open amount bottom top dist m m' k : keeps_within open -> thin_only m -> combineInfillLayers open amount bottom top dist m = Ok m' ->
  (exists cc, 1 <= cc <= amount /\ (cc <= S k /\ (cc = 1 \/ combining_layer amount bottom top (length m) k)) /\ block k cc m m') \/
  (exists L i cc, 1 <= i < cc /\ cc <= amount /\ cc <= S L /\ k + i = L /\ block L cc m m') \/
  m' !! k = m !! k.
Proof.
  intros Ho Hth HE. destruct (run_blocks open amount bottom top dist m Ho Hth) as (m2 & Ls & E & Hlen & Hb & Hn). rewrite HE in E. injection E as <-.
  destruct (decide (Exists (fun L => k <= L < k + amount) Ls)) as [Hc|Hc].
  - apply Exists_exists in Hc as (L & HL & Hk). destruct (Hb L HL) as (cc & H1 & H2 & H3 & H4). destruct (decide (L = k)) as [->|Hne].
    + left. exists cc. done.
    + right. destruct (decide (k + cc <= L)); [right; apply H4; lia|left]. exists L, (L - k), cc. split; [lia|]. split; [lia|]. split; [lia|]. split; [lia|done].
  - right; right. apply Hn. intros (L & HL & Hk). apply Hc, Exists_exists. by exists L.
Qed.

Lemma printed_cell m k j d t p : printed m k j d t p <-> exists layer l a, m !! k = Some layer /\ cell layer j d = Some l /\ l !! t = Some a /\ a p = true.
Proof.
  unfold printed, cell. split.
  - intros (layer & q & l & a & H1 & H2 & H3 & H4 & H5). exists layer, l, a. rewrite H2. done.
  - intros (layer & l & a & H1 & H2 & H3 & H4). destruct (layer !! j) as [q|] eqn:E; [|done]. exists layer, q, l, a. done.
Qed.
Lemma inside_has m k j p : inside m k j p <-> exists layer, m !! k = Some layer /\ has layer j p.
Proof. unfold inside, has. split; [intros (l & q & ? & ? & ?); exists l; split; [done|by exists q]|intros (l & ? & q & ? & ?); by exists l, q]. Qed.

(** what is printed in layer [k] afterwards *)
Lemma printed_after open amount bottom top dist m m' k j d t p : keeps_within open -> thin_only m ->
  combineInfillLayers open amount bottom top dist m = Ok m' -> printed m' k j d t p ->
  printed m k j d 0 p /\ (t = 0 \/ exists cc, t < cc /\ 1 <= cc <= amount /\ (cc <= S k /\ (cc = 1 \/ combining_layer amount bottom top (length m) k)) /\ block k cc m m') /\ (forall t2, printed m' k j d t2 p -> t2 = t).
Proof.
  intros Ho Hth HE Hp. apply printed_cell in Hp as (layer & l & a & E1 & E2 & E3 & E4).
  destruct (run_layer open amount bottom top dist m m' k Ho Hth HE) as [(cc & Hcc & Hk & Hb)|[(L & i & cc & Hi & Hcc & HL & HkL & Hb)|Hsame]].
  - pose proof Hb as (layer0 & layer' & F1 & F2 & F3 & F4 & F5). assert (layer' = layer) as -> by congruence.
    destruct (same_cell _ _ _ _ _ F3 E2) as [l0 El0]. assert (Hl0 : length l0 = 1).
    { apply (thin_only_thin m layer0 Hth) in El0; [done|]. apply elem_of_list_lookup. by exists k. }
    destruct l0 as [|h0 [|? ?]]; [done| |done]. destruct (F4 j d h0 El0) as (l2 & El2 & Hl2 & H1 & H2 & H3). assert (l2 = l) as -> by congruence.
    split; [|split].
    + apply printed_cell. exists layer0, [h0], h0. split; [done|]. split; [done|]. split; [done|]. apply H1. by exists t, a.
    + right. exists cc. pose proof (lt_of _ _ _ _ Hl2 E3). split; [lia|]. done.
    + intros t2 Hp2. apply printed_cell in Hp2 as (ly & l3 & a3 & G1 & G2 & G3 & G4). assert (ly = layer) as -> by congruence. assert (l3 = l) as -> by congruence.
      by apply (H2 p t2 t a3 a).
  - pose proof Hb as (layer0 & layer' & F1 & F2 & F3 & F4 & F5). destruct (F5 i Hi) as (lo0 & lo & G1 & G2 & G3 & G4).
    replace (L - i) with k in * by lia. assert (lo = layer) as -> by congruence. specialize (G4 j d).
    destruct (same_cell _ _ _ _ _ G3 E2) as [l0 El0]. assert (Hl0 : length l0 = 1).
    { apply (thin_only_thin m lo0 Hth) in El0; [done|]. apply elem_of_list_lookup. by exists k. }
    destruct l0 as [|h0 [|? ?]]; [done| |done]. rewrite El0 in G4. destruct G4 as (h' & G5 & G6). rewrite E2 in G5. injection G5 as ->.
    apply list_lookup_singleton_Some in E3 as [-> ->]. destruct (G6 p) as [G7 _]. split; [|split].
    + apply printed_cell. exists lo0, [h0], h0. split; [done|]. split; [done|]. split; [done|]. by apply G7.
    + by left.
    + intros t2 Hp2. apply printed_cell in Hp2 as (ly & l3 & a3 & K1 & K2 & K3 & K4). assert (ly = layer) as -> by congruence. rewrite E2 in K2. injection K2 as <-.
      by apply list_lookup_singleton_Some in K3 as [-> _].
  - rewrite Hsame in E1. assert (Hl0 : length l = 1).
    { apply (thin_only_thin m layer Hth) in E2; [done|]. apply elem_of_list_lookup. by exists k. }
    destruct l as [|h0 [|? ?]]; [done| |done]. apply list_lookup_singleton_Some in E3 as [-> ->]. split; [|split].
    + apply printed_cell. by exists layer, [a], a.
    + by left.
    + intros t2 Hp2. apply printed_cell in Hp2 as (ly & l3 & a3 & K1 & K2 & K3 & K4). rewrite Hsame in K1. assert (ly = layer) as -> by congruence. rewrite E2 in K2. injection K2 as <-.
      by apply list_lookup_singleton_Some in K3 as [-> _].
Qed.

(** C66: nothing is printed outside what was infill of that part and density, and nothing of it at two thicknesses; the run is
    defined on every mesh. *)
Theorem C66_once open amount bottom top dist m : keeps_within open -> thin_only m ->
  exists m', combineInfillLayers open amount bottom top dist m = Ok m' /\ length m' = length m /\
    forall k j d t p, printed m' k j d t p -> printed m k j d 0 p /\ forall t2, printed m' k j d t2 p -> t2 = t.
Proof.
  intros Ho Hth. destruct (run_blocks open amount bottom top dist m Ho Hth) as (m' & Ls & E & Hlen & _). exists m'. split; [done|]. split; [done|].
  intros k j d t p Hp. destruct (printed_after open amount bottom top dist m m' k j d t p Ho Hth E Hp) as (H1 & _ & H2). done.
Qed.

(** C66: what was to be printed in a layer is printed there or is part of thicker infill of a layer above, of the same density or
    of the last density there. *)
Theorem C66_nothing_lost open amount bottom top dist m m' : keeps_within open -> thin_only m ->
  combineInfillLayers open amount bottom top dist m = Ok m' ->
  forall k j d p, printed m k j d 0 p ->
    printed m' k j d 0 p \/
    exists L j' d' t, k <= L /\ L - k <= t < amount /\ printed m' L j' d' t p /\ (d' = d \/ (d' < d /\ last_density m L j' d')).
Proof.
  intros Ho Hth HE k j d p Hp. apply printed_cell in Hp as (layer0 & l0 & a & E1 & E2 & E3 & E4).
  assert (Hl0 : length l0 = 1) by (apply (thin_only_thin m layer0 Hth) in E2; [done|]; apply elem_of_list_lookup; by exists k).
  destruct l0 as [|h0 [|? ?]]; [done| |done]. cbn in E3. injection E3 as ->.
  destruct (run_layer open amount bottom top dist m m' k Ho Hth HE) as [(cc & Hcc & Hk & Hb)|[(L & i & cc & Hi & Hcc & HL & HkL & Hb)|Hsame]].
  - destruct Hb as (layer0' & layer & F1 & F2 & F3 & F4 & _). assert (layer0' = layer0) as -> by congruence.
    destruct (F4 j d a E2) as (l & El & Hl & H1 & _). destruct (proj1 (H1 p) E4) as (t & a' & Et & Ha). right. exists k, j, d, t. split; [lia|].
    pose proof (lt_of _ _ _ _ Hl Et) as Ht. split; [lia|]. split; [|by left]. apply printed_cell. by exists layer, l, a'.
  - destruct Hb as (layerL0 & layerL & F1 & F2 & F3 & F4 & F5). destruct (F5 i Hi) as (lo0 & lo & G1 & G2 & G3 & G4).
    replace (L - i) with k in * by lia. assert (lo0 = layer0) as -> by congruence. specialize (G4 j d). rewrite E2 in G4. destruct G4 as (h' & G5 & G6).
    destruct (h' p) eqn:Eh. { left. apply printed_cell. by exists lo, [h'], h'. }
    destruct (proj2 (G6 p) E4 Eh) as (j' & d2 & t & l & a' & K1 & K2 & K3 & K4 & K5). right. exists L, j', d2, t. split; [lia|].
    assert (Hlen : length l = cc).
    { destruct (same_cell _ _ _ _ _ F3 K1) as [l0 El0]. assert (Hl1 : length l0 = 1).
      { apply (thin_only_thin m layerL0 Hth) in El0; [done|]. apply elem_of_list_lookup. by exists L. }
      destruct l0 as [|h1 [|? ?]]; [done| |done]. destruct (F4 j' d2 h1 El0) as (l3 & El3 & Hl3 & _). congruence. }
    pose proof (lt_of _ _ _ _ Hlen K2) as Ht. split; [lia|]. split; [apply printed_cell; by exists layerL, l, a'|].
    destruct K5 as [->|[Hlast Hd]]; [by left|]. destruct (decide (d2 = d)); [by left|right]. split; [lia|].
    rewrite <- (same_is_last _ _ _ _ F3) in Hlast. unfold is_last in Hlast. destruct (layerL0 !! j') as [q|] eqn:Eq; [|done].
    exists layerL0, q. split; [done|]. split; [done|]. symmetry. by apply Nat.eqb_eq.
  - left. apply printed_cell. exists layer0, [a], a. by rewrite Hsame.
Qed.

(** C66: infill several layers thick has an area for infill below it in each of these layers: it is not printed through air or
    through walls. *)
Theorem C66_nothing_in_air open amount bottom top dist m m' : keeps_within open -> thin_only m ->
  combineInfillLayers open amount bottom top dist m = Ok m' ->
  forall L j d t p, printed m' L j d t p ->
    t <= L /\ (t < amount \/ t = 0) /\ forall k, L - t <= k < L -> exists j', inside m k j' p.
Proof.
  intros Ho Hth HE L j d t p Hp. destruct (printed_after open amount bottom top dist m m' L j d t p Ho Hth HE Hp) as (H1 & Hor & _).
  destruct Hor as [->|(cc & Ht & Hcc & HL & Hb)]; [split; [lia|split; [by right|lia]]|]. split; [lia|]. split; [left; lia|].
  intros k Hk. apply printed_cell in Hp as (layer & l & a & E1 & E2 & E3 & E4). apply printed_cell in H1 as (layer0 & l0 & a0 & F1 & F2 & F3 & F4).
  assert (Hl0 : length l0 = 1) by (apply (thin_only_thin m layer0 Hth) in F2; [done|]; apply elem_of_list_lookup; by exists L).
  destruct l0 as [|h0 [|? ?]]; [done| |done]. destruct Hb as (ly0 & ly & G1 & G2 & G3 & G4 & _). assert (ly0 = layer0) as -> by congruence. assert (ly = layer) as -> by congruence.
  destruct (G4 j d h0 F2) as (l2 & K1 & K2 & K3 & K4 & K5). assert (l2 = l) as -> by congruence.
  destruct (K5 p t a (L - k) E3 E4) as (lo0 & lo & j' & N1 & N2 & N3 & N4); [lia|]. replace (L - (L - k)) with k in * by lia.
  exists j'. apply inside_has. by exists lo0.
Qed.

(** C66: and what it stands for is not printed again below it. *)
Theorem C66_not_twice open amount bottom top dist m m' : keeps_within open -> thin_only m -> sound_parts m ->
  combineInfillLayers open amount bottom top dist m = Ok m' ->
  forall L j d t p, printed m' L j d t p -> forall k j' t', L - t <= k < L -> ~ printed m' k j' d t' p.
Proof.
  intros Ho Hth [Hin Hdis] HE L j d t p Hp k j' t' Hk Hp'. destruct (printed_after open amount bottom top dist m m' L j d t p Ho Hth HE Hp) as (H1 & Hor & _).
  destruct Hor as [->|(cc & Ht & Hcc & HL & Hb)]; [lia|].
  apply printed_cell in Hp as (layer & l & a & E1 & E2 & E3 & E4). apply printed_cell in H1 as (layer0 & l0 & a0 & F1 & F2 & F3 & F4).
  assert (Hl0 : length l0 = 1) by (apply (thin_only_thin m layer0 Hth) in F2; [done|]; apply elem_of_list_lookup; by exists L).
  destruct l0 as [|h0 [|? ?]]; [done| |done]. destruct Hb as (ly0 & ly & G1 & G2 & G3 & G4 & G5). assert (ly0 = layer0) as -> by congruence. assert (ly = layer) as -> by congruence.
  destruct (G4 j d h0 F2) as (l2 & K1 & K2 & K3 & K4 & K5). assert (l2 = l) as -> by congruence.
  destruct (K5 p t a (L - k) E3 E4) as (lo0 & lo & j2 & N1 & N2 & N3 & N4); [lia|].
  destruct (printed_after open amount bottom top dist m m' k j' d t' p Ho Hth HE Hp') as (Hp0 & _ & _).
  assert (j2 = j') as ->. { apply (Hdis k j2 j' p); [|by apply (Hin k j' d 0)]. apply inside_has. exists lo0. split; [|done]. by replace k with (L - (L - k)) by lia. }
  destruct (G5 (L - k)) as (lo0' & lo' & M1 & M2 & M3 & M4); [lia|]. replace (L - (L - k)) with k in * by lia. assert (lo' = lo) as -> by congruence. assert (lo0' = lo0) as -> by congruence.
  specialize (M4 j' d). apply printed_cell in Hp' as (ly' & l' & a' & Q1 & Q2 & Q3 & Q4). assert (ly' = lo) as -> by congruence.
  destruct (same_cell _ _ _ _ _ M3 Q2) as [l0 El0]. assert (Hl0' : length l0 = 1).
  { apply (thin_only_thin m lo0 Hth) in El0; [done|]. apply elem_of_list_lookup. by exists k. }
  destruct l0 as [|h1 [|? ?]]; [done| |done]. rewrite El0 in M4. destruct M4 as (h' & M5 & _). rewrite Q2 in M5. injection M5 as ->.
  apply list_lookup_singleton_Some in Q3 as [_ ->]. rewrite (N4 a' [] Q2) in Q4. done.
Qed.

(** C66: only in every [amount]th layer is infill thicker, away from the bottom and top layers. *)
Theorem C66_only_there open amount bottom top dist m m' : keeps_within open -> thin_only m ->
  combineInfillLayers open amount bottom top dist m = Ok m' ->
  forall L j d t p, printed m' L j d t p -> t <> 0 -> combining_layer amount bottom top (length m) L.
Proof.
  intros Ho Hth HE L j d t p Hp Ht. destruct (printed_after open amount bottom top dist m m' L j d t p Ho Hth HE Hp) as (H1 & Hor & _).
  destruct Hor as [->|(cc & Hlt & Hcc & [HL [->|Hc]] & Hb)]; [done|lia|done].
Qed.

Lemma contains_hit b o p : aabb_contains b p = true -> aabb_contains o p = true -> aabb_hit b o = true.
Proof.
  unfold aabb_contains, aabb_hit. rewrite !andb_true_iff, !Z.leb_le. intros [[[H1 H2] H3] H4] [[[K1 K2] K3] K4].
  repeat (match goal with |- context [(?a <? ?b)%Z] => replace (a <? b)%Z with false by (symmetry; apply Z.ltb_ge; lia) end). done.
Qed.

(** C66: and there infill is as thick as asked for wherever the layers below have room for it, but for slivers. *)
Theorem C66_as_thick open amount bottom top dist m m' p : keeps_within open -> thin_only m -> sound_parts m -> boxed m ->
  combineInfillLayers open amount bottom top dist m = Ok m' -> 2 <= amount -> dist <> 0%Z ->
  (forall a, a p = true -> open a p = true) ->
  forall L j d, combining_layer amount bottom top (length m) L -> printed m L j d 0 p ->
    (forall k, L - amount < k < L -> exists j', inside m k j' p) ->
    printed m' L j d (amount - 1) p.
Proof.
  intros Ho Hth [Hin _] Hbx HE Ham Hd Hkeep L j d HL Hp Hbelow. pose proof HL as (HL1 & HL2 & HL3). unfold combineInfillLayers in HE.
  replace ((length m =? 0)%nat || (length m - 1 <? top)%nat || (dist =? 0)%Z) with false in HE.
  2:{ symmetry. rewrite !orb_false_iff, Nat.eqb_neq, Nat.ltb_ge, Z.eqb_neq. split; [lia|done]. }
  replace (amount <=? 1) with false in HE by (symmetry; apply Nat.leb_gt; lia). cbv zeta in HE.
  destruct (the_layers amount bottom top (length m) ltac:(lia) ltac:(lia)) as (L1 & L2 & L3). cbv zeta in L1, L2, L3.
  set (lo := min_layer bottom amount) in *. set (hi := max_layer (length m) top amount) in *.
  set (Ls := map (fun i => lo + i * amount) (seq 0 (if hi <? lo then 0 else (hi - lo) / amount + 1))) in *. clearbody Ls lo hi.
  destruct (L2 L HL) as [HLs Hlo]. pose proof (Hin _ _ _ _ _ Hp) as Hins. apply printed_cell in Hp as (layer & l & a & E1 & E2 & E3 & E4).
  destruct Hins as (ly & q & I1 & I2 & I3). assert (ly = layer) as -> by congruence.
  destruct (all_thick open Ho p Hkeep lo amount j d (c_box q) L Ham Ls m m m') as (ly & l' & a' & T1 & T2 & T3 & T4).
  - intros ly Hl. by apply (thin_only_thin m).
  - done.
  - intros L0 H0. destruct (L1 L0 H0) as (_ & _ & H & _). lia.
  - exact L3.
  - done.
  - done.
  - done.
  - intros ly q' K1 K2. congruence.
  - intros i Hi. destruct (Hbelow (L - i)) as (j' & lw & q' & K1 & K2 & K3); [lia|]. exists lw. split; [done|]. exists j', q'. split; [done|]. split; [|done].
    apply (contains_hit _ _ p).
    + apply (Hbx layer); [| |done]; apply elem_of_list_lookup; [by exists L|by exists j].
    + apply (Hbx lw); [| |done]; apply elem_of_list_lookup; [by exists (L - i)|by exists j'].
  - by exists layer, l, a.
  - done.
  - apply printed_cell. exists ly, l', a'. done.
Qed.

(** ** examples *)
Local Open Scope Z_scope.
Definition everywhere : area := fun p => (0 <=? p.1) && (p.1 <=? 100) && (0 <=? p.2) && (p.2 <=? 100).
Definition left_half : area := fun p => (0 <=? p.1) && (p.1 <=? 50) && (0 <=? p.2) && (p.2 <=? 100).
Definition ex_box : AABB := Aabb (0, 0) (100, 100).
Definition ex_layer (a : area) : clayer := [CPart a ex_box [[a]]].
(** seven layers, the lowest ones of which are wide and the others half as wide; the infill of three layers is combined *)
Definition ex_mesh : cmesh := [ex_layer everywhere; ex_layer everywhere; ex_layer left_half; ex_layer everywhere; ex_layer everywhere; ex_layer left_half; ex_layer everywhere].
Definition far : pt := (75, 75).
Definition near : pt := (25, 25).

Lemma ex_lookup k layer : ex_mesh !! k = Some layer -> exists a, layer = ex_layer a /\ (a = everywhere \/ a = left_half).
Proof. intros E. do 7 (destruct k as [|k]; [cbn in E; injection E as <-; (eexists; split; [reflexivity|by (left + right)])|]). done. Qed.
Lemma ex_part a j q : ex_layer a !! j = Some q -> j = 0%nat /\ q = CPart a ex_box [[a]].
Proof. destruct j; cbn; [|done]. intros [= <-]. done. Qed.
Lemma ex_sound : thin_only ex_mesh /\ sound_parts ex_mesh /\ boxed ex_mesh.
Proof.
  split; [|split; [split|]].
  - intros layer q l Hl Hq Hd. apply elem_of_list_lookup in Hl as [k Hk]. apply ex_lookup in Hk as (a & -> & _). apply elem_of_list_lookup in Hq as [j Hj].
    apply ex_part in Hj as [_ ->]. cbn in Hd. apply elem_of_list_singleton in Hd as ->. done.
  - intros k j d t p (layer & q & l & a & H1 & H2 & H3 & H4 & H5). exists layer, q. split; [done|]. split; [done|]. apply ex_lookup in H1 as (b & -> & _). apply ex_part in H2 as [_ ->].
    cbn in H3 |- *. apply list_lookup_singleton_Some in H3 as [-> H3]. subst l. apply list_lookup_singleton_Some in H4 as [-> H4]. subst a. done.
  - intros k j1 j2 p (l1 & q1 & A1 & A2 & _) (l2 & q2 & B1 & B2 & _). assert (l2 = l1) as -> by congruence. apply ex_lookup in A1 as (b & -> & _).
    apply ex_part in A2 as [-> _]. by apply ex_part in B2 as [-> _].
  - intros layer q p Hl Hq Hp. apply elem_of_list_lookup in Hl as [k Hk]. apply ex_lookup in Hk as (a & -> & Ha). apply elem_of_list_lookup in Hq as [j Hj].
    apply ex_part in Hj as [_ ->]. cbn in Hp |- *. unfold aabb_contains. cbn. destruct Ha as [-> | ->]; unfold everywhere, left_half in Hp; rewrite !andb_true_iff, !Z.leb_le in Hp |- *; lia.
Qed.
Definition thickness_at (m : cmesh) (k : nat) (p : pt) : list bool :=
  match m !! k with Some [q] => match c_areas q with [l] => map (fun a => a p) l | _ => [] end | _ => [] end.
Example C66_nonvacuous :
  (thin_only ex_mesh /\ sound_parts ex_mesh /\ boxed ex_mesh) /\
  exists m', combineInfillLayers id 3 0 0 1000 ex_mesh = Ok m' /\
    combining_layer 3 0 0 (length ex_mesh) 3 /\ combining_layer 3 0 0 (length ex_mesh) 6 /\
    map (fun k => thickness_at m' k near) (seq 0 7) =
      [[true]; [false]; [false]; [false; false; true]; [false]; [false]; [false; false; true]] /\
    map (fun k => thickness_at m' k far) (seq 0 7) =
      [[true]; [true]; [false]; [true; false; false]; [true]; [false]; [true; false; false]].
Proof.
  split; [exact ex_sound|]. eexists. split; [vm_compute; reflexivity|]. split; [repeat split; vm_compute; lia|]. split; [repeat split; vm_compute; lia|]. split; vm_compute; reflexivity.
Qed.

(** C66, refuted: that the layers below had infill of their own to be printed where thick infill replaces it.  The area for infill
    is looked at, which also holds where the infill was taken away from again, for instance for skin support or by another mesh. *)
Definition ex_none : cmesh := [ex_layer everywhere; [CPart everywhere ex_box [[a_empty]]]; ex_layer everywhere].
Theorem C66_own_infill_refuted : exists open amount bottom top dist m m' L j d t p k,
  keeps_within open /\ thin_only m /\ sound_parts m /\ combineInfillLayers open amount bottom top dist m = Ok m' /\
  printed m' L j d t p /\ (L - t <= k < L)%nat /\ forall j' d' t', ~ printed m k j' d' t' p.
Proof.
  exists id, 2%nat, 0%nat, 0%nat, 1000, ex_none. eexists. exists 2%nat, 0%nat, 0%nat, 1%nat, near, 1%nat.
  assert (HL : forall k layer, ex_none !! k = Some layer -> exists a b, layer = [CPart a ex_box [[b]]] /\ (b = a \/ b = a_empty) /\ (k = 1%nat -> b = a_empty)).
  { intros k layer E. do 3 (destruct k as [|k]; [cbn in E; injection E as <-; (eexists _, _; split; [reflexivity|]; split; [by (left + right)|done])|]). done. }
  split; [by intros a p|]. split; [|split; [split|]].
  - intros layer q l Hl Hq Hd. apply elem_of_list_lookup in Hl as [k Hk]. apply HL in Hk as (a & b & -> & _). apply elem_of_list_singleton in Hq as ->. cbn in Hd. apply elem_of_list_singleton in Hd. rewrite Hd. done.
  - intros k j d t p (layer & q & l & a & H1 & H2 & H3 & H4 & H5). exists layer, q. split; [done|]. split; [done|]. apply HL in H1 as (a1 & b1 & -> & Hor & _).
    apply list_lookup_singleton_Some in H2 as [-> H2]. subst q. cbn in H3 |- *. apply list_lookup_singleton_Some in H3 as [-> H3]. subst l. apply list_lookup_singleton_Some in H4 as [-> H4]. subst a.
    destruct Hor as [-> | ->]; [done|]. by cbn in H5.
  - intros k j1 j2 p (l1 & q1 & A1 & A2 & _) (l2 & q2 & B1 & B2 & _). assert (l2 = l1) as -> by congruence. apply HL in A1 as (a & b & -> & _).
    apply list_lookup_singleton_Some in A2 as [-> _]. by apply list_lookup_singleton_Some in B2 as [-> _].
  - split; [vm_compute; reflexivity|]. split; [|split; [lia|]].
    + eexists _, _, _, _. split; [reflexivity|]. split; [reflexivity|]. split; [reflexivity|]. split; reflexivity.
    + intros j' d' t' (layer & q & l & a & H1 & H2 & H3 & H4 & H5). apply HL in H1 as (a1 & b1 & -> & _ & Hb). rewrite (Hb eq_refl) in *.
      apply list_lookup_singleton_Some in H2 as [-> H2]. subst q. cbn in H3. apply list_lookup_singleton_Some in H3 as [-> H3]. subst l. apply list_lookup_singleton_Some in H4 as [-> H4]. subst a. by cbn in H5.
Qed.

Print Assumptions C66_once.
Print Assumptions C66_nothing_lost.
Print Assumptions C66_nothing_in_air.
Print Assumptions C66_not_twice.
Print Assumptions C66_only_there.
Print Assumptions C66_as_thick.
Print Assumptions C66_own_infill_refuted.
