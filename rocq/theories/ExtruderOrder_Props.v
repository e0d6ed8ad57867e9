(** C39 and C57: the extruders planned for each layer, their order, and when they are primed. *)
From Coq Require Import ZArith Lia.
From stdpp Require Import list list_numbers.
From Verif Require Import Common Math_Model Layers_Model Layers_Proofs ExtruderOrder_Model.
Open Scope Z_scope.

(** * Specification *)

(** Extruder [e] has something of [s] assigned to it on [layer]; [infill l] is the extruder that the
    support infill of layer [l] is assigned to. *)
Definition assigned (s : scene) (infill : Z → nat) (layer : Z) (e : nat) : Prop :=
  (0 <= layer ∧ ∃ m, m ∈ meshes s ∧ used_on m e layer = true)
  ∨ (∃ filler l, getFillerLayerCount (raft_set s) = Ok filler ∧ - filler <= layer ∧
       support_layers s !! Z.to_nat (Z.max 0 layer) = Some l ∧
       (sup_infill l = true ∧ e = infill layer
        ∨ sup_bottom l = true ∧ e = sup_bottom_ex s ∨ sup_roof l = true ∧ e = sup_roof_ex s))
  ∨ (adhesion_type s ∈ [A_SKIRT; A_BRIM] ∧ layer = 0 ∧ skirt_brim s e = true)
  ∨ (adhesion_type s = A_RAFT ∧ layer < 0 ∧
     (getLayerType (raft_set s) layer = Ok RaftInterface ∧ e = raft_interface_ex s
      ∨ getLayerType (raft_set s) layer = Ok RaftSurface ∧ e = raft_surface_ex s)).

(** What the printing code prints with [e] (FffGcodeWriter.cpp:1241) and what the planning code
    counts as used (sliceDataStorage.cpp:571-584). *)
Definition prints (s : scene) : Z → nat → Prop :=
  assigned s (λ layer, if layer <=? 0 then sup_l0_ex s else sup_infill_ex s).
Definition counted (s : scene) : Z → nat → Prop :=
  assigned s (λ layer, if layer =? 0 then sup_l0_ex s else sup_infill_ex s).

(** The extruder needs a prime blob on the lowest layer of the print. *)
Definition blob_on (s : scene) (layer : Z) (e : nat) : Prop :=
  getTotalExtraLayers (raft_set s) = Ok (- layer) ∧
  ∃ g, extruders_used s = Ok g ∧ g !! e = Some true ∧ need_blob s = true ∧ blob_enable s e = true.

(** Scene data that the slicing stages produce: what is used on some layer is used in the print. *)
Record consistent (s : scene) : Prop := {
  con_height : 0 < layer_height (raft_set s);
  con_raft : adhesion_is_raft (raft_set s) = true ↔ adhesion_type s = A_RAFT;
  con_mesh : ∀ m e l, m ∈ meshes s → used_on m e l = true → used_any m e = true;
  con_support : ∀ l, l ∈ support_layers s →
    ((sup_infill l || sup_roof l || sup_bottom l) = true → support_used s = true) ∧
    (sup_roof l = true → roof_enable s = true) ∧ (sup_bottom l = true → bottom_enable s = true)
}.

(** The extruder that is active when the layers of [pre] have been printed. *)
Definition active (start : nat) (pre : list (Z * list extruder_use)) : nat :=
  default start (last (map ex_nr (concat (map snd pre)))).

(** * Marking used extruders *)

Lemma mark_ok i v v' : mark i v = Ok v' → (i < length v)%nat ∧ v' = <[i := true]> v.
Proof. unfold mark. case_decide; naive_solver. Qed.

Lemma mark_len i v v' : mark i v = Ok v' → length v' = length v.
Proof. intros [_ ->]%mark_ok. by rewrite insert_length. Qed.

Lemma mark_true i v v' e : mark i v = Ok v' → v' !! e = Some true ↔ v !! e = Some true ∨ e = i.
Proof.
  intros [Hi ->]%mark_ok. destruct (decide (e = i)) as [-> |].
  - rewrite list_lookup_insert by done. naive_solver.
  - rewrite list_lookup_insert_ne by done. naive_solver.
Qed.

Lemma mark_if_len b i v v' : mark_if b i v = Ok v' → length v' = length v.
Proof. destruct b; simpl; [apply mark_len|naive_solver]. Qed.

Lemma mark_if_true b i v v' e :
  mark_if b i v = Ok v' → v' !! e = Some true ↔ v !! e = Some true ∨ b = true ∧ e = i.
Proof. destruct b; simpl; [intros ->%(mark_true _ _ _ e)|intros [= ->]]; naive_solver. Qed.

Lemma imap_true (f : nat → bool) v e :
  imap (λ e b, b || f e) v !! e = Some true
  ↔ v !! e = Some true ∨ (e < length v)%nat ∧ f e = true.
Proof.
  rewrite list_lookup_imap. destruct (v !! e) as [b|] eqn:E; simpl.
  - apply lookup_lt_Some in E. destruct b, (f e); naive_solver.
  - apply lookup_ge_None in E. split; [done|intros [?|[? ?]]; [done|lia]].
Qed.

Lemma foldl_len {A} (f : A → nat → bool) (ms : list A) v :
  length (foldl (λ v m, imap (λ e b, b || f m e) v) v ms) = length v.
Proof. revert v. induction ms as [|m ms IH]; intros v; simpl; [done|]. by rewrite IH, imap_length. Qed.

Lemma foldl_true {A} (f : A → nat → bool) (ms : list A) v e :
  foldl (λ v m, imap (λ e b, b || f m e) v) v ms !! e = Some true
  ↔ v !! e = Some true ∨ (e < length v)%nat ∧ ∃ m, m ∈ ms ∧ f m e = true.
Proof.
  revert v. induction ms as [|m ms IH]; intros v; simpl.
  - split; [by left|]. intros [?|[_ (m & Hm & _)]]; [done|by apply elem_of_nil in Hm].
  - rewrite IH, imap_true, imap_length. setoid_rewrite elem_of_cons. naive_solver.
Qed.

Lemma replicate_true n e : replicate n false !! e = Some true ↔ False.
Proof. split; [|done]. intros [H _]%lookup_replicate. done. Qed.

Lemma filler_nonneg r fl : 0 < layer_height r → getFillerLayerCount r = Ok fl → 0 <= fl.
Proof. intros H E. destruct (filler_count_ok r H) as (f & E' & Hf & _). congruence. Qed.

(** What the two [getExtrudersUsed] functions return. *)
Lemma used_len s v : extruders_used s = Ok v → length v = n_extruders s.
Proof.
  unfold extruders_used. rewrite rbind_ok. intros (v1 & H1 & H).
  apply rbind_ok in H as (v2 & H2 & H). injection H as <-. rewrite foldl_len.
  assert (length v1 = n_extruders s) as L1.
  { destruct (adhesion_type s).
    - injection H1 as <-. apply replicate_length.
    - destruct (0 <=? skirt_brim_ex s); [apply mark_len in H1; rewrite H1|injection H1 as <-]; rewrite imap_length; apply replicate_length.
    - destruct (0 <=? skirt_brim_ex s); [apply mark_len in H1; rewrite H1|injection H1 as <-]; rewrite imap_length; apply replicate_length.
    - apply rbind_ok in H1 as (a & Ha%mark_len & H1). apply rbind_ok in H1 as (b & Hb%mark_if_len & H1).
      apply mark_if_len in H1. rewrite H1, Hb, Ha. apply replicate_length. }
  destruct (support_used s).
  - apply rbind_ok in H2 as (a & Ha%mark_len & H2). apply rbind_ok in H2 as (b & Hb%mark_len & H2).
    apply rbind_ok in H2 as (c & Hc%mark_if_len & H2). apply mark_if_len in H2. lia.
  - injection H2 as <-. done.
Qed.

Lemma used_on_len s l v : extruders_used_on s l = Ok v → length v = n_extruders s.
Proof.
  unfold extruders_used_on. rewrite rbind_ok. intros (fl & Hfl & H).
  apply rbind_ok in H as (v1 & H1 & H). apply rbind_ok in H as (v2 & H2 & H). injection H as <-.
  assert (length v1 = n_extruders s) as L1.
  { match type of H1 with (if ?b then _ else _) = _ => destruct b end; [|injection H1 as <-; apply replicate_length].
    destruct (adhesion_type s).
    - injection H1 as <-. apply replicate_length.
    - injection H1 as <-. destruct (l =? 0); rewrite ?imap_length; apply replicate_length.
    - injection H1 as <-. destruct (l =? 0); rewrite ?imap_length; apply replicate_length.
    - apply rbind_ok in H1 as (t & _ & H1). destruct t.
      + apply rbind_ok in H1 as (a & Ha%mark_len & H1). injection H1 as <-. rewrite imap_length, Ha. apply replicate_length.
      + apply mark_len in H1. rewrite H1. apply replicate_length.
      + apply mark_len in H1. rewrite H1. apply replicate_length.
      + injection H1 as <-. apply replicate_length.
      + injection H1 as <-. apply replicate_length. }
  assert (length v2 = n_extruders s) as L2.
  { match type of H2 with (if ?b then _ else _) = _ => destruct b end; [|injection H2 as <-; done].
    apply rbind_ok in H2 as (sl & _ & H2). apply rbind_ok in H2 as (a & Ha%mark_if_len & H2).
    apply rbind_ok in H2 as (b & Hb%mark_if_len & H2). apply mark_if_len in H2. lia. }
  destruct (negb (l <? 0)); [rewrite (foldl_len (λ m e, used_on m e l))|]; done.
Qed.

Lemma layer_type_filler r l fl t :
  getFillerLayerCount r = Ok fl → getLayerType r l = Ok t →
  (0 <= l → 0 <= fl → t = Model) ∧ (t = RaftBase ∨ t = RaftInterface ∨ t = RaftSurface → l < - fl).
Proof.
  unfold getLayerType. intros ->; simpl. intros [= <-].
  assert (0 <= getInterfaceLayers r ∧ 0 <= getSurfaceLayers r).
  { unfold getInterfaceLayers, getSurfaceLayers. destruct (adhesion_is_raft r); lia. }
  repeat case_match; naive_solver lia.
Qed.

Lemma used_on_true s l v e :
  0 < layer_height (raft_set s) →
  extruders_used_on s l = Ok v → (e < n_extruders s)%nat → getLayerType (raft_set s) l ≠ Ok RaftBase →
  v !! e = Some true ↔ counted s l e.
Proof.
  intros Hlh Hv He Hnb. unfold extruders_used_on in Hv. apply rbind_ok in Hv as (fl & Hfl & Hv).
  apply rbind_ok in Hv as (v1 & H1 & Hv). apply rbind_ok in Hv as (v2 & H2 & Hv). injection Hv as <-.
  (* adhesion *)
  assert (length v1 = n_extruders s ∧ (v1 !! e = Some true ↔
     (adhesion_type s ∈ [A_SKIRT; A_BRIM] ∧ l = 0 ∧ skirt_brim s e = true)
     ∨ (adhesion_type s = A_RAFT ∧ l < 0 ∧
     (getLayerType (raft_set s) l = Ok RaftInterface ∧ e = raft_interface_ex s
      ∨ getLayerType (raft_set s) l = Ok RaftSurface ∧ e = raft_surface_ex s)))) as [L1 E1].
  { rewrite !elem_of_cons, elem_of_nil.
    destruct (adhesion_type s) eqn:Ead; simpl in H1.
    - assert (v1 = replicate (n_extruders s) false) as -> 
        by (destruct ((l <? 0) || negb ((0 <? l) || false)); congruence).
      rewrite replicate_length, replicate_true. naive_solver.
    - assert (v1 = if l =? 0 then imap (λ e b, b || skirt_brim s e) (replicate (n_extruders s) false)
                   else replicate (n_extruders s) false) as ->.
      { destruct (l <? 0) eqn:?, (0 <? l) eqn:?, (l =? 0) eqn:?; simpl in H1; first [congruence|lia]. }
      destruct (Z.eqb_spec l 0) as [-> |].
      + rewrite imap_true, imap_length, replicate_length, replicate_true. naive_solver.
      + rewrite replicate_length, replicate_true. naive_solver.
    - assert (v1 = if l =? 0 then imap (λ e b, b || skirt_brim s e) (replicate (n_extruders s) false)
                   else replicate (n_extruders s) false) as ->.
      { destruct (l <? 0) eqn:?, (0 <? l) eqn:?, (l =? 0) eqn:?; simpl in H1; first [congruence|lia]. }
      destruct (Z.eqb_spec l 0) as [-> |].
      + rewrite imap_true, imap_length, replicate_length, replicate_true. naive_solver.
      + rewrite replicate_length, replicate_true. naive_solver.
    - destruct (l <? 0) eqn:El; simpl in H1.
      + apply rbind_ok in H1 as (t & Ht & H1). rewrite Ht. destruct t; [done| | | |].
        * split; [by rewrite (mark_len _ _ _ H1), replicate_length|].
          rewrite (mark_true _ _ _ e H1), replicate_true.
          split; [intros [[]| ->]; right; split_and!; [done|lia|by left]|intros [(Hx & _)|(_ & _ & [[_ ->]|[? _]])]; [naive_solver|by right|done]].
        * split; [by rewrite (mark_len _ _ _ H1), replicate_length|].
          rewrite (mark_true _ _ _ e H1), replicate_true.
          split; [intros [[]| ->]; right; split_and!; [done|lia|by right]|intros [(Hx & _)|(_ & _ & [[? _]|[_ ->]])]; [naive_solver|done|by right]].
        * injection H1 as <-. rewrite replicate_length, replicate_true. naive_solver.
        * injection H1 as <-. rewrite replicate_length, replicate_true. naive_solver.
      + rewrite orb_true_r in H1. simpl in H1. injection H1 as <-.
        rewrite replicate_length, replicate_true. apply Z.ltb_ge in El.
        split; [done|]. split; [done|]. intros [(Hx & _)|(_ & ? & _)]; [naive_solver|lia]. }
  (* support *)
  assert (length v2 = n_extruders s ∧ (v2 !! e = Some true ↔ v1 !! e = Some true ∨
    (- fl <= l ∧ ∃ sl, support_layers s !! Z.to_nat (Z.max 0 l) = Some sl ∧
       (sup_infill sl = true ∧ e = (if l =? 0 then sup_l0_ex s else sup_infill_ex s)
        ∨ sup_bottom sl = true ∧ e = sup_bottom_ex s ∨ sup_roof sl = true ∧ e = sup_roof_ex s)))) as [L2 E2].
  { destruct (negb ((l <? 0) && (l <? - fl)) && (l <? Z.of_nat (length (support_layers s)))) eqn:C.
    - apply andb_true_iff in C as [C1 C2]. apply rbind_ok in H2 as (sl & Hsl & H2). apply of_opt_ok in Hsl.
      apply rbind_ok in H2 as (a & Ha & H2). apply rbind_ok in H2 as (b & Hb & H2).
      split.
      { apply mark_if_len in H2, Hb, Ha. lia. }
      rewrite (mark_if_true _ _ _ _ e H2), (mark_if_true _ _ _ _ e Hb), (mark_if_true _ _ _ _ e Ha).
      assert (- fl <= l).
      { apply negb_true_iff, andb_false_iff in C1. destruct C1 as [C1|C1]; apply Z.ltb_ge in C1; [|done].
        pose proof (filler_nonneg _ _ Hlh Hfl). lia. }
      rewrite Hsl. split; [intros [[[?|?]|?]|?]; [by left|right; split; [done|]; eexists; split; [done|]; naive_solver..]|].
      intros [?|(_ & sl' & [= <-] & Hor)]; naive_solver.
    - injection H2 as <-. split; [done|]. split; [by left|].
      intros [?|(Hge & sl & Hsl & _)]; [done|]. exfalso.
      apply lookup_lt_Some in Hsl. apply andb_false_iff in C as [C|C].
      + apply negb_false_iff, andb_true_iff in C as [_ C%Z.ltb_lt]. lia.
      + apply Z.ltb_ge in C. lia. }
  (* models *)
  unfold counted, assigned.
  assert ((if negb (l <? 0) then foldl (λ v m, imap (λ e b, b || used_on m e l) v) v2 (meshes s) else v2) !! e = Some true
    ↔ v2 !! e = Some true ∨ 0 <= l ∧ ∃ m, m ∈ meshes s ∧ used_on m e l = true) as ->.
  { destruct (Z.ltb_spec l 0); simpl.
    - split; [by left|]. intros [?|[? _]]; [done|lia].
    - rewrite (foldl_true (λ m e, used_on m e l)). split; intros [?|[? ?]]; [by left|by right|by left|right; split; [lia|done]]. }
  rewrite E2, E1. rewrite Hfl.
  split.
  - intros [[[?|?]|(? & sl & ? & ?)]|?];
      [right; right; by left|right; right; by right|right; left; by exists fl, sl|by left].
  - intros [?|[(fl' & sl & [= <-] & ? & ? & ?)|[?|?]]];
      [by right|left; right; split; [done|]; by exists sl|left; left; by left|left; left; by right].
Qed.

Lemma counted_used s g l e :
  consistent s → extruders_used s = Ok g → (e < n_extruders s)%nat → counted s l e → g !! e = Some true.
Proof.
  intros [Hlh Hraft Hmesh Hsup] Hg He Hc. unfold extruders_used in Hg.
  apply rbind_ok in Hg as (v1 & H1 & Hg). apply rbind_ok in Hg as (v2 & H2 & Hg). injection Hg as <-.
  rewrite foldl_true.
  assert (∀ i, v1 !! i = Some true → v2 !! i = Some true) as M12.
  { intros i Hi. destruct (support_used s); [|congruence].
    apply rbind_ok in H2 as (a & Ha & H2). apply rbind_ok in H2 as (b & Hb & H2). apply rbind_ok in H2 as (c & Hc' & H2).
    rewrite (mark_if_true _ _ _ _ i H2), (mark_if_true _ _ _ _ i Hc'), (mark_true _ _ _ i Hb), (mark_true _ _ _ i Ha).
    naive_solver. }
  assert (length v1 = n_extruders s) as L1.
  { destruct (adhesion_type s).
    - injection H1 as <-. apply replicate_length.
    - destruct (0 <=? skirt_brim_ex s); [apply mark_len in H1; rewrite H1|injection H1 as <-]; rewrite imap_length; apply replicate_length.
    - destruct (0 <=? skirt_brim_ex s); [apply mark_len in H1; rewrite H1|injection H1 as <-]; rewrite imap_length; apply replicate_length.
    - apply rbind_ok in H1 as (a & Ha%mark_len & H1). apply rbind_ok in H1 as (b & Hb%mark_if_len & H1).
      apply mark_if_len in H1. rewrite H1, Hb, Ha. apply replicate_length. }
  assert (length v2 = n_extruders s) as L2.
  { destruct (support_used s).
    - apply rbind_ok in H2 as (a & Ha%mark_len & H2). apply rbind_ok in H2 as (b & Hb%mark_len & H2).
      apply rbind_ok in H2 as (c & Hc'%mark_if_len & H2). apply mark_if_len in H2. lia.
    - injection H2 as <-. done. }
  destruct Hc as [[_ (m & Hm & Hu)]|[(fl & sl & Hfl & Hge & Hsl & Hor)|[(Ha & -> & Hsb)|(Ha & Hneg & Hor)]]].
  - right. rewrite L2. split; [done|]. exists m. split; [done|]. by eapply Hmesh.
  - left. apply elem_of_list_lookup_2 in Hsl. destruct (Hsup _ Hsl) as (Hs1 & Hs2 & Hs3).
    assert (support_used s = true) as Hs.
    { apply Hs1. destruct (sup_infill sl), (sup_roof sl), (sup_bottom sl); naive_solver. }
    rewrite Hs in H2.
    apply rbind_ok in H2 as (a & Ha & H2). apply rbind_ok in H2 as (b & Hb & H2). apply rbind_ok in H2 as (c & Hc' & H2).
    rewrite (mark_if_true _ _ _ _ e H2), (mark_if_true _ _ _ _ e Hc'), (mark_true _ _ _ e Hb), (mark_true _ _ _ e Ha).
    destruct Hor as [[_ ->]|[[? ->]|[? ->]]]; [destruct (l =? 0); auto|auto..].
  - left. apply M12. rewrite !elem_of_cons, elem_of_nil in Ha.
    assert (imap (λ e b, b || skirt_brim s e) (replicate (n_extruders s) false) !! e = Some true) as Hm.
    { rewrite imap_true, replicate_length. auto. }
    destruct (adhesion_type s); try (exfalso; by destruct Ha as [?|[?|?]]).
    + destruct (0 <=? skirt_brim_ex s); [rewrite (mark_true _ _ _ e H1); by left|]. by injection H1 as <-.
    + destruct (0 <=? skirt_brim_ex s); [rewrite (mark_true _ _ _ e H1); by left|]. by injection H1 as <-.
  - left. apply M12. rewrite Ha in H1.
    apply rbind_ok in H1 as (a & Hma & H1). apply rbind_ok in H1 as (b & Hmb & H1).
    rewrite (mark_if_true _ _ _ _ e H1), (mark_if_true _ _ _ _ e Hmb).
    assert (adhesion_is_raft (raft_set s) = true) as Hr by by apply Hraft.
    destruct Hor as [[Ht ->]|[Ht ->]].
    + left. right. split; [|done]. apply Nat.ltb_lt.
      unfold getLayerType in Ht. apply rbind_ok in Ht as (f & Hf & Ht). injection Ht as Ht.
      unfold getInterfaceLayers in Ht. rewrite Hr in Ht.
      destruct (raft_interface_layers (raft_set s)); [|lia].
      exfalso. revert Ht. change (Z.of_nat 0) with 0. repeat (case Z.ltb_spec; intros ?); first [done|intros _; lia].
    + right. split; [|done]. apply Nat.ltb_lt.
      unfold getLayerType in Ht. apply rbind_ok in Ht as (f & Hf & Ht). injection Ht as Ht.
      unfold getSurfaceLayers in Ht. rewrite Hr in Ht.
      destruct (raft_surface_layers (raft_set s)); [|lia].
      exfalso. revert Ht. change (Z.of_nat 0) with 0. repeat (case Z.ltb_spec; intros ?); first [done|intros _; lia].
Qed.

(** * The choice on one layer *)

Lemma extruder_prime_spec s used e last layer p u :
  extruder_prime s used e last layer = Ok p → at_bool used e = Ok u →
  (p = PPrime ↔ prime_tower s ≠ T_None ∧ u = true ∧ e ≠ last) ∧
  (p = PSupport ↔ prime_tower s = T_Normal ∧ layer <= max_height_second s ∧ ¬ (u = true ∧ e ≠ last)).
Proof.
  unfold extruder_prime. intros Hp Hu. rewrite Hu in Hp.
  destruct (prime_tower s); simpl in Hp; injection Hp as <-.
  - naive_solver.
  - destruct u; simpl; destruct (Nat.eqb_spec e last); simpl; destruct (Z.leb_spec layer (max_height_second s));
      naive_solver lia.
  - destruct u; simpl; destruct (Nat.eqb_spec e last); simpl; naive_solver lia.
Qed.

Lemma default_last_cons (a e : nat) xs : default a (list.last (e :: xs)) = default e (list.last xs).
Proof. rewrite last_cons. by destruct (list.last xs). Qed.

Lemma choose_spec s used layer last es us :
  choose s used layer last es = Ok us →
  sublist (map ex_nr us) es ∧
  (∀ e, e ∈ es → (e < length used)%nat) ∧
  (∀ e, e ∈ es → e ∈ map ex_nr us ↔
     used !! e = Some true ∨ prime_tower s = T_Normal ∧ layer <= max_height_second s) ∧
  (∀ pre u post, us = pre ++ u :: post →
     let before := default last (list.last (map ex_nr pre)) in
     (ex_prime u = PPrime ↔ prime_tower s ≠ T_None ∧ used !! ex_nr u = Some true ∧ ex_nr u ≠ before)).
Proof.
  revert last us. induction es as [|e es IH]; intros last us; cbn [choose].
  - intros [= <-]. split; [constructor|]. split; [intros e He; by apply elem_of_nil in He|].
    split; [intros e He; by apply elem_of_nil in He|]. intros pre u post H. by destruct pre.
  - rewrite rbind_ok. intros (p & Hp & H). apply rbind_ok in H as (u & Hu & H).
    destruct (extruder_prime_spec _ _ _ _ _ _ _ Hp Hu) as [Sp Ss].
    unfold at_bool in Hu. apply of_opt_ok in Hu.
    pose proof (lookup_lt_Some _ _ _ Hu) as Hlt.
    assert ((u || negb (bool_decide (p = PNone))) = true ↔
            used !! e = Some true ∨ prime_tower s = T_Normal ∧ layer <= max_height_second s) as Hin.
    { rewrite orb_true_iff, negb_true_iff, bool_decide_eq_false, Hu.
      split.
      - intros [->|Hne]; [by left|]. destruct p; [done| |].
        + right. naive_solver.
        + left. naive_solver.
      - intros [[= ->]|[Hn Hle]]; [by left|]. destruct u; [by left|]. right. intros ->.
        assert (PNone = PSupport); [|done]. apply Ss. naive_solver. }
    destruct (u || negb (bool_decide (p = PNone))) eqn:E.
    + apply rbind_ok in H as (r & Hr & H). injection H as <-.
      destruct (IH _ _ Hr) as (S1 & S2 & S3 & S4). split; [|split; [|split]].
      * simpl. by constructor.
      * intros x [->|Hx]%elem_of_cons; [done|by apply S2].
      * intros x Hx. simpl. rewrite elem_of_cons. destruct (decide (x = e)) as [-> |Hne].
        { split; [intros _; by apply Hin|by left]. }
        apply elem_of_cons in Hx as [?|Hx]; [done|]. rewrite <-(S3 x Hx). naive_solver.
      * intros pre w post Heq. destruct pre as [|w0 pre].
        { injection Heq as <- <-. simpl. rewrite Sp, Hu. naive_solver. }
        injection Heq as <- ->. pose proof (S4 pre w post eq_refl) as Hq.
        change (map ex_nr (Use e p :: pre)) with (e :: map ex_nr pre). by rewrite default_last_cons.
    + assert (¬ (used !! e = Some true ∨ prime_tower s = T_Normal ∧ layer <= max_height_second s)) as Hno.
      { rewrite <-Hin. done. }
      destruct (IH _ _ H) as (S1 & S2 & S3 & S4). split; [|split; [|split]].
      * by constructor.
      * intros x [->|Hx]%elem_of_cons; [done|by apply S2].
      * intros x Hx. destruct (decide (x ∈ es)) as [Hes|Hes]; [by apply S3|].
        apply elem_of_cons in Hx as [->|Hx]; [|done]. split; [|done].
        intros Hx. exfalso. apply Hes. eapply elem_of_submseteq; [done|by apply sublist_submseteq].
      * done.
Qed.

Lemma sublist_NoDup {A} (k l : list A) : sublist k l → NoDup l → NoDup k.
Proof.
  induction 1 as [|x k l H IH|x k l H IH]; intros HN; [constructor| |].
  - apply NoDup_cons in HN as [Hx HN]. apply NoDup_cons. split; [|by apply IH].
    intros Hk. apply Hx. eapply elem_of_submseteq; [done|by apply sublist_submseteq].
  - apply NoDup_cons in HN as [_ HN]. by apply IH.
Qed.

Definition potential (start : nat) (global : list bool) : list nat :=
  start :: List.filter (λ e, negb (e =? start)%nat && default false (global !! e)) (seq 0 (length global)).

Lemma potential_elem start g e : e ∈ potential start g ↔ e = start ∨ g !! e = Some true.
Proof.
  unfold potential. rewrite elem_of_cons, elem_of_list_In, filter_In, <-elem_of_list_In, elem_of_seq.
  rewrite andb_true_iff, negb_true_iff, Nat.eqb_neq.
  split.
  - intros [?|(_ & _ & H)]; [by left|]. right. by destruct (g !! e) as [[]|].
  - intros [?|H]; [by left|]. destruct (decide (e = start)); [by left|]. right.
    pose proof (lookup_lt_Some _ _ _ H). rewrite H. split; [lia|done].
Qed.

Lemma filter_NoDup {A} (f : A → bool) (l : list A) : NoDup l → NoDup (List.filter f l).
Proof.
  induction 1 as [|x l Hx HN IH]; simpl; [constructor|]. destruct (f x); [|done].
  apply NoDup_cons. split; [|done]. rewrite elem_of_list_In, filter_In, <-elem_of_list_In. naive_solver.
Qed.

Lemma potential_NoDup start g : NoDup (potential start g).
Proof.
  unfold potential. apply NoDup_cons. split.
  - rewrite elem_of_list_In, filter_In. intros [_ H]. by rewrite Nat.eqb_refl in H.
  - apply filter_NoDup, NoDup_seq.
Qed.

(** One layer that is not the base of a raft. *)
Lemma layer_spec s g st l order :
  consistent s → extruders_used s = Ok g →
  used_extruders_on_layer s st l g = Ok order → getLayerType (raft_set s) l ≠ Ok RaftBase →
  NoDup (map ex_nr order) ∧
  (∀ e, e ∈ map ex_nr order ↔ (e < n_extruders s)%nat ∧
     (counted s l e ∨ blob_on s l e ∨
      prime_tower s = T_Normal ∧ l <= max_height_second s ∧ (e = st ∨ g !! e = Some true))
     ∧ (e = st ∨ g !! e = Some true)) ∧
  (st ∈ map ex_nr order → head (map ex_nr order) = Some st) ∧
  (∀ pre u post, order = pre ++ u :: post →
     ex_prime u = PPrime ↔ prime_tower s ≠ T_None ∧ (counted s l (ex_nr u) ∨ blob_on s l (ex_nr u))
                           ∧ ex_nr u ≠ default st (last (map ex_nr pre))).
Proof.
  intros Hc Hg H Hnb. unfold used_extruders_on_layer in H.
  apply rbind_ok in H as (used & Hu & H). apply rbind_ok in H as (total & Ht & H). apply rbind_ok in H as (t & Hlt & H).
  assert (choose s (if l =? - total then imap (λ e b, b || needs_blob s g e) used else used) l st (potential st g) = Ok order) as Hch.
  { destruct t; try exact H. by destruct Hnb. }
  clear H Hlt.
  pose proof (used_on_len _ _ _ Hu) as Lu.
  assert (∀ e, (e < n_extruders s)%nat →
    (if l =? - total then imap (λ e b, b || needs_blob s g e) used else used) !! e = Some true
    ↔ counted s l e ∨ blob_on s l e) as Hused.
  { intros e He. pose proof (used_on_true _ _ _ _ (con_height _ Hc) Hu He Hnb) as Hm.
    assert (needs_blob s g e = true ↔ ∃ g', extruders_used s = Ok g' ∧ g' !! e = Some true ∧ need_blob s = true ∧ blob_enable s e = true) as Hnbl.
    { unfold needs_blob. rewrite decide_True by done. rewrite !andb_true_iff. split.
      - intros [[? H2] ?]. exists g. destruct (g !! e) as [[]|] eqn:?; done.
      - intros (g' & Hg' & Hge & ? & ?). assert (g' = g) as -> by congruence. rewrite Hge. done. }
    unfold blob_on. rewrite Ht. destruct (Z.eqb_spec l (- total)) as [El|El].
    - rewrite imap_true, Hm, Lu, Hnbl. split; [intros [?|[? ?]]|intros [?|[? ?]]]; [by left| |by left|by right].
      right. split; [f_equal; lia|done].
    - rewrite Hm. split; [by left|]. intros [?|[[= Hx] ?]]; [done|]. lia. }
  assert (length (if l =? - total then imap (λ e b, b || needs_blob s g e) used else used) = n_extruders s) as Lu2.
  { destruct (l =? - total); [rewrite imap_length|]; done. }
  destruct (choose_spec _ _ _ _ _ _ Hch) as (S1 & S2 & S3 & S4).
  assert (∀ e, e ∈ map ex_nr order → e ∈ potential st g) as Hsub.
  { intros e He. eapply elem_of_submseteq; [done|by apply sublist_submseteq]. }
  split; [|split; [|split]].
  - eapply sublist_NoDup; [done|apply potential_NoDup].
  - intros e. split.
    + intros He. pose proof (Hsub _ He) as Hp. pose proof (S2 _ Hp) as Hlt. rewrite Lu2 in Hlt.
      split; [done|]. rewrite potential_elem in Hp. split; [|done].
      apply S3 in He; [|by rewrite potential_elem]. destruct He as [He|[He1 He2]].
      * apply Hused in He as [?|?]; auto.
      * right; right. auto.
    + intros (He & Hor & Hpot). apply S3; [by apply potential_elem|].
      destruct Hor as [Hk|[Hk|(? & ? & _)]]; [left; apply Hused; auto|left; apply Hused; auto|by right].
  - intros Hin. pose proof (potential_NoDup st g) as HN.
    unfold potential in *. inversion S1 as [|x k l' Hs Heq1 Heq2|x k l' Hs Heq1 Heq2]; subst.
    + done.
    + exfalso. apply NoDup_cons in HN as [HN _]. apply HN.
      eapply elem_of_submseteq; [done|by apply sublist_submseteq].
  - intros pre u post Heq. pose proof (S4 pre u post Heq) as Hq. cbv zeta in Hq. rewrite Hq.
    rewrite Hused; [done|].
    assert (ex_nr u ∈ map ex_nr order) as Hin.
    { rewrite Heq, map_app. apply elem_of_app. right. by left. }
    apply Hsub, S2 in Hin. lia.
Qed.

(** * The whole print *)

Lemma active_snoc start pre l order :
  active start (pre ++ [(l, order)]) = active_after (active start pre) order.
Proof.
  unfold active, active_after. rewrite map_app, concat_app. simpl. rewrite app_nil_r, map_app.
  destruct order as [|u us] using rev_ind; simpl.
  - by rewrite app_nil_r.
  - rewrite map_app, app_assoc. simpl. rewrite !last_snoc. done.
Qed.

Lemma order_layers_at s g start pre0 ls plan :
  order_layers s g (active start pre0) ls = Ok plan →
  ∀ pre l order post, plan = pre ++ (l, order) :: post →
    l ∈ ls ∧ used_extruders_on_layer s (active start (pre0 ++ pre)) l g = Ok order.
Proof.
  revert pre0 plan. induction ls as [|l0 ls IH]; intros pre0 plan; cbn [order_layers].
  - intros [= <-] pre l order post H. by destruct pre.
  - rewrite rbind_ok. intros (o & Ho & H). apply rbind_ok in H as (rest & Hr & H). injection H as <-.
    rewrite <-(active_snoc _ _ l0) in Hr. intros pre l order post Heq. destruct pre as [|p pre].
    + injection Heq as <- <- <-. rewrite app_nil_r. split; [by left|done].
    + injection Heq as <- ->. destruct (IH _ _ Hr pre l order post eq_refl) as [Hl Hu].
      split; [by right|]. by rewrite <-app_assoc in Hu.
Qed.

Lemma plan_at s start plan pre l order post :
  extruder_order_per_layer s start = Ok plan → plan = pre ++ (l, order) :: post →
  ∃ g total, extruders_used s = Ok g ∧ getTotalExtraLayers (raft_set s) = Ok total ∧
    - total <= l < Z.of_nat (layer_count s) ∧
    used_extruders_on_layer s (active start pre) l g = Ok order.
Proof.
  unfold extruder_order_per_layer. rewrite rbind_ok. intros (g & Hg & H) Heq.
  apply rbind_ok in H as (total & Ht & H).
  destruct (order_layers_at s g start [] _ _ H pre l order post Heq) as [Hl Hu].
  exists g, total. split; [done|]. split; [done|]. split; [|done].
  apply elem_of_seqZ in Hl. lia.
Qed.

(** * C39 *)

(** No extruder is planned twice on a layer. *)
Theorem C39_no_duplicates s start plan l order :
  consistent s → extruder_order_per_layer s start = Ok plan → (l, order) ∈ plan →
  NoDup (map ex_nr order).
Proof.
  intros Hc H (pre & post & Heq)%elem_of_list_split.
  destruct (plan_at _ _ _ _ _ _ _ H Heq) as (g & total & Hg & Ht & _ & Hu).
  destruct (getLayerType (raft_set s) l) as [[]| |] eqn:El; try (by eapply layer_spec; [..|rewrite El]).
  unfold used_extruders_on_layer in Hu. apply rbind_ok in Hu as (used & _ & Hu). rewrite Ht, El in Hu.
  simpl in Hu. injection Hu as <-. simpl. rewrite map_map. simpl. rewrite map_id.
  apply NoDup_cons. destruct (l =? - total).
  - split; [|apply filter_NoDup, NoDup_seq]. rewrite elem_of_list_In, filter_In. intros [_ Hx].
    by rewrite Nat.eqb_refl in Hx.
  - split; [by apply not_elem_of_nil|constructor].
Qed.

(** Every extruder that has something to print on a layer is planned for it.  Below the model the
    support infill is printed with the extruder for the first layer, but it is the other one that is
    counted; hence the last hypothesis (see [C39_filler_refuted]). *)
Theorem C39_complete s start plan l order e :
  consistent s → extruder_order_per_layer s start = Ok plan → (l, order) ∈ plan →
  (e < n_extruders s)%nat → getLayerType (raft_set s) l ≠ Ok RaftBase →
  (0 <= l ∨ sup_l0_ex s = sup_infill_ex s) →
  prints s l e → e ∈ map ex_nr order.
Proof.
  intros Hc H (pre & post & Heq)%elem_of_list_split He Hnb Hl Hp.
  destruct (plan_at _ _ _ _ _ _ _ H Heq) as (g & total & Hg & Ht & _ & Hu).
  destruct (layer_spec _ _ _ _ _ Hc Hg Hu Hnb) as (_ & Hin & _). apply Hin. split; [done|].
  assert (counted s l e) as Hcnt.
  { unfold prints, counted, assigned in *.
    assert ((if l <=? 0 then sup_l0_ex s else sup_infill_ex s) = (if l =? 0 then sup_l0_ex s else sup_infill_ex s)) as <-; [|done].
    destruct (Z.leb_spec l 0), (Z.eqb_spec l 0); try done; lia. }
  split; [by left|]. right. by eapply counted_used.
Qed.

(** Without a prime tower, and before polishing with an interleaved one, nothing else is planned. *)
Theorem C39_exact s start plan l order e :
  consistent s → extruder_order_per_layer s start = Ok plan → (l, order) ∈ plan →
  getLayerType (raft_set s) l ≠ Ok RaftBase → prime_tower s ≠ T_Normal →
  e ∈ map ex_nr order ↔ (e < n_extruders s)%nat ∧ (counted s l e ∨ blob_on s l e).
Proof.
  intros Hc H (pre & post & Heq)%elem_of_list_split Hnb Htw.
  destruct (plan_at _ _ _ _ _ _ _ H Heq) as (g & total & Hg & Ht & _ & Hu).
  destruct (layer_spec _ _ _ _ _ Hc Hg Hu Hnb) as (_ & Hin & _). rewrite Hin. split.
  - intros (? & [?|[?|[? _]]] & _); auto. done.
  - intros (He & Hor). split; [done|]. destruct Hor as [Hk|Hk].
    + split; [by left|]. right. by eapply counted_used.
    + split; [auto|]. right. destruct Hk as (_ & g' & Hg' & Hk & _). congruence.
Qed.

(** With a normal prime tower every extruder of the print visits every layer up to the height of the
    tower. *)
Theorem C39_normal_tower s start plan pre l order post e g :
  consistent s → extruder_order_per_layer s start = Ok plan → plan = pre ++ (l, order) :: post →
  getLayerType (raft_set s) l ≠ Ok RaftBase → prime_tower s = T_Normal → l <= max_height_second s →
  extruders_used s = Ok g →
  e ∈ map ex_nr order ↔ (e < n_extruders s)%nat ∧ (e = active start pre ∨ g !! e = Some true).
Proof.
  intros Hc H Heq Hnb Htw Hle Hg.
  destruct (plan_at _ _ _ _ _ _ _ H Heq) as (g' & total & Hg' & Ht & _ & Hu).
  assert (g' = g) as -> by congruence.
  destruct (layer_spec _ _ _ _ _ Hc Hg Hu Hnb) as (_ & Hin & _). rewrite Hin. naive_solver.
Qed.

(** A layer begins with the extruder that is active at the end of the layers before it, if that is
    planned at all; so the tool changes at the start of a layer only if the active extruder has
    nothing to do on it. *)
Theorem C39_start s start plan pre l order post :
  consistent s → extruder_order_per_layer s start = Ok plan → plan = pre ++ (l, order) :: post →
  getLayerType (raft_set s) l ≠ Ok RaftBase →
  (active start pre ∈ map ex_nr order → head (map ex_nr order) = Some (active start pre)) ∧
  (∀ e, head (map ex_nr order) = Some e → e ≠ active start pre →
        (0 <= l ∨ sup_l0_ex s = sup_infill_ex s) →
        ¬ ((active start pre < n_extruders s)%nat ∧ prints s l (active start pre))).
Proof.
  intros Hc H Heq Hnb.
  destruct (plan_at _ _ _ _ _ _ _ H Heq) as (g & total & Hg & Ht & _ & Hu).
  destruct (layer_spec _ _ _ _ _ Hc Hg Hu Hnb) as (_ & _ & Hhead & _). split; [done|].
  intros e He Hne Hl [Hlt Hp].
  assert (active start pre ∈ map ex_nr order) as Hin.
  { eapply (C39_complete s start plan l); try done. rewrite Heq. apply elem_of_app. right. by left. }
  apply Hhead in Hin. congruence.
Qed.

(** With a prime tower, an extruder is planned to be primed exactly if it has something to do on the
    layer and is not the extruder that was active just before. *)
Theorem C39_primed s start plan pre l order post us u vs :
  consistent s → extruder_order_per_layer s start = Ok plan → plan = pre ++ (l, order) :: post →
  getLayerType (raft_set s) l ≠ Ok RaftBase → order = us ++ u :: vs →
  ex_prime u = PPrime ↔
    prime_tower s ≠ T_None ∧ (counted s l (ex_nr u) ∨ blob_on s l (ex_nr u)) ∧
    ex_nr u ≠ active start (pre ++ [(l, us)]).
Proof.
  intros Hc H Heq Hnb Ho.
  destruct (plan_at _ _ _ _ _ _ _ H Heq) as (g & total & Hg & Ht & _ & Hu).
  destruct (layer_spec _ _ _ _ _ Hc Hg Hu Hnb) as (_ & _ & _ & Hpr). rewrite (Hpr _ _ _ Ho).
  assert (active start (pre ++ [(l, us)]) = default (active start pre) (last (map ex_nr us))) as ->; [|done].
  rewrite active_snoc. unfold active_after. rewrite <-list_fmap_last || rewrite fmap_last.
  by destruct (last us).
Qed.

(** The base of a raft is printed with its own extruder; on the lowest layer the extruders that need
    a prime blob follow. *)
Theorem C39_raft_base s start plan l order e :
  extruder_order_per_layer s start = Ok plan → (l, order) ∈ plan →
  getLayerType (raft_set s) l = Ok RaftBase →
  head (map ex_nr order) = Some (raft_base_ex s) ∧
  (e ∈ map ex_nr order ↔ e = raft_base_ex s ∨ (e < n_extruders s)%nat ∧ blob_on s l e).
Proof.
  intros H (pre & post & Heq)%elem_of_list_split El.
  destruct (plan_at _ _ _ _ _ _ _ H Heq) as (g & total & Hg & Ht & _ & Hu).
  unfold used_extruders_on_layer in Hu. apply rbind_ok in Hu as (used & Hused & Hu). rewrite Ht, El in Hu.
  apply used_on_len in Hused.
  simpl in Hu. injection Hu as <-. simpl. split; [done|]. rewrite map_map. simpl. rewrite map_id.
  rewrite elem_of_cons. unfold blob_on. rewrite Ht. destruct (Z.eqb_spec l (- total)) as [El2|El2].
  - rewrite elem_of_list_In, filter_In, <-elem_of_list_In, elem_of_seq.
    unfold needs_blob. rewrite !andb_true_iff, negb_true_iff, Nat.eqb_neq. split.
    + intros [?|(? & ? & [? Hge] & Hb)]; [by left|]. right. rewrite decide_True in Hb by lia.
      split; [lia|]. split; [f_equal; lia|]. exists g. destruct (g !! e) as [[]|]; done.
    + intros [?|(? & _ & g' & Hg' & Hge & ? & ?)]; [by left|].
      destruct (decide (e = raft_base_ex s)); [by left|]. right.
      rewrite decide_True by done. assert (g' = g) as -> by congruence. rewrite Hge. split_and!; [lia..|done|done|done|done].
  - split; [intros [?|[]%not_elem_of_nil]; by left|]. intros [?|(_ & [= Hx] & _)]; [by left|lia].
Qed.

(** On the filler layers between a raft and the model the support is printed with the first-layer
    support extruder, which is not planned there if the support infill has another one: that support
    is not printed. *)
Definition filler_scene : scene := {|
  n_extruders := 3; adhesion_type := A_RAFT;
  raft_set := RaftSettings true 100 100 200 0 300 1 100 0 1 100 0;
  raft_base_ex := 0; raft_interface_ex := 0; raft_surface_ex := 0; skirt_brim_ex := -1;
  skirt_brim := λ _, false; blob_enable := λ _, false; need_blob := false;
  support_used := true; roof_enable := false; bottom_enable := false;
  sup_l0_ex := 2; sup_infill_ex := 1; sup_roof_ex := 1; sup_bottom_ex := 1;
  support_layers := [SupportLayer true false false; SupportLayer true false false];
  meshes := [MeshUse (λ e, e =? 0)%nat (λ e l, (e =? 0)%nat && (l <? 2))];
  prime_tower := T_None; max_height_second := 1; layer_count := 2
|}.

Lemma filler_consistent : consistent filler_scene.
Proof.
  split; simpl; [done..| |].
  - intros m e l [->|[]%not_elem_of_nil]%elem_of_cons. simpl. by intros [? _]%andb_true_iff.
  - intros l Hl. rewrite !elem_of_cons, elem_of_nil in Hl. destruct Hl as [->|[->|[]]]; simpl; done.
Qed.

Theorem C39_filler_refuted :
  ∃ s start plan l order e,
    consistent s ∧ extruder_order_per_layer s start = Ok plan ∧ (l, order) ∈ plan ∧
    (e < n_extruders s)%nat ∧ getLayerType (raft_set s) l ≠ Ok RaftBase ∧
    prints s l e ∧ e ∉ map ex_nr order.
Proof.
  exists filler_scene, 0%nat. eexists. exists (-1). eexists. exists 2%nat.
  split; [apply filler_consistent|]. split; [vm_compute; reflexivity|].
  split; [do 4 apply elem_of_list_further; apply elem_of_list_here|].
  split; [simpl; lia|]. split; [by vm_compute|]. split; [|simpl; rewrite !elem_of_cons, elem_of_nil; naive_solver].
  right. left. exists 2. eexists. split; [done|]. split; [lia|]. split; [done|]. left. done.
Qed.

(** Two extruders that alternate on every other layer, with an interleaved tower. *)
Definition two_scene (t : tower) : scene := {|
  n_extruders := 2; adhesion_type := A_NONE;
  raft_set := RaftSettings false 100 100 0 0 0 0 0 0 0 0 0;
  raft_base_ex := 0; raft_interface_ex := 0; raft_surface_ex := 0; skirt_brim_ex := -1;
  skirt_brim := λ _, false; blob_enable := λ _, false; need_blob := true;
  support_used := false; roof_enable := false; bottom_enable := false;
  sup_l0_ex := 0; sup_infill_ex := 0; sup_roof_ex := 0; sup_bottom_ex := 0;
  support_layers := [];
  meshes := [MeshUse (λ e, e =? 0)%nat (λ e l, (e =? 0)%nat && negb (l =? 2));
             MeshUse (λ e, e =? 1)%nat (λ e l, (e =? 1)%nat && (0 <? l))];
  prime_tower := t; max_height_second := 3; layer_count := 4
|}.

Lemma two_consistent t : consistent (two_scene t).
Proof.
  split; simpl; [done..| |].
  - intros m e l. rewrite !elem_of_cons, elem_of_nil. intros [->|[->|[]]]; simpl; by intros [? _]%andb_true_iff.
  - intros l []%not_elem_of_nil.
Qed.

Example C39_example :
  extruder_order_per_layer (two_scene T_Interleaved) 0
  = Ok [(0, [Use 0 PNone]); (1, [Use 0 PNone; Use 1 PPrime]); (2, [Use 1 PNone]); (3, [Use 1 PNone; Use 0 PPrime])]
  ∧ extruder_order_per_layer (two_scene T_Normal) 0
  = Ok [(0, [Use 0 PSupport; Use 1 PSupport]); (1, [Use 1 PSupport; Use 0 PPrime]);
        (2, [Use 0 PSupport; Use 1 PPrime]); (3, [Use 1 PSupport; Use 0 PPrime])].
Proof. split; vm_compute; reflexivity. Qed.

(** * C57 *)


Lemma seqZ_In l a n : l ∈ seqZ a n ↔ a <= l < a + n.
Proof. apply elem_of_seqZ. Qed.

(** [l] is the lowest layer on which [e] counts as used, or the lowest of the print if [e] needs a
    prime blob. *)
Definition first_use (s : scene) (e : nat) (l : Z) : Prop :=
  ∃ total, getTotalExtraLayers (raft_set s) = Ok total ∧ - total <= l ∧
  (l < Z.of_nat (layer_count s) ∧ counted s l e ∨ blob_on s l e) ∧
  ∀ l', - total <= l' < l → ¬ counted s l' e ∧ ¬ blob_on s l' e.

Lemma lowest_use_spec s e ls acc r :
  (e < n_extruders s)%nat → consistent s →
  (∀ l, l ∈ ls → getLayerType (raft_set s) l ≠ Ok RaftBase) →
  lowest_use s e acc ls = Ok r →
  match r with
  | Some l => (acc = Some l ∨ l ∈ ls ∧ counted s l e) ∧ (∀ a, acc = Some a → l <= a) ∧
              (∀ l', l' ∈ ls → counted s l' e → l <= l')
  | None => acc = None ∧ ∀ l', l' ∈ ls → ¬ counted s l' e
  end.
Proof.
  intros He Hc. revert acc. induction ls as [|l ls IH]; intros acc Hnb; cbn [lowest_use].
  - intros [= <-]. destruct acc as [a|].
    + split; [by left|]. split; [intros ? [= ->]; lia|intros l' []%not_elem_of_nil].
    + split; [done|intros l' []%not_elem_of_nil].
  - rewrite rbind_ok. intros (used & Hu & H).
    assert (default false (used !! e) = true ↔ counted s l e) as Hd.
    { rewrite <-(used_on_true _ _ _ _ (con_height _ Hc) Hu He) by (apply Hnb; by left).
      destruct (used !! e) as [[]|]; naive_solver. }
    apply IH in H; [|intros ? ?; apply Hnb; by right]. clear IH.
    destruct (default false (used !! e)) eqn:E.
    + destruct r as [r|]; [|by destruct H]. destruct H as (H1 & H2 & H3).
      assert (counted s l e) as Hcl by by apply Hd.
      split; [|split].
      * destruct H1 as [H1|[H1 H1']].
        -- injection H1 as <-. destruct acc as [a|].
           ++ destruct (Z.min_spec a l) as [[? ->]|[? ->]]; [by left|]. right. split; [by left|done].
           ++ right. split; [by left|done].
        -- right. split; [by right|done].
      * intros a ->. specialize (H2 _ eq_refl). lia.
      * intros l' [->|Hl']%elem_of_cons Hcl'; [|by apply H3].
        specialize (H2 _ eq_refl). destruct acc; lia.
    + assert (¬ counted s l e) as Hncl by (rewrite <-Hd; done).
      destruct r as [r|].
      * destruct H as (H1 & H2 & H3). split; [|split; [done|]].
        -- destruct H1 as [H1|[H1 H1']]; [by left|]. right. split; [by right|done].
        -- intros l' [->|Hl']%elem_of_cons Hcl'; [done|by apply H3].
      * destruct H as (H1 & H2). split; [done|]. intros l' [->|Hl']%elem_of_cons; [done|by apply H2].
Qed.

Lemma no_raft_base s l : consistent s → adhesion_type s ≠ A_RAFT → 0 <= l →
  getTotalExtraLayers (raft_set s) = Ok 0 ∧ getLayerType (raft_set s) l ≠ Ok RaftBase.
Proof.
  intros Hc Ha Hl. assert (adhesion_is_raft (raft_set s) = false) as Hr.
  { destruct (adhesion_is_raft (raft_set s)) eqn:E; [|done]. destruct Ha. by apply (con_raft _ Hc). }
  unfold getTotalExtraLayers, getLayerType.
  rewrite (filler_count_no_raft _ Hr (con_height _ Hc)). simpl.
  unfold getBaseLayers, getInterfaceLayers, getSurfaceLayers. rewrite Hr. split; [done|].
  intros [= Hx]. revert Hx. repeat (case Z.ltb_spec; intros ?); try done; lia.
Qed.

Lemma prime_layer_spec s g e r :
  consistent s → adhesion_type s ≠ A_RAFT → extruders_used s = Ok g → (e < n_extruders s)%nat →
  prime_layer s g e = Ok r →
  ∀ l, r = Some l ↔ first_use s e l.
Proof.
  intros Hc Ha Hg He H l.
  destruct (no_raft_base s 0 Hc Ha) as [Ht _]; [lia|].
  unfold prime_layer in H. rewrite Ht in H. simpl in H.
  apply lowest_use_spec in H; [|done|done|].
  2:{ intros l' Hl'%elem_of_seqZ. apply no_raft_base; [done..|lia]. }
  assert (needs_blob s g e = true ↔ blob_on s 0 e) as Hb.
  { unfold needs_blob, blob_on. rewrite decide_True by done. rewrite !andb_true_iff, Ht. split.
    - intros [[? H2] ?]. split; [done|]. exists g. destruct (g !! e) as [[]|] eqn:?; done.
    - intros (_ & g' & Hg' & Hge & ? & ?). assert (g' = g) as -> by congruence. rewrite Hge. done. }
  assert (∀ l', blob_on s l' e → l' = 0) as Hb0.
  { intros l' [Hl' _]. rewrite Ht in Hl'. injection Hl'. lia. }
  unfold first_use. setoid_rewrite Ht.
  destruct r as [r|].
  - destruct H as (H1 & H2 & H3).
    assert (0 <= r ∧ (r < Z.of_nat (layer_count s) ∧ counted s r e ∨ blob_on s r e)) as [Hr1 Hr2].
    { destruct H1 as [H1|[Hin Hcnt]].
      - destruct (needs_blob s g e) eqn:E; [|done]. injection H1 as <-. split; [lia|]. right. by apply Hb.
      - apply elem_of_seqZ in Hin. split; [lia|]. left. split; [lia|done]. }
    assert (∀ l', 0 <= l' < r → ¬ counted s l' e ∧ ¬ blob_on s l' e) as Hr3.
    { intros l' Hl'. split.
      - intros Hcnt. assert (l' < Z.of_nat (layer_count s) ∨ Z.of_nat (layer_count s) <= l') as [Hlt|Hge] by lia.
        + specialize (H3 l'). rewrite elem_of_seqZ in H3. specialize (H3 ltac:(lia) Hcnt). lia.
        + destruct H1 as [H1|[Hin _]].
          * destruct (needs_blob s g e); [|done]. injection H1 as <-. lia.
          * apply elem_of_seqZ in Hin. lia.
      - intros Hbl. pose proof (Hb0 _ Hbl) as ->. apply Hb in Hbl. rewrite Hbl in H2. specialize (H2 _ eq_refl). lia. }
    split.
    + intros [= <-]. exists 0. split; [done|]. split; [lia|]. split; [done|]. intros l' ?. apply Hr3. lia.
    + intros (t & [= <-] & Hl & Hor & Hmin). f_equal. destruct (Z.lt_trichotomy r l) as [Hlt|[->|Hgt]]; [|done|].
      * exfalso. destruct (Hmin r) as [N1 N2]; [lia|]. destruct Hr2 as [[_ ?]|?]; done.
      * exfalso. destruct (Hr3 l) as [N1 N2]; [lia|]. destruct Hor as [[_ ?]|?]; done.
  - destruct H as (H1 & H2). split; [done|]. intros (t & [= <-] & Hl & Hor & _). exfalso.
    destruct Hor as [[Hlt Hcnt]|Hbl].
    + apply (H2 l); [|done]. apply elem_of_seqZ. lia.
    + pose proof (Hb0 _ Hbl) as ->. apply Hb in Hbl. by rewrite Hbl in H1.
Qed.

Definition ev_layer (x : event) : Z := match x with Select l _ | Prime l _ => l end.
Definition ev_extruder (x : event) : nat := match x with Select _ e | Prime _ e => e end.

Lemma plan_uses_in s g l cur us es x :
  plan_uses s g l cur us = Ok es → x ∈ es →
  ev_layer x = l ∧ ev_extruder x ∈ map ex_nr us ∧
  (∀ e, x = Prime l e → prime_layer s g e = Ok (Some l)).
Proof.
  revert cur es. induction us as [|u us IH]; intros cur es; cbn [plan_uses].
  - intros [= <-] []%not_elem_of_nil.
  - rewrite rbind_ok. intros (pl & Hpl & H). apply rbind_ok in H as (r & Hr & H). injection H as <-.
    rewrite elem_of_cons, elem_of_app. intros [->|[Hx|Hx]].
    + simpl. split; [done|]. split; [by left|done].
    + destruct (negb (ex_nr u =? cur)%nat && bool_decide (pl = Some l)) eqn:E; [|by apply elem_of_nil in Hx].
      apply elem_of_list_singleton in Hx as ->. simpl. split; [done|]. split; [by left|].
      intros e [= <-]. apply andb_true_iff in E as [_ E%bool_decide_eq_true]. congruence.
    + destruct (IH _ _ Hr Hx) as (? & ? & ?). split; [done|]. split; [simpl; by right|done].
Qed.

Lemma plan_uses_NoDup s g l cur us es :
  plan_uses s g l cur us = Ok es → NoDup (map ex_nr us) → NoDup es.
Proof.
  revert cur es. induction us as [|u us IH]; intros cur es; cbn [plan_uses].
  - intros [= <-] _. constructor.
  - rewrite rbind_ok. intros (pl & Hpl & H) HN. apply rbind_ok in H as (r & Hr & H). injection H as <-.
    simpl in HN. apply NoDup_cons in HN as [Hu HN].
    assert (∀ x, x ∈ r → ev_extruder x ≠ ex_nr u) as Hne.
    { intros x Hx Heq. apply (plan_uses_in _ _ _ _ _ _ _ Hr) in Hx as (_ & Hx & _). by rewrite Heq in Hx. }
    apply NoDup_cons. split.
    + rewrite elem_of_app. intros [Hx|Hx]; [|by apply Hne in Hx].
      destruct (negb (ex_nr u =? cur)%nat && bool_decide (pl = Some l)); [|by apply elem_of_nil in Hx].
      by apply elem_of_list_singleton in Hx.
    + apply NoDup_app. split; [|split; [|by eapply IH]].
      * destruct (negb (ex_nr u =? cur)%nat && bool_decide (pl = Some l)); [apply NoDup_singleton|constructor].
      * intros x Hx Hxr. apply Hne in Hxr.
        destruct (negb (ex_nr u =? cur)%nat && bool_decide (pl = Some l)); [|by apply elem_of_nil in Hx].
        by apply elem_of_list_singleton in Hx as ->.
Qed.

Lemma plan_uses_split s g l cur us es a l' e b :
  plan_uses s g l cur us = Ok es → es = a ++ Select l' e :: b →
  l' = l ∧ ∃ pre u post, us = pre ++ u :: post ∧ ex_nr u = e ∧
    (∀ u', u' ∈ pre → Select l (ex_nr u') ∈ a) ∧ (a ≠ [] → pre ≠ []) ∧
    (e ≠ default cur (last (map ex_nr pre)) → prime_layer s g e = Ok (Some l) → ∃ b', b = Prime l e :: b').
Proof.
  revert cur es a. induction us as [|u us IH]; intros cur es a; cbn [plan_uses].
  - intros [= <-] H. by destruct a.
  - rewrite rbind_ok. intros (pl & Hpl & H). apply rbind_ok in H as (r & Hr & H). injection H as <-.
    intros Heq. destruct a as [|x a].
    + injection Heq as <- <- <-. split; [done|]. exists [], u, us. split; [done|]. split; [done|].
      split; [intros ? []%not_elem_of_nil|]. split; [done|]. simpl. intros Hne Hp.
      assert (pl = Some l) as -> by congruence.
      rewrite (proj2 (Nat.eqb_neq _ _) Hne), bool_decide_true by done. simpl. by eexists.
    + injection Heq as <- Heq.
      assert (∃ p a2, a = p ++ a2 ∧ r = a2 ++ Select l' e :: b) as (p & a2 & -> & Hr2).
      { destruct (negb (ex_nr u =? cur)%nat && bool_decide (pl = Some l)).
        - destruct a as [|y a]; [done|]. injection Heq as <- ->. by exists [Prime l (ex_nr u)], a.
        - by exists [], a. }
      destruct (IH _ _ _ Hr Hr2) as (-> & pre & u1 & post & -> & He & Hpre & _ & Hprime).
      split; [done|]. exists (u :: pre), u1, post. split; [done|]. split; [done|]. split; [|split; [done|]].
      * intros u' [->|Hu']%elem_of_cons; [by left|]. right. apply elem_of_app. right. by apply Hpre.
      * change (map ex_nr (u :: pre)) with (ex_nr u :: map ex_nr pre). by rewrite default_last_cons.
Qed.

Lemma plan_layer_uses s g l us es :
  plan_layer s g l us = Ok es → plan_uses s g l (default 0%nat (head (map ex_nr us))) us = Ok es.
Proof. by destruct us. Qed.

Lemma plan_events_in s g plan ev x :
  plan_events s g plan = Ok ev → x ∈ ev →
  (∃ us, (ev_layer x, us) ∈ plan ∧ ev_extruder x ∈ map ex_nr us) ∧
  (∀ l e, x = Prime l e → prime_layer s g e = Ok (Some l)).
Proof.
  revert ev. induction plan as [|[l us] plan IH]; intros ev; cbn [plan_events].
  - intros [= <-] []%not_elem_of_nil.
  - rewrite rbind_ok. intros (es & Hes & H). apply rbind_ok in H as (rest & Hrest & H). injection H as <-.
    intros [Hx|Hx]%elem_of_app.
    + apply plan_layer_uses in Hes. destruct (plan_uses_in _ _ _ _ _ _ _ Hes Hx) as (<- & ? & Hp).
      split; [exists us; split; [by left|done]|]. intros l e ->. by apply Hp.
    + destruct (IH _ Hrest Hx) as ((us' & ? & ?) & ?). split; [|done]. exists us'. split; [by right|done].
Qed.

Lemma plan_events_NoDup s g plan ev :
  plan_events s g plan = Ok ev → NoDup (map fst plan) → (∀ l us, (l, us) ∈ plan → NoDup (map ex_nr us)) → NoDup ev.
Proof.
  revert ev. induction plan as [|[l us] plan IH]; intros ev; cbn [plan_events].
  - intros [= <-] _ _. constructor.
  - rewrite rbind_ok. intros (es & Hes & H) HN Hus. apply rbind_ok in H as (rest & Hrest & H). injection H as <-.
    simpl in HN. apply NoDup_cons in HN as [Hl HN]. apply plan_layer_uses in Hes.
    apply NoDup_app. split; [|split].
    + eapply plan_uses_NoDup; [done|]. eapply Hus. by left.
    + intros x Hx Hx2. apply (plan_uses_in _ _ _ _ _ _ _ Hes) in Hx as (Hlx & _ & _).
      destruct (proj1 (plan_events_in _ _ _ _ _ Hrest Hx2)) as (us' & Hin & _). rewrite Hlx in Hin.
      apply Hl. apply elem_of_list_fmap. by exists (l, us').
    + apply IH; [done..|]. intros l' us' ?. eapply Hus. by right.
Qed.

Lemma plan_events_split s g plan ev a l e b :
  plan_events s g plan = Ok ev → ev = a ++ Select l e :: b →
  ∃ pre us post, plan = pre ++ (l, us) :: post ∧
    (∀ l' us' e', (l', us') ∈ pre → e' ∈ map ex_nr us' → Select l' e' ∈ a) ∧
    (∀ l' e', Select l' e' ∈ a → l' ∈ map fst pre ∨ ∃ upre u upost, us = upre ++ u :: upost ∧ ex_nr u = e ∧ upre ≠ []) ∧
    ∃ upre u upost, us = upre ++ u :: upost ∧ ex_nr u = e ∧
    (e ≠ default (default 0%nat (head (map ex_nr us))) (last (map ex_nr upre)) →
     prime_layer s g e = Ok (Some l) → ∃ b', b = Prime l e :: b').
Proof.
  revert ev a. induction plan as [|[l0 us] plan IH]; intros ev a; cbn [plan_events].
  - intros [= <-] H. by destruct a.
  - rewrite rbind_ok. intros (es & Hes & H). apply rbind_ok in H as (rest & Hrest & H). injection H as <-.
    intros Heq. apply plan_layer_uses in Hes.
    assert ((∃ b1, es = a ++ Select l e :: b1 ∧ b = b1 ++ rest) ∨ ∃ a1, a = es ++ a1 ∧ rest = a1 ++ Select l e :: b) as Hsp.
    { destruct (app_eq_app _ _ _ _ Heq) as (m & [[E1 E2]|[E1 E2]]).
      - destruct m as [|y m].
        + right. exists []. rewrite !app_nil_r in *. simpl in *. done.
        + injection E2 as <- ->. left. by exists m.
      - right. by exists m. }
    destruct Hsp as [(b1 & E1 & ->)|(a1 & -> & E1)].
    + destruct (plan_uses_split _ _ _ _ _ _ _ _ _ _ Hes E1) as (-> & pre & u & post & Hus & He & Hpre & Hne & Hprime).
      exists [], us, plan. split; [done|]. split; [intros ? ? ? []%not_elem_of_nil|].
      split.
      * intros l' e' Hin. right. exists pre, u, post. split; [done|]. split; [done|]. apply Hne.
        intros ->. by apply elem_of_nil in Hin.
      * exists pre, u, post. split; [done|]. split; [done|]. intros Hq Hp.
        destruct (Hprime Hq Hp) as (b' & ->). by eexists.
    + destruct (IH _ _ Hrest E1) as (pre & us1 & post & -> & Hpre & Hback & Hrest2).
      exists ((l0, us) :: pre), us1, post. split; [done|]. split; [|split; [|done]].
      * intros l' us' e' [Hin|Hin]%elem_of_cons He'.
        -- injection Hin as -> ->. apply elem_of_app. left. clear -Hes He'.
           apply elem_of_list_fmap in He' as (u & -> & Hu).
           revert Hes. generalize (default 0%nat (head (map ex_nr us))). revert es.
           induction us as [|v us IH]; intros es cur; cbn [plan_uses]; [by apply elem_of_nil in Hu|].
           rewrite rbind_ok. intros (pl & Hpl & H). apply rbind_ok in H as (r & Hr & H). injection H as <-.
           apply elem_of_cons in Hu as [->|Hu]; [by left|]. right. apply elem_of_app. right. by eapply IH.
        -- apply elem_of_app. right. by eapply Hpre.
      * intros l' e' [Hin|Hin]%elem_of_app.
        -- left. apply (plan_uses_in _ _ _ _ _ _ _ Hes) in Hin as (Hx & _). simpl in Hx. subst. by left.
        -- destruct (Hback _ _ Hin) as [?|?]; [left; by right|by right].
Qed.

Lemma order_layers_fst s g st ls plan : order_layers s g st ls = Ok plan → map fst plan = ls.
Proof.
  revert st plan. induction ls as [|l ls IH]; intros st plan; cbn [order_layers].
  - by intros [= <-].
  - rewrite rbind_ok. intros (o & Ho & H). apply rbind_ok in H as (rest & Hr & H). injection H as <-.
    simpl. f_equal. by eapply IH.
Qed.

Lemma plan_fst s start plan :
  consistent s → adhesion_type s ≠ A_RAFT → extruder_order_per_layer s start = Ok plan →
  map fst plan = seqZ 0 (Z.of_nat (layer_count s)).
Proof.
  intros Hc Ha. unfold extruder_order_per_layer. rewrite rbind_ok. intros (g & Hg & H).
  rewrite (proj1 (no_raft_base s 0 Hc Ha ltac:(lia))) in H. simpl in H.
  apply order_layers_fst in H. rewrite H. f_equal. lia.
Qed.

Lemma plan_below s start plan pre l us post l' :
  consistent s → adhesion_type s ≠ A_RAFT → extruder_order_per_layer s start = Ok plan →
  plan = pre ++ (l, us) :: post → 0 <= l' < l → ∃ us', (l', us') ∈ pre.
Proof.
  intros Hc Ha H Heq Hl'. apply plan_fst in H; [|done..].
  assert (map fst plan !! length pre = Some l) as E.
  { rewrite Heq, map_app. simpl. rewrite lookup_app_r by (by rewrite map_length). by rewrite map_length, Nat.sub_diag. }
  rewrite H in E. apply lookup_seqZ in E as [El _].
  assert (Z.to_nat l' < length pre)%nat as Hlt by lia.
  destruct (lookup_lt_is_Some_2 _ _ Hlt) as ([l1 us1] & E1).
  assert (map fst plan !! Z.to_nat l' = Some l1) as E2.
  { rewrite Heq, map_app, lookup_app_l by (by rewrite map_length). by rewrite list_lookup_fmap, E1. }
  rewrite H in E2. apply lookup_seqZ in E2 as [E2 _].
  exists us1. apply elem_of_list_lookup. exists (Z.to_nat l'). rewrite E1. do 2 f_equal. lia.
Qed.

(** An extruder is primed at most once, on the first layer that it is used on. *)
Theorem C57_once s start plan g ev :
  consistent s → adhesion_type s ≠ A_RAFT → extruder_order_per_layer s start = Ok plan →
  extruders_used s = Ok g → plan_events s g plan = Ok ev →
  (∀ i j l l' e, ev !! i = Some (Prime l e) → ev !! j = Some (Prime l' e) → i = j) ∧
  (∀ l e, Prime l e ∈ ev → (e < n_extruders s)%nat ∧ Select l e ∈ ev ∧ first_use s e l).
Proof.
  intros Hc Ha Hplan Hg Hev.
  assert (NoDup ev) as HN.
  { eapply plan_events_NoDup; [done| |].
    - rewrite (plan_fst _ _ _ Hc Ha Hplan). apply NoDup_seqZ.
    - intros l us Hin. by eapply C39_no_duplicates. }
  split.
  - intros i j l l' e Hi Hj.
    pose proof (proj2 (plan_events_in _ _ _ _ _ Hev (elem_of_list_lookup_2 _ _ _ Hi)) _ _ eq_refl).
    pose proof (proj2 (plan_events_in _ _ _ _ _ Hev (elem_of_list_lookup_2 _ _ _ Hj)) _ _ eq_refl).
    assert (l = l') as -> by congruence. by eapply NoDup_lookup.
  - intros l e Hin. destruct (plan_events_in _ _ _ _ _ Hev Hin) as ((us & Hus & He) & Hp). simpl in Hus, He.
    specialize (Hp _ _ eq_refl).
    apply elem_of_list_split in Hus as (pre & post & Heq).
    destruct (plan_at _ _ _ _ _ _ _ Hplan Heq) as (g' & total & Hg' & Ht & Hl & Hu).
    rewrite (proj1 (no_raft_base s 0 Hc Ha ltac:(lia))) in Ht. injection Ht as <-.
    assert (e < n_extruders s)%nat as Hen.
    { destruct (layer_spec _ _ _ _ _ Hc Hg' Hu) as (_ & Hx & _); [apply no_raft_base; [done..|lia]|]. apply Hx in He. by destruct He. }
    split; [done|]. split.
    + clear -Hev Heq He. revert ev pre Heq Hev. induction plan as [|[l0 us0] plan IH]; intros ev pre Heq; [by destruct pre|].
      cbn [plan_events]. rewrite rbind_ok. intros (es & Hes & H). apply rbind_ok in H as (rest & Hrest & H). injection H as <-.
      apply elem_of_app. destruct pre as [|p pre].
      * injection Heq as -> -> ->. left. apply plan_layer_uses in Hes. revert Hes. generalize (default 0%nat (head (map ex_nr us))).
        revert es. apply elem_of_list_fmap in He as (u & -> & Hu). clear IH.
        induction us as [|v us IH]; intros es cur; cbn [plan_uses]; [by apply elem_of_nil in Hu|].
        rewrite rbind_ok. intros (pl & Hpl & H). apply rbind_ok in H as (r & Hr & H). injection H as <-.
        apply elem_of_cons in Hu as [->|Hu]; [by left|]. right. apply elem_of_app. right. by eapply IH.
      * injection Heq as <- ->. right. by eapply IH.
    + eapply (prime_layer_spec s g e); done.
Qed.

(** Without a raft or a normal prime tower: an extruder that is selected for the first time, after
    another extruder has been selected on the same layer, is primed at once. *)
Theorem C57_primed s start plan g ev a l e b :
  consistent s → adhesion_type s ≠ A_RAFT → prime_tower s ≠ T_Normal →
  extruder_order_per_layer s start = Ok plan → extruders_used s = Ok g → plan_events s g plan = Ok ev →
  ev = a ++ Select l e :: b → (∀ l', Select l' e ∉ a) → (∃ e', Select l e' ∈ a) →
  ∃ b', b = Prime l e :: b'.
Proof.
  intros Hc Ha Htw Hplan Hg Hev Heq Hfirst (e' & He').
  destruct (plan_events_split _ _ _ _ _ _ _ _ Hev Heq) as (pre & us & post & Hpl & Hpre & Hback & upre & u & upost & Hus & Hu & Hprime).
  assert (upre ≠ []) as Hne.
  { destruct (Hback _ _ He') as [Hin|(upre' & u' & upost' & Hus' & Hu' & Hne')].
    - exfalso. pose proof (NoDup_seqZ 0 (Z.of_nat (layer_count s))) as HN.
      rewrite <-(plan_fst _ _ _ Hc Ha Hplan), Hpl, map_app in HN. simpl in HN.
      apply NoDup_app in HN as (_ & HN & _). apply (HN _ Hin). by left.
    - assert (NoDup (map ex_nr us)) as HN.
      { eapply C39_no_duplicates; [done..|]. rewrite Hpl. apply elem_of_app. right. by left. }
      intros ->. destruct upre' as [|v upre']; [done|]. simpl in *.
      rewrite Hus' in Hus. injection Hus as -> _. rewrite Hus' in HN. simpl in HN. rewrite map_app in HN. simpl in HN.
      apply NoDup_cons in HN as [HN _]. apply HN. rewrite Hu, <-Hu'. apply elem_of_app. right. by left. }
  assert (NoDup (map ex_nr us)) as HN.
  { eapply C39_no_duplicates; [done..|]. rewrite Hpl. apply elem_of_app. right. by left. }
  apply Hprime.
  - intros Hx. destruct upre as [|v upre] using rev_ind; [done|]. rewrite map_app in Hx. simpl in Hx.
    rewrite last_snoc in Hx. simpl in Hx. rewrite Hus, map_app in HN. apply NoDup_app in HN as (_ & HN & _).
    apply (HN e).
    + rewrite Hx, map_app. apply elem_of_app. right. by left.
    + rewrite <-Hu. by left.
  - destruct (plan_at _ _ _ _ _ _ _ Hplan Hpl) as (g' & total & Hg' & Ht & Hl & Huse).
    rewrite (proj1 (no_raft_base s 0 Hc Ha ltac:(lia))) in Ht. injection Ht as <-.
    assert (g' = g) as -> by congruence.
    assert (e ∈ map ex_nr us) as Hin.
    { rewrite Hus, map_app, <-Hu. apply elem_of_app. right. by left. }
    assert (∀ l us, (l, us) ∈ plan → 0 <= l → ∀ e, e ∈ map ex_nr us ↔ (e < n_extruders s)%nat ∧ (counted s l e ∨ blob_on s l e)) as Hex.
    { intros l1 us1 Hin1 Hl1 e1. eapply C39_exact; try done. by apply no_raft_base. }
    assert ((l, us) ∈ plan) as Hlin by (rewrite Hpl; apply elem_of_app; right; by left).
    apply (Hex _ _ Hlin) in Hin as [Hen Hor]; [|lia].
    assert (∃ r, prime_layer s g e = Ok r) as (r & Hr).
    { (* the priming layer has been computed while planning *)
      clear -Hev Hpl Hus Hu. subst plan us. revert ev Hev. induction pre as [|[l0 us0] pre IH]; intros ev; cbn [app plan_events].
      - rewrite rbind_ok. intros (es & Hes & H). apply plan_layer_uses in Hes. revert Hes.
        generalize (default 0%nat (head (map ex_nr (upre ++ u :: upost)))). clear H. revert es.
        induction upre as [|v upre IH]; intros es cur; cbn [app plan_uses].
        + rewrite rbind_ok. intros (pl & Hpl & _). subst e. by exists pl.
        + rewrite rbind_ok. intros (pl & Hpl & H). apply rbind_ok in H as (r & Hr & H). by eapply IH.
      - rewrite rbind_ok. intros (es & Hes & H). apply rbind_ok in H as (rest & Hrest & H). by eapply IH. }
    rewrite Hr. f_equal. apply (prime_layer_spec s g e r Hc Ha Hg Hen Hr).
    exists 0. split; [apply (no_raft_base s 0 Hc Ha); lia|]. split; [lia|]. split.
    { destruct Hor as [?|?]; [left; split; [lia|done]|by right]. }
    intros l' Hl'.
    destruct (plan_below _ _ _ _ _ _ _ l' Hc Ha Hplan Hpl) as (us' & Hus'); [lia|].
    assert ((l', us') ∈ plan) as Hin' by (rewrite Hpl; apply elem_of_app; by left).
    assert (¬ (counted s l' e ∨ blob_on s l' e)) as Hn.
    { intros Hor'. apply (Hfirst l'). eapply Hpre; [done|]. apply (Hex _ _ Hin'); [lia|done]. }
    naive_solver.
Qed.

(** An extruder that comes first on the first layer it is used on is never primed: the layer is
    planned starting from it, so no change of extruder is seen. *)
Definition relay_scene : scene := {|
  n_extruders := 2; adhesion_type := A_NONE;
  raft_set := RaftSettings false 100 100 0 0 0 0 0 0 0 0 0;
  raft_base_ex := 0; raft_interface_ex := 0; raft_surface_ex := 0; skirt_brim_ex := -1;
  skirt_brim := λ _, false; blob_enable := λ _, false; need_blob := true;
  support_used := false; roof_enable := false; bottom_enable := false;
  sup_l0_ex := 0; sup_infill_ex := 0; sup_roof_ex := 0; sup_bottom_ex := 0;
  support_layers := [];
  meshes := [MeshUse (λ e, e =? 0)%nat (λ e l, (e =? 0)%nat && (l <? 1));
             MeshUse (λ e, e =? 1)%nat (λ e l, (e =? 1)%nat && (0 <? l))];
  prime_tower := T_None; max_height_second := 0; layer_count := 3
|}.

Theorem C57_every_extruder_refuted :
  ∃ s start plan g ev l e,
    consistent s ∧ adhesion_type s ≠ A_RAFT ∧ prime_tower s ≠ T_Normal ∧
    extruder_order_per_layer s start = Ok plan ∧ extruders_used s = Ok g ∧ plan_events s g plan = Ok ev ∧
    e ≠ start ∧ Select l e ∈ ev ∧ ∀ l', Prime l' e ∉ ev.
Proof.
  exists relay_scene, 0%nat. eexists _, _, _, 1, 1%nat.
  split.
  { split; simpl; [done..| |].
    - intros m e l. rewrite !elem_of_cons, elem_of_nil. intros [->|[->|[]]]; simpl; by intros [? _]%andb_true_iff.
    - intros l []%not_elem_of_nil. }
  split; [done|]. split; [done|]. split; [vm_compute; reflexivity|]. split; [vm_compute; reflexivity|].
  split; [vm_compute; reflexivity|]. split; [done|]. split; [right; by left|].
  intros l'. rewrite !elem_of_cons, elem_of_nil. naive_solver.
Qed.

(** With a normal prime tower an extruder prints its rings on the tower before it is primed. *)
Theorem C57_normal_tower_refuted :
  ∃ s start plan g ev l e order,
    consistent s ∧ adhesion_type s ≠ A_RAFT ∧
    extruder_order_per_layer s start = Ok plan ∧ extruders_used s = Ok g ∧ plan_events s g plan = Ok ev ∧
    (l, order) ∈ plan ∧ Use e PSupport ∈ order ∧ e ≠ start ∧
    Select l e ∈ ev ∧ ∀ l', Prime l' e ∈ ev → l < l'.
Proof.
  exists (two_scene T_Normal), 0%nat. eexists _, _, _, 0, 1%nat, _.
  split; [apply two_consistent|]. split; [done|]. split; [vm_compute; reflexivity|]. split; [vm_compute; reflexivity|].
  split; [vm_compute; reflexivity|]. split; [by left|]. split; [right; by left|]. split; [done|].
  split; [right; by left|]. intros l'. rewrite !elem_of_cons, elem_of_nil. naive_solver.
Qed.

Example C57_example :
  ∃ plan g ev b, extruder_order_per_layer (two_scene T_Interleaved) 0 = Ok plan
    ∧ extruders_used (two_scene T_Interleaved) = Ok g ∧ plan_events (two_scene T_Interleaved) g plan = Ok ev
    ∧ ev = [Select 0 0; Select 1 0] ++ Select 1 1 :: Prime 1 1 :: b.
Proof. eexists _, _, _, _. split_and!; vm_compute; reflexivity. Qed.

Print Assumptions C39_no_duplicates.
Print Assumptions C39_complete.
Print Assumptions C39_exact.
Print Assumptions C39_normal_tower.
Print Assumptions C39_start.
Print Assumptions C39_primed.
Print Assumptions C39_raft_base.
Print Assumptions C39_filler_refuted.
Print Assumptions C57_once.
Print Assumptions C57_primed.
Print Assumptions C57_every_extruder_refuted.
Print Assumptions C57_normal_tower_refuted.

(** The print starts with the lowest extruder used, if neither adhesion nor a support brim decides. *)
Theorem C39_start_extruder s skirt_lines brim_lines tower_brim g e :
  skirt_brim_ex s < 0 → extruders_used s = Ok g → (∃ i, g !! i = Some true) →
  start_extruder s skirt_lines brim_lines tower_brim false = Ok e →
  g !! e = Some true ∧ ∀ i, (i < e)%nat → g !! i ≠ Some true.
Proof.
  intros Hneg Hg (i & Hi). unfold start_extruder.
  rewrite (proj2 (Z.leb_gt 0 (skirt_brim_ex s)) Hneg), !andb_false_r. simpl. rewrite Hg. simpl.
  destruct g as [|b g]; [by rewrite lookup_nil in Hi|].
  destruct (list_find (λ b, b = true) (b :: g)) as [[j y]|] eqn:E.
  - intros [= <-]. apply list_find_Some in E as (E1 & -> & E2). split; [done|].
    intros k Hk Hk2. by apply (E2 k true).
  - apply list_find_None in E. rewrite Forall_lookup in E. by apply (E i) in Hi.
Qed.
Print Assumptions C39_start_extruder.

(** With an adhesion that is printed first, the print starts with the extruder of that adhesion. *)
Theorem C39_start_adhesion s skirt_lines brim_lines tower_brim support_brim :
  0 ≤ skirt_brim_ex s →
  (adhesion_type s = A_SKIRT → skirt_lines = true →
    start_extruder s skirt_lines brim_lines tower_brim support_brim = Ok (Z.to_nat (skirt_brim_ex s)))
  ∧ (adhesion_type s = A_BRIM → brim_lines = true →
    start_extruder s skirt_lines brim_lines tower_brim support_brim = Ok (Z.to_nat (skirt_brim_ex s)))
  ∧ (adhesion_type s = A_RAFT → tower_brim = false →
    start_extruder s skirt_lines brim_lines tower_brim support_brim = Ok (raft_base_ex s)).
Proof.
  intros Hn. unfold start_extruder. rewrite (proj2 (Z.leb_le 0 (skirt_brim_ex s)) Hn).
  split; [intros -> ->; done|]. split; [intros -> ->; done|]. intros -> ->. done.
Qed.
Print Assumptions C39_start_adhesion.
