From Coq Require Import Relations.
From Verif Require Import Common UnionFind_Model UnionFind_Spec.

(** [rd p h d r]: following parent links from [h] reaches the root [r] in [d] steps. *)
Inductive rd (p : list nat) : nat -> nat -> nat -> Prop :=
| rd_root h : p !! h = Some h -> rd p h 0 h
| rd_step h h' d r : p !! h = Some h' -> h' <> h -> rd p h' d r -> rd p h (S d) r.

Definition reaches (p : list nat) (h r : nat) : Prop := exists d, rd p h d r.
Definition forest (p : list nat) : Prop := forall h, h < length p -> exists r, reaches p h r.

Lemma rd_det p h d r d' r' : rd p h d r -> rd p h d' r' -> d = d' /\ r = r'.
Proof.
  intros H. revert d' r'. induction H as [h Hh|h h' d r Hh Hne Hrd IH]; intros d' r' H2.
  - inversion H2; simplify_eq; done.
  - inversion H2 as [|? h2 d2 ? Hh2 Hne2 Hrd2]; simplify_eq.
    destruct (IH _ _ Hrd2) as [-> ->]. done.
Qed.

Lemma reaches_det p h r r' : reaches p h r -> reaches p h r' -> r = r'.
Proof. intros [d H] [d' H']. by destruct (rd_det _ _ _ _ _ _ H H'). Qed.

Lemma rd_root_fix p h d r : rd p h d r -> p !! r = Some r.
Proof. induction 1; done. Qed.

Lemma rd_lt p h d r : rd p h d r -> h < length p.
Proof. destruct 1; by eapply lookup_lt_Some. Qed.

Lemma reaches_root_self p r : p !! r = Some r -> reaches p r r.
Proof. intros. exists 0. by constructor. Qed.

(** depth is less than the number of nodes *)
Lemma rd_nodes p h d r : rd p h d r ->
  exists l, length l = S d /\ NoDup l /\ Forall (fun x => x < length p) l /\
    Forall (fun x => exists d', d' <= d /\ rd p x d' r) l.
Proof.
  induction 1 as [h Hh|h h' d r Hh Hne Hrd IH].
  - exists [h]. split; [done|]. split; [apply NoDup_singleton|].
    split; constructor; try constructor.
    + by eapply lookup_lt_Some.
    + exists 0. split; [lia|by constructor].
  - destruct IH as (l & Hlen & Hnd & Hlt & Hd).
    assert (Hh1 : rd p h (S d) r) by (by econstructor).
    exists (h :: l). split; [simpl; lia|]. split.
    + constructor; [|done]. intros Hin.
      rewrite Forall_forall in Hd. destruct (Hd _ Hin) as (d' & Hle & Hd').
      destruct (rd_det _ _ _ _ _ _ Hh1 Hd') as [? _]. lia.
    + split.
      * constructor; [by eapply lookup_lt_Some|done].
      * constructor.
        { exists (S d). split; [lia|done]. }
        { eapply Forall_impl; [done|]. intros x (d' & ? & ?). exists d'. split; [lia|done]. }
Qed.

Lemma NoDup_bounded (l : list nat) n : NoDup l -> Forall (fun x => x < n) l -> length l <= n.
Proof.
  intros Hnd Hlt. rewrite <- (seq_length n 0).
  apply submseteq_length, NoDup_submseteq; [done|].
  intros x Hx. rewrite Forall_forall in Hlt. apply elem_of_seq. specialize (Hlt _ Hx). lia.
Qed.

Lemma rd_depth_bound p h d r : rd p h d r -> d < length p.
Proof.
  intros H. destruct (rd_nodes _ _ _ _ H) as (l & Hlen & Hnd & Hlt & _).
  pose proof (NoDup_bounded _ _ Hnd Hlt). lia.
Qed.

(** Path compression: pointing a node at its root changes no root. *)
Lemma compress_reaches p h r k r' :
  reaches p h r -> reaches p k r' -> reaches (<[h := r]> p) k r'.
Proof.
  intros Hh [d Hk]. revert Hh. induction Hk as [k Hk|k k' d r' Hk Hne Hrd IH]; intros Hh.
  - destruct (decide (k = h)) as [->|Hkh].
    + assert (r = h) as -> by (eapply reaches_det; [done|by apply reaches_root_self]).
      apply reaches_root_self. rewrite list_lookup_insert; [done|by eapply lookup_lt_Some].
    + apply reaches_root_self. by rewrite list_lookup_insert_ne.
  - destruct (decide (k = h)) as [->|Hkh].
    + assert (r = r') as ->.
      { eapply reaches_det; [done|]. exists (S d). by econstructor. }
      assert (Hr : p !! r' = Some r') by (by eapply rd_root_fix).
      assert (r' <> h) by (intros ->; simplify_eq).
      exists 1. eapply (rd_step _ _ r').
      * rewrite list_lookup_insert; [done|by eapply lookup_lt_Some].
      * done.
      * constructor. by rewrite list_lookup_insert_ne.
    + destruct (IH Hh) as [d2 Hd2]. exists (S d2). eapply rd_step; [|done|done].
      by rewrite list_lookup_insert_ne.
Qed.

Definition same_roots (p p' : list nat) : Prop :=
  length p' = length p /\ forall k r, reaches p k r <-> reaches p' k r.

Lemma same_roots_refl p : same_roots p p.
Proof. split; done. Qed.
Lemma same_roots_trans p q s : same_roots p q -> same_roots q s -> same_roots p s.
Proof. intros [H1 H2] [H3 H4]. split; [lia|]. intros. by rewrite H2. Qed.

Lemma forest_same_roots p p' : forest p -> same_roots p p' -> forest p'.
Proof. intros Hf [Hl Hs] h Hh. rewrite Hl in Hh. destruct (Hf h Hh) as [r Hr]. exists r. by apply Hs. Qed.

Lemma same_roots_from_fwd p p' :
  forest p -> length p' = length p -> (forall k r, reaches p k r -> reaches p' k r) -> same_roots p p'.
Proof.
  intros Hf Hl Hs. split; [done|]. intros k r; split; [apply Hs|].
  intros Hr'. destruct (Hf k) as [r0 Hr0].
  { destruct Hr' as [? Hr']. apply rd_lt in Hr'. lia. }
  assert (r0 = r) as -> by (eapply reaches_det; [by apply Hs|done]). done.
Qed.

Lemma find_parent_spec p : forest p -> forall d fuel h r,
  rd p h d r -> d < fuel ->
  exists p', find_parent fuel p h = Ok (p', Some r) /\ same_roots p p'.
Proof.
  intros Hf. induction d as [|d IH]; intros fuel h r Hrd Hfuel.
  - destruct fuel as [|fuel]; [lia|]. inversion Hrd as [? Hh|]; simplify_eq. simpl. rewrite Hh.
    rewrite decide_True by done. eexists. split; [done|apply same_roots_refl].
  - destruct fuel as [|fuel]; [lia|]. inversion Hrd as [|? h' ? ? Hh Hne Hrd']; simplify_eq. simpl. rewrite Hh.
    rewrite decide_False by done.
    destruct (IH fuel h' r Hrd') as (p' & Heq & Hsr); [lia|].
    rewrite Heq. simpl. eexists. split; [done|].
    eapply same_roots_trans; [done|].
    apply same_roots_from_fwd.
    + by eapply forest_same_roots.
    + by rewrite insert_length.
    + intros k r'. apply compress_reaches. apply Hsr. by exists (S d).
Qed.

Lemma find_parent_oob fuel p h : length p <= h -> find_parent (S fuel) p h = Ok (p, None).
Proof. intros H. simpl. by rewrite lookup_ge_None_2. Qed.

(** Linking one root under another. *)
Lemma link_reaches p a b k r :
  p !! a = Some a -> p !! b = Some b -> a <> b ->
  reaches p k r -> reaches (<[a := b]> p) k (if decide (r = a) then b else r).
Proof.
  intros Ha Hb Hab [d Hk]. induction Hk as [k Hk|k k' d r Hk Hne Hrd IH].
  - destruct (decide (k = a)) as [->|Hka].
    + exists 1. eapply (rd_step _ _ b); [|congruence|].
      * rewrite list_lookup_insert; [done|by eapply lookup_lt_Some].
      * constructor. rewrite list_lookup_insert_ne; done.
    + apply reaches_root_self. by rewrite list_lookup_insert_ne.
  - assert (k <> a) by congruence.
    destruct IH as [d2 Hd2]. exists (S d2). eapply rd_step; [|done|done].
    by rewrite list_lookup_insert_ne.
Qed.

Section Refinement.
  Context {E : Type} `{EqDecision E}.
  Implicit Types (u : uf E) (s : spec_state E).

  Record inv u s : Prop := Inv {
    inv_items : uf_items u = ss_items s;
    inv_len : length (uf_parent u) = length (ss_items s);
    inv_rank : length (uf_rank u) = length (ss_items s);
    inv_pos : forall e m, assoc (uf_pos u) e = Some m <-> names s e m;
    inv_forest : forest (uf_parent u);
    inv_links : forall m m', linked s m m' -> m < length (ss_items s) /\ m' < length (ss_items s);
    inv_eq : forall m m' r r', reaches (uf_parent u) m r -> reaches (uf_parent u) m' r' ->
              (r = r' <-> together s m m')
  }.

  Lemma inv_init : inv uf_empty spec_init.
  Proof.
    split; simpl; try done.
    - intros e m. split; [done|]. intros [H _]. destruct m; discriminate H.
    - intros h Hh. simpl in Hh. lia.
    - intros m m' r r' [d H] _. apply rd_lt in H. simpl in H. lia.
  Qed.

  Lemma names_lt s e m : names s e m -> m < length (ss_items s).
  Proof. intros [H _]. by eapply lookup_lt_Some. Qed.

  Lemma find_handle_spec u s h : inv u s -> h < length (ss_items s) ->
    exists u' r, uf_find_by_handle u h = Ok (u', Some r) /\ reaches (uf_parent u) h r /\ inv u' s /\
      same_roots (uf_parent u) (uf_parent u') /\ uf_pos u' = uf_pos u /\ uf_rank u' = uf_rank u.
  Proof.
    intros Hinv Hlt. destruct Hinv as [Hi Hl Hr Hp Hf Hli He].
    destruct (Hf h) as [r [d Hrd]]; [lia|].
    destruct (find_parent_spec _ Hf d (S (length (uf_parent u))) h r Hrd) as (p' & Heq & Hsr).
    { apply rd_depth_bound in Hrd. lia. }
    exists (with_parent u p'), r. unfold uf_find_by_handle. rewrite Heq. simpl.
    split; [done|]. split; [by exists d|]. split; [|done].
    split; simpl; try done.
    - by rewrite (proj1 Hsr).
    - by eapply forest_same_roots.
    - intros m m' r1 r2 H1 H2. apply He; by apply Hsr.
  Qed.

  Lemma find_spec u s e m : inv u s -> names s e m ->
    exists u' r, uf_find u e = Ok (u', Some r) /\ reaches (uf_parent u) m r /\ inv u' s /\
      same_roots (uf_parent u) (uf_parent u').
  Proof.
    intros Hinv Hn. unfold uf_find. rewrite (proj2 (inv_pos _ _ Hinv e m) Hn).
    destruct (find_handle_spec u s m Hinv) as (u' & r & ? & ? & ? & ? & _); [by eapply names_lt|].
    exists u', r. done.
  Qed.

  Lemma together_mono s (its : list E) links m m' :
    (forall x, In x (ss_links s) -> In x links) -> together s m m' -> together (SS its links) m m'.
  Proof.
    intros Hsub H. unfold together. induction H as [x y Hxy|x|x y Hxy IH|x y z ? IH1 ? IH2].
    - apply rst_step. unfold linked in *. simpl. by apply Hsub.
    - apply rst_refl.
    - by apply rst_sym.
    - by eapply rst_trans.
  Qed.

  Lemma together_range s m m' : (forall m m', linked s m m' -> m < length (ss_items s) /\ m' < length (ss_items s)) ->
    together s m m' -> m = m' \/ (m < length (ss_items s) /\ m' < length (ss_items s)).
  Proof.
    intros Hl H. induction H as [x y Hxy|x|x y Hxy IH|x y z ? IH1 ? IH2].
    - right. by apply Hl.
    - by left.
    - destruct IH as [->|[]]; auto.
    - destruct IH1 as [->|[]]; [done|]. destruct IH2 as [->|[]]; auto.
  Qed.

  Lemma inv_add u s e : inv u s ->
    inv (fst (uf_add u e)) (SS (ss_items s ++ [e]) (ss_links s)).
  Proof.
    intros [Hi Hl Hr Hp Hf Hli He].
    assert (Happ : forall k r, reaches (uf_parent u) k r -> reaches (uf_parent u ++ [length (uf_parent u)]) k r).
    { intros k r [d Hd]. exists d. induction Hd as [h Hh|h h' d r Hh ? ? IH].
      - constructor. by apply lookup_app_l_Some.
      - econstructor; [by apply lookup_app_l_Some|done|done]. }
    assert (Hself : reaches (uf_parent u ++ [length (uf_parent u)]) (length (uf_parent u)) (length (uf_parent u))).
    { apply reaches_root_self. by rewrite lookup_app_r, Nat.sub_diag by lia. }
    split; simpl.
    - by rewrite Hi.
    - rewrite !app_length. simpl. lia.
    - rewrite !app_length. simpl. lia.
    - intros e' m. destruct (decide (e = e')) as [->|Hne].
      + rewrite Hl. split.
        * intros [= <-]. split; simpl.
          { by rewrite lookup_app_r, Nat.sub_diag by lia. }
          { intros m' Hm'. apply lookup_lt_Some in Hm'. rewrite app_length in Hm'. simpl in Hm'. lia. }
        * intros [H1 H2]. simpl in *. f_equal.
          assert (length (ss_items s) <= m).
          { apply H2. by rewrite lookup_app_r, Nat.sub_diag by lia. }
          apply lookup_lt_Some in H1. rewrite app_length in H1. simpl in H1. lia.
      + rewrite Hp. split; intros [H1 H2]; split; simpl in *.
        * by apply lookup_app_l_Some.
        * intros m' Hm'. apply lookup_app_Some in Hm' as [Hm'|[Hge Hm']]; [by apply H2|].
          apply list_lookup_singleton_Some in Hm' as [? ?]. congruence.
        * apply lookup_app_Some in H1 as [H1|[Hge H1]]; [done|].
          apply list_lookup_singleton_Some in H1 as [? ?]. congruence.
        * intros m' Hm'. apply H2. by apply lookup_app_l_Some.
    - intros h Hh. rewrite app_length in Hh. simpl in Hh.
      destruct (decide (h = length (uf_parent u))) as [->|].
      + by eexists.
      + destruct (Hf h) as [r Hrr]; [lia|]. exists r. by apply Happ.
    - intros m m' Hlk. rewrite app_length. simpl. destruct (Hli _ _ Hlk). lia.
    - assert (Htog : forall m m', together (SS (ss_items s ++ [e]) (ss_links s)) m m' <-> together s m m').
      { intros m m'. split; intros H; [|by eapply together_mono].
        unfold together in *. induction H; [by apply rst_step|apply rst_refl|by apply rst_sym|by eapply rst_trans]. }
      intros m m' r r' H1 H2. rewrite Htog.
      assert (Hcase : forall k rk, reaches (uf_parent u ++ [length (uf_parent u)]) k rk ->
        (k = length (uf_parent u) /\ rk = length (uf_parent u)) \/ (k < length (uf_parent u) /\ reaches (uf_parent u) k rk)).
      { intros k rk Hk. assert (k < S (length (uf_parent u))).
        { destruct Hk as [? Hk]. apply rd_lt in Hk. rewrite app_length in Hk. simpl in Hk. lia. }
        destruct (decide (k = length (uf_parent u))) as [->|].
        - left. split; [done|]. by eapply reaches_det.
        - right. split; [lia|]. destruct (Hf k) as [rk' Hrk']; [lia|].
          assert (rk' = rk) as -> by (eapply reaches_det; [by apply Happ|done]). done. }
      assert (Hlt : forall k rk, reaches (uf_parent u) k rk -> rk < length (uf_parent u)).
      { intros k rk [dk Hk]. apply rd_root_fix in Hk. by eapply lookup_lt_Some. }
      destruct (Hcase _ _ H1) as [[-> ->]|[Hm Hm2]], (Hcase _ _ H2) as [[-> ->]|[Hm' Hm2']].
      + split; [|done]. intros _. apply rst_refl.
      + split.
        * intros <-. apply Hlt in Hm2'. lia.
        * intros Ht. destruct (together_range _ _ _ Hli Ht) as [?|[]]; lia.
      + split.
        * intros ->. apply Hlt in Hm2. lia.
        * intros Ht. destruct (together_range _ _ _ Hli Ht) as [?|[]]; lia.
      + by apply He.
  Qed.

  (** [unite] called with two distinct roots. *)
  Lemma unite_spec u s ma mb ra rb :
    inv u s -> ma < length (ss_items s) -> mb < length (ss_items s) ->
    reaches (uf_parent u) ma ra -> reaches (uf_parent u) mb rb -> ra <> rb ->
    exists u' h, uf_unite u ra rb = Ok (u', h) /\ inv u' (SS (ss_items s) ((ma, mb) :: ss_links s)).
  Proof.
    intros Hinv Hma Hmb Hra Hrb Hne.
    assert (Hroot : forall k r, reaches (uf_parent u) k r -> r < length (ss_items s) /\ reaches (uf_parent u) r r).
    { intros k r [d Hk]. apply rd_root_fix in Hk. split; [|by apply reaches_root_self].
      rewrite <- (inv_len _ _ Hinv). by eapply lookup_lt_Some. }
    destruct (Hroot _ _ Hra) as [Hral Hraa], (Hroot _ _ Hrb) as [Hrbl Hrbb].
    unfold uf_unite.
    destruct (find_handle_spec u s ra Hinv Hral) as (u1 & r1 & -> & Hr1 & Hinv1 & Hs1 & _ & _).
    assert (r1 = ra) as -> by (by eapply reaches_det). simpl.
    destruct (find_handle_spec u1 s rb Hinv1 Hrbl) as (u2 & r2 & -> & Hr2 & Hinv2 & Hs2 & _ & _).
    assert (r2 = rb) as -> by (eapply reaches_det; [done|by apply Hs1]). simpl.
    pose proof (same_roots_trans _ _ _ Hs1 Hs2) as Hs.
    clear Hs1 Hs2 Hinv1 u1 Hr1 Hr2.
    destruct (lookup_lt_is_Some_2 (uf_rank u2) ra) as [k1 Hk1]; [by rewrite (inv_rank _ _ Hinv2)|].
    destruct (lookup_lt_is_Some_2 (uf_rank u2) rb) as [k2 Hk2]; [by rewrite (inv_rank _ _ Hinv2)|].
    rewrite Hk1, Hk2. simpl.
    destruct Hinv2 as [Hi Hl Hrk Hp Hf Hli He].
    assert (Hra2 : reaches (uf_parent u2) ma ra) by (by apply Hs).
    assert (Hrb2 : reaches (uf_parent u2) mb rb) by (by apply Hs).
    assert (Hra0 : uf_parent u2 !! ra = Some ra) by (destruct Hra2 as [? H]; by apply rd_root_fix in H).
    assert (Hrb0 : uf_parent u2 !! rb = Some rb) by (destruct Hrb2 as [? H]; by apply rd_root_fix in H).
    (* the new abstract relation *)
    set (s' := SS (ss_items s) ((ma, mb) :: ss_links s)).
    assert (Htog' : forall m m' r r', reaches (uf_parent u2) m r -> reaches (uf_parent u2) m' r' ->
        (together s' m m' <-> (r = r' \/ (r = ra /\ r' = rb) \/ (r = rb /\ r' = ra)))).
    { intros m m' r r' Hm Hm'. split.
      - intros Ht.
        assert (Hgen : forall x y, together s' x y -> forall rx ry,
            reaches (uf_parent u2) x rx -> reaches (uf_parent u2) y ry ->
            rx = ry \/ (rx = ra /\ ry = rb) \/ (rx = rb /\ ry = ra)).
        { clear m m' r r' Hm Hm' Ht. intros x y Ht. induction Ht as [x y Hxy|x|x y Hxy IH|x y z Hxy IH1 Hyz IH2]; intros rx ry Hx Hy.
          - destruct Hxy as [Heq|Hxy].
            + simplify_eq. assert (rx = ra) by (by eapply reaches_det). assert (ry = rb) by (by eapply reaches_det). auto.
            + left. eapply (He x y); [done|done|]. by apply rst_step.
          - left. by eapply reaches_det.
          - destruct (IH _ _ Hy Hx) as [|[[]|[]]]; auto.
          - (* y has a root *)
            assert (Hyr : exists ry', reaches (uf_parent u2) y ry').
            { assert (Hl' : forall m m', linked s' m m' -> m < length (ss_items s') /\ m' < length (ss_items s')).
              { intros m m' [Heq|Hlk]; [simplify_eq; done|by apply Hli]. }
              destruct (together_range s' x y Hl' Hxy) as [<-|[_ Hylt]]; [by eexists|].
              apply Hf. rewrite Hl. done. }
            destruct Hyr as [ryy Hyy].
            destruct (IH1 _ _ Hx Hyy) as [->|[[-> ->]|[-> ->]]], (IH2 _ _ Hyy Hy) as [->|[[? ->]|[? ->]]]; simplify_eq; auto. }
        by apply (Hgen m m').
      - assert (Hmono : forall x y, together s x y -> together s' x y).
        { intros x y. apply together_mono. intros z Hz. by right. }
        assert (Hab : together s' ma mb) by (apply rst_step; by left).
        intros [->|[[-> ->]|[-> ->]]].
        + apply Hmono. eapply He; [done|done|done].
        + eapply rst_trans; [apply Hmono; eapply (He m ma); done|].
          eapply rst_trans; [done|]. apply Hmono. by eapply (He mb m').
        + eapply rst_trans; [apply Hmono; eapply (He m mb); done|].
          eapply rst_trans; [by apply rst_sym|]. apply Hmono. by eapply (He ma m'). }
    assert (Hlink : forall a b rk, (a = ra /\ b = rb) \/ (a = rb /\ b = ra) -> length rk = length (ss_items s) ->
      inv (UF (uf_items u2) (uf_pos u2) (<[a := b]> (uf_parent u2)) rk) s').
    { intros a b rk Hab Hrkl.
      assert (Ha0 : uf_parent u2 !! a = Some a) by (destruct Hab as [[-> ->]|[-> ->]]; done).
      assert (Hb0 : uf_parent u2 !! b = Some b) by (destruct Hab as [[-> ->]|[-> ->]]; done).
      assert (Habne : a <> b) by (destruct Hab as [[-> ->]|[-> ->]]; congruence).
      pose proof (link_reaches (uf_parent u2) a b) as Hlr.
      assert (Hf' : forest (<[a := b]> (uf_parent u2))).
      { intros h Hh. rewrite insert_length in Hh. destruct (Hf h Hh) as [r Hr]. eexists. by apply Hlr. }
      split; simpl; try done.
      - by rewrite insert_length.
      - intros m m' [Heq|Hlk]; [by simplify_eq|by apply Hli].
      - intros m m' r r' Hm Hm'.
        assert (Hold : forall k rk', reaches (<[a:=b]> (uf_parent u2)) k rk' ->
                  exists rk0, reaches (uf_parent u2) k rk0 /\ rk' = if decide (rk0 = a) then b else rk0).
        { intros k rk' Hk. destruct (Hf k) as [rk0 Hrk0].
          { destruct Hk as [? Hk]. apply rd_lt in Hk. by rewrite insert_length in Hk. }
          exists rk0. split; [done|]. eapply reaches_det; [done|]. by apply Hlr. }
        destruct (Hold _ _ Hm) as (r0 & Hr0 & ->), (Hold _ _ Hm') as (r0' & Hr0' & ->).
        rewrite (Htog' _ _ _ _ Hr0 Hr0').
        destruct Hab as [[-> ->]|[-> ->]]; repeat case_decide; subst; intuition congruence. }
    destruct (decide (k1 < k2)).
    - eexists _, _. split; [done|]. apply Hlink; [auto|]. rewrite insert_length. done.
    - eexists _, _. split; [done|]. apply Hlink; [auto|]. rewrite insert_length. done.
  Qed.

  Lemma step_refines u s o s' : inv u s -> spec_step s o s' ->
    exists u', uf_step u o = Ok u' /\ inv u' s'.
  Proof.
    intros Hinv Hstep. destruct Hstep as [s e|s e|s a b ma mb Hna Hnb]; simpl.
    - eexists. split; [done|]. by apply inv_add.
    - destruct (assoc (uf_pos u) e) as [m|] eqn:Hpos.
      + apply (inv_pos _ _ Hinv) in Hpos. destruct (find_spec u s e m Hinv Hpos) as (u' & r & -> & _ & ? & _).
        simpl. eauto.
      + unfold uf_find. rewrite Hpos. simpl. eauto.
    - destruct (find_spec u s a ma Hinv Hna) as (u1 & ra & -> & Hra & Hinv1 & Hs1). simpl.
      destruct (find_spec u1 s b mb Hinv1 Hnb) as (u2 & rb & -> & Hrb & Hinv2 & Hs2). simpl.
      assert (Hra2 : reaches (uf_parent u2) ma ra) by (apply Hs2, Hs1; done).
      assert (Hrb2 : reaches (uf_parent u2) mb rb) by (by apply Hs2).
      case_decide as Heq.
      + subst. eexists. split; [done|].
        assert (Hab : together s ma mb) by (eapply (inv_eq _ _ Hinv2); done).
        destruct Hinv2 as [Hi Hl Hrk Hp Hf Hli He].
        split; simpl; try done.
        * intros m m' [?|?]; [|by apply Hli]. simplify_eq. split; by eapply names_lt.
        * intros m m' r r' Hm Hm'. rewrite (He _ _ _ _ Hm Hm'). split.
          { apply together_mono. intros x Hx. by right. }
          { clear -Hab. intros Ht. induction Ht as [x y [Hxy|Hxy]|x|x y|x y z].
            - by simplify_eq.
            - by apply rst_step.
            - apply rst_refl.
            - by apply rst_sym.
            - by eapply rst_trans. }
      + destruct (unite_spec u2 s ma mb ra rb) as (u' & h & -> & Hinv'); try done; try (by eapply names_lt).
        simpl. eauto.
  Qed.

  Lemma run_refines ops : forall u s s', inv u s -> spec_run s ops s' ->
    exists u', uf_run u ops = Ok u' /\ inv u' s'.
  Proof.
    induction ops as [|o ops IH]; intros u s s' Hinv Hrun; inversion Hrun; simplify_eq; simpl.
    - eauto.
    - destruct (step_refines u s o s'0 Hinv) as (u1 & -> & Hinv1); [done|]. simpl. eauto.
  Qed.

  Lemma last_occurrence s e m : ss_items s !! m = Some e -> exists k, names s e k.
  Proof.
    unfold names. generalize (ss_items s) as l. clear s. intros l. revert m.
    induction l as [|x l IH] using rev_ind; intros m Hm; [by rewrite lookup_nil in Hm|].
    destruct (decide (x = e)) as [->|Hne].
    - exists (length l). split; [by rewrite lookup_app_r, Nat.sub_diag by lia|].
      intros m' Hm'. apply lookup_lt_Some in Hm'. rewrite app_length in Hm'. simpl in Hm'. lia.
    - assert (Hl : forall j, (l ++ [x]) !! j = Some e -> l !! j = Some e).
      { intros j Hj. apply lookup_app_Some in Hj as [Hj|[_ Hj]]; [done|].
        apply list_lookup_singleton_Some in Hj as [_ ?]. congruence. }
      destruct (IH m (Hl _ Hm)) as (k & Hk & Hmax).
      exists k. split; [by apply lookup_app_l_Some|]. intros m' Hm'. by apply Hmax, Hl.
  Qed.

  Lemma names_check s e m : ss_items s !! m = Some e ->
    Forall (fun x => x <> e) (drop (S m) (ss_items s)) -> names s e m.
  Proof.
    intros Hm Hf. split; [done|]. intros m' Hm'. destruct (decide (m' <= m)); [done|].
    exfalso. rewrite Forall_lookup in Hf. apply (Hf (m' - S m) e); [|done].
    rewrite lookup_drop, <- Hm'. f_equal. lia.
  Qed.

  Lemma find_answers u s a b ua ha ub hb :
    inv u s -> uf_find u a = Ok (ua, ha) -> uf_find u b = Ok (ub, hb) ->
    (ha <> None <-> In a (ss_items s)) /\
    (ha <> None -> hb <> None -> (ha = hb <-> same_set s a b)).
  Proof.
    intros Hinv Ha Hb.
    assert (Hgen : forall e ue he, uf_find u e = Ok (ue, he) ->
       (he = None /\ forall m, ss_items s !! m <> Some e) \/
       exists m r, names s e m /\ he = Some r /\ reaches (uf_parent u) m r).
    { intros e ue he He. destruct (assoc (uf_pos u) e) as [m|] eqn:Hpos.
      - right. apply (inv_pos _ _ Hinv) in Hpos. destruct (find_spec u s e m Hinv Hpos) as (u' & r & Hf & Hr & _).
        rewrite Hf in He. simplify_eq. eauto.
      - left. unfold uf_find in He. rewrite Hpos in He. simplify_eq. split; [done|].
        (* if e occurs there is a last occurrence *)
        intros m Hm. destruct (last_occurrence s e m Hm) as [k Hk].
        apply (inv_pos _ _ Hinv) in Hk. congruence. }
    split.
    - destruct (Hgen _ _ _ Ha) as [[-> Hno]|(m & r & Hn & -> & _)].
      + split; [done|]. intros Hin. apply elem_of_list_In, elem_of_list_lookup in Hin as [i Hi]. by apply Hno in Hi.
      + split; [|done]. intros _. apply elem_of_list_In, elem_of_list_lookup. exists m. apply Hn.
    - intros Hna Hnb.
      destruct (Hgen _ _ _ Ha) as [[-> ?]|(m & r & Hn & -> & Hr)]; [done|].
      destruct (Hgen _ _ _ Hb) as [[-> ?]|(m' & r' & Hn' & -> & Hr')]; [done|].
      assert (Huniq : forall e k k', names s e k -> names s e k' -> k = k').
      { intros e k k' [H1 H2] [H3 H4]. apply H2 in H3. apply H4 in H1. lia. }
      split.
      + intros [= ->]. exists m, m'. split; [done|]. split; [done|]. by apply (inv_eq _ _ Hinv m m' _ _ Hr Hr').
      + intros (k & k' & Hk & Hk' & Ht). f_equal.
        rewrite (Huniq _ _ _ Hk Hn), (Huniq _ _ _ Hk' Hn') in Ht. by apply (inv_eq _ _ Hinv m m' _ _ Hr Hr').
  Qed.
End Refinement.
