From Coq Require Import ZArith Lia Sorting.Sorted.
From stdpp Require Import list.
From Verif Require Import Common Math_Model Math_Spec Math_Proofs Layers_Model.
Open Scope Z_scope.

Lemma filler_count_ok s : 0 < layer_height s ->
  exists f, getFillerLayerCount s = Ok f /\ 0 <= f /\
    is_round_half_away (getZdiffBetweenRaftAndLayer0 s) (layer_height s) f.
Proof.
  intros H. assert (Hz : 0 <= getZdiffBetweenRaftAndLayer0 s)
    by (unfold getZdiffBetweenRaftAndLayer0; case_match; lia).
  unfold getFillerLayerCount, round_divide. destruct (Z.eqb_spec (layer_height s) 0); [lia|].
  eexists. split; [done|]. split; [|by apply round_pos].
  apply Z.quot_pos; [|lia]. assert (0 <= layer_height s ÷ 2) by (apply Z.quot_pos; lia). lia.
Qed.

Lemma filler_count_no_raft s : adhesion_is_raft s = false -> 0 < layer_height s ->
  getFillerLayerCount s = Ok 0.
Proof.
  intros E H. unfold getFillerLayerCount, round_divide, getZdiffBetweenRaftAndLayer0. rewrite E.
  destruct (Z.eqb_spec (layer_height s) 0); [lia|]. f_equal. rewrite Z.add_0_l.
  apply Z.quot_small. pose proof (Z.quot_lt (layer_height s) 2).
  assert (0 <= layer_height s ÷ 2) by (apply Z.quot_pos; lia). lia.
Qed.

Lemma seqZ_map_const {A} (f : Z -> A) (a : A) m n :
  0 <= n -> (forall i, m <= i < m + n -> f i = a) -> map f (seqZ m n) = replicate (Z.to_nat n) a.
Proof.
  intros Hn H. apply list_eq. intros i. rewrite list_lookup_fmap.
  destruct (decide (Z.of_nat i < n)).
  - rewrite lookup_seqZ_lt by lia. simpl. rewrite H by lia.
    symmetry. apply lookup_replicate. split; [done|lia].
  - rewrite lookup_seqZ_ge by lia. symmetry. apply lookup_ge_None. rewrite replicate_length. lia.
Qed.

(** slicing heights *)
Definition zfun (tol : slicing_tolerance) (initial thickness : Z) (n : nat) : Z :=
  match n with O => fixed_z0 tol initial thickness
  | S _ => fixed_offset tol initial thickness + thickness * (Z.of_nat n - 1) end.

Lemma build_fixed_lookup count tol initial thickness zs n :
  buildLayersWithHeight count tol initial thickness None = Ok zs ->
  (n < count)%nat -> zs !! n = Some (zfun tol initial thickness n).
Proof.
  destruct count as [|m]; [done|]. intros [= <-] Hn. destruct n as [|n]; [done|].
  cbn [zfun]. rewrite lookup_cons, list_lookup_fmap, lookup_seq_lt by lia. simpl. done.
Qed.
Lemma build_fixed_length count tol initial thickness zs :
  buildLayersWithHeight count tol initial thickness None = Ok zs -> length zs = count.
Proof. destruct count; [done|]. intros [= <-]. simpl. by rewrite map_length, seq_length. Qed.

Lemma half_bounds a : 0 < a -> 0 <= a ÷ 2 < a /\ 2 * (a ÷ 2) <= a <= 2 * (a ÷ 2) + 1.
Proof.
  intros. pose proof (Z.quot_rem' a 2). pose proof (Z.rem_bound_pos a 2). lia.
Qed.

Lemma zfun_step tol i t n : 0 < i -> 0 < t -> zfun tol i t n < zfun tol i t (S n).
Proof.
  intros Hi Ht. pose proof (half_bounds i Hi). pose proof (half_bounds t Ht).
  destruct n as [|n].
  - destruct tol; cbn [zfun fixed_z0 fixed_offset]; lia.
  - cbn [zfun]. replace (Z.of_nat (S (S n))) with (Z.of_nat (S n) + 1) by lia.
    rewrite !Z.mul_sub_distr_l, !Z.mul_add_distr_l. lia.
Qed.
Lemma zfun_mono tol i t n m : 0 < i -> 0 < t -> (n < m)%nat -> zfun tol i t n < zfun tol i t m.
Proof.
  intros Hi Ht H. induction H as [|m H IH]; [by apply zfun_step|].
  pose proof (zfun_step tol i t m Hi Ht). lia.
Qed.
Lemma zfun_mono_le tol i t n m : 0 < i -> 0 < t -> (n <= m)%nat -> zfun tol i t n <= zfun tol i t m.
Proof.
  intros Hi Ht H. destruct (decide (n = m)) as [->|]; [lia|].
  pose proof (zfun_mono tol i t n m Hi Ht). lia.
Qed.

(** layer count *)
Lemma slice_count_max ms acc mz i t c :
  slice_layer_count acc mz i t ms = Ok c ->
  acc <= c /\
  (forall m, m ∈ ms -> mesh_is_printed m = true ->
     exists cm, mesh_layer_count mz i t m = Ok cm /\ cm <= c) /\
  (c = acc \/ exists m, m ∈ ms /\ mesh_is_printed m = true /\ mesh_layer_count mz i t m = Ok c).
Proof.
  revert acc. induction ms as [|m ms IH]; intros acc; simpl.
  - intros [= <-]. split; [lia|]. split; [|by left]. intros m Hm. by apply elem_of_nil in Hm.
  - destruct (mesh_is_printed m) eqn:Ep.
    + intros (cm & Hc & H)%rbind_ok. destruct (IH _ H) as (H1 & H2 & H3).
      split; [lia|]. split.
      * intros m' [->|Hin]%elem_of_cons Hp; [exists cm; split; [done|lia]|by apply H2].
      * destruct H3 as [H3|(m' & ? & ? & ?)].
        -- destruct (Z.max_spec acc cm) as [[? E]|[? E]]; rewrite E in H3.
           ++ right. exists m. subst c. rewrite elem_of_cons. auto.
           ++ by left.
        -- right. exists m'. rewrite elem_of_cons. auto.
    + intros H. destruct (IH _ H) as (H1 & H2 & H3). split; [done|]. split.
      * intros m' [->|Hin]%elem_of_cons Hp; [congruence|by apply H2].
      * destruct H3 as [H3|(m' & ? & ? & ?)]; [by left|]. right. exists m'. rewrite elem_of_cons. auto.
Qed.

Lemma round_half_pos_bounds n d q : 0 < d -> is_round_half_away n d q ->
  2 * (q * d) - d <= 2 * n <= 2 * (q * d) + d /\ (0 <= n -> 2 * n < 2 * (q * d) + d).
Proof.
  intros Hd [H1 H2]. split; [lia|]. intros Hn.
  destruct (decide (2 * n = 2 * (q * d) + d)) as [E|]; [|lia].
  assert (Z.abs n < Z.abs (q * d)) by (apply H2; lia).
  assert (0 <= q). { apply Z.lt_succ_r. apply (Z.mul_lt_mono_pos_r d); lia. }
  assert (0 <= q * d) by (apply Z.mul_nonneg_nonneg; lia). lia.
Qed.

Lemma mesh_count_covers mz i t m cm n :
  0 < i -> 0 < t -> mesh_layer_count mz i t m = Ok cm -> mesh_height m <= mz ->
  (1 <= n)%nat -> cm <= Z.of_nat n -> mesh_height m <= zfun (mesh_tolerance m) i t n.
Proof.
  intros Hi Ht. unfold mesh_layer_count. set (h := mesh_height m).
  pose proof (half_bounds i Hi). pose proof (half_bounds t Ht).
  intros H1 Hmz Hn Hc. destruct n as [|n]; [lia|]. cbn [zfun].
  assert (Hn0 : 0 <= t * (Z.of_nat (S n) - 1)) by (apply Z.mul_nonneg_nonneg; lia).
  destruct (decide (h <= i)) as [Hhi|Hhi].
  { destruct (mesh_tolerance m); cbn [fixed_offset]; lia. }
  assert (Hm : cm - 1 <= Z.of_nat (S n) - 1) by lia.
  apply (Z.mul_le_mono_nonneg_l _ _ t) in Hm; [|lia].
  destruct (mesh_tolerance m) eqn:Et; cbn [fixed_offset].
  - destruct (Z.ltb_spec mz i); [lia|].
    apply rbind_ok in H1 as (r & Hr & [= <-]). apply round_signed_ok in Hr.
    destruct (round_half_pos_bounds _ _ _ Ht Hr) as [Hr1 Hr2]. specialize (Hr2 ltac:(lia)).
    assert (t * (r + 1 - 1) = r * t) by ring. lia.
  - destruct (Z.leb_spec i h); [|lia].
    apply rbind_ok in H1 as (c & Hr & [= <-]). apply rbind_ok in Hr as (r & Hr & [= <-]).
    apply floor_ok in Hr as [Hr _]. specialize (Hr Ht).
    assert (0 <= r). { apply Z.lt_succ_r. apply (Z.mul_lt_mono_pos_r t); lia. }
    destruct (Z.ltb_spec 0 (r + 1)); [|lia].
    assert (t * (r + 1 + 1 - 1) = (r + 1) * t) by ring. lia.
  - destruct (Z.ltb_spec h i); [lia|].
    apply rbind_ok in H1 as (r & Hr & [= <-]). apply ceil_ok in Hr as [Hr _]. specialize (Hr Ht).
    assert (t * (r + 1 - 1) = r * t) by ring. lia.
Qed.

Lemma mesh_count_tight mz i t m cm :
  0 < i -> 0 < t -> mesh_layer_count mz i t m = Ok cm -> 2 <= cm ->
  zfun (mesh_tolerance m) i t (Z.to_nat (cm - 1)) <= mesh_height m.
Proof.
  intros Hi Ht. unfold mesh_layer_count. set (h := mesh_height m).
  pose proof (half_bounds i Hi). pose proof (half_bounds t Ht).
  intros H1 Hc. destruct (Z.to_nat (cm - 1)) as [|n] eqn:En; [lia|]. cbn [zfun].
  assert (En' : Z.of_nat (S n) - 1 = cm - 2) by lia. rewrite En'. clear En En' n.
  destruct (mesh_tolerance m) eqn:Et; cbn [fixed_offset].
  - destruct (Z.ltb_spec mz i); [injection H1 as <-; case_match; lia|].
    apply rbind_ok in H1 as (r & Hr & [= <-]). apply round_signed_ok in Hr.
    destruct (round_half_pos_bounds _ _ _ Ht Hr) as [Hr1 Hr2].
    assert (t * (r + 1 - 2) = r * t - t) by ring. lia.
  - apply rbind_ok in H1 as (c & Hr & [= <-]).
    destruct (Z.leb_spec i h); [|injection Hr as <-; simpl in *; lia].
    apply rbind_ok in Hr as (r & Hr & [= <-]).
    apply floor_ok in Hr as [Hr _]. specialize (Hr Ht).
    destruct (Z.ltb_spec 0 (r + 1)); [|lia].
    assert (t * (r + 1 + 1 - 2) = r * t) by ring. lia.
  - destruct (Z.ltb_spec h i); [injection H1 as <-; case_match; lia|].
    apply rbind_ok in H1 as (r & Hr & [= <-]). apply ceil_ok in Hr as [Hr _]. specialize (Hr Ht).
    assert (t * (r + 1 - 2) = (r - 1) * t) by ring. lia.
Qed.

(** raft printing *)
Lemma raft_loop_spec n nr z h ls zf :
  raft_loop n nr z h = (ls, zf) ->
  zf = z + Z.of_nat n * h /\ length ls = n /\ (forall k p, ls !! k = Some p -> p = (nr + Z.of_nat k, z + (Z.of_nat k + 1) * h)).
Proof.
  revert nr z ls zf. induction n as [|n IH]; intros nr z ls zf; cbn [raft_loop].
  - intros [= <- <-]. split; [lia|]. split; [done|]. intros k p. by rewrite lookup_nil.
  - destruct (raft_loop n (nr + 1) (z + h) h) as [ls' zf'] eqn:E. intros [= <- <-].
    destruct (IH _ _ _ _ E) as (-> & Hl & Hk). split; [|split].
    + rewrite Nat2Z.inj_succ. ring.
    + simpl. by rewrite Hl.
    + intros [|k] p; simpl.
      * intros [= <-]. f_equal; [lia|ring].
      * intros Hp%Hk. rewrite Hp. f_equal; [lia|rewrite Nat2Z.inj_succ; ring].
Qed.

Lemma filler_z_ok s : adhesion_is_raft s = true -> 0 < layer_height s ->
  exists f, getFillerLayerCount s = Ok f /\ 0 <= f /\  (0 < f -> exists h, getFillerLayerHeight s = Ok h /\ is_round_half_away (Z.max 0 (raft_airgap s)) f h /\ 0 < h).
Proof.
  intros Hr Hl. destruct (filler_count_ok s Hl) as (f & Ef & Hf & Hsp). exists f. split; [done|].
  split; [done|]. intros Hf'. unfold getFillerLayerHeight. rewrite Hr, Ef. cbn [rbind].
  unfold getZdiffBetweenRaftAndLayer0 in *. rewrite Hr in *.
  set (a := Z.max 0 (raft_airgap s)) in *.
  unfold round_divide. destruct (Z.eqb_spec f 0); [lia|]. eexists. split; [done|].
  assert (Ha : 0 <= a) by lia.
  pose proof (round_pos a f Ha Hf') as Hh. split; [done|].
  set (h := (a + f ÷ 2) ÷ f) in *. clearbody h.
  destruct (round_half_pos_bounds _ _ _ Hl Hsp) as [[Hs1 _] _].
  destruct (round_half_pos_bounds _ _ _ Hf' Hh) as [[_ _] Hs3]. specialize (Hs3 Ha).
  (* 2a >= 2 f lh - lh >= f lh >= f *)
  assert (f * layer_height s >= f) by nia.
  assert (2 * (f * layer_height s) - layer_height s >= f * layer_height s) by nia.
  assert (0 <= h * f \/ h * f < 0) by lia.
  apply Z.nle_gt. intros Hle. assert (h * f <= 0) by nia. lia.
Qed.

(** chains of (layer number, height) pairs *)
Definition below (p q : Z * Z) : Prop := p.1 < q.1 /\ p.2 < q.2.
Definition chain (lo hi : Z * Z) (ls : list (Z * Z)) : Prop :=
  StronglySorted below ls /\ Forall (below lo) ls /\ Forall (fun p => p.1 <= hi.1 /\ p.2 <= hi.2) ls.

Lemma StronglySorted_app_below ls1 ls2 :
  StronglySorted below ls1 -> StronglySorted below ls2 ->
  (forall p q, p ∈ ls1 -> q ∈ ls2 -> below p q) -> StronglySorted below (ls1 ++ ls2).
Proof.
  induction 1 as [|p ls1 Hs IH Hf]; intros H2 Hc; simpl; [done|].
  constructor.
  - apply IH; [done|]. intros. apply Hc; [by right|done].
  - apply Forall_app. split; [done|]. apply Forall_forall. intros q Hq. apply Hc; [by left|done].
Qed.
Lemma chain_nil lo hi : chain lo hi [].
Proof. repeat constructor. Qed.
Lemma chain_app lo mid hi l1 l2 : lo.1 <= mid.1 -> lo.2 <= mid.2 -> mid.1 <= hi.1 -> mid.2 <= hi.2 ->
  chain lo mid l1 -> chain mid hi l2 -> chain lo hi (l1 ++ l2).
Proof.
  intros A B C D (S1 & L1 & U1) (S2 & L2 & U2). rewrite Forall_forall in L1, U1, L2, U2. split; [|split].
  - apply StronglySorted_app_below; [done..|]. intros p q Hp Hq.
    specialize (U1 p Hp) as [? ?]. specialize (L2 q Hq) as [? ?]. split; lia.
  - apply Forall_forall. intros p [Hp|Hp]%elem_of_app; [by apply L1|].
    specialize (L2 p Hp) as [? ?]. split; lia.
  - apply Forall_forall. intros p [Hp|Hp]%elem_of_app; [|by apply U2].
    specialize (U1 p Hp) as [? ?]. split; lia.
Qed.
Lemma chain_weaken lo lo' hi hi' ls : lo'.1 <= lo.1 -> lo'.2 <= lo.2 -> hi.1 <= hi'.1 -> hi.2 <= hi'.2 ->
  chain lo hi ls -> chain lo' hi' ls.
Proof.
  intros A B C D (S1 & L1 & U1). split; [done|]. rewrite Forall_forall in L1, U1. split; apply Forall_forall.
  - intros p Hp. specialize (L1 p Hp) as [? ?]. split; lia.
  - intros p Hp. specialize (U1 p Hp) as [? ?]. split; lia.
Qed.

Lemma raft_loop_chain n nr z h ls zf : 0 < h -> raft_loop n nr z h = (ls, zf) ->
  chain (nr - 1, z) (nr - 1 + Z.of_nat n, zf) ls /\ zf = z + Z.of_nat n * h /\
  map fst ls = seqZ nr (Z.of_nat n).
Proof.
  intros Hh. revert nr z ls zf. induction n as [|n IH]; intros nr z ls zf; cbn [raft_loop].
  - intros [= <- <-]. split; [apply chain_nil|]. split; [lia|done].
  - destruct (raft_loop n (nr + 1) (z + h) h) as [ls' zf'] eqn:E. intros [= <- <-].
    destruct (IH _ _ _ _ E) as (Hc & -> & Hm). assert (0 <= Z.of_nat n * h) by nia. split; [|split].
    + apply (chain_app _ (nr, z + h) _ [(nr, z + h)]); cbn [fst snd]; [lia..| |].
      * repeat constructor; cbn [fst snd]; lia.
      * eapply chain_weaken; [..|exact Hc]; cbn [fst snd]; lia.
    + rewrite Nat2Z.inj_succ. unfold Z.succ. ring.
    + cbn [map fst]. rewrite Hm. rewrite (seqZ_cons nr) by lia. f_equal. f_equal; lia.
Qed.

Lemma seqZ_chain (f : Z -> Z) m n :
  0 <= n -> (forall i, m <= i -> i + 1 < m + n -> f i < f (i + 1)) ->
  forall lo hi, lo < f m -> (0 < n -> f (m + n - 1) <= hi) ->
  chain (m - 1, lo) (m + n - 1, hi) (map (fun nr => (nr, f nr)) (seqZ m n)).
Proof.
  intros Hn. revert m. revert n Hn. refine (natlike_ind _ _ _).
  - intros. apply chain_nil.
  - intros n Hn IH m Hf lo hi Hlo Hhi.
    rewrite seqZ_cons by lia. cbn [map].
    destruct (decide (n = 0)) as [->|].
    { replace (seqZ (Z.succ m) (Z.pred (Z.succ 0))) with (@nil Z) by done.
      specialize (Hhi ltac:(lia)). replace (m + Z.succ 0 - 1) with m in Hhi by lia.
      repeat constructor; cbn [fst snd]; lia. }
    specialize (Hhi ltac:(lia)).
    assert (Hmono : f m <= f (m + Z.succ n - 1)).
    { clear -Hf Hn. assert (forall k, 0 <= k -> k <= n -> f m <= f (m + k)) as Hk.
      { refine (natlike_ind _ _ _).
        - intros. by rewrite Z.add_0_r.
        - intros k Hk IH Hle. specialize (IH ltac:(lia)).
          pose proof (Hf (m + k) ltac:(lia) ltac:(lia)).
          replace (m + Z.succ k) with (m + k + 1) by lia. lia. }
      replace (m + Z.succ n - 1) with (m + n) by lia.
      apply Hk; lia. }
    apply (chain_app _ (m, f m) _ [(m, f m)]); cbn [fst snd]; [lia..| |].
    + repeat constructor; cbn [fst snd]; lia.
    + replace (Z.pred (Z.succ n)) with n by lia.
      replace m with (Z.succ m - 1) at 1 by lia. replace (m + Z.succ n - 1) with (Z.succ m + n - 1) by lia.
      apply IH.
      * intros i Hi1 Hi2. apply Hf; lia.
      * apply (Hf m); lia.
      * intros _. replace (Z.succ m + n - 1) with (m + Z.succ n - 1) by lia. done.
Qed.
