(** C42: the chunks into which parallel_for cuts its range. *)
From Coq Require Import ZArith Lia.
From stdpp Require Import list list_numbers.
From Verif Require Import Common Par_Model.

Lemma rud_spec a b : 0 < b -> a <= round_up_divide a b * b /\ (0 < a -> (round_up_divide a b - 1) * b < a /\ 0 < round_up_divide a b).
Proof.
  intros Hb. unfold round_up_divide.
  pose proof (Nat.div_mod_eq (a + b - 1) b) as E. pose proof (Nat.mod_upper_bound (a + b - 1) b).
  set (q := (a + b - 1) / b) in *. set (r := (a + b - 1) mod b) in *. split; [nia|].
  intros Ha. assert (0 < q) by (destruct q; nia). split; [nia|done].
Qed.

Lemma rud_le a b m : 0 < b -> a <= m * b -> round_up_divide a b <= m.
Proof.
  intros Hb H. destruct (decide (a = 0)) as [-> |Ha].
  - unfold round_up_divide. rewrite Nat.div_small; lia.
  - destruct (rud_spec a b Hb) as [_ [H1 H2]]; [lia|]. nia.
Qed.

Lemma factor_pos f : 0 < factor_of f.
Proof. unfold factor_of. destruct (Nat.leb_spec f 1); lia. Qed.

Lemma blocks_spec n f : n <= blocks_of n f * factor_of f /\ (0 < n -> 0 < blocks_of n f).
Proof.
  unfold blocks_of, factor_of. destruct (Nat.leb_spec f 1) as [H|H]; [lia|].
  destruct (rud_spec n f) as [H1 H2]; [lia|]. split; [done|]. intros Hn. by apply H2.
Qed.

(** The chunk size is a positive multiple of the factor; the asserts of ThreadPool.h:155-156 hold. *)
Lemma chunk_size_ok w n f p : 0 < w -> 0 < n ->
  0 < chunk_size w n f p /\ (exists k, chunk_size w n f p = k * factor_of f) /\
  n <= chunk_count w n f p * chunk_size w n f p /\ (chunk_count w n f p - 1) * chunk_size w n f p < n /\
  chunk_count w n f p <= Pos.to_nat p * w /\ chunk_count w n f p <= blocks_of n f /\ 0 < chunk_count w n f p.
Proof.
  intros Hw Hn. destruct (blocks_spec n f) as [B1 B2]. specialize (B2 Hn). pose proof (factor_pos f) as F.
  set (m := Nat.min (Pos.to_nat p * w) (blocks_of n f)).
  assert (Hm : 0 < m) by (unfold m; lia).
  destruct (rud_spec (blocks_of n f) m Hm) as [R1 R2]. specialize (R2 B2) as [R2 R3].
  assert (Hs : chunk_size w n f p = factor_of f * round_up_divide (blocks_of n f) m) by reflexivity.
  assert (Hpos : 0 < chunk_size w n f p) by (rewrite Hs; nia).
  destruct (rud_spec n (chunk_size w n f p) Hpos) as [C1 C2]. specialize (C2 Hn) as [C2 C3].
  assert (Hc : chunk_count w n f p <= m).
  { apply rud_le; [done|]. rewrite Hs. nia. }
  split_and!; [done| |done|done|unfold m in Hc; lia|unfold m in Hc; lia|done].
  exists (round_up_divide (blocks_of n f) m). rewrite Hs. lia.
Qed.

Definition range (p : Z * Z) : list Z := seqZ p.1 (p.2 - p.1).

Lemma bounds_ok fuel first last inc : (0 < inc)%Z -> (Z.to_nat (last - first) < fuel)%nat ->
  exists bs, chunk_bounds fuel first last inc = Ok bs /\ concat (map range bs) = seqZ first (last - first) /\
    Forall (fun p => (p.1 < p.2)%Z) bs /\
    (forall k, S k < length bs -> exists p, bs !! k = Some p /\ (p.2 = p.1 + inc)%Z) /\
    Forall (fun p => (p.2 - p.1 <= inc)%Z) bs /\
    (first <= last -> last - first <= Z.of_nat (length bs) * inc)%Z /\
    (first < last -> (Z.of_nat (length bs) - 1) * inc < last - first)%Z /\
    (last <= first -> bs = [])%Z.
Proof.
  intros Hi. revert first. induction fuel as [|fuel IH]; intros first Hf; [lia|]. cbn [chunk_bounds].
  destruct (Z.ltb_spec first last) as [L|L].
  2:{ exists []. split_and!; try done; [by rewrite seqZ_nil by lia|cbn; lia..]. }
  set (e := if (inc <? last - first)%Z then (first + inc)%Z else last).
  assert (He : (first < e <= last /\ e - first <= inc)%Z /\ (e < last -> e = first + inc)%Z /\ (e = last -> last - first <= inc)%Z)
    by (unfold e; destruct (Z.ltb_spec inc (last - first)); lia).
  destruct He as (He1 & He2 & He3).
  destruct (IH e) as (bs & E & Cc & Ne & Sz & Sm & N1 & N2 & N3); [lia|].
  exists ((first, e) :: bs). rewrite E. split_and!.
  - done.
  - cbn [map concat]. rewrite Cc. unfold range at 1. cbn [fst snd].
    replace (last - first)%Z with ((e - first) + (last - e))%Z by lia. rewrite seqZ_app by lia. by replace (first + (e - first))%Z with e by lia.
  - apply Forall_cons_2; [cbn; lia|done].
  - intros [|k] Hk; cbn in Hk.
    + exists (first, e). split; [done|]. cbn. apply He2. destruct (Z.eq_dec e last) as [-> |]; [|lia].
      rewrite N3 in Hk by lia. cbn in Hk. lia.
    + apply (Sz k). lia.
  - apply Forall_cons_2; [cbn; lia|done].
  - intros _. cbn [length]. rewrite Nat2Z.inj_succ. lia.
  - intros _. cbn [length]. rewrite Nat2Z.inj_succ.
    destruct (Z.eq_dec e last) as [-> |Hn]; [rewrite N3 by lia; cbn; lia|].
    assert (e = first + inc)%Z by (apply He2; lia). assert (e < last)%Z by lia. apply N2 in H0. lia.
  - lia.
Qed.

(** The chunks that parallel_for pushes: one after the other they are the range, there are as many as chunks_remaining
    says, and at most chunks_per_worker for each thread; each but the last has the same number of indices, a multiple of
    the factor. *)
Theorem C42_chunks nworkers first last factor per_worker : 0 < nworkers -> (first < last)%Z ->
  let n := Z.to_nat (last - first) in
  let size := chunk_size nworkers n factor per_worker in
  exists bs, chunk_bounds (S n) first last (Z.of_nat size) = Ok bs /\
    concat (map (fun p => seqZ p.1 (p.2 - p.1)) bs) = seqZ first (last - first) /\
    length bs = chunk_count nworkers n factor per_worker /\
    length bs <= Pos.to_nat per_worker * nworkers /\ 0 < length bs <= n /\
    (forall k, S k < length bs -> exists p, bs !! k = Some p /\ (p.2 = p.1 + Z.of_nat size)%Z) /\
    (exists m, size = m * Nat.max 1 factor).
Proof.
  intros Hw Hl n size.
  destruct (chunk_size_ok nworkers n factor per_worker Hw ltac:(lia)) as (S1 & S2 & S3 & S4 & S5 & S6 & S7).
  fold size in S1, S2, S3, S4.
  destruct (bounds_ok (S n) first last (Z.of_nat size)) as (bs & E & Cc & Ne & Sz & Sm & N1 & N2 & N3); [lia|lia|].
  assert (Hlen : length bs = chunk_count nworkers n factor per_worker).
  { specialize (N1 ltac:(lia)). specialize (N2 Hl). nia. }
  assert (Hb : blocks_of n factor <= n).
  { unfold blocks_of. destruct (Nat.leb_spec factor 1); [lia|]. apply rud_le; [lia|]. nia. }
  exists bs. split_and!; [done|done|done|lia|lia|lia|done|].
  destruct S2 as [k Hk]. exists k. rewrite Hk. unfold factor_of. destruct (Nat.leb_spec factor 1); f_equal; lia.
Qed.

Example C42_chunks_example :
  chunk_bounds 11 0 10 (Z.of_nat (chunk_size 1 10 2 2)) = Ok [(0, 6); (6, 10)]%Z.
Proof. vm_compute. reflexivity. Qed.

Print Assumptions C42_chunks.
