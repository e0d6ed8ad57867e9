(** * Bounds for the 64-bit computations *)
From Coq Require Import ZArith Lia.
From stdpp Require Import list.
From Verif Require Import Common Geo_Model Overflow_Model Overflow_Spec.
Open Scope Z_scope.

Lemma i64_ok z : - 2 ^ 63 <= z < 2 ^ 63 -> i64 z = Ok z.
Proof. intros H. unfold i64. destruct (Z.leb_spec (- 2 ^ 63) z), (Z.ltb_spec z (2 ^ 63)); try done; lia. Qed.
Lemma i64_abs z : Z.abs z < 2 ^ 63 -> i64 z = Ok z.
Proof. intros H. apply i64_ok. lia. Qed.

Lemma mul_bnd a b A B : Z.abs a <= A -> Z.abs b <= B -> Z.abs (a * b) <= A * B.
Proof. intros H1 H2. rewrite Z.abs_mul. apply Z.mul_le_mono_nonneg; lia. Qed.
Lemma quot_bnd a b A : Z.abs a <= A -> 1 <= Z.abs b -> Z.abs (a ÷ b) <= A.
Proof.
  intros H1 H2. rewrite <- Z.quot_abs by lia. rewrite Z.quot_div_nonneg by lia.
  transitivity (Z.abs a); [|done]. apply Z.div_le_upper_bound; [lia|]. nia.
Qed.
(** |a ÷ b| <= Q if |a| <= Q * |b| *)
Lemma quot_bnd_mul a b Q : 1 <= Z.abs b -> Z.abs a <= Q * Z.abs b -> Z.abs (a ÷ b) <= Q.
Proof.
  intros H1 H2. rewrite <- Z.quot_abs by lia. rewrite Z.quot_div_nonneg by lia.
  apply Z.div_le_upper_bound; lia.
Qed.

Lemma sqrt_nearest_spec n : 0 <= n -> 0 <= sqrt_nearest n /\ 4 * n <= (2 * sqrt_nearest n + 1) ^ 2 /\
  (1 <= sqrt_nearest n -> (2 * sqrt_nearest n - 1) ^ 2 <= 4 * n).
Proof.
  intros H. unfold sqrt_nearest. pose proof (Z.sqrt_spec n H) as S1. pose proof (Z.sqrt_nonneg n).
  cbv zeta in S1 |- *. set (s := Z.sqrt n) in *. rewrite !Z.pow_2_r.
  destruct (Z.leb_spec n (s * s + s)); (split; [lia|]); (split; [nia|]); intros; nia.
Qed.
Lemma sqrt_nearest_0 n : 0 <= n -> sqrt_nearest n = 0 <-> n = 0.
Proof.
  intros H. pose proof (sqrt_nearest_spec n H) as (A & B & C). split.
  - intros E. rewrite E in B. lia.
  - intros ->. reflexivity.
Qed.

Lemma pt_eta (p : pt) : (p.1, p.2) = p. Proof. by destruct p. Qed.

(** sizes *)
Lemma vSize2_nonneg p : 0 <= vSize2 p. Proof. unfold vSize2. nia. Qed.
Lemma vSize2_bnd D p : vec D p -> 0 <= vSize2 p <= 2 * (D * D).
Proof. intros [H1 H2]. unfold vSize2. pose proof (mul_bnd _ _ _ _ H1 H1). pose proof (mul_bnd _ _ _ _ H2 H2). nia. Qed.
Lemma dot_bnd D E a b : vec D a -> vec E b -> Z.abs (dot a b) <= 2 * (D * E).
Proof.
  intros [H1 H2] [H3 H4]. unfold dot. pose proof (mul_bnd _ _ _ _ H1 H3). pose proof (mul_bnd _ _ _ _ H2 H4). lia.
Qed.
Lemma cauchy a b : dot a b * dot a b <= vSize2 a * vSize2 b.
Proof. unfold dot, vSize2. destruct a as [a1 a2], b as [b1 b2]; cbn [fst snd].
  pose proof (Z.square_nonneg (a1 * b2 - a2 * b1)). lia. Qed.
Definition size (p : pt) : Z := sqrt_nearest (vSize2 p).
Lemma size_nonneg p : 0 <= size p.
Proof. apply sqrt_nearest_spec, vSize2_nonneg. Qed.
Lemma size_0 p : size p = 0 <-> vSize2 p = 0.
Proof. apply sqrt_nearest_0, vSize2_nonneg. Qed.
(** 4 |p|^2 <= 9 size^2 and size <= |p| + 1/2 *)
Lemma size_lower p : 1 <= size p -> 4 * vSize2 p <= 9 * (size p * size p).
Proof. intros H. pose proof (sqrt_nearest_spec (vSize2 p) (vSize2_nonneg p)) as (A & B & C). fold (size p) in *. nia. Qed.
Lemma size_comp p : 1 <= size p -> 2 * Z.abs p.1 <= 3 * size p /\ 2 * Z.abs p.2 <= 3 * size p.
Proof. intros H. pose proof (size_lower p H). unfold vSize2 in *. nia. Qed.
Lemma size_bnd D p : vec D p -> 2 * size p <= 3 * D.
Proof.
  intros H. pose proof (vSize2_bnd _ _ H) as [_ Hb]. destruct (decide (size p = 0)) as [->|Hn]; [destruct H; lia|].
  pose proof (sqrt_nearest_spec (vSize2 p) (vSize2_nonneg p)) as (A & B & C). fold (size p) in *.
  pose proof (size_nonneg p). specialize (C ltac:(lia)).
  destruct (decide (D = 0)) as [->|]. { nia. }
  assert (1 <= D) by (destruct H; lia).
  destruct (Z.le_gt_cases (2 * size p) (3 * D)); [done|exfalso].
  assert (3 * D <= 2 * size p - 1) by lia. nia.
Qed.

(** operations *)
Section ok.
  Lemma psub_ok D p q : Z.abs (p.1 - q.1) <= D /\ Z.abs (p.2 - q.2) <= D -> D < 2 ^ 63 ->
    psub_ i64 p q = Ok (psub p q).
  Proof. intros [H1 H2] H3. unfold psub_, sub. rewrite !i64_abs by lia. reflexivity. Qed.
  Lemma psub_vec D p q : Z.abs (p.1 - q.1) <= D /\ Z.abs (p.2 - q.2) <= D -> vec D (psub p q).
  Proof. done. Qed.
  Lemma psub_un p q : psub_ Ok p q = Ok (psub p q). Proof. reflexivity. Qed.
  Lemma padd_ok D E p q : vec D p -> vec E q -> D + E < 2 ^ 63 -> padd_ i64 p q = Ok (padd p q).
  Proof. intros [H1 H2] [H3 H4] H5. unfold padd_, add. rewrite !i64_abs by lia. reflexivity. Qed.
  Lemma padd_un p q : padd_ Ok p q = Ok (padd p q). Proof. reflexivity. Qed.
  Lemma padd_vec D E p q : vec D p -> vec E q -> vec (D + E) (padd p q).
  Proof. intros [H1 H2] [H3 H4]. unfold vec, padd. cbn [fst snd]. lia. Qed.
  Lemma psub_vec2 D E p q : vec D p -> vec E q -> vec (D + E) (psub p q).
  Proof. intros [H1 H2] [H3 H4]. unfold vec, psub. cbn [fst snd]. lia. Qed.
  Lemma pscale_ok D i p I : vec D p -> Z.abs i <= I -> D * I < 2 ^ 63 -> pscale_ i64 p i = Ok (pscale p i).
  Proof.
    intros [H1 H2] H3 H5. unfold pscale_, mul. pose proof (mul_bnd _ _ _ _ H1 H3). pose proof (mul_bnd _ _ _ _ H2 H3).
    rewrite !i64_abs by lia. reflexivity.
  Qed.
  Lemma pscale_un p i : pscale_ Ok p i = Ok (pscale p i). Proof. reflexivity. Qed.
  Lemma pscale_vec D i p I : vec D p -> Z.abs i <= I -> vec (D * I) (pscale p i).
  Proof. intros [H1 H2] H3. split; cbn [pscale fst snd]; by apply mul_bnd. Qed.
  Lemma pdiv_ok D p i : vec D p -> D < 2 ^ 63 -> 1 <= Z.abs i -> pdiv_ i64 p i = Ok (pdiv p i).
  Proof.
    intros [H1 H2] H3 H5. unfold pdiv_, quot. destruct (Z.eqb_spec i 0) as [->|]; [done|].
    pose proof (quot_bnd _ _ _ H1 H5). pose proof (quot_bnd _ _ _ H2 H5).
    rewrite !i64_abs by lia. reflexivity.
  Qed.
  Lemma pdiv_un p i : 1 <= Z.abs i -> pdiv_ Ok p i = Ok (pdiv p i).
  Proof. intros H5. unfold pdiv_, quot. destruct (Z.eqb_spec i 0) as [->|]; done. Qed.
  Lemma pdiv_vec D p i : vec D p -> 1 <= Z.abs i -> vec D (pdiv p i).
  Proof. intros [H1 H2] H3. split; cbn [pdiv fst snd]; by apply quot_bnd. Qed.
  Lemma quot_ok a b A : Z.abs a <= A -> A < 2 ^ 63 -> 1 <= Z.abs b -> quot i64 a b = Ok (a ÷ b).
  Proof.
    intros H1 H3 H5. unfold quot. destruct (Z.eqb_spec b 0) as [->|]; [done|].
    pose proof (quot_bnd _ _ _ H1 H5). rewrite !i64_abs by lia. reflexivity.
  Qed.
  Lemma quot_un a b : 1 <= Z.abs b -> quot Ok a b = Ok (a ÷ b).
  Proof. intros H. unfold quot. destruct (Z.eqb_spec b 0) as [->|]; done. Qed.
  Lemma abs_ok a A : Z.abs a <= A -> A < 2 ^ 63 -> abs_ i64 a = Ok (Z.abs a).
  Proof. intros H1 H2. unfold abs_, neg. destruct (Z.ltb_spec a 0); [rewrite i64_abs by lia|]; f_equal; lia. Qed.
  Lemma abs_un a : abs_ Ok a = Ok (Z.abs a).
  Proof. unfold abs_, neg. destruct (Z.ltb_spec a 0); f_equal; lia. Qed.

  Lemma dot_ok D E a b : vec D a -> vec E b -> 2 * (D * E) < 2 ^ 63 -> dot_ i64 a b = Ok (dot a b).
  Proof.
    intros [H1 H2] [H3 H4] H. unfold dot_, mul, add.
    pose proof (mul_bnd _ _ _ _ H1 H3). pose proof (mul_bnd _ _ _ _ H2 H4).
    rewrite (i64_abs (a.1 * b.1)) by lia. cbn [rbind]. rewrite (i64_abs (a.2 * b.2)) by lia. cbn [rbind].
    rewrite i64_abs by lia. reflexivity.
  Qed.
  Lemma dot_un a b : dot_ Ok a b = Ok (dot a b). Proof. reflexivity. Qed.
  Lemma cross_ok D E a b : vec D a -> vec E b -> 2 * (D * E) < 2 ^ 63 -> cross_ i64 a b = Ok (cross a b).
  Proof.
    intros [H1 H2] [H3 H4] H. unfold cross_, mul, sub.
    pose proof (mul_bnd _ _ _ _ H1 H4). pose proof (mul_bnd _ _ _ _ H2 H3).
    rewrite (i64_abs (a.1 * b.2)) by lia. cbn [rbind]. rewrite (i64_abs (a.2 * b.1)) by lia. cbn [rbind].
    rewrite i64_abs by lia. reflexivity.
  Qed.
  Lemma vSize2_ok D a : vec D a -> 2 * (D * D) < 2 ^ 63 -> vSize2_ i64 a = Ok (vSize2 a).
  Proof. intros H1 H2. exact (dot_ok D D a a H1 H1 H2). Qed.
  Lemma vSize2_un a : vSize2_ Ok a = Ok (vSize2 a). Proof. reflexivity. Qed.
  Lemma vSize_ok D a : vec D a -> 2 * (D * D) < 2 ^ 63 -> vSize_ i64 a = Ok (size a).
  Proof. intros H1 H2. unfold vSize_. by rewrite (vSize2_ok D). Qed.
  Lemma vSize_un a : vSize_ Ok a = Ok (size a). Proof. reflexivity. Qed.

  Definition normal_z (p : pt) (length : Z) : pt :=
    if size p <? 1 then (length, 0) else pdiv (pscale p length) (size p).
  Lemma normal_ok D L p l : vec D p -> Z.abs l <= L -> 2 * (D * D) < 2 ^ 63 -> D * L < 2 ^ 63 ->
    normal_ i64 p l = Ok (normal_z p l).
  Proof.
    intros H1 H2 H3 H4. unfold normal_, normal_z. rewrite (vSize_ok D) by done. cbn [rbind].
    destruct (Z.ltb_spec (size p) 1); [done|]. rewrite (pscale_ok D l p L) by done. cbn [rbind].
    apply (pdiv_ok (D * L)); [by apply pscale_vec|done|lia].
  Qed.
  Lemma normal_un p l : normal_ Ok p l = Ok (normal_z p l).
  Proof.
    unfold normal_, normal_z. rewrite vSize_un. cbn [rbind]. destruct (Z.ltb_spec (size p) 1); [done|].
    rewrite pscale_un. cbn [rbind]. apply pdiv_un. lia.
  Qed.
  Lemma normal_vec p l L : Z.abs l <= L -> vec (2 * L) (normal_z p l).
  Proof.
    intros H. unfold normal_z. destruct (Z.ltb_spec (size p) 1) as [|Hs].
    { split; cbn [fst snd]; lia. }
    destruct (size_comp p Hs) as [C1 C2].
    split; unfold pdiv, pscale; cbn [fst snd]; apply quot_bnd_mul; rewrite ?Z.abs_mul; nia.
  Qed.
End ok.

(** a quotient of a dot product by a size is about a length *)
Lemma dot_size_bnd D a b : vec D b -> 1 <= size a -> Z.abs (dot b a ÷ size a) <= 3 * D.
Proof.
  intros Hb Hs. apply quot_bnd_mul; [lia|]. rewrite (Z.abs_eq (size a)) by lia.
  pose proof (cauchy b a) as C. pose proof (size_lower a Hs) as L. pose proof (vSize2_bnd _ _ Hb) as [_ B].
  pose proof (vSize2_nonneg a). pose proof (vSize2_nonneg b).
  set (d := dot b a) in *. set (s := size a) in *. set (A := vSize2 a) in *. set (V := vSize2 b) in *.
  assert (0 <= D) by (destruct Hb; lia).
  assert (4 * (V * A) <= 2 * (D * D) * (9 * (s * s))).
  { transitivity (2 * (D * D) * (4 * A)); [nia|]. apply Z.mul_le_mono_nonneg_l; nia. }
  assert ((2 * d) * (2 * d) <= 18 * (D * s) * (D * s)) by nia.
  assert (0 <= D * s) by nia. nia.
Qed.
Lemma dot_size_bnd_sq D a b : vec D b -> 1 <= size a ->
  2 * ((dot b a ÷ size a) * (dot b a ÷ size a)) <= 9 * (D * D).
Proof.
  intros Hb Hs. set (q := dot b a ÷ size a).
  assert (Hq : Z.abs q * size a <= Z.abs (dot b a)).
  { unfold q. rewrite <- Z.quot_abs by lia. rewrite (Z.abs_eq (size a)) by lia. rewrite Z.quot_div_nonneg by lia.
    rewrite Z.mul_comm. apply Z.mul_div_le. lia. }
  pose proof (cauchy b a) as C. pose proof (size_lower a Hs) as L. pose proof (vSize2_bnd _ _ Hb) as [_ B].
  pose proof (vSize2_nonneg a). pose proof (vSize2_nonneg b).
  set (d := dot b a) in *. set (s := size a) in *. set (A := vSize2 a) in *. set (V := vSize2 b) in *.
  assert (0 <= D) by (destruct Hb; lia).
  assert (4 * (V * A) <= 2 * (D * D) * (9 * (s * s))).
  { transitivity (2 * (D * D) * (4 * A)); [nia|]. apply Z.mul_le_mono_nonneg_l; nia. }
  assert (E1 : (q * q) * (s * s) <= d * d).
  { assert (N : 0 <= Z.abs q * s) by (apply Z.mul_nonneg_nonneg; lia).
    pose proof (Z.mul_le_mono_nonneg _ _ _ _ N Hq N Hq) as X.
    rewrite <- (Z.abs_square d), <- (Z.abs_square q). lia. }
  assert (E2 : (4 * (q * q)) * (s * s) <= (18 * (D * D)) * (s * s)) by lia.
  apply Z.mul_le_mono_pos_r in E2; [lia|nia].
Qed.

(** the size of a scaled vector *)
Lemma normal_size p l : 4 * vSize2 (normal_z p l) <= 9 * (l * l).
Proof.
  unfold normal_z. destruct (Z.ltb_spec (size p) 1) as [|Hs]. { unfold vSize2. cbn [fst snd]. nia. }
  pose proof (size_lower p Hs) as L. set (s := size p) in *.
  assert (Q : forall c, ((c * l) ÷ s * ((c * l) ÷ s)) * (s * s) <= (c * c) * (l * l)).
  { intros c. set (q := (c * l) ÷ s).
    assert (Hq : Z.abs q * s <= Z.abs (c * l)).
    { unfold q. rewrite <- Z.quot_abs by lia. rewrite (Z.abs_eq s) by lia. rewrite Z.quot_div_nonneg by lia.
      rewrite Z.mul_comm. apply Z.mul_div_le. lia. }
    assert (N : 0 <= Z.abs q * s) by (apply Z.mul_nonneg_nonneg; lia).
    pose proof (Z.mul_le_mono_nonneg _ _ _ _ N Hq N Hq) as X.
    rewrite <- (Z.abs_square q). pose proof (Z.abs_square (c * l)). lia. }
  unfold vSize2, pdiv, pscale in *. cbn [fst snd] in *.
  pose proof (Q p.1) as Q1. pose proof (Q p.2) as Q2.
  set (x := p.1 * l ÷ s) in *. set (y := p.2 * l ÷ s) in *.
  assert (E : (4 * (x * x + y * y)) * (s * s) <= (9 * (l * l)) * (s * s)).
  { transitivity (4 * (p.1 * p.1 + p.2 * p.2) * (l * l)); [lia|].
    assert (0 <= l * l) by nia. nia. }
  apply Z.mul_le_mono_pos_r in E; [lia|nia].
Qed.
Lemma quot_sq a b Q : 1 <= b -> a * a <= Q * (b * b) -> (a ÷ b) * (a ÷ b) <= Q.
Proof.
  intros Hb H. set (q := a ÷ b).
  assert (Hq : Z.abs q * b <= Z.abs a).
  { unfold q. rewrite <- Z.quot_abs by lia. rewrite (Z.abs_eq b) by lia. rewrite Z.quot_div_nonneg by lia.
    rewrite Z.mul_comm. apply Z.mul_div_le. lia. }
  assert (N : 0 <= Z.abs q * b) by (apply Z.mul_nonneg_nonneg; lia).
  pose proof (Z.mul_le_mono_nonneg _ _ _ _ N Hq N Hq) as X.
  pose proof (Z.abs_square q). pose proof (Z.abs_square a).
  assert (E : (q * q) * (b * b) <= Q * (b * b)) by lia.
  apply Z.mul_le_mono_pos_r in E; [lia|nia].
Qed.
Lemma sq_abs_le q B : 0 <= B -> q * q <= B * B -> Z.abs q <= B.
Proof. intros H1 H2. nia. Qed.
Lemma sqrt_le n B : 0 <= B -> n <= B * B -> 0 <= Z.sqrt n <= B /\ (0 <= n -> Z.sqrt n * Z.sqrt n <= n).
Proof.
  intros HB Hn. split.
  - split; [apply Z.sqrt_nonneg|]. transitivity (Z.sqrt (B * B)); [by apply Z.sqrt_le_mono|]. rewrite Z.sqrt_square; lia.
  - intros H. exact (proj1 (Z.sqrt_spec n H)).
Qed.

Lemma to_int_id z : - 2 ^ 31 <= z < 2 ^ 31 -> to_int z = z.
Proof. intros H. unfold to_int. rewrite Z.mod_small; lia. Qed.
Lemma to_int_range z : - 2 ^ 31 <= to_int z < 2 ^ 31.
Proof. unfold to_int. pose proof (Z.mod_pos_bound (z + 2 ^ 31) (2 ^ 32) ltac:(done)). lia. Qed.
Lemma to_int_add z d : to_int (to_int z + d) = to_int (z + d).
Proof.
  unfold to_int. f_equal.
  replace ((z + 2 ^ 31) mod 2 ^ 32 - 2 ^ 31 + d + 2 ^ 31) with ((z + 2 ^ 31) mod 2 ^ 32 + d) by ring.
  rewrite Zplus_mod_idemp_l. f_equal. ring.
Qed.
