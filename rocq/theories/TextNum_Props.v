(** C30, C31: numbers and comments survive being written. *)
From Coq Require Import ZArith QArith Qabs Qround Ascii Lqa.
From stdpp Require Import list.
From Verif Require Import Common TextNum_Model TextNum_Spec.
Local Open Scope Z_scope.

(** ** digits *)
Definition is_digit (c : ascii) : Prop := (48 <= nat_of_ascii c <= 57)%nat.

Lemma digit_char_nat d : 0 <= d <= 9 -> nat_of_ascii (digit_char d) = (48 + Z.to_nat d)%nat.
Proof. intros H. unfold digit_char. apply nat_ascii_embedding. lia. Qed.
Lemma digit_char_is d : 0 <= d <= 9 -> is_digit (digit_char d).
Proof. intros H. unfold is_digit. rewrite digit_char_nat by done. lia. Qed.
Lemma digit_char_value d : 0 <= d <= 9 -> digit_value (digit_char d) = Some d.
Proof.
  intros H. unfold digit_value. cbv zeta. rewrite digit_char_nat by done.
  rewrite (proj2 (Nat.leb_le _ _)) by lia. rewrite (proj2 (Nat.leb_le _ _)) by lia. cbn [andb]. f_equal. lia.
Qed.
Lemma digit_char_0 d : 0 <= d <= 9 -> (nat_of_ascii (digit_char d) =? 48)%nat = (d =? 0).
Proof. intros H. rewrite digit_char_nat by done. destruct (Z.eqb_spec d 0); [subst; done|]. apply Nat.eqb_neq. lia. Qed.

Lemma read_digits_app s1 : forall s2 acc n, read_digits acc s1 = Some n -> read_digits acc (s1 ++ s2) = read_digits n s2.
Proof.
  induction s1 as [|c s1 IH]; intros s2 acc n H; cbn in *; [by injection H as ->|].
  destruct (digit_value c); [|done]. by apply IH.
Qed.
Lemma read_digits_snoc s acc n d : read_digits acc s = Some n -> 0 <= d <= 9 -> read_digits acc (s ++ [digit_char d]) = Some (n * 10 + d).
Proof. intros H Hd. rewrite (read_digits_app _ _ _ _ H). cbn [read_digits]. by rewrite digit_char_value. Qed.

Lemma digits_facts fuel : forall n, 0 <= n < 10 ^ Z.of_nat fuel ->
  (0 < fuel)%nat -> read_digits 0 (digits fuel n) = Some n /\ Forall is_digit (digits fuel n) /\ (0 < length (digits fuel n) <= fuel)%nat.
Proof.
  induction fuel as [|fuel IH]; intros n Hn Hf; [lia|]. cbn [digits].
  destruct (Z.ltb_spec n 10).
  - cbn [read_digits length]. rewrite digit_char_value by lia. split; [done|]. split; [|lia]. apply Forall_singleton, digit_char_is. lia.
  - assert (Hdm : 0 <= n mod 10 <= 9) by (pose proof (Z.mod_pos_bound n 10); lia).
    rewrite Nat2Z.inj_succ, Z.pow_succ_r in Hn by lia.
    assert (0 < fuel)%nat. { destruct fuel; [|lia]. cbn in Hn. lia. }
    destruct (IH (n / 10)) as (A & B & C); [|done|].
    { split; [apply Z.div_pos; lia|]. apply Z.div_lt_upper_bound; lia. }
    split; [|split].
    + rewrite (read_digits_snoc _ _ _ _ A) by done. f_equal. pose proof (Z.div_mod n 10). lia.
    + apply Forall_app. split; [done|]. apply Forall_singleton, digit_char_is; done.
    + rewrite app_length. cbn. lia.
Qed.
Lemma log2_fuel n : 0 <= n -> n < 10 ^ Z.of_nat (S (Z.to_nat (Z.log2 n))).
Proof.
  intros H. destruct (Z.eq_dec n 0) as [->|Hn]; [done|].
  pose proof (Z.log2_spec n ltac:(lia)) as [_ HH]. eapply Z.lt_le_trans; [exact HH|].
  rewrite Nat2Z.inj_succ, Z2Nat.id by apply Z.log2_nonneg. apply Z.pow_le_mono_l. lia.
Qed.
Lemma print_nat_facts n : 0 <= n -> read_digits 0 (print_nat n) = Some n /\ Forall is_digit (print_nat n) /\ (0 < length (print_nat n))%nat.
Proof.
  intros H. destruct (digits_facts (S (Z.to_nat (Z.log2 n))) n) as (A & B & C); [|lia|split; [done|split; [done|]]].
  - split; [done|by apply log2_fuel].
  - unfold print_nat. lia.
Qed.
(** enough fuel is enough *)
Lemma digits_fuel f1 : forall f2 n, 0 <= n < 10 ^ Z.of_nat f1 -> n < 10 ^ Z.of_nat f2 -> (0 < f1)%nat -> (0 < f2)%nat -> digits f1 n = digits f2 n.
Proof.
  induction f1 as [|f1 IH]; intros f2 n H1 H2 P1 P2; [lia|]. destruct f2 as [|f2]; [lia|]. cbn [digits].
  destruct (Z.ltb_spec n 10); [done|].
  rewrite Nat2Z.inj_succ, Z.pow_succ_r in H1, H2 by lia.
  f_equal. apply IH.
  - split; [apply Z.div_pos; lia|]. apply Z.div_lt_upper_bound; lia.
  - apply Z.div_lt_upper_bound; lia.
  - destruct f1; [|lia]. cbn in H1. lia.
  - destruct f2; [|lia]. cbn in H2. lia.
Qed.
Lemma print_nat_step n : 10 <= n -> print_nat n = print_nat (n / 10) ++ [digit_char (n mod 10)].
Proof.
  intros H. unfold print_nat at 1. cbn [digits]. rewrite (proj2 (Z.ltb_ge _ _)) by done. f_equal.
  pose proof (log2_fuel n ltac:(lia)) as HL. rewrite Nat2Z.inj_succ, Z.pow_succ_r in HL by lia.
  assert (0 < n / 10) by (apply Z.div_str_pos; lia).
  apply digits_fuel.
  - split; [lia|]. apply Z.div_lt_upper_bound; lia.
  - apply log2_fuel. lia.
  - enough (0 < Z.log2 n) by lia. apply Z.log2_pos. lia.
  - lia.
Qed.
Lemma print_nat_length n k : 0 <= n < 10 ^ Z.of_nat k -> (0 < k)%nat -> (length (print_nat n) <= k)%nat.
Proof.
  intros H Hk. unfold print_nat. rewrite (digits_fuel _ k); [by apply digits_facts| |lia|lia|done].
  split; [lia|]. apply log2_fuel. lia.
Qed.
Lemma fixed_facts k : forall n, 0 <= n -> exists s, fixed k n = s /\ Forall is_digit s /\ length s = k
  /\ forall acc, read_digits acc s = Some (acc * 10 ^ Z.of_nat k + n mod 10 ^ Z.of_nat k).
Proof.
  induction k as [|k IH]; intros n Hn; eexists; split; try reflexivity; cbn [fixed].
  - split; [constructor|]. split; [done|]. intros acc. cbn [read_digits]. f_equal. change (10 ^ Z.of_nat 0) with 1. rewrite Z.mod_1_r. lia.
  - assert (Hdm : 0 <= n mod 10 <= 9) by (pose proof (Z.mod_pos_bound n 10); lia).
    destruct (IH (n / 10)) as (s & -> & A & B & C); [apply Z.div_pos; lia|].
    split; [apply Forall_app; split; [done|]; apply Forall_singleton, digit_char_is; done|].
    split; [rewrite app_length; cbn; lia|]. intros acc. rewrite (read_digits_snoc _ _ _ _ (C acc)) by done. f_equal.
    rewrite Nat2Z.inj_succ, Z.pow_succ_r by lia.
    rewrite Z.rem_mul_r by (try apply Z.pow_pos_nonneg; lia). lia.
Qed.

(** ** reading *)
Lemma digit_not_point c : is_digit c -> (nat_of_ascii c =? 46)%nat = false.
Proof. intros H. apply Nat.eqb_neq. unfold is_digit in H. lia. Qed.
Lemma digit_not_minus c : is_digit c -> (nat_of_ascii c =? 45)%nat = false.
Proof. intros H. apply Nat.eqb_neq. unfold is_digit in H. lia. Qed.
Lemma split_digits s : Forall is_digit s -> split_point s = (s, None).
Proof. induction 1 as [|c s Hc Hs IH]; [done|]. cbn. by rewrite digit_not_point, IH. Qed.
Lemma split_digits_point s f : Forall is_digit s -> split_point (s ++ "."%char :: f) = (s, Some f).
Proof. induction 1 as [|c s Hc Hs IH]; [done|]. cbn [app split_point]. by rewrite digit_not_point, IH. Qed.

Definition sign (neg : bool) : text := if neg then ["-"%char] else [].
Lemma read_sign neg s : Forall is_digit (take 1 s) \/ (exists f, s = "."%char :: f) ->
  read_number (sign neg ++ s) = match read_unsigned s with Some q => Some (if neg then - q else q)%Q | None => None end.
Proof.
  intros H. destruct neg; [done|]. cbn [sign app].
  destruct s as [|c s].
  - done.
  - unfold read_number. assert ((nat_of_ascii c =? 45)%nat = false) as ->; [|by destruct (read_unsigned (c :: s))].
    destruct H as [H|(f & H)]; [|by injection H as -> ->]. cbn in H. apply Forall_cons in H as [H _]. by apply digit_not_minus.
Qed.
Lemma decimals_sign neg s : decimals (sign neg ++ s) = decimals s.
Proof. by destruct neg. Qed.
Lemma tidy_sign neg k s : tidy k (sign neg ++ s) <-> tidy k s.
Proof. unfold tidy. by rewrite decimals_sign. Qed.

(** ** buffers *)
Lemma rd_app P L i : 0 <= i -> rd (map Some P ++ L) (Z.of_nat (length P) + i) = rd L i.
Proof.
  intros Hi. unfold rd. rewrite !(proj2 (Z.ltb_ge _ _)) by lia. rewrite lookup_app_r by (rewrite map_length; lia).
  rewrite map_length. by replace (Z.to_nat (Z.of_nat (length P) + i) - length P)%nat with (Z.to_nat i) by lia.
Qed.
Lemma wr_app P L i c : 0 <= i < Z.of_nat (length L) -> wr (map Some P ++ L) (Z.of_nat (length P) + i) c = Ok (map Some P ++ <[Z.to_nat i := Some c]> L).
Proof.
  intros Hi. unfold wr. rewrite (proj2 (Z.ltb_ge _ _)) by lia. rewrite (proj2 (Z.leb_gt _ _)) by (rewrite app_length, map_length; lia). cbn [orb].
  rewrite <- insert_app_r. repeat f_equal. rewrite map_length. lia.
Qed.
Definition no_nul (P : text) : Prop := Forall (fun c => nat_of_ascii c <> 0%nat) P.
Lemma cstr_app P L : no_nul P -> cstr (map Some P ++ L) = let! t := cstr L in Ok (P ++ t).
Proof.
  induction 1 as [|c P Hc HP IH]; cbn; [by destruct (cstr L)|].
  rewrite (proj2 (Nat.eqb_neq _ _) Hc), IH. by destruct (cstr L).
Qed.
Lemma cstr_stop P L : no_nul P -> cstr (map Some P ++ Some NUL :: L) = Ok P.
Proof. intros H. rewrite cstr_app by done. change (cstr (Some NUL :: L)) with (@Ok text []). cbn [rbind]. by rewrite app_nil_r. Qed.
Lemma digits_no_nul s : Forall is_digit s -> no_nul s.
Proof. intros HF. eapply Forall_impl; [exact HF|]. intros c H. unfold is_digit in H. lia. Qed.
Lemma no_nul_app a b : no_nul a -> no_nul b -> no_nul (a ++ b).
Proof. intros. by apply Forall_app. Qed.
Lemma sign_no_nul neg : no_nul (sign neg).
Proof. destruct neg; repeat constructor. done. Qed.

(** ** coordinates *)
Section int2mm.
  (** the layout of a coordinate of at least 1 mm: sign, whole millimetres, three digits *)
  Variables (P : text) (d1 d2 d3 : Z) (r : nat).
  Hypothesis HP : no_nul P.
  Hypothesis H1 : 0 <= d1 <= 9.
  Hypothesis H2 : 0 <= d2 <= 9.
  Hypothesis H3 : 0 <= d3 <= 9.
  Let t := P ++ [digit_char d1; digit_char d2; digit_char d3].
  Let b := map Some (t ++ [NUL]) ++ replicate (S r) None.
  Let L : buffer := [Some (digit_char d1); Some (digit_char d2); Some (digit_char d3); Some NUL; None] ++ replicate r None.
  Lemma b_eq : b = map Some P ++ L.
  Proof. unfold b, t, L. rewrite !map_app. cbn. by rewrite <- !app_assoc. Qed.

  Definition kept : text :=
    if d3 =? 0 then if d2 =? 0 then if d1 =? 0 then [] else [digit_char d1] else [digit_char d1; digit_char d2]
    else [digit_char d1; digit_char d2; digit_char d3].

  Definition point_tail (k : text) : text := match k with [] => [] | _ => "."%char :: k end.
  Lemma large_text :
    (let char_count := Z.of_nat (length P) + 3 in
     let! tz := count_zeros 4 b char_count 1 in
     let trailing_zeros := (tz - 1)%Z in
     let end_pos := (char_count - trailing_zeros)%Z in
     if (trailing_zeros =? 3)%Z then let! b := wr b (char_count - trailing_zeros) NUL in cstr b
     else let! r := shift 5 b (char_count - 3) end_pos "."%char in
          let! b := wr r.1 r.2 NUL in cstr b)
    = Ok (P ++ point_tail kept).
  Proof.
    rewrite b_eq. cbv zeta.
    set (n := Z.of_nat (length P)).
    assert (R : forall M i j, j = n + i -> 0 <= i -> rd (map Some P ++ M) j = rd M i) by (intros M i j -> Hi; by apply rd_app).
    assert (W : forall M i j c, j = n + i -> 0 <= i < Z.of_nat (length M) -> wr (map Some P ++ M) j c = Ok (map Some P ++ <[Z.to_nat i := Some c]> M)).
    { intros M i j c -> Hi. by apply wr_app. }
    assert (Hc : forall d, 0 <= d <= 9 -> exists c, digit_char d = c /\ (nat_of_ascii c =? 48)%nat = (d =? 0) /\ (nat_of_ascii c =? 0)%nat = false).
    { intros d Hd. eexists. split; [reflexivity|]. split; [by apply digit_char_0|]. apply Nat.eqb_neq. rewrite digit_char_nat by done. lia. }
    destruct (Hc _ H1) as (c1 & E1 & Z1 & N1), (Hc _ H2) as (c2 & E2 & Z2 & N2), (Hc _ H3) as (c3 & E3 & Z3 & N3).
    unfold kept, L. rewrite E1, E2, E3. clear E1 E2 E3 Hc.
    assert (LL : 5 <= Z.of_nat (length (L))). { unfold L. rewrite app_length. cbn [length]. lia. }
    cbn [count_zeros]. change (1 <? 4) with true. cbv iota.
    rewrite (R _ 2) by lia. change (rd _ 2) with (Ok c3). cbn [rbind]. rewrite Z3.
    assert (SH : forall e, shift 5 (map Some P ++ [Some c1; Some c2; Some c3; Some NUL; None] ++ replicate r None) (n + 3 - 3) (n + e) "."%char =
      shift 5 (map Some P ++ [Some c1; Some c2; Some c3; Some NUL; None] ++ replicate r None) (n + 0) (n + e) "."%char) by (intros; do 2 f_equal; lia).
    assert (I0 : forall (x y : option ascii) l, <[0%nat := x]> (y :: l) = x :: l) by done.
    assert (IS : forall i (x y : option ascii) l, <[S i := x]> (y :: l) = y :: <[i := x]> l) by done.
    Ltac ins I0 IS := cbn [app]; rewrite ?IS, ?I0.
    Ltac app_len := rewrite ?insert_length, ?app_length; cbn [length]; lia.
    assert (step : forall f M i e p c, rd M i = Ok c -> 0 <= i < Z.of_nat (length M) -> i <= e ->
       shift (S f) (map Some P ++ M) (n + i) (n + e) p = shift f (map Some P ++ <[Z.to_nat i := Some p]> M) (n + (i + 1)) (n + e) c).
    { intros f M i e p c Hr Hi He. cbn [shift]. rewrite (proj2 (Z.leb_le _ _)) by lia. rewrite (R M i) by lia. rewrite Hr. cbn [rbind].
      rewrite (W M i) by lia. cbn [rbind]. f_equal. lia. }
    assert (stop : forall f M i e p, e < i -> shift (S f) (map Some P ++ M) (n + i) (n + e) p = Ok (map Some P ++ M, n + i)).
    { intros f M i e p He. cbn [shift]. by rewrite (proj2 (Z.leb_gt _ _)) by lia. }
    destruct (Z.eqb_spec d3 0) as [_|_].
    2:{ cbv iota. cbn [rbind]. change (1 - 1 =? 3) with false. cbv iota. replace (n + 3 - (1 - 1)) with (n + 3) by lia. rewrite SH.
        rewrite (step _ _ 0 3 _ c1) by (first [reflexivity|app_len|lia]). change (Z.to_nat 0) with 0%nat. ins I0 IS.
        rewrite (step _ _ 1 3 _ c2) by (first [reflexivity|app_len|lia]). change (Z.to_nat 1) with 1%nat. ins I0 IS.
        rewrite (step _ _ 2 3 _ c3) by (first [reflexivity|app_len|lia]). change (Z.to_nat 2) with 2%nat. ins I0 IS.
        rewrite (step _ _ 3 3 _ NUL) by (first [reflexivity|app_len|lia]). change (Z.to_nat 3) with 3%nat. ins I0 IS.
        rewrite stop by lia. cbn [rbind fst snd]. rewrite (W _ 4) by (try app_len; lia). change (Z.to_nat 4) with 4%nat. cbn [rbind]. ins I0 IS.
        rewrite cstr_app by done. cbn -[nat_of_ascii Nat.eqb]. rewrite N1, N2, N3. done. }
    change (1 + 1 <? 4) with true. cbv iota. rewrite (R _ 1) by lia. change (rd _ 1) with (Ok c2). cbn [rbind]. rewrite Z2.
    destruct (Z.eqb_spec d2 0) as [_|_].
    2:{ cbv iota. cbn [rbind]. change (1 + 1 - 1 =? 3) with false. cbv iota. replace (n + 3 - (1 + 1 - 1)) with (n + 2) by lia. rewrite SH.
        rewrite (step _ _ 0 2 _ c1) by (first [reflexivity|app_len|lia]). change (Z.to_nat 0) with 0%nat. ins I0 IS.
        rewrite (step _ _ 1 2 _ c2) by (first [reflexivity|app_len|lia]). change (Z.to_nat 1) with 1%nat. ins I0 IS.
        rewrite (step _ _ 2 2 _ c3) by (first [reflexivity|app_len|lia]). change (Z.to_nat 2) with 2%nat. ins I0 IS.
        rewrite stop by lia. cbn [rbind fst snd]. rewrite (W _ 3) by (try app_len; lia). change (Z.to_nat 3) with 3%nat. cbn [rbind]. ins I0 IS.
        rewrite cstr_app by done. cbn -[nat_of_ascii Nat.eqb]. rewrite N1, N2. done. }
    change (1 + 1 + 1 <? 4) with true. cbv iota. rewrite (R _ 0) by lia. change (rd _ 0) with (Ok c1). cbn [rbind]. rewrite Z1.
    destruct (Z.eqb_spec d1 0) as [_|_].
    2:{ cbv iota. cbn [rbind]. change (1 + 1 + 1 - 1 =? 3) with false. cbv iota. replace (n + 3 - (1 + 1 + 1 - 1)) with (n + 1) by lia. rewrite SH.
        rewrite (step _ _ 0 1 _ c1) by (first [reflexivity|app_len|lia]). change (Z.to_nat 0) with 0%nat. ins I0 IS.
        rewrite (step _ _ 1 1 _ c2) by (first [reflexivity|app_len|lia]). change (Z.to_nat 1) with 1%nat. ins I0 IS.
        rewrite stop by lia. cbn [rbind fst snd]. rewrite (W _ 2) by (try app_len; lia). change (Z.to_nat 2) with 2%nat. cbn [rbind]. ins I0 IS.
        rewrite cstr_app by done. cbn -[nat_of_ascii Nat.eqb]. rewrite N1. done. }
    change (1 + 1 + 1 + 1 <? 4) with false. cbv iota. cbn [rbind]. change (1 + 1 + 1 + 1 - 1 =? 3) with true. cbv iota.
    rewrite (W _ 0) by (try app_len; lia). cbn [rbind]. change (Z.to_nat 0) with 0%nat. ins I0 IS. rewrite cstr_app by done. done.
  Qed.
End int2mm.

Definition tidyb (k : nat) (s : text) : bool :=
  match decimals s with
  | None => true
  | Some f => (length f <=? k)%nat && match rev f with c :: _ => negb (nat_of_ascii c =? 48)%nat | [] => false end
  end.
Lemma tidyb_ok k s : tidyb k s = true -> tidy k s.
Proof.
  unfold tidyb, tidy. destruct (decimals s) as [f|]; [|done]. intros H. apply andb_prop in H as [H1 H2].
  apply Nat.leb_le in H1. split; [done|]. destruct (rev f) as [|c f'] eqn:E; [done|].
  exists (rev f'), c. split.
  - rewrite <- (rev_involutive f), E. done.
  - intros ->. done.
Qed.
Definition small_ok (c : Z) : bool :=
  match writeInt2mm c with
  | Ok s => match read_number s with Some q => Qeq_bool q (inject_Z c / 1000) && tidyb 3 s | None => false end
  | _ => false
  end.
Lemma small_all : forallb (fun k => small_ok (Z.of_nat k + 1) && small_ok (- (Z.of_nat k + 1))) (seq 0 999) = true.
Proof. vm_compute. reflexivity. Qed.

(** A coordinate in µm is written as the number of mm, exactly, with at most three decimals and no trailing zeros. *)
Theorem C30_coordinate_exact c :
  - 2 ^ 31 <= c < 2 ^ 31 -> c <> 0 ->
  exists s q, writeInt2mm c = Ok s /\ read_number s = Some q /\ (q == inject_Z c / 1000)%Q /\ tidy 3 s.
Proof.
  intros Hc Hc0. destruct (Z_lt_le_dec (Z.abs c) 1000) as [Hs|Hs].
  - assert (Hok : small_ok c = true).
    { pose proof small_all as HA. rewrite forallb_forall in HA.
      specialize (HA (Z.to_nat (Z.abs c - 1))). rewrite in_seq in HA. specialize (HA ltac:(lia)). cbv beta in HA.
      rewrite Z2Nat.id in HA by lia. apply andb_prop in HA as [A1 A2].
      destruct (Z_lt_le_dec c 0).
      - by replace (- (Z.abs c - 1 + 1)) with c in A2 by lia.
      - by replace (Z.abs c - 1 + 1) with c in A1 by lia. }
    unfold small_ok in Hok. destruct (writeInt2mm c) as [s| |]; try done. destruct (read_number s) as [q|] eqn:E; [|done].
    apply andb_prop in Hok as [A1 A2]. apply Qeq_bool_eq in A1. exists s, q. split; [done|]. split; [done|]. split; [done|]. by apply tidyb_ok.
  - set (m := Z.abs c) in *. set (neg := c <? 0).
    assert (Hm : m < 10 ^ 10) by (unfold m; lia).
    set (M := m / 10 / 10 / 10). set (d1 := (m / 10 / 10) mod 10). set (d2 := (m / 10) mod 10). set (d3 := m mod 10).
    assert (B1 : 0 <= d1 <= 9) by (unfold d1; pose proof (Z.mod_pos_bound (m / 10 / 10) 10); lia).
    assert (B2 : 0 <= d2 <= 9) by (unfold d2; pose proof (Z.mod_pos_bound (m / 10) 10); lia).
    assert (B3 : 0 <= d3 <= 9) by (unfold d3; pose proof (Z.mod_pos_bound m 10); lia).
    assert (Em : m = M * 1000 + d1 * 100 + d2 * 10 + d3).
    { unfold M, d1, d2, d3. pose proof (Z.div_mod m 10). pose proof (Z.div_mod (m / 10) 10). pose proof (Z.div_mod (m / 10 / 10) 10). lia. }
    assert (HM : 1 <= M) by lia.
    set (D := print_nat M). destruct (print_nat_facts M ltac:(lia)) as (RD & FD & LD). fold D in RD, FD, LD.
    assert (T : print_int c = (sign neg ++ D) ++ [digit_char d1; digit_char d2; digit_char d3]).
    { assert (TN : print_nat m = D ++ [digit_char d1; digit_char d2; digit_char d3]).
      { rewrite print_nat_step by lia. rewrite (print_nat_step (m / 10)) by (apply Z.div_le_lower_bound; lia).
        rewrite (print_nat_step (m / 10 / 10)) by (apply Z.div_le_lower_bound; [lia|]; apply Z.div_le_lower_bound; lia).
        unfold D, M, d1, d2, d3. by rewrite <- !app_assoc. }
      unfold print_int, neg, m in *. destruct (Z.ltb_spec c 0).
      - replace (Z.abs c) with (- c) in TN by lia. by rewrite TN.
      - replace (Z.abs c) with c in TN by lia. by rewrite TN. }
    assert (LT : (length (print_int c) <= 11)%nat).
    { unfold print_int. assert (forall x, x = m -> (length (print_nat x) <= 10)%nat) as HL by (intros x ->; apply print_nat_length; [unfold m; lia|lia]).
      destruct (Z.ltb_spec c 0); cbn [length]; [pose proof (HL (- c))|pose proof (HL c)]; unfold m in *; lia. }
    assert (HP : no_nul (sign neg ++ D)) by (apply no_nul_app; [apply sign_no_nul|by apply digits_no_nul]).
    set (K := kept d1 d2 d3). set (tail := point_tail K).
    assert (W : writeInt2mm c = Ok ((sign neg ++ D) ++ tail)).
    { unfold tail, K. rewrite <- (large_text (sign neg ++ D) d1 d2 d3 (22 - length (print_int c)) HP B1 B2 B3).
      assert (EL : Z.of_nat (length (print_int c)) = Z.of_nat (length (sign neg ++ D)) + 3).
      { rewrite T, app_length. cbn [length]. lia. }
      unfold writeInt2mm. cbv zeta. unfold snprintf. rewrite (proj2 (Nat.leb_gt _ _)) by lia. cbn [rbind].
      replace (24 - length (print_int c) - 1)%nat with (S (22 - length (print_int c))) by lia.
      rewrite EL. rewrite <- T.
      rewrite (proj2 (Z.leb_gt (Z.of_nat (length (sign neg ++ D)) + 3) 3)); [done|].
      rewrite app_length. lia. }
    assert (HH : exists q, read_unsigned (D ++ tail) = Some q /\ (q == inject_Z m / 1000)%Q /\ tidy 3 (D ++ tail)).
    { assert (FK : Forall is_digit K).
      { unfold K, kept. destruct (_ =? _); [destruct (_ =? _); [destruct (_ =? _)|]|]; repeat (apply Forall_cons_2; [by apply digit_char_is|]); apply Forall_nil_2. }
      assert (RK : exists v, read_digits M K = Some v /\ v * 10 ^ Z.of_nat (3 - length K) = m).
      { unfold K, kept. destruct (Z.eqb_spec d3 0); [destruct (Z.eqb_spec d2 0); [destruct (Z.eqb_spec d1 0)|]|]; cbn [read_digits length];
          rewrite ?digit_char_value by done; eexists; (split; [reflexivity|]).
        - change (10 ^ Z.of_nat (3 - 0)) with 1000. lia.
        - change (10 ^ Z.of_nat (3 - 1)) with 100. lia.
        - change (10 ^ Z.of_nat (3 - 2)) with 10. lia.
        - change (10 ^ Z.of_nat (3 - 3)) with 1. lia. }
      assert (LK : (length K <= 3)%nat) by (unfold K, kept; destruct (_ =? _); [destruct (_ =? _); [destruct (_ =? _)|]|]; cbn; lia).
      assert (LC : K <> [] -> exists f' c, K = f' ++ [c] /\ c <> "0"%char).
      { assert (NZ : forall d, 0 <= d <= 9 -> d <> 0 -> digit_char d <> "0"%char).
        { intros d Hd Hd0 E. pose proof (digit_char_0 d Hd) as X. rewrite E in X. cbn in X. symmetry in X. apply Z.eqb_eq in X. done. }
        unfold K, kept. destruct (Z.eqb_spec d3 0); [destruct (Z.eqb_spec d2 0); [destruct (Z.eqb_spec d1 0); [done|]|]|]; intros _.
        - exists [], (digit_char d1). split; [done|]. by apply NZ.
        - exists [digit_char d1], (digit_char d2). split; [done|]. by apply NZ.
        - exists [digit_char d1; digit_char d2], (digit_char d3). split; [done|]. by apply NZ. }
      destruct RK as (v & RK & Ev). unfold tail. clear W tail. clearbody K.
      assert (RDK : read_digits 0 (D ++ K) = Some v) by (by rewrite (read_digits_app _ _ _ _ RD)).
      assert (EQ : (inject_Z v / inject_Z (10 ^ Z.of_nat (length K)) == inject_Z m / 1000)%Q).
      { assert (E1000 : 10 ^ Z.of_nat (length K) * 10 ^ Z.of_nat (3 - length K) = 1000).
        { rewrite <- Z.pow_add_r by lia. by replace (Z.of_nat (length K) + Z.of_nat (3 - length K)) with 3 by lia. }
        change 1000%Q with (inject_Z 1000). rewrite <- Ev, <- E1000, !inject_Z_mult.
        assert (0 < 10 ^ Z.of_nat (length K)) by (apply Z.pow_pos_nonneg; lia).
        assert (0 < 10 ^ Z.of_nat (3 - length K)) by (apply Z.pow_pos_nonneg; lia).
        field. split; (change 0%Q with (inject_Z 0); rewrite inject_Z_injective; lia). }
      destruct K as [|k K'].
      - unfold point_tail. rewrite app_nil_r in *. unfold read_unsigned, tidy, decimals. rewrite split_digits by done. cbn [fst snd default from_option].
        rewrite app_nil_r. rewrite (proj2 (Nat.eqb_neq _ _)) by lia. rewrite RDK. eexists. split; [reflexivity|]. split; [exact EQ|done].
      - unfold point_tail. unfold read_unsigned, tidy, decimals. rewrite split_digits_point by done. cbn [fst snd default from_option].
        rewrite (proj2 (Nat.eqb_neq _ _)) by (rewrite app_length; cbn [length]; lia). unfold id. rewrite RDK. eexists. split; [reflexivity|]. split; [exact EQ|].
        split; [done|]. by apply LC. }
    destruct HH as (q & R & EQ & TD).
    exists ((sign neg ++ D) ++ tail). eexists. split; [exact W|]. rewrite <- app_assoc. rewrite read_sign, R.
    + split; [reflexivity|]. split; [|by apply tidy_sign].
      unfold neg, m in *. destruct (Z.ltb_spec c 0); rewrite EQ.
      * rewrite Z.abs_neq by lia. rewrite inject_Z_opp. field.
      * by rewrite Z.abs_eq by lia.
    + left. destruct D as [|x D']; [cbn in LD; lia|]. cbn. apply Forall_cons in FD as [FD _]. by apply Forall_singleton.
Qed.

(** ** floating-point values *)
Lemma round_even_close q : (Qabs (inject_Z (round_even q) - q) <= 1 # 2)%Q.
Proof.
  unfold round_even. cbv zeta. pose proof (Qfloor_le q) as H1. pose proof (Qlt_floor q) as H2. rewrite inject_Z_plus in H2. change (inject_Z 1) with 1%Q in H2.
  set (f := Qfloor q) in *.
  destruct (Qcompare_spec (q - inject_Z f) (1 # 2)) as [E|E|E].
  - destruct (Z.even f); rewrite ?inject_Z_plus; change (inject_Z 1) with 1%Q; apply Qabs_Qle_condition; split; lra.
  - apply Qabs_Qle_condition; split; lra.
  - rewrite inject_Z_plus; change (inject_Z 1) with 1%Q. apply Qabs_Qle_condition; split; lra.
Qed.
Lemma round_even_nonneg q : (0 <= q)%Q -> 0 <= round_even q.
Proof.
  intros H. assert (0 <= Qfloor q). { change 0 with (Qfloor 0). by apply Qfloor_resp_le. }
  unfold round_even. cbv zeta. destruct (_ ?= _)%Q; [destruct (Z.even _)| |]; lia.
Qed.
Lemma read_total s : Forall is_digit s -> forall acc, exists v, read_digits acc s = Some v.
Proof.
  induction 1 as [|c s Hc Hs IH]; intros acc; [by eexists|]. cbn [read_digits]. unfold digit_value. cbv zeta. unfold is_digit in Hc.
  rewrite !(proj2 (Nat.leb_le _ _)) by lia. cbn [andb]. apply IH.
Qed.
Lemma read_zeros z : forall acc, read_digits acc (replicate z "0"%char) = Some (acc * 10 ^ Z.of_nat z).
Proof.
  induction z as [|z IH]; intros acc; cbn [replicate read_digits].
  - f_equal. cbn. lia.
  - change (digit_value "0") with (Some 0). cbv iota. rewrite IH. f_equal. rewrite Nat2Z.inj_succ, Z.pow_succ_r by lia. lia.
Qed.
Lemma strip_zeros s : exists s' z, s = s' ++ replicate z "0"%char /\ (s' = [] \/ exists f c, s' = f ++ [c] /\ c <> "0"%char).
Proof.
  induction s as [|c s IH] using rev_ind.
  - exists [], 0%nat. split; [done|by left].
  - destruct (ascii_dec c "0"%char) as [->|Hc].
    + destruct IH as (s' & z & -> & H). exists s', (S z). split; [|done].
      rewrite <- app_assoc. f_equal. clear. induction z; [done|]. cbn. by rewrite IHz.
    + exists (s ++ [c]), 0%nat. split; [by rewrite app_nil_r|]. right. by exists s, c.
Qed.
Lemma zero_char c : (nat_of_ascii c =? 48)%nat = true <-> c = "0"%char.
Proof.
  rewrite Nat.eqb_eq. split; [|by intros ->]. intros H. rewrite <- (ascii_nat_embedding c), H. done.
Qed.

Lemma last_non_zero_ok z : forall fuel Q c R, c <> "0"%char -> (z < fuel)%nat ->
  last_non_zero fuel (map Some (Q ++ c :: replicate z "0"%char) ++ R) (Z.of_nat (length Q) + Z.of_nat z) = Ok (Z.of_nat (length Q)).
Proof.
  induction z as [|z IH]; intros fuel Q c R Hc Hf; (destruct fuel as [|fuel]; [lia|]); cbn [last_non_zero].
  - rewrite map_app, <- app_assoc, rd_app by lia. change (rd _ (Z.of_nat 0)) with (Ok c). cbn [rbind].
    destruct (nat_of_ascii c =? 48)%nat eqn:E; [by apply zero_char in E|]. f_equal. lia.
  - replace (Q ++ c :: replicate (S z) "0"%char) with ((Q ++ c :: replicate z "0"%char) ++ ["0"%char]).
    2:{ rewrite <- app_assoc. cbn [app]. do 2 f_equal. clear. induction z; [done|]. cbn. by rewrite IHz. }
    rewrite map_app, <- app_assoc.
    assert (E : Z.of_nat (length Q) + Z.of_nat (S z) = Z.of_nat (length (Q ++ c :: replicate z "0"%char)) + 0).
    { rewrite app_length. cbn [length]. rewrite replicate_length. lia. }
    rewrite E at 1. rewrite rd_app by lia. change (rd _ 0) with (Ok "0"%char). cbn [rbind]. change (nat_of_ascii "0" =? 48)%nat with true. cbv iota.
    rewrite <- (IH fuel Q c (map Some ["0"%char] ++ R) Hc ltac:(lia)). f_equal. lia.
Qed.

Section double.
  Variables (p : nat) (v : Q).
  Hypothesis Hp : (p <= 9)%nat.
  Hypothesis Hv : (Qabs v < inject_Z (10 ^ 300))%Q.
  Let m := 10 ^ Z.of_nat p.
  Let n := round_even (Qabs v * inject_Z m).
  Let neg := if Qlt_le_dec v 0 then true else false.
  Let D := print_nat (n / m).

  Lemma m_pos : 0 < m.
  Proof. apply Z.pow_pos_nonneg; lia. Qed.
  Lemma n_nonneg : 0 <= n.
  Proof.
    apply round_even_nonneg. apply Qmult_le_0_compat; [apply Qabs_nonneg|]. change 0%Q with (inject_Z 0). rewrite <- Zle_Qle. pose proof m_pos. lia.
  Qed.
  Lemma n_close : (Qabs (inject_Z n / inject_Z m - Qabs v) <= (1 # 2) / inject_Z m)%Q.
  Proof.
    pose proof (round_even_close (Qabs v * inject_Z m)) as H. fold n in H. pose proof m_pos as Hm.
    assert (Hm' : (0 < inject_Z m)%Q) by (change 0%Q with (inject_Z 0); by rewrite <- Zlt_Qlt).
    assert (E : (inject_Z n / inject_Z m - Qabs v == (inject_Z n - Qabs v * inject_Z m) / inject_Z m)%Q) by (field; lra).
    rewrite E. unfold Qdiv. rewrite Qabs_Qmult, (Qabs_pos (/ inject_Z m)).
    - apply Qmult_le_compat_r; [done|]. apply Qinv_le_0_compat. lra.
    - apply Qinv_le_0_compat. lra.
  Qed.
  Lemma D_facts : read_digits 0 D = Some (n / m) /\ Forall is_digit D /\ (0 < length D <= 301)%nat.
  Proof.
    assert (H0 : 0 <= n / m) by (apply Z.div_pos; [apply n_nonneg|apply m_pos]).
    destruct (print_nat_facts (n / m) H0) as (A & B & C). split; [done|]. split; [done|]. split; [done|].
    apply print_nat_length; [|lia]. split; [done|]. change (Z.of_nat 301) with 301.
    apply Z.div_lt_upper_bound; [apply m_pos|]. rewrite Zlt_Qlt, inject_Z_mult.
    pose proof (round_even_close (Qabs v * inject_Z m)) as H. fold n in H. apply Qabs_Qle_condition in H.
    assert (1 <= inject_Z m)%Q by (change 1%Q with (inject_Z 1); rewrite <- Zle_Qle; pose proof m_pos; lia).
    assert (inject_Z (10 ^ 301) == 10 * inject_Z (10 ^ 300))%Q as -> by (change 10%Q with (inject_Z 10); rewrite <- inject_Z_mult; done).
    assert (1 <= inject_Z (10 ^ 300))%Q by (change 1%Q with (inject_Z 1); rewrite <- Zle_Qle; vm_compute; congruence).
    set (T := inject_Z (10 ^ 300)) in *. clearbody T. set (q := inject_Z m) in *. set (w := Qabs v) in *.
    assert (w * q <= T * q)%Q by (apply Qmult_le_compat_r; lra).
    assert (0 <= T * q - q)%Q.
    { setoid_replace (T * q - q)%Q with ((T - 1) * q)%Q by ring. apply Qmult_le_0_compat; lra. }
    destruct H as [_ H]. setoid_replace (q * (10 * T))%Q with (10 * (T * q))%Q by ring. lra.
  Qed.

  Lemma text_eq : print_fixed p v = (sign neg ++ D) ++ match p with O => [] | _ => "."%char :: fixed p (n mod m) end.
  Proof. unfold print_fixed, D, neg. fold m n. unfold sign. rewrite <- app_assoc. destruct (Qlt_le_dec v 0); done. Qed.

  Lemma double_text : exists F z,
    writeDoubleToStream p v = Ok ((sign neg ++ D) ++ match F with [] => [] | _ => "."%char :: F end)
    /\ Forall is_digit F /\ (length F + z = p)%nat /\ (F = [] \/ exists f c, F = f ++ [c] /\ c <> "0"%char)
    /\ exists x, read_digits (n / m) F = Some x /\ x * 10 ^ Z.of_nat z = n.
  Proof.
    destruct D_facts as (RD & FD & LD).
    assert (NP : no_nul (sign neg ++ D)) by (apply no_nul_app; [apply sign_no_nul|by apply digits_no_nul]).
    assert (LS : (length (sign neg) <= 1)%nat) by (destruct neg; cbn; lia).
    destruct (decide (p = 0%nat)) as [E0|E0].
    - exists [], 0%nat.
      assert (T : print_fixed p v = sign neg ++ D) by (rewrite text_eq, E0, app_nil_r; done).
      split; [|split; [apply Forall_nil_2|split; [cbn; lia|split; [by left|]]]].
      + unfold writeDoubleToStream. rewrite T. cbv zeta. unfold snprintf.
        rewrite (proj2 (Nat.leb_gt _ _)) by (rewrite app_length; lia). cbn [rbind].
        rewrite (proj2 (Z.leb_gt _ _)) by (rewrite app_length; lia).
        assert (exists Q c, sign neg ++ D = Q ++ [c] /\ is_digit c) as (Q & c & EQ & Hc).
        { destruct (exists_last (l := D)) as (D' & c & ED); [intros E; rewrite E in LD; cbn in LD; lia|].
          exists (sign neg ++ D'), c. rewrite ED, app_assoc. split; [done|]. rewrite ED in FD. apply Forall_app in FD as [_ FD]. by rewrite Forall_singleton in FD. }
        set (LL := replicate _ None).
        assert (R : rd (map Some ((sign neg ++ D) ++ [NUL]) ++ LL) (Z.of_nat (length (sign neg ++ D)) - Z.of_nat p - 1) = Ok c).
        { rewrite EQ, E0. rewrite <- app_assoc. cbn [app]. rewrite map_app, <- app_assoc.
          replace (Z.of_nat (length (Q ++ [c])) - Z.of_nat 0 - 1) with (Z.of_nat (length Q) + 0) by (rewrite app_length; cbn [length]; lia).
          rewrite rd_app by lia. done. }
        rewrite R. cbn [rbind]. rewrite digit_not_point by done. rewrite map_app, <- app_assoc. cbn [map app]. rewrite cstr_stop by done. by rewrite app_nil_r.
      + cbn [read_digits]. eexists. split; [reflexivity|]. unfold m. rewrite E0. change (Z.of_nat 0) with 0. rewrite Z.pow_0_r, Z.div_1_r. lia.
    - set (x := n mod m). assert (Hx : 0 <= x) by (unfold x; apply Z.mod_pos_bound, m_pos).
      destruct (fixed_facts p x Hx) as (FX & EF & DF & LF & RF).
      destruct (strip_zeros FX) as (F & z & EFz & HF).
      assert (T : print_fixed p v = (sign neg ++ D) ++ "."%char :: F ++ replicate z "0"%char).
      { assert (HK : forall (A B : text) k, k <> 0%nat -> match k with O => A | _ => B end = B) by (by intros A B []).
        rewrite text_eq, HK by done. fold x. by rewrite EF, EFz. }
      assert (DFF : Forall is_digit F) by (rewrite EFz in DF; apply Forall_app in DF; apply DF).
      assert (LFz : (length F + z = p)%nat) by (rewrite <- LF, EFz, app_length, replicate_length; lia).
      exists F, z. split; [|split; [done|split; [done|split; [done|]]]].
      + assert (LT : length (print_fixed p v) = (length (sign neg ++ D) + 1 + p)%nat).
        { rewrite T, !app_length. cbn [length]. rewrite !app_length, replicate_length. lia. }
        unfold writeDoubleToStream. cbv zeta. unfold snprintf.
        rewrite (proj2 (Nat.leb_gt _ _)) by (rewrite LT, app_length; lia). cbn [rbind].
        rewrite (proj2 (Z.leb_gt _ _)) by (rewrite LT; lia). rewrite LT.
        set (LL := replicate _ None). set (P := sign neg ++ D) in *.
        rewrite T.
        assert (R : rd (map Some ((P ++ "."%char :: F ++ replicate z "0"%char) ++ [NUL]) ++ LL) (Z.of_nat (length P + 1 + p) - Z.of_nat p - 1) = Ok "."%char).
        { rewrite <- app_assoc. cbn [app]. rewrite map_app, <- app_assoc.
          replace (Z.of_nat (length P + 1 + p) - Z.of_nat p - 1) with (Z.of_nat (length P) + 0) by lia.
          rewrite rd_app by lia. done. }
        rewrite R. cbn [rbind]. change (nat_of_ascii "." =? 46)%nat with true. cbv iota.
        assert (exists Q c, P ++ "."%char :: F = Q ++ [c] /\ c <> "0"%char /\ (nat_of_ascii c =? 46)%nat = match F with [] => true | _ => false end
                 /\ no_nul (Q ++ [c]) /\ (F = [] -> Q = P)) as (Q & c & EQ & Hc & Hpt & Hnn & HQ).
        { destruct HF as [->|(f & c & -> & Hc)].
          - exists P, "."%char. split; [done|]. split; [done|]. split; [done|]. split; [|done]. apply no_nul_app; [done|]. apply Forall_singleton. vm_compute. discriminate.
          - exists (P ++ "."%char :: f), c. split; [by rewrite <- app_assoc|]. split; [done|]. apply Forall_app in DFF as [DFf DFc]. rewrite Forall_singleton in DFc.
            split; [|split].
            + rewrite digit_not_point by done. by destruct f.
            + rewrite <- app_assoc. apply no_nul_app; [done|]. cbn [app]. apply Forall_cons_2; [vm_compute; discriminate|]. apply digits_no_nul. apply Forall_app. split; [done|]. by apply Forall_singleton.
            + intros E. by destruct f. }
        replace (P ++ "."%char :: F ++ replicate z "0"%char) with (Q ++ c :: replicate z "0"%char).
        2:{ change ("."%char :: F ++ replicate z "0"%char) with (("."%char :: F) ++ replicate z "0"%char). rewrite app_assoc, EQ, <- app_assoc. done. }
        assert (LQ : length Q = (length P + length F)%nat).
        { apply (f_equal length) in EQ. rewrite !app_length in EQ. cbn [length] in EQ. lia. }
        rewrite map_app, <- app_assoc.
        replace (Z.of_nat (length P + 1 + p) - 1) with (Z.of_nat (length Q) + Z.of_nat z) by lia.
        rewrite last_non_zero_ok by (try done; lia). cbn [rbind].
        rewrite map_app, <- app_assoc. cbn [map app].
        assert (R2 : forall M, rd (map Some Q ++ Some c :: M) (Z.of_nat (length Q)) = Ok c).
        { intros M. replace (Z.of_nat (length Q)) with (Z.of_nat (length Q) + 0) by lia. rewrite rd_app by lia. done. }
        rewrite R2. cbn [rbind]. rewrite Hpt.
        destruct F as [|f0 F'].
        * replace (Z.of_nat (length Q)) with (Z.of_nat (length Q) + 0) by lia. rewrite wr_app by (cbn [length]; lia). cbn [rbind].
          change (Z.to_nat 0) with 0%nat. set (MM := map Some (replicate z "0"%char) ++ _).
          change (<[0%nat := Some NUL]> (Some c :: MM)) with (Some NUL :: MM). rewrite cstr_stop.
          -- rewrite HQ by done. by rewrite app_nil_r.
          -- by rewrite HQ.
        * set (MM := map Some (replicate z "0"%char) ++ _).
          assert (exists y M', MM = y :: M') as (y & M' & EM).
          { unfold MM. destruct z; cbn; eauto. }
          rewrite EM. rewrite wr_app by (cbn [length]; lia). cbn [rbind]. change (Z.to_nat 1) with 1%nat.
          change (<[1%nat := Some NUL]> (Some c :: y :: M')) with (map Some [c] ++ Some NUL :: M').
          rewrite app_assoc, <- map_app. rewrite cstr_stop by done. by rewrite <- EQ.
      + destruct (read_total F DFF (n / m)) as (w & Ew). exists w. split; [done|].
        specialize (RF (n / m)). rewrite EFz in RF. rewrite (read_digits_app _ _ _ _ Ew), read_zeros in RF. injection RF as ->.
        fold m. unfold x. rewrite Z.mod_mod by (pose proof m_pos; lia). pose proof (Z.div_mod n m). pose proof m_pos. lia.
  Qed.
End double.

(** A value is written within half a unit of the last decimal, with no trailing zeros. *)
Theorem C30_double_rounded p v :
  (p <= 9)%nat -> (Qabs v < inject_Z (10 ^ 300))%Q ->
  exists s q, writeDoubleToStream p v = Ok s /\ read_number s = Some q
    /\ (Qabs (q - v) <= (1 # 2) / inject_Z (10 ^ Z.of_nat p))%Q /\ tidy p s.
Proof.
  intros Hp Hv. destruct (double_text p v Hp Hv) as (F & z & W & DF & LF & HF & x & Rx & Ex).
  destruct (D_facts p v Hp Hv) as (RD & FD & LD). pose proof (m_pos p v Hp) as Hm. pose proof (n_close p v Hp) as HC.
  set (m := 10 ^ Z.of_nat p) in *. set (n := round_even (Qabs v * inject_Z m)) in *. set (D := print_nat (n / m)) in *.
  set (neg := if Qlt_le_dec v 0 then true else false) in *.
  assert (HH : exists q, read_unsigned (D ++ match F with [] => [] | _ => "."%char :: F end) = Some q /\ (q == inject_Z n / inject_Z m)%Q
                 /\ tidy p (D ++ match F with [] => [] | _ => "."%char :: F end)).
  { assert (RDK : read_digits 0 (D ++ F) = Some x) by (by rewrite (read_digits_app _ _ _ _ RD)).
    assert (EQ : (inject_Z x / inject_Z (10 ^ Z.of_nat (length F)) == inject_Z n / inject_Z m)%Q).
    { assert (Em : m = 10 ^ Z.of_nat (length F) * 10 ^ Z.of_nat z) by (unfold m; rewrite <- Z.pow_add_r by lia; f_equal; lia).
      rewrite <- Ex, Em, !inject_Z_mult.
      assert (0 < 10 ^ Z.of_nat (length F)) by (apply Z.pow_pos_nonneg; lia).
      assert (0 < 10 ^ Z.of_nat z) by (apply Z.pow_pos_nonneg; lia).
      field. split; (change 0%Q with (inject_Z 0); rewrite inject_Z_injective; lia). }
    destruct F as [|k F'].
    - rewrite app_nil_r in *. unfold read_unsigned, tidy, decimals. rewrite split_digits by done. cbn [fst snd default from_option].
      rewrite app_nil_r. rewrite (proj2 (Nat.eqb_neq _ _)) by lia. rewrite RDK. eexists. split; [reflexivity|]. split; [exact EQ|done].
    - unfold read_unsigned, tidy, decimals. rewrite split_digits_point by done. cbn [fst snd default from_option].
      rewrite (proj2 (Nat.eqb_neq _ _)) by (rewrite app_length; cbn [length]; lia). unfold id. rewrite RDK. eexists. split; [reflexivity|]. split; [exact EQ|].
      split; [lia|]. destruct HF as [HF|HF]; [done|exact HF]. }
  destruct HH as (q & R & EQ & TD). rewrite <- app_assoc in W.
  eexists _, _. split; [exact W|]. rewrite read_sign, R.
  - split; [reflexivity|]. split; [|by apply tidy_sign]. unfold neg. destruct (Qlt_le_dec v 0).
    + assert (Ea : (Qabs v == - v)%Q) by (apply Qabs_neg; lra). clearbody n. rewrite Ea in HC. rewrite EQ. rewrite <- Qabs_opp. setoid_replace (- (- (inject_Z n / inject_Z m) - v))%Q with (inject_Z n / inject_Z m - - v)%Q by ring. exact HC.
    + assert (Ea : (Qabs v == v)%Q) by (by apply Qabs_pos). clearbody n. rewrite Ea in HC. rewrite EQ. exact HC.
  - left. destruct D as [|y D']; [cbn in LD; lia|]. cbn. apply Forall_cons in FD as [FD _]. by apply Forall_singleton.
Qed.

(** What is read back from an E word: the rounding that theorems C27_rounding_absolute and C27_rounding_relative are about. *)
Definition printed (p : nat) (v : Q) : Q :=
  if Qlt_le_dec (Qabs v) (inject_Z (10 ^ 300)) then
    match writeDoubleToStream p v with Ok s => default v (read_number s) | _ => v end
  else v.
Theorem C30_printed_close p v : (p <= 9)%nat -> (Qabs (printed p v - v) <= (1 # 2) / inject_Z (10 ^ Z.of_nat p))%Q.
Proof.
  intros Hp. unfold printed. destruct (Qlt_le_dec _ _) as [Hv|Hv].
  - destruct (C30_double_rounded p v Hp Hv) as (s & q & W & R & C & _). rewrite W, R. exact C.
  - setoid_replace (v - v)%Q with 0%Q by ring. change (Qabs 0) with 0%Q.
    assert (0 < inject_Z (10 ^ Z.of_nat p))%Q by (change 0%Q with (inject_Z 0); rewrite <- Zlt_Qlt; apply Z.pow_pos_nonneg; lia).
    apply Qle_shift_div_l; [done|]. lra.
Qed.

(** The zero test errs on one side only: what it lets through does not print as zero, but small values print as
    nonzero although it says that they would print as zero. *)
Theorem C30_nonzero_prints_nonzero p v :
  (p <= 9)%nat -> (Qabs v < inject_Z (10 ^ 300))%Q -> wouldWriteZero p v = false ->
  exists s q, writeDoubleToStream p v = Ok s /\ read_number s = Some q /\ ~ (q == 0)%Q.
Proof.
  intros Hp Hv HW. destruct (C30_double_rounded p v Hp Hv) as (s & q & W & R & C & _). exists s, q. split; [done|]. split; [done|].
  unfold wouldWriteZero in HW. destruct (Qlt_le_dec _ _) as [|H]; [done|]. intros E. rewrite E in C.
  assert (Hm : (0 < inject_Z (10 ^ Z.of_nat p))%Q) by (change 0%Q with (inject_Z 0); rewrite <- Zlt_Qlt; apply Z.pow_pos_nonneg; lia).
  setoid_replace (0 - v)%Q with (- v)%Q in C by ring. rewrite Qabs_opp in C.
  assert (C' : (Qabs v * inject_Z (10 ^ Z.of_nat p) <= (1 # 2) / inject_Z (10 ^ Z.of_nat p) * inject_Z (10 ^ Z.of_nat p))%Q) by (apply Qmult_le_compat_r; [done|lra]).
  setoid_replace ((1 # 2) / inject_Z (10 ^ Z.of_nat p) * inject_Z (10 ^ Z.of_nat p))%Q with (1 # 2)%Q in C' by (field; lra). lra.
Qed.
Theorem C30_would_write_zero_refuted :
  exists p v s q, wouldWriteZero p v = true /\ writeDoubleToStream p v = Ok s /\ read_number s = Some q /\ ~ (q == 0)%Q.
Proof.
  exists 3%nat, (7 # 10000)%Q, ["0"; "."; "0"; "0"; "1"]%char, (1 # 1000)%Q. split; [vm_compute; done|]. split; [vm_compute; done|].
  split; [vm_compute; done|]. vm_compute. discriminate.
Qed.

(** The coordinate 0 is read before the start of the buffer: "0" is followed to its left. *)
Theorem C30_zero_reads_outside_refuted : writeInt2mm 0 = UB.
Proof. vm_compute. done. Qed.
(** There is not always a digit in front of the point. *)
Theorem C30_digit_before_point_refuted : exists c s, writeInt2mm c = Ok s /\ take 2 s = ["-"; "."]%char.
Proof. exists (-123), ["-"; "."; "1"; "2"; "3"]%char. split; vm_compute; done. Qed.

Example C30_examples :
  writeInt2mm 12340 = Ok ["1"; "2"; "."; "3"; "4"]%char /\ writeInt2mm (-5) = Ok ["-"; "0"; "."; "0"; "0"; "5"]%char
  /\ writeInt2mm 7000 = Ok ["7"]%char /\ writeInt2mm (-2147483648) = Ok ["-"; "2"; "1"; "4"; "7"; "4"; "8"; "3"; "."; "6"; "4"; "8"]%char
  /\ writeDoubleToStream 5 (1 # 3) = Ok ["0"; "."; "3"; "3"; "3"; "3"; "3"]%char
  /\ writeDoubleToStream 1 (-200 # 1) = Ok ["-"; "2"; "0"; "0"]%char
  /\ writeDoubleToStream 0 (25 # 10) = Ok ["2"]%char.
Proof. vm_compute. done. Qed.

(** ** comments *)
(** Every line of the text that is written starts with a semicolon, and the text ends with a line end: no comment
    can smuggle a command into the G-code.  Only ASCII characters are written. *)
Theorem C31_every_line_is_comment nl t :
  nl = [newline] \/ nl = [ascii_of_nat 13; newline] ->
  let s := writeComment nl t in
  (exists rest, s = ";"%char :: rest)
  /\ (forall a b, s = a ++ newline :: b -> b = [] \/ exists rest, b = ";"%char :: rest)
  /\ (exists a, s = a ++ nl)
  /\ Forall (fun c => (nat_of_ascii c < 128)%nat) s.
Proof.
  intros Hnl s. unfold s, writeComment. split; [by eexists|].
  set (f := fun c => if (nat_of_ascii c =? 10)%nat then nl ++ [";"%char] else [c]).
  assert (Hsemi : ";"%char <> newline) by (vm_compute; discriminate).
  assert (Hcr : ascii_of_nat 13 <> newline) by (vm_compute; discriminate).
  split; [|split].
  - assert (G : forall u a b, concat (map f u) ++ nl = a ++ newline :: b -> b = [] \/ exists rest, b = ";"%char :: rest).
    { induction u as [|c u IH]; intros a b E.
      - cbn in E. left. destruct Hnl as [-> | ->].
        + destruct a as [|x a]; [by injection E as <-|]. injection E as _ E. by destruct a.
        + destruct a as [|x a]; [discriminate E|]. injection E as _ E.
          destruct a as [|y a]; [by injection E as <-|]. injection E as _ E. by destruct a.
      - cbn [map concat] in E. rewrite <- app_assoc in E. unfold f at 1 in E.
        destruct (nat_of_ascii c =? 10)%nat eqn:Ec.
        + rewrite <- app_assoc in E. destruct Hnl as [-> | ->]; cbn [app] in E.
          * destruct a as [|x a]; [injection E as <-; right; by eexists|]. injection E as _ E.
            destruct a as [|x' a]; [discriminate E|]. injection E as _ E. by apply (IH a b).
          * destruct a as [|x a]; [discriminate E|]. injection E as _ E.
            destruct a as [|y a]; [injection E as <-; right; by eexists|]. injection E as _ E.
            destruct a as [|x' a]; [discriminate E|]. injection E as _ E. by apply (IH a b).
        + cbn [app] in E. destruct a as [|x a].
          * injection E as E _. rewrite E in Ec. vm_compute in Ec. done.
          * injection E as _ E. by apply (IH a b). }
    intros a b E. destruct a as [|x a]; [discriminate E|]. injection E as _ E. by apply (G (transliterate t) a b).
  - exists (";"%char :: concat (map f (transliterate t))). done.
  - apply Forall_cons_2; [vm_compute; lia|].
    assert (Hn : Forall (fun c => (nat_of_ascii c < 128)%nat) nl).
    { destruct Hnl as [-> | ->]; repeat (apply Forall_cons_2; [vm_compute; lia|]); apply Forall_nil_2. }
    apply Forall_app. split; [|done]. apply Forall_concat. rewrite Forall_map. unfold transliterate. rewrite Forall_map.
    apply Forall_forall. intros c _. unfold f.
    assert (Hc : (nat_of_ascii (if (nat_of_ascii c <? 128)%nat then c else "?"%char) < 128)%nat).
    { destruct (Nat.ltb_spec (nat_of_ascii c) 128); [done|]. vm_compute. lia. }
    destruct (_ =? 10)%nat; [|by apply Forall_singleton]. apply Forall_app. split; [done|]. apply Forall_singleton. vm_compute. lia.
Qed.
(** ASCII text without line ends is written as it is. *)
Theorem C31_text_kept nl t :
  Forall (fun c => (nat_of_ascii c < 128)%nat /\ c <> newline) t -> writeComment nl t = [";"%char] ++ t ++ nl.
Proof.
  intros H. unfold writeComment. cbn [app]. f_equal. f_equal. induction H as [|c t [H1 H2] Ht IH]; [done|].
  cbn [transliterate map concat]. rewrite (proj2 (Nat.ltb_lt _ _)) by done.
  destruct (nat_of_ascii c =? 10)%nat eqn:E.
  - apply Nat.eqb_eq in E. destruct H2. rewrite <- (ascii_nat_embedding c), E. done.
  - cbn [app]. f_equal. exact IH.
Qed.
(** A carriage return in the text is written as it is, so a reader that ends lines there sees a line that is not a comment. *)
Theorem C31_carriage_return_refuted : exists t a b, writeComment [newline] t = a ++ ascii_of_nat 13 :: b /\ take 2 b = ["G"; "1"]%char.
Proof. exists [ascii_of_nat 13; "G"%char; "1"%char], [";"%char], ["G"%char; "1"%char; newline]. vm_compute. done. Qed.

Print Assumptions C30_coordinate_exact.
Print Assumptions C30_double_rounded.
Print Assumptions C30_printed_close.
Print Assumptions C30_nonzero_prints_nonzero.
Print Assumptions C30_would_write_zero_refuted.
Print Assumptions C31_every_line_is_comment.
Print Assumptions C31_text_kept.
