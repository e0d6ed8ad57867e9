From Coq Require Import ZArith Lia.
From stdpp Require Import list.
From Verif Require Import Common Geo_Model Geo_Spec Order_Model OpenStitch_Model OpenStitch_Spec OpenStitch_Proofs.
Open Scope Z_scope.

Lemma vSize_comm a b : vSize (psub a b) = vSize (psub b a).
Proof. unfold vSize. f_equal; unfold vSize2, psub; cbn; replace ((a.1 - b.1) * (a.1 - b.1) + (a.2 - b.2) * (a.2 - b.2)) with ((b.1 - a.1) * (b.1 - a.1) + (b.2 - a.2) * (b.2 - a.2)) by lia; done. Qed.
Lemma vSize_same p : vSize (psub p p) = 0.
Proof. unfold vSize, vSize2, psub. cbn. rewrite !Z.sub_diag. done. Qed.
Lemma path_travelled l : forall p, path_length p l = travelled p l.
Proof. induction l as [|q l IH]; intros p; cbn; [done|by rewrite IH]. Qed.
Lemma travelled_snoc l : forall p x q, travelled p ((l ++ [x]) ++ [q]) = travelled p (l ++ [x]) + vSize (psub x q).
Proof. induction l as [|y l IH]; intros p x q; cbn; [lia|]. rewrite IH. lia. Qed.
Lemma travelled_reverse l : forall p q, travelled p (reverse l ++ [q]) = travelled q (l ++ [p]).
Proof.
  induction l as [|x l IH]; intros p q.
  - cbn. by rewrite vSize_comm.
  - rewrite reverse_cons, travelled_snoc, IH. cbn [app travelled]. rewrite (vSize_comm x q). lia.
Qed.
Lemma shorter_spec p len : 0 <= len -> shorterThen p len = true <-> vSize2 p <= len * len.
Proof.
  intros Hl. unfold shorterThen, vSize2. destruct (Z.ltb_spec len p.1); [split; [done|nia]|]. destruct (Z.ltb_spec p.1 (- len)); [split; [done|nia]|].
  destruct (Z.ltb_spec len p.2); [split; [done|nia]|]. destruct (Z.ltb_spec p.2 (- len)); [split; [done|nia]|]. cbn. apply Z.leb_le.
Qed.

Lemma size_dist2 p q : vSize2 (psub p q) = dist2 p q.
Proof. unfold vSize2, psub, dist2. cbn. lia. Qed.
(** *** the nearest edge *)
Section near.
  Variable input : pt.
  Definition near_at (p0 : pt) (l : list pt) (j : nat) : Prop := exists a b, (p0 :: l) !! j = Some a /\ l !! j = Some b /\ edge_near a b input.
  Definition near_b (p0 p1 : pt) : bool :=
    let pDiff := psub p1 p0 in let lineLength := vSize pDiff in
    if 1 <? lineLength then
      let distOnLine := dot pDiff (psub input p0) ÷ lineLength in
      if (0 <=? distOnLine) && (distOnLine <=? lineLength) then shorterThen (psub (padd p0 (pdiv (pscale pDiff distOnLine) lineLength)) input) 100 else false
    else false.
  Lemma near_b_spec p0 p1 : near_b p0 p1 = true <-> edge_near p0 p1 input.
  Proof.
    unfold near_b, edge_near. cbv zeta. destruct (Z.ltb_spec 1 (vSize (psub p1 p0))); [|split; [done|lia]].
    set (t := dot (psub p1 p0) (psub input p0) ÷ vSize (psub p1 p0)). destruct (Z.leb_spec 0 t); [|split; [done|lia]]. destruct (Z.leb_spec t (vSize (psub p1 p0))); [|split; [done|lia]]. cbn [andb].
    rewrite shorter_spec by lia. rewrite size_dist2. split; [intros ?; split; [lia|]; split; [lia|done]|intros (_ & _ & ?); done].
  Qed.
  Lemma closest_unfold p0 i p1 l : closest_in input p0 ((i, p1) :: l) = if near_b p0 p1 then Some i else closest_in input p1 l.
  Proof. cbn [closest_in]. unfold near_b. cbv zeta. destruct (1 <? _); [|done]. destruct (_ && _); done. Qed.
  Lemma closest_spec l : forall k p0, match closest_in input p0 (zip (seq k (length l)) l) with
    | Some i => exists j, i = (k + j)%nat /\ near_at p0 l j /\ forall j', (j' < j)%nat -> ~ near_at p0 l j'
    | None => forall j, ~ near_at p0 l j end.
  Proof.
    induction l as [|p1 l IH]; intros k p0.
    - cbn. intros j (a & b & _ & H & _). done.
    - change (zip (seq k (length (p1 :: l))) (p1 :: l)) with ((k, p1) :: zip (seq (S k) (length l)) l). rewrite closest_unfold. destruct (near_b p0 p1) eqn:E.
      + exists 0%nat. split; [lia|]. split; [|lia]. exists p0, p1. split; [done|]. split; [done|]. by apply near_b_spec.
      + assert (N0 : ~ near_at p0 (p1 :: l) 0). { intros (a & b & Ha & Hb & H). cbn in Ha, Hb. simplify_eq. apply near_b_spec in H. congruence. }
        assert (NS : forall j, near_at p0 (p1 :: l) (S j) <-> near_at p1 l j) by done.
        specialize (IH (S k) p1). destruct (closest_in _ _ _) as [i|].
        * destruct IH as (j & -> & H1 & H2). exists (S j). split; [lia|]. split; [by apply NS|]. intros [|j'] Hj'; [done|]. rewrite NS. apply H2. lia.
        * intros [|j]; [done|]. rewrite NS. apply IH.
  Qed.
  Lemma passes_near poly p0 i : last poly = Some p0 -> passes poly i input <-> near_at p0 poly i.
  Proof.
    intros Hl. split.
    - intros (pl & a & b & H1 & H2 & H3 & H4). rewrite Hl in H1. injection H1 as <-. by exists a, b.
    - intros (a & b & H1 & H2 & H3). by exists p0, a, b.
  Qed.
  Lemma find_spec ps : Forall (fun poly => poly <> []) ps -> forall k, exists r, findPolygonPointClosestTo input (zip (seq k (length ps)) ps) = Ok r /\
    match r with
    | Some (n, i) => exists m, n = (k + m)%nat /\ first_pass ps input m i
    | None => forall m poly i, ps !! m = Some poly -> ~ passes poly i input
    end.
  Proof.
    induction 1 as [|poly ps Hp Hps IH]; intros k.
    - exists None. split; [done|]. intros m poly i H. done.
    - destruct (last poly) as [p0|] eqn:El; [|by apply last_None in El].
      assert (E : findPolygonPointClosestTo input (zip (seq k (length (poly :: ps))) (poly :: ps)) =
                match closest_in input p0 (zip (seq 0 (length poly)) poly) with Some i => Ok (Some (k, i)) | None => findPolygonPointClosestTo input (zip (seq (S k) (length ps)) ps) end).
      { change (zip (seq k (length (poly :: ps))) (poly :: ps)) with ((k, poly) :: zip (seq (S k) (length ps)) ps). cbn [findPolygonPointClosestTo]. rewrite El. done. }
      rewrite E. clear E. pose proof (closest_spec poly 0 p0) as C. destruct (closest_in _ _ _) as [i|].
      + exists (Some (k, i)). split; [done|]. exists 0%nat. split; [lia|]. destruct C as (j & -> & C1 & C2). split; [|lia]. exists poly. split; [done|].
        split; [by apply (passes_near poly p0)|]. intros i' Hi'. rewrite (passes_near poly p0) by done. by apply C2.
      + assert (N0 : forall i, ~ passes poly i input) by (intros i; rewrite (passes_near poly p0) by done; apply C).
        destruct (IH (S k)) as (r & Er & Hr). exists r. split; [done|]. destruct r as [[n i]|].
        * destruct Hr as (m & -> & (poly1 & H1 & H2 & H3) & H4). exists (S m). split; [lia|]. split; [by exists poly1|].
          intros [|n'] poly' i' Hn' Hl; [injection Hl as <-; apply N0|]. apply (H4 n'); [lia|done].
        * intros [|m] poly' i' Hl; [injection Hl as <-; apply N0|]. by apply (Hr m).
  Qed.
End near.
Lemma first_pass_unique polys p n i n' i' : first_pass polys p n i -> first_pass polys p n' i' -> n = n' /\ i = i'.
Proof.
  intros [(poly & H1 & H2 & H3) H4] [(poly' & G1 & G2 & G3) G4]. destruct (lt_eq_lt_dec n n') as [[H|H]|H].
  - exfalso. by apply (G4 n poly i H H1).
  - subst n'. split; [done|]. assert (poly' = poly) as -> by congruence. destruct (lt_eq_lt_dec i i') as [[H|H]|H]; [exfalso; by apply (G3 i H)|done|exfalso; by apply (H3 i' H)].
  - exfalso. by apply (H4 n' poly' i' H G1).
Qed.

(** *** stretches *)
Lemma mod_step s a m : (a < s)%nat -> (m < s)%nat -> ((a + m) mod s = if a + m <? s then a + m else a + m - s)%nat.
Proof.
  intros Ha Hm. destruct (Nat.ltb_spec (a + m) s); [by apply Nat.mod_small|]. replace (a + m)%nat with ((a + m - s) + 1 * s)%nat at 1 by lia.
  rewrite Nat.mod_add by lia. apply Nat.mod_small. lia.
Qed.
Lemma stretch_spec s b : (b < s)%nat -> forall m a fuel, (a < s)%nat -> m = (if a <=? b then b - a else b + s - a)%nat -> (m <= fuel)%nat ->
  stretch fuel s a b = Ok (map (fun k => (a + k) mod s)%nat (seq 0 m)).
Proof.
  intros Hb. induction m as [|m IH]; intros a fuel Ha Hm Hf.
  - assert (a = b) as ->. { destruct (Nat.leb_spec a b); lia. } destruct fuel; cbn; by rewrite Nat.eqb_refl.
  - assert (Hne : a <> b). { intros ->. rewrite Nat.leb_refl in Hm. lia. } destruct fuel as [|fuel]; [lia|]. cbn [stretch]. rewrite (proj2 (Nat.eqb_neq _ _) Hne).
    assert (E : ((a + 1) mod s = if a + 1 <? s then a + 1 else 0)%nat).
    { destruct (Nat.ltb_spec (a + 1) s); [by apply Nat.mod_small|]. replace (a + 1)%nat with s by lia. apply Nat.mod_same. lia. }
    rewrite (IH ((a + 1) mod s)%nat fuel); [| |rewrite E|lia].
    + cbn [rbind seq map]. f_equal. f_equal; [rewrite Nat.add_0_r; symmetry; by apply Nat.mod_small|].
      rewrite <- seq_shift, map_map. apply map_ext. intros k. rewrite Nat.add_mod_idemp_l by lia. f_equal. lia.
    + rewrite E. destruct (Nat.ltb_spec (a + 1) s); lia.
    + destruct (Nat.ltb_spec (a + 1) s), (Nat.leb_spec a b); [|destruct (Nat.leb_spec (a + 1) b)| |]; try destruct (Nat.leb_spec (a + 1) b); try destruct (Nat.leb_spec 0 b); lia.
Qed.
Lemma points_at_spec poly l : (forall i, i ∈ l -> (i < length poly)%nat) -> exists ps, points_at poly l = Ok ps /\ Forall2 (fun i p => poly !! i = Some p) l ps.
Proof.
  induction l as [|i l IH]; intros H; [exists []; by split|]. destruct IH as (ps & E & F); [intros j Hj; apply H; by apply elem_of_list_further|].
  destruct (lookup_lt_is_Some_2 poly i) as [p Hp]; [apply H, elem_of_list_here|]. exists (p :: ps). cbn [points_at]. rewrite Hp. cbn [of_opt rbind]. rewrite E. split; [done|by constructor].
Qed.
Lemma stretch_points_spec poly a b : (a < length poly)%nat -> (b < length poly)%nat -> exists ps, stretch_points poly a b = Ok ps /\ walk poly a b ps.
Proof.
  intros Ha Hb. unfold stretch_points. set (s := length poly) in *. set (m := (if a <=? b then b - a else b + s - a)%nat).
  assert (Hm : (m < s)%nat) by (unfold m; destruct (Nat.leb_spec a b); lia).
  rewrite (stretch_spec s b Hb m a s Ha eq_refl) by lia. cbn [rbind].
  destruct (points_at_spec poly (map (fun k => (a + k) mod s)%nat (seq 0 m))) as (ps & E & F).
  { intros i H. change (map ?f ?l) with (f <$> l) in H. apply elem_of_list_fmap in H as (k & -> & _). apply Nat.mod_upper_bound. lia. }
  exists ps. split; [done|]. pose proof (Forall2_length _ _ _ F) as Hl. rewrite map_length, seq_length in Hl. unfold walk. fold s. rewrite <- Hl. split; [done|]. split.
  - assert (Hm' : ((a <= b /\ m = b - a) \/ (b < a /\ m = b + s - a))%nat) by (unfold m; destruct (Nat.leb_spec a b); lia).
    rewrite mod_step by done. clearbody m. destruct (Nat.ltb_spec (a + m) s); lia.
  - intros k Hk. destruct (lookup_lt_is_Some_2 ps k) as [p Hp]; [lia|]. rewrite Hp. symmetry.
    destruct (Forall2_lookup_r _ _ _ _ _ F Hp) as (i & Hi & Hpi). change (map ?f ?l) with (f <$> l) in Hi. rewrite list_lookup_fmap, lookup_seq_lt in Hi by done. cbn in Hi. by injection Hi as ->.
Qed.
Lemma walk_unique poly a b l l' : (a < length poly)%nat -> walk poly a b l -> walk poly a b l' -> l = l'.
Proof.
  intros Ha (H1 & H2 & H3) (G1 & G2 & G3). assert (E : length l = length l').
  { rewrite <- G2 in H2. rewrite !mod_step in H2 by done. destruct (Nat.ltb_spec (a + length l) (length poly)), (Nat.ltb_spec (a + length l') (length poly)); lia. }
  apply list_eq. intros k. destruct (decide (k < length l)%nat) as [Hk|Hk]; [rewrite H3, G3 by lia; done|]. rewrite !lookup_ge_None_2 by lia. done.
Qed.
Lemma walk_same poly a l : (a < length poly)%nat -> walk poly a a l <-> l = [].
Proof.
  intros Ha. split.
  - intros H. apply (walk_unique poly a a); [done|done|]. split; [cbn; lia|]. split; [cbn; rewrite Nat.add_0_r; by apply Nat.mod_small|cbn; lia].
  - intros ->. split; [cbn; lia|]. split; [cbn; rewrite Nat.add_0_r; by apply Nat.mod_small|cbn; lia].
Qed.
Lemma walk_head poly a b l : (a < length poly)%nat -> a <> b -> walk poly a b l -> exists p l', l = p :: l' /\ poly !! a = Some p.
Proof.
  intros Ha Hne (H1 & H2 & H3). destruct l as [|p l']; [cbn in H2; rewrite Nat.add_0_r, Nat.mod_small in H2 by done; done|]. exists p, l'. split; [done|].
  specialize (H3 0%nat ltac:(cbn; lia)). rewrite Nat.add_0_r, Nat.mod_small in H3 by done. by rewrite <- H3.
Qed.

(** *** the way along a polygon that closes a gap *)
(** the way that a result stands for *)
Definition way_of (polys : list (list pt)) (g : gap_closer) (w : list pt) : Prop :=
  exists poly, polys !! gc_polygon g = Some poly /\ (gc_A g < length poly)%nat /\ (gc_B g < length poly)%nat /\
    (gc_A g = gc_B g -> w = []) /\ (gc_A g <> gc_B g -> if gc_AtoB g then stretch_points poly (gc_A g) (gc_B g) = Ok (reverse w) else stretch_points poly (gc_B g) (gc_A g) = Ok w).
Lemma passes_bound poly i p : passes poly i p -> (i < length poly)%nat.
Proof. intros (pl & p0 & p1 & _ & _ & H & _). by eapply lookup_lt_Some. Qed.
Lemma gap_closer_spec polys ip0 ip1 : Forall (fun poly => poly <> []) polys -> exists r, findPolygonGapCloser polys ip0 ip1 = Ok r /\
  match r with
  | Some g => exists w, gap_way polys ip0 ip1 (gc_polygon g) (gc_A g) (gc_B g) w /\ way_of polys g w /\ gc_len g = travelled ip1 (w ++ [ip0])
  | None => forall n A B w, ~ gap_way polys ip0 ip1 n A B w
  end.
Proof.
  intros Hp. unfold findPolygonGapCloser, numbered. destruct (find_spec ip0 polys Hp 0) as (c1 & E1 & C1). destruct (find_spec ip1 polys Hp 0) as (c2 & E2 & C2). rewrite E1. cbn [rbind]. rewrite E2. cbn [rbind].
  assert (NN : forall c p, match c with Some (n, i) => exists m, n = (0 + m)%nat /\ first_pass polys p m i | None => forall m poly i, polys !! m = Some poly -> ~ passes poly i p end ->
           forall n i, first_pass polys p n i -> c = Some (n, i)).
  { intros c p Hc n i Hf. destruct c as [[n' i']|].
    - destruct Hc as (m & -> & Hf'). destruct (first_pass_unique _ _ _ _ _ _ Hf Hf') as [-> ->]. done.
    - exfalso. destruct Hf as [(poly & H1 & H2 & _) _]. by apply (Hc _ _ _ H1 H2). }
  destruct c1 as [[n a]|]; [|exists None; split; [done|]; intros n A B w (F & _); by discriminate (NN None _ C1 _ _ F)].
  destruct c2 as [[n' b]|]; [|exists None; split; [done|]; intros m A B w (_ & F & _); by discriminate (NN None _ C2 _ _ F)].
  destruct (Nat.eqb_spec n n') as [<-|Hn]; [|exists None; split; [done|]; intros m A B w (F1 & F2 & _); pose proof (NN (Some (n, a)) _ C1 _ _ F1); pose proof (NN (Some (n', b)) _ C2 _ _ F2); congruence].
  destruct C1 as (m & Em & F1). cbn in Em. subst m. destruct C2 as (m & Em & F2). cbn in Em. subst m.
  pose proof F1 as F1'. pose proof F2 as F2'. destruct F1' as [(poly & Hpoly & Pa & _) _]. destruct F2' as [(poly' & Hpoly' & Pb & _) _]. assert (poly' = poly) as -> by congruence. clear Hpoly'.
  apply passes_bound in Pa, Pb. destruct (Nat.eqb_spec a b) as [<-|Hab].
  - eexists. split; [reflexivity|]. exists []. cbn [gc_len gc_polygon gc_A gc_B gc_AtoB]. split; [|split].
    + split; [done|]. split; [done|]. exists poly. split; [done|]. split; [left; by apply walk_same|]. intros w' [H|H].
      * rewrite walk_same in H by done. by subst w'.
      * rewrite walk_same in H by done. apply (f_equal reverse) in H. rewrite reverse_involutive in H. by subst w'.
    + exists poly. done.
    + cbn. rewrite vSize_comm. lia.
  - rewrite Hpoly. cbn [of_opt rbind]. destruct (lookup_lt_is_Some_2 _ _ Pa) as [pa Hpa]. destruct (lookup_lt_is_Some_2 _ _ Pb) as [pb Hpb]. rewrite Hpa, Hpb. cbn [of_opt rbind].
    destruct (stretch_points_spec poly a b Pa Pb) as (ab & Eab & Wab). destruct (stretch_points_spec poly b a Pb Pa) as (ba & Eba & Wba). rewrite Eab. cbn [rbind]. rewrite Eba. cbn [rbind].
    assert (LA : vSize (psub pa ip0) + path_length pa (ab ++ [ip1]) = travelled ip1 (reverse ab ++ [ip0])).
    { rewrite travelled_reverse, path_travelled. destruct (walk_head _ _ _ _ Pa Hab Wab) as (p & l' & -> & Hp'). assert (p = pa) as -> by congruence. cbn [app travelled]. rewrite vSize_same, (vSize_comm pa). lia. }
    assert (LB : vSize (psub pb ip1) + path_length pb (ba ++ [ip0]) = travelled ip1 (ba ++ [ip0])).
    { rewrite path_travelled. destruct (walk_head _ _ _ _ Pb (not_eq_sym Hab) Wba) as (p & l' & -> & Hp'). assert (p = pb) as -> by congruence. cbn [app travelled]. rewrite vSize_same, (vSize_comm pb). lia. }
    assert (Uw : forall w', way poly a b w' -> w' = ba \/ w' = reverse ab).
    { intros w' [H|H]; [left; by eapply walk_unique|right]. rewrite <- (reverse_involutive w'). f_equal. by eapply (walk_unique poly a b). }
    rewrite LA, LB. eexists. split; [reflexivity|]. destruct (Z.ltb_spec (travelled ip1 (reverse ab ++ [ip0])) (travelled ip1 (ba ++ [ip0]))).
    + exists (reverse ab). cbn [gc_len gc_polygon gc_A gc_B gc_AtoB]. split; [|split; [|done]].
      * split; [done|]. split; [done|]. exists poly. split; [done|]. split; [right; by rewrite reverse_involutive|]. intros w' Hw. destruct (Uw w' Hw) as [->| ->]; lia.
      * exists poly. rewrite reverse_involutive. done.
    + exists ba. cbn [gc_len gc_polygon gc_A gc_B gc_AtoB]. split; [|split; [|done]].
      * split; [done|]. split; [done|]. exists poly. split; [done|]. split; [by left|]. intros w' Hw. destruct (Uw w' Hw) as [->| ->]; lia.
      * exists poly. done.
Qed.

(** *** the best pair *)
Lemma gap_way_unique polys ip0 ip1 n A B w n' A' B' w' : gap_way polys ip0 ip1 n A B w -> gap_way polys ip0 ip1 n' A' B' w' ->
  travelled ip1 (w ++ [ip0]) = travelled ip1 (w' ++ [ip0]).
Proof.
  intros (F1 & F2 & poly & Hp & Hw & Hm) (G1 & G2 & poly' & Hp' & Hw' & Hm').
  destruct (first_pass_unique _ _ _ _ _ _ F1 G1) as [<- <-]. destruct (first_pass_unique _ _ _ _ _ _ F2 G2) as [_ <-]. assert (poly' = poly) as -> by congruence.
  specialize (Hm _ Hw'). specialize (Hm' _ Hw). lia.
Qed.
Section best.
  Variables polys lines : list (list pt).
  Hypothesis Hp : Forall (fun poly => poly <> []) polys.
  Definition good (best : option (nat * nat * gap_closer)) : Prop :=
    match best with Some (i, j, g) => exists w, closable polys lines i j (gc_polygon g) (gc_A g) (gc_B g) w (gc_len g) /\ way_of polys g w | None => True end.
  Definition below (best : option (nat * nat * gap_closer)) (i j : nat) : Prop :=
    forall n A B w len, closable polys lines i j n A B w len -> match best with Some (_, g) => gc_len g <= len | None => False end.
  Lemma try_spec best i j : good best -> exists best', try_pair polys lines best (i, j) = Ok best' /\ good best' /\ below best' i j /\ forall i' j', below best i' j' -> below best' i' j'.
  Proof.
    intros Hg. unfold try_pair. cbn [fst snd].
    assert (Dflt : (forall n A B w len, ~ closable polys lines i j n A B w len) -> exists best', Ok best = Ok best' /\ good best' /\ below best' i j /\ forall i' j', below best i' j' -> below best' i' j').
    { intros H. exists best. split; [done|]. split; [done|]. split; [|done]. intros n A B w len Hc. by apply H in Hc. }
    destruct (head (default [] (lines !! i))) as [ip0|] eqn:E0.
    2: { apply Dflt. intros n A B w len (l1 & l2 & q0 & q1 & H1 & H2 & H3 & H4 & _). rewrite H1 in E0. cbn in E0. congruence. }
    destruct (last (default [] (lines !! j))) as [ip1|] eqn:E1.
    2: { apply Dflt. intros n A B w len (l1 & l2 & q0 & q1 & H1 & H2 & H3 & H4 & _). rewrite H2 in E1. cbn in E1. congruence. }
    destruct (lines !! i) as [l1|] eqn:Hi; [|done]. destruct (lines !! j) as [l2|] eqn:Hj; [|done]. cbn in E0, E1.
    assert (Inv : forall n A B w len, closable polys lines i j n A B w len -> gap_way polys ip0 ip1 n A B w /\ len = travelled ip1 (w ++ [ip0])).
    { intros n A B w len (l1' & l2' & q0 & q1 & H1 & H2 & H3 & H4 & H5). assert (l1' = l1) as -> by congruence. assert (l2' = l2) as -> by congruence.
      assert (q0 = ip0) as -> by congruence. assert (q1 = ip1) as -> by congruence. done. }
    destruct (gap_closer_spec polys ip0 ip1 Hp) as (r & Er & Hr). rewrite Er. cbn [rbind]. destruct r as [g|].
    - destruct Hr as (w & Gw & Ww & Gl).
      assert (Gg : good (Some (i, j, g))). { exists w. split; [|done]. exists l1, l2, ip0, ip1. done. }
      assert (Bg : below (Some (i, j, g)) i j). { intros n A B w' len Hc. apply Inv in Hc as [Hc ->]. rewrite Gl. by rewrite (gap_way_unique _ _ _ _ _ _ _ _ _ _ _ Gw Hc). }
      destruct best as [[[bi bj] bg]|].
      + destruct (Z.ltb_spec (gc_len g) (gc_len bg)).
        * exists (Some (i, j, g)). split; [done|]. split; [done|]. split; [done|]. intros i' j' Hb n A B w' len Hc. specialize (Hb _ _ _ _ _ Hc). cbn in Hb. lia.
        * exists (Some (bi, bj, bg)). split; [done|]. split; [done|]. split; [|done]. intros n A B w' len Hc. specialize (Bg _ _ _ _ _ Hc). cbn in Bg. lia.
      + exists (Some (i, j, g)). split; [done|]. split; [done|]. split; [done|]. intros i' j' Hb n A B w' len Hc. by specialize (Hb _ _ _ _ _ Hc).
    - apply Dflt. intros n A B w len Hc. apply Inv in Hc as [Hc _]. by apply Hr in Hc.
  Qed.
  Lemma best_spec pairs : forall best, good best -> exists best', best_pair polys lines best pairs = Ok best' /\ good best' /\ (forall i j, (i, j) ∈ pairs -> below best' i j) /\ forall i' j', below best i' j' -> below best' i' j'.
  Proof.
    induction pairs as [|[i j] pairs IH]; intros best Hg.
    - exists best. split; [done|]. split; [done|]. split; [|done]. intros i j H. by apply elem_of_nil in H.
    - destruct (try_spec best i j Hg) as (b1 & E1 & G1 & B1 & K1). destruct (IH b1 G1) as (b2 & E2 & G2 & B2 & K2). exists b2. cbn [best_pair]. rewrite E1. cbn [rbind].
      split; [done|]. split; [done|]. split; [|intros i' j' H; by apply K2, K1]. intros i' j' H. apply elem_of_cons in H as [H|H]; [injection H as -> ->; by apply K2|by apply B2].
  Qed.
  Lemma all_pairs_elem i j : (i < length lines)%nat -> (j < length lines)%nat -> (i, j) ∈ all_pairs (length lines).
  Proof.
    intros Hi Hj. unfold all_pairs. apply elem_flat_map. exists i. split; [apply elem_of_seq; lia|]. destruct (decide (i = j)) as [->|Hne]; [apply elem_of_list_here|apply elem_of_list_further].
    change (map (pair i)) with (fmap (M := list) (pair i : nat -> nat * nat)). apply elem_of_list_fmap. exists j. split; [done|]. apply elem_of_list_filter. split; [congruence|apply elem_of_seq; lia].
  Qed.
  Lemma round_spec : exists best, best_pair polys lines None (all_pairs (length lines)) = Ok best /\
    match best with
    | None => forall i j n A B w len, ~ closable polys lines i j n A B w len
    | Some (i, j, g) => exists w lines' polys', closable polys lines i j (gc_polygon g) (gc_A g) (gc_B g) w (gc_len g) /\
        (forall i' j' n' A' B' w' len', closable polys lines i' j' n' A' B' w' len' -> gc_len g <= len') /\
        close_gap polys lines i j g = Ok (lines', polys') /\ gap_closed polys lines i j (gc_polygon g) (gc_A g) (gc_B g) w lines' polys'
    end.
  Proof.
    destruct (best_spec (all_pairs (length lines)) None I) as (best & E & G & B & _). exists best. split; [done|].
    assert (B' : forall i j n A B w len, closable polys lines i j n A B w len -> match best with Some (_, g) => gc_len g <= len | None => False end).
    { intros i j n A B0 w len Hc. eapply (B i j); [|done]. destruct Hc as (l1 & l2 & _ & _ & H1 & H2 & _). apply all_pairs_elem; by eapply lookup_lt_Some. }
    destruct best as [[[i j] g]|]; [|done]. destruct G as (w & Hc & poly & Hpoly & HA & HB & We & Wn). exists w.
    pose proof Hc as (l1 & l2 & ip0 & ip1 & H1 & H2 & H3 & H4 & Hw & _). unfold close_gap. rewrite H1, H2, Hpoly. cbn [of_opt rbind].
    assert (Gc : forall lines' polys' x, (i = j -> lines' = <[i := []]> lines /\ polys' = polys ++ [x] /\ (x = l1 ++ w \/ reverse x = l1 ++ w)) ->
       (i <> j -> lines' = <[i := []]> (<[j := l2 ++ w ++ x]> lines) /\ polys' = polys /\ ((walk poly (gc_A g) (gc_B g) (reverse w) /\ x = l1) \/ (gc_A g <> gc_B g /\ walk poly (gc_B g) (gc_A g) w /\ x = reverse l1))) ->
       gap_closed polys lines i j (gc_polygon g) (gc_A g) (gc_B g) w lines' polys').
    { intros lines' polys' x X1 X2. exists l1, l2, poly, x. done. }
    destruct (Nat.eqb_spec (gc_A g) (gc_B g)) as [Eab|Nab].
    - rewrite (We Eab) in *. destruct (Nat.eqb_spec i j) as [Eij|Nij].
      + eexists _, _. split; [done|]. split; [exact B'|]. split; [reflexivity|]. apply (Gc _ _ l1); [|done]. intros _. rewrite app_nil_r. split; [done|]. split; [done|]. by left.
      + eexists _, _. split; [done|]. split; [exact B'|]. split; [reflexivity|]. apply (Gc _ _ l1); [done|]. intros _. split; [done|]. split; [done|]. left. split; [|done].
        rewrite Eab. by apply walk_same.
    - specialize (Wn Nab). destruct (gc_AtoB g) eqn:Eg.
      + assert (Wk : walk poly (gc_A g) (gc_B g) (reverse w)). { destruct (stretch_points_spec poly _ _ HA HB) as (ps & Es & Hs). rewrite Wn in Es. by injection Es as ->. }
        rewrite Wn. cbn [rbind]. destruct (Nat.eqb_spec i j) as [Eij|Nij].
        * eexists _, _. split; [done|]. split; [exact B'|]. split; [reflexivity|]. eapply (Gc _ _ _); [|done]. intros _. split; [done|]. split; [done|]. right. by rewrite reverse_app, !reverse_involutive.
        * eexists _, _. split; [done|]. split; [exact B'|]. split; [reflexivity|]. apply (Gc _ _ l1); [done|]. intros _. rewrite reverse_involutive. split; [done|]. split; [done|]. by left.
      + assert (Wk : walk poly (gc_B g) (gc_A g) w). { destruct (stretch_points_spec poly _ _ HB HA) as (ps & Es & Hs). rewrite Wn in Es. by injection Es as ->. }
        rewrite Wn. cbn [rbind]. destruct (Nat.eqb_spec i j) as [Eij|Nij].
        * eexists _, _. split; [done|]. split; [exact B'|]. split; [reflexivity|]. eapply (Gc _ _ _); [|done]. intros _. split; [done|]. split; [done|]. by left.
        * eexists _, _. split; [done|]. split; [exact B'|]. split; [reflexivity|]. eapply (Gc _ _ (reverse l1)); [done|]. intros _. split; [done|]. split; [done|]. by right.
  Qed.
End best.

(** *** all rounds *)
Definition xflip (x : xpiece) : xpiece := match x with Line i b => Line i (negb b) | Detour l => Detour (reverse l) end.
Section rounds.
  Variables L P : list (list pt).
  Lemma xassemble_app a b : xassemble L (a ++ b) = xassemble L a ++ xassemble L b.
  Proof. unfold xassemble. by rewrite map_app, concat_app. Qed.
  Lemma xpiece_flip x : xpiece_points L (xflip x) = reverse (xpiece_points L x).
  Proof. destruct x as [i b|l]; [|done]. apply (piece_flip L (i, b)). Qed.
  Lemma xassemble_reverse pl : xassemble L (reverse (map xflip pl)) = reverse (xassemble L pl).
  Proof.
    induction pl as [|x pl IH]; [done|]. cbn [map]. rewrite reverse_cons, xassemble_app, IH. change (xassemble L (x :: pl)) with (xpiece_points L x ++ xassemble L pl).
    rewrite reverse_app. f_equal. unfold xassemble. cbn [map concat]. by rewrite app_nil_r, xpiece_flip.
  Qed.
  Lemma flat_map_perm {A B} (f : A -> list B) l l' : l ≡ₚ l' -> flat_map f l ≡ₚ flat_map f l'.
  Proof. induction 1; cbn; [done|by apply Permutation_app_head|rewrite !app_assoc; apply Permutation_app_tail, Permutation_app_comm|by etransitivity]. Qed.
  Lemma xreverse_lines pl : flat_map line_of (reverse (map xflip pl)) ≡ₚ flat_map line_of pl.
  Proof.
    rewrite (flat_map_perm _ _ _ (reverse_Permutation (map xflip pl))). induction pl as [|x pl IH]; [done|]. cbn. destruct x; cbn; [by rewrite IH|done].
  Qed.
  Lemma concat_insert_any {A} (plans : list (list A)) i pl x : plans !! i = Some pl -> concat (<[i := x]> plans) ++ pl ≡ₚ concat plans ++ x.
  Proof.
    intros H. pose proof (take_drop_middle _ _ _ H) as E. rewrite <- E at 2. rewrite insert_take_drop by (by eapply lookup_lt_Some).
    rewrite !concat_app. cbn [concat]. rewrite <- !app_assoc. apply Permutation_app_head. rewrite (Permutation_app_comm (concat (drop (S i) plans)) pl).
    rewrite (Permutation_app_comm (concat (drop (S i) plans)) x). rewrite !app_assoc. apply Permutation_app_tail. apply Permutation_app_comm.
  Qed.
  Definition ok_piece (x : xpiece) : Prop := forall l, x = Detour l -> forall p, p ∈ l -> p ∈ concat P \/ p ∈ concat L.
  Record xinv (plans pplans : list (list xpiece)) (polys lines : list (list pt)) : Prop := {
    x_lines : lines = map (xassemble L) plans;
    x_len : length plans = length L;
    x_polys : polys = P ++ map (xassemble L) pplans;
    x_once : flat_map line_of (concat plans ++ concat pplans) ≡ₚ seq 0 (length L);
    x_ok : forall x, x ∈ concat plans ++ concat pplans -> ok_piece x;
    x_nonempty : Forall (fun poly => poly <> []) polys }.
  Definition live (lines : list (list pt)) : nat := length (List.filter (fun l : list pt => match l with [] => false | _ => true end) lines).
  Lemma live_insert lines i l x : lines !! i = Some l -> (live (<[i := x]> lines) + match l with [] => 0 | _ => 1 end = live lines + match x with [] => 0 | _ => 1 end)%nat.
  Proof.
    intros H. pose proof (take_drop_middle _ _ _ H) as E. rewrite <- E at 2. rewrite insert_take_drop by (by eapply lookup_lt_Some). unfold live. rewrite !List.filter_app, !app_length. cbn.
    destruct l, x; cbn; lia.
  Qed.
  Lemma points_ok pl p : (forall x, x ∈ pl -> ok_piece x) -> p ∈ xassemble L pl -> p ∈ concat P \/ p ∈ concat L.
  Proof.
    intros Hok Hp. unfold xassemble in Hp. apply elem_of_concat_p in Hp as (l & Hpl & Hl). change (map ?f ?a) with (f <$> a) in Hl. apply elem_of_list_fmap in Hl as (x & -> & Hx). destruct x as [i b|l].
    - right. cbn in Hpl. unfold piece_points in Hpl. cbn in Hpl. destruct (L !! i) as [l|] eqn:E; cbn in Hpl; [|by destruct b; apply elem_of_nil in Hpl].
      apply elem_of_concat_p. exists l. split; [destruct b; [change (rev_append l []) with (reverse l) in Hpl; by rewrite elem_of_reverse in Hpl|done]|]. apply elem_of_list_lookup. by exists i.
    - by apply (Hok _ Hx l).
  Qed.
  Lemma walk_points poly a b l p : walk poly a b l -> p ∈ l -> p ∈ poly.
  Proof.
    intros (_ & _ & H) Hp. apply elem_of_list_lookup in Hp as [k Hk]. pose proof (lookup_lt_Some _ _ _ Hk) as Hl. rewrite (H k Hl) in Hk. apply elem_of_list_lookup. by eexists.
  Qed.
  Lemma map_lookup_plan plans i l : map (xassemble L) plans !! i = Some l -> exists pl, plans !! i = Some pl /\ l = xassemble L pl.
  Proof. intros H. apply list_lookup_fmap_Some in H as (pl & H1 & H2). by exists pl. Qed.
  Lemma xinv_step plans pplans polys lines i j n A B w len lines' polys' : xinv plans pplans polys lines ->
    closable polys lines i j n A B w len -> gap_closed polys lines i j n A B w lines' polys' ->
    exists plans' pplans', xinv plans' pplans' polys' lines' /\ (live lines' + 1 = live lines)%nat.
  Proof.
    intros I (l1 & l2 & ip0 & ip1 & H1 & H2 & H3 & H4 & (_ & _ & poly & Hpoly & Hw & _) & _) (l1' & l2' & poly' & x & G1 & G2 & _ & Gs & Gd).
    assert (l1' = l1) as -> by congruence. assert (l2' = l2) as -> by congruence.
    assert (N1 : l1 <> []) by (by destruct l1). assert (N2 : l2 <> []) by (by destruct l2).
    pose proof (x_lines _ _ _ _ I) as El. pose proof H1 as H1'. pose proof H2 as H2'. rewrite El in H1', H2'.
    apply map_lookup_plan in H1' as (p1 & Hp1 & E1). apply map_lookup_plan in H2' as (p2 & Hp2 & E2).
    assert (Okp : forall k pl, plans !! k = Some pl -> forall y, y ∈ pl -> ok_piece y).
    { intros k pl Hk y Hy. apply (x_ok _ _ _ _ I), elem_of_app. left. apply elem_of_concat_p. exists pl. split; [done|]. apply elem_of_list_lookup. by exists k. }
    assert (Okw : ok_piece (Detour w)).
    { intros l [= <-] p Hin. assert (Hpp : p ∈ poly). { destruct Hw as [Hw|Hw]; [by eapply walk_points|]. eapply walk_points; [exact Hw|]. by rewrite elem_of_reverse. }
      rewrite (x_polys _ _ _ _ I) in Hpoly. apply lookup_app_Some in Hpoly as [Hpoly|[_ Hpoly]].
      - left. apply elem_of_concat_p. exists poly. split; [done|]. apply elem_of_list_lookup. by eexists.
      - apply map_lookup_plan in Hpoly as (pp & Hpp' & ->). apply (points_ok pp); [|done]. intros y Hy. apply (x_ok _ _ _ _ I), elem_of_app. right. apply elem_of_concat_p. exists pp. split; [done|]. apply elem_of_list_lookup. by eexists. }
    assert (Okf : forall y, ok_piece y -> ok_piece (xflip y)).
    { intros [k b|l] Hy l' E; [done|]. injection E as <-. intros p Hin. apply (Hy l eq_refl). by rewrite elem_of_reverse in Hin. }
    assert (Okr : forall pl, (forall y, y ∈ pl -> ok_piece y) -> forall y, y ∈ reverse (map xflip pl) -> ok_piece y).
    { intros pl Hpl y Hy. rewrite elem_of_reverse in Hy. change (map xflip pl) with (xflip <$> pl) in Hy. apply elem_of_list_fmap in Hy as (z & -> & Hz). by apply Okf, Hpl. }
    destruct (decide (i = j)) as [Eij|Nij].
    - destruct (Gs Eij) as (-> & -> & Hx). clear Gs Gd. 
      assert (X : exists q, x = xassemble L q /\ (forall y, y ∈ q -> ok_piece y) /\ flat_map line_of q ≡ₚ flat_map line_of p1).
      { assert (E : xassemble L (p1 ++ [Detour w]) = l1 ++ w) by (rewrite xassemble_app, <- E1; unfold xassemble; cbn; by rewrite app_nil_r).
        assert (O : forall y, y ∈ p1 ++ [Detour w] -> ok_piece y).
        { intros y Hy. apply elem_of_app in Hy as [Hy|Hy]; [exact (Okp _ _ Hp1 y Hy)|]. by apply elem_of_list_singleton in Hy as ->. }
        assert (F : flat_map line_of (p1 ++ [Detour w]) = flat_map line_of p1) by (rewrite flat_map_app; cbn; by rewrite app_nil_r).
        destruct Hx as [-> |Hx]; [exists (p1 ++ [Detour w])|exists (reverse (map xflip (p1 ++ [Detour w])))].
        - rewrite E, F. split; [reflexivity|]. split; [exact O|reflexivity].
        - rewrite xassemble_reverse, E, <- Hx, reverse_involutive. split; [done|]. split; [by apply Okr|]. by rewrite xreverse_lines, F. }
      destruct X as (q & Eq & Oq & Fq). exists (<[i := []]> plans), (pplans ++ [q]). split; [constructor|].
      + rewrite El. symmetry. apply (list_fmap_insert (xassemble L)).
      + rewrite insert_length. apply I.
      + rewrite (x_polys _ _ _ _ I), map_app, app_assoc. cbn [map]. by rewrite Eq.
      + rewrite <- (x_once _ _ _ _ I), concat_app. cbn [concat]. rewrite app_nil_r. rewrite !flat_map_app. rewrite Fq.
        pose proof (concat_insert_any plans i p1 [] Hp1) as Pm. rewrite app_nil_r in Pm. apply (flat_map_perm line_of) in Pm. rewrite flat_map_app in Pm. rewrite <- Pm.
        rewrite <- !app_assoc. apply Permutation_app_head, Permutation_app_comm.
      + intros y Hy. rewrite concat_app in Hy. cbn [concat] in Hy. rewrite app_nil_r in Hy. apply elem_of_app in Hy as [Hy|Hy]; [|apply elem_of_app in Hy as [Hy|Hy]; [|by apply Oq]].
        * apply elem_of_concat_p in Hy as (l & Hyl & Hl). apply elem_of_list_lookup in Hl as [k Hk]. destruct (decide (i = k)) as [<-|Nk].
          { rewrite list_lookup_insert in Hk by (by eapply lookup_lt_Some). injection Hk as <-. by apply elem_of_nil in Hyl. }
          rewrite list_lookup_insert_ne in Hk by done. exact (Okp _ _ Hk y Hyl).
        * apply (x_ok _ _ _ _ I), elem_of_app. by right.
      + apply Forall_app. split; [apply I|]. constructor; [|done]. destruct Hx as [-> |Hx]; [by destruct l1|]. intros ->. cbn in Hx. by destruct l1.
      + pose proof (live_insert lines i l1 [] H1) as Hl. destruct l1; [done|]. cbn in Hl. lia.
    - destruct (Gd Nij) as (-> & -> & Hx). clear Gs Gd.
      assert (X : exists q, x = xassemble L q /\ (forall y, y ∈ q -> ok_piece y) /\ flat_map line_of q ≡ₚ flat_map line_of p1).
      { destruct Hx as [[_ ->]|(_ & _ & ->)]; [exists p1; split; [done|]; split; [exact (Okp _ _ Hp1)|reflexivity]|]. exists (reverse (map xflip p1)). rewrite xassemble_reverse, E1. split; [done|]. split; [exact (Okr _ (Okp _ _ Hp1))|apply xreverse_lines]. }
      destruct X as (q & Eq & Oq & Fq). set (joined := p2 ++ [Detour w] ++ q).
      assert (Ej : xassemble L joined = l2 ++ w ++ x). { unfold joined. rewrite !xassemble_app, <- E2, <- Eq. f_equal. f_equal. unfold xassemble. cbn. by rewrite app_nil_r. }
      assert (Pj : (<[j := joined]> plans) !! i = Some p1) by (rewrite list_lookup_insert_ne by congruence; done).
      exists (<[i := []]> (<[j := joined]> plans)), pplans. split; [constructor|].
      + rewrite El, <- Ej. change (map (xassemble L)) with (fmap (M := list) (xassemble L)). by rewrite !list_fmap_insert.
      + rewrite !insert_length. apply I.
      + apply I.
      + rewrite <- (x_once _ _ _ _ I). rewrite !flat_map_app. apply Permutation_app_tail.
        pose proof (concat_insert_any _ i p1 [] Pj) as Pm. rewrite app_nil_r in Pm. pose proof (concat_insert_any plans j p2 joined Hp2) as Pm2.
        apply (flat_map_perm line_of) in Pm, Pm2. rewrite !flat_map_app in Pm, Pm2.
        apply (Permutation_app_inv_r (flat_map line_of p1 ++ flat_map line_of p2)). rewrite app_assoc, Pm, Pm2, flat_map_app. apply Permutation_app_head. unfold joined. rewrite !flat_map_app. cbn [flat_map line_of app].
        rewrite Fq. apply Permutation_app_comm.
      + intros y Hy. apply elem_of_app in Hy as [Hy|Hy]; [|apply (x_ok _ _ _ _ I), elem_of_app; by right].
        apply elem_of_concat_p in Hy as (l & Hyl & Hl). apply elem_of_list_lookup in Hl as [k Hk].
        destruct (decide (i = k)) as [<-|Nk]; [rewrite list_lookup_insert in Hk by (by eapply lookup_lt_Some); injection Hk as <-; by apply elem_of_nil in Hyl|].
        rewrite list_lookup_insert_ne in Hk by done. destruct (decide (j = k)) as [<-|Nk'].
        * rewrite list_lookup_insert in Hk by (by eapply lookup_lt_Some). injection Hk as <-. unfold joined in Hyl. apply elem_of_app in Hyl as [Hyl|Hyl]; [exact (Okp _ _ Hp2 y Hyl)|].
          apply elem_of_app in Hyl as [Hyl|Hyl]; [by apply elem_of_list_singleton in Hyl as ->|by apply Oq].
        * rewrite list_lookup_insert_ne in Hk by done. exact (Okp _ _ Hk y Hyl).
      + apply I.
      + assert (Hl2 : (<[j := l2 ++ w ++ x]> lines) !! i = Some l1) by (rewrite list_lookup_insert_ne by congruence; done).
        pose proof (live_insert _ i l1 [] Hl2) as Hl. pose proof (live_insert lines j l2 (l2 ++ w ++ x) H2) as Hl'. destruct l1; [done|]. destruct l2; [done|]. cbn [app] in *. lia.
  Qed.
  Lemma rounds_spec fuel : forall plans pplans polys lines, xinv plans pplans polys lines -> (live lines < fuel)%nat ->
    exists lines' polys' plans' pplans', stitch_extensive fuel polys lines = Ok (lines', polys') /\ xinv plans' pplans' polys' lines' /\
      (forall i j n A B w len, ~ closable polys' lines' i j n A B w len).
  Proof.
    induction fuel as [|fuel IH]; intros plans pplans polys lines I Hf; [lia|]. cbn [stitch_extensive].
    destruct (round_spec polys lines (x_nonempty _ _ _ _ I)) as (best & Eb & Hb). rewrite Eb. cbn [rbind]. destruct best as [[[i j] g]|].
    - destruct Hb as (w & lines' & polys' & Hc & _ & Ec & Hg). rewrite Ec. cbn [rbind fst snd].
      destruct (xinv_step _ _ _ _ _ _ _ _ _ _ _ _ _ I Hc Hg) as (plans' & pplans' & I' & Hl). apply (IH plans' pplans'); [done|lia].
    - exists lines, polys, plans, pplans. done.
  Qed.
  Lemma xinv_initial : Forall (fun poly => poly <> []) P -> xinv (map (fun i => [Line i false]) (seq 0 (length L))) [] P L.
  Proof.
    intros Hp. constructor.
    - apply list_eq. intros k. change (map (xassemble L) ?l) with (xassemble L <$> l). rewrite list_lookup_fmap. change (map ?f ?l) with (f <$> l). rewrite list_lookup_fmap.
      destruct (decide (k < length L)%nat) as [Hk|Hk].
      + rewrite lookup_seq_lt by done. cbn. unfold xassemble, xpiece_points, piece_points. cbn. rewrite app_nil_r. destruct (lookup_lt_is_Some_2 _ _ Hk) as [l Hl]. by rewrite Hl.
      + rewrite (lookup_ge_None_2 L) by lia. rewrite lookup_ge_None_2; [done|]. rewrite seq_length. lia.
    - by rewrite map_length, seq_length.
    - cbn. by rewrite app_nil_r.
    - cbn [concat]. rewrite app_nil_r. apply reflexive_eq. clear Hp. induction (seq 0 (length L)) as [|x l IH]; [done|]. cbn. by rewrite IH.
    - cbn [concat]. rewrite app_nil_r. intros x Hx l ->. apply elem_of_concat_p in Hx as (pl & H1 & H2). change (map ?f ?l) with (f <$> l) in H2. apply elem_of_list_fmap in H2 as (i & -> & _). by apply elem_of_list_singleton in H1.
    - done.
  Qed.
  Lemma live_bound lines : (live lines <= length lines)%nat.
  Proof. unfold live. induction lines as [|l ls IH]; cbn; [done|]. destruct l; cbn; lia. Qed.
End rounds.
