(** Proofs about the monotonic ordering. *)
From Coq Require Import ZArith QArith Qminmax Lia Lqa.
From stdpp Require Import prelude gmap list sorting.
From Verif Require Import Common Geo_Model Geo_Spec Grid_Model Grid_Proofs Grid_Props Mono_Model Mono_Spec.
Open Scope Z_scope.

Lemma fold_left_inv {A B} (f : A -> B -> A) (Q : A -> Prop) l : forall a,
  Q a -> (forall a b, b ∈ l -> Q a -> Q (f a b)) -> Q (fold_left f l a).
Proof.
  induction l as [|b l IH]; intros a Ha Hs; simpl; [done|].
  apply IH; [apply Hs; [left|done]|]. intros a' b' Hb. apply Hs. by right.
Qed.

Lemma sv_mark m i s b j : sv (mark m i s b) j = if (j =? i)%nat then s else sv m j.
Proof. done. Qed.
Lemma sv_mark_eq m i s b : sv (mark m i s b) i = s.
Proof. rewrite sv_mark, Nat.eqb_refl. done. Qed.
Lemma sv_mark_ne m i s b j : j <> i -> sv (mark m i s b) j = sv m j.
Proof. intros H. rewrite sv_mark. by apply Nat.eqb_neq in H as ->. Qed.

Section proofs.
  Variable L : nat -> list pt.
  Variable v : Q * Q.
  Variable start : pt.
  Variable shuffle : gridmap (pt * nat) -> gridmap (pt * nat).
  Variable walk : list nat -> list nat.
  Hypothesis shuffle_perm : forall g, shuffle g ≡ₚ g.
  Hypothesis walk_perm : forall l, walk l ≡ₚ l.
  Variable P : list nat.
  Hypothesis P_nodup : NoDup P.
  Hypothesis P_size : forall i, i ∈ P -> (2 <= size L i)%nat.

  Notation size := (size L).
  Notation front := (front L).
  Notation back := (back L).
  Notation grid := (line_bucket_grid L shuffle P).
  Notation close_line := (close_line L grid).

  (** The position of an end. *)
  Definition pos (e : nat * bool) : pt := end_point (L e.1) e.2.

  Lemma pos_front i : pos (i, false) = front i. Proof. done. Qed.
  Lemma pos_back i : pos (i, true) = back i. Proof. done. Qed.

  Lemma elem_endpoints f : f ∈ endpoints L P <-> f.2 ∈ P /\ exists x, f.1 = pos (f.2, x).
  Proof.
    unfold endpoints. rewrite elem_of_list_In, in_concat. split.
    - intros (l & Hl & Hf). apply in_map_iff in Hl as (i & <- & Hi). apply elem_of_list_In in Hi.
      pose proof (P_size i Hi) as Hs.
      destruct (Nat.eqb_spec (size i) 0); [lia|]. simpl in Hf. destruct Hf as [<-|[<-|[]]]; simpl; split; try done.
      + exists false. done.
      + exists true. done.
    - intros (Hi & x & Hx). eexists. split; [apply in_map_iff; exists f.2; split; [done|by apply elem_of_list_In]|].
      pose proof (P_size f.2 Hi) as Hs. destruct (Nat.eqb_spec (size f.2) 0); [lia|].
      destruct f as [p i]; simpl in *. subst. destruct x; simpl; [right; left|left]; done.
  Qed.

  Lemma dist2_vSize2 p q : vSize2 (psub p q) = dist2 p q.
  Proof. done. Qed.

  Lemma dist2_sym' p q : dist2 p q = dist2 q p.
  Proof. unfold dist2. ring. Qed.

  Lemma dist2_pos p q : 0 <= dist2 p q.
  Proof. unfold dist2. pose proof (Z.square_nonneg (p.1 - q.1)). pose proof (Z.square_nonneg (p.2 - q.2)). lia. Qed.
  Lemma dist2_zero p q : dist2 p q <= 0 -> p = q.
  Proof.
    unfold dist2. intros H. pose proof (Z.square_nonneg (p.1 - q.1)). pose proof (Z.square_nonneg (p.2 - q.2)).
    assert (E1 : (p.1 - q.1) * (p.1 - q.1) = 0) by lia. assert (E2 : (p.2 - q.2) * (p.2 - q.2) = 0) by lia.
    apply Z.mul_eq_0 in E1, E2. destruct p, q; simpl in *. f_equal; lia.
  Qed.

  Lemma coincide_sym p q : coincide p q -> coincide q p.
  Proof. unfold coincide. by rewrite dist2_sym'. Qed.

  Lemma getNearby_spec e f : f ∈ getNearby cell_size grid e coincident_point_distance -> f ∈ endpoints L P.
  Proof.
    intros Hf.
    destruct (C19_nearby_complete fst cell_size (endpoints L P) grid e coincident_point_distance ltac:(done)) as (w & Hp & _).
    { unfold point_grid, line_bucket_grid. apply shuffle_perm. }
    rewrite Hp in Hf. apply elem_of_list_In, filter_In in Hf as [Hf _]. by apply elem_of_list_In.
  Qed.

  Lemma getNearby_complete e f : f ∈ endpoints L P -> coincide f.1 e -> f ∈ getNearby cell_size grid e coincident_point_distance.
  Proof.
    intros Hf Hd.
    destruct (C19_nearby_complete fst cell_size (endpoints L P) grid e coincident_point_distance ltac:(done)) as (w & Hp & Hc & _).
    { unfold point_grid, line_bucket_grid. apply shuffle_perm. }
    rewrite Hp. apply elem_of_list_In, filter_In. split; [by apply elem_of_list_In|].
    apply Hc; [done|unfold coincident_point_distance; lia|]. unfold coincide in Hd. unfold coincident_point_distance. lia.
  Qed.

  Definition unknown (m : marks) (i : nat) : Prop := sv m i = size i.

  Lemma close_some m e f : close_line m e = Some f ->
    f.2 ∈ P /\ unknown m f.2 /\ (exists x, f.1 = pos (f.2, x)) /\ coincide f.1 e.
  Proof.
    intros H. apply find_some in H as [Hin Hc].
    apply elem_of_list_In, getNearby_spec, elem_endpoints in Hin as [Hp Hx].
    unfold canConnectToPolyline in Hc. apply andb_true_iff in Hc as [H1 H2].
    apply Nat.eqb_eq in H1. apply Z.ltb_lt in H2. rewrite dist2_vSize2 in H2.
    split; [done|split; [done|split; [done|]]]. unfold coincide. unfold coincident_point_distance in H2. lia.
  Qed.

  Lemma close_none m e : close_line m e = None ->
    forall j x, j ∈ P -> coincide (pos (j, x)) e -> ~ unknown m j.
  Proof.
    intros H j x Hj Hc Hu.
    assert (Hin : (pos (j, x), j) ∈ getNearby cell_size grid e coincident_point_distance).
    { apply getNearby_complete; [|done]. apply elem_endpoints. split; [done|]. by exists x. }
    apply elem_of_list_In in Hin. pose proof (find_none _ _ H _ Hin) as Hn.
    unfold canConnectToPolyline in Hn. simpl in Hn. rewrite dist2_vSize2 in Hn.
    unfold unknown in Hu. rewrite Hu, Nat.eqb_refl in Hn. simpl in Hn. apply Z.ltb_ge in Hn.
    unfold coincide in Hc. unfold coincident_point_distance in Hn. lia.
  Qed.

  Lemma vertex_back i : vertex L i (size i - 1) = back i.
  Proof.
    unfold vertex, Mono_Model.back, Mono_Model.size. induction (L i) as [|a l IH]; [done|].
    destruct l as [|b l]; [done|]. simpl in *. replace (length l - 0)%nat with (length l) in IH by lia. done.
  Qed.
  Lemma vertex_front i : vertex L i 0 = front i.
  Proof. unfold vertex, Mono_Model.front. by destruct (L i). Qed.

  (** The far end of a line, seen from one of its ends. *)
  Lemma farthest_spec i x : vertex L i (getFarthestEndpoint L i (pos (i, x))) = pos (i, negb x).
  Proof.
    unfold getFarthestEndpoint. destruct x; simpl negb.
    - rewrite pos_back. rewrite !dist2_vSize2.
      assert (dist2 (back i) (back i) = 0) as -> by (unfold dist2; ring).
      destruct (Z.ltb_spec (dist2 (front i) (back i)) 0) as [H|H].
      + pose proof (dist2_pos (front i) (back i)). lia.
      + rewrite vertex_front. done.
    - rewrite pos_front. rewrite !dist2_vSize2.
      assert (dist2 (front i) (front i) = 0) as -> by (unfold dist2; ring).
      destruct (Z.ltb_spec 0 (dist2 (back i) (front i))) as [H|H].
      + rewrite vertex_back. done.
      + rewrite vertex_front, pos_back. symmetry. by apply dist2_zero.
  Qed.

  Lemma farthest_val i p : getFarthestEndpoint L i p = 0%nat \/ getFarthestEndpoint L i p = (size i - 1)%nat.
  Proof. unfold getFarthestEndpoint. case_match; auto. Qed.

  (** ** Marks are always ends *)
  Definition ends_ok (m : marks) : Prop :=
    forall i, i ∈ P -> sv m i = 0%nat \/ sv m i = (size i - 1)%nat \/ sv m i = size i.

  Lemma ends_ok_mark m i s b : ends_ok m -> s = 0%nat \/ s = (size i - 1)%nat \/ s = size i -> ends_ok (mark m i s b).
  Proof.
    intros H Hs j Hj. rewrite sv_mark. destruct (Nat.eqb_spec j i) as [-> |]; [done|]. by apply H.
  Qed.

  (** How many lines are not part of a string. *)
  Definition unk (m : marks) : nat := length (List.filter (fun i => (sv m i =? size i)%nat) P).

  Lemma unk_mark_le m i s b : s <> size i -> (unk (mark m i s b) <= unk m)%nat.
  Proof.
    intros Hs. unfold unk. generalize P as l. intros l. apply Nat.eqb_neq in Hs. induction l as [|j l IH]; [done|].
    cbn [List.filter]. rewrite sv_mark. destruct (Nat.eqb_spec j i) as [-> |].
    - rewrite Hs. destruct (sv m i =? size i)%nat; cbn [length]; lia.
    - destruct (sv m j =? size j)%nat; cbn [length]; lia.
  Qed.
  Lemma unk_mark_lt m i s b : i ∈ P -> unknown m i -> s <> size i -> (unk (mark m i s b) < unk m)%nat.
  Proof.
    intros Hi Hu Hs. apply elem_of_list_split in Hi as (l1 & l2 & E).
    assert (K : forall l, (length (List.filter (fun i0 => (sv (mark m i s b) i0 =? size i0)%nat) l) <=
        length (List.filter (fun i0 => (sv m i0 =? size i0)%nat) l))%nat).
    { intros l. induction l as [|k l IH]; [done|]. cbn [List.filter]. rewrite sv_mark.
      destruct (Nat.eqb_spec k i) as [-> |].
      - rewrite Hu, Nat.eqb_refl. apply Nat.eqb_neq in Hs as Hs'. rewrite Hs'. cbn [length]; lia.
      - destruct (sv m k =? size k)%nat; cbn [length]; lia. }
    unfold unk. rewrite E, !List.filter_app, !app_length. cbn [List.filter]. rewrite sv_mark_eq.
    apply Nat.eqb_neq in Hs as ->. unfold unknown in Hu. rewrite Hu, Nat.eqb_refl. cbn [length].
    pose proof (K l1). pose proof (K l2). lia.
  Qed.
  Lemma unk_le m : (unk m <= length P)%nat.
  Proof.
    unfold unk. generalize (fun i => (sv m i =? size i)%nat) as f. intros f. generalize P as l0. intros l0.
    induction l0 as [|a l IH]; simpl; [done|]. destruct (f a); simpl; lia.
  Qed.

  (** ** The string of a line, whatever the lines are *)
  Notation grow_front := (grow_front L).
  Notation grow_back := (grow_back L).

  Definition candidate (f : option (pt * nat)) : Prop :=
    forall g, f = Some g -> g.2 ∈ P /\ exists x, g.1 = pos (g.2, x).

  Lemma close_candidate m e : candidate (close_line m e).
  Proof. intros g Hg. apply close_some in Hg. naive_solver. Qed.

  Definition other_marks (R : list nat) (m m' : marks) : Prop := forall j, j ∉ R -> sv m' j = sv m j.

  Lemma grow_front_ok fuel : forall m R e c,
    ends_ok m -> R ⊆ P -> candidate c -> (forall f, c = Some f -> unknown m f.2) -> (unk m <= fuel)%nat ->
    exists m' R' e', grow_front fuel grid m R e c = Ok (m', R', e') /\ ends_ok m' /\ R' ⊆ P /\ other_marks R' m m' /\
      (unk m' <= unk m)%nat /\ R ⊆ R'.
  Proof.
    induction fuel as [|fuel IH]; intros m R e c Hm HR Hc Hu Hf; destruct c as [f|];
      try (simpl; eexists _, _, _; split_and!; [done|done|done|by intros j _|done|done]).
    - exfalso. destruct (Hc f eq_refl) as [Hi _]. specialize (Hu f eq_refl).
      pose proof (unk_mark_lt m f.2 0 false Hi Hu). pose proof (P_size f.2 Hi). lia.
    - destruct (Hc f eq_refl) as [Hi _]. specialize (Hu f eq_refl). cbn [Mono_Model.grow_front].
      set (fv := getFarthestEndpoint L f.2 f.1). set (m1 := mark m f.2 fv _).
      assert (Hfv : fv = 0%nat \/ fv = (size f.2 - 1)%nat) by apply farthest_val.
      pose proof (P_size f.2 Hi) as Hs.
      pose proof (unk_mark_lt m f.2 fv (negb (fv =? 0)%nat) Hi Hu ltac:(lia)) as Hlt. fold m1 in Hlt.
      destruct (IH m1 (f.2 :: R) (vertex L f.2 fv) (close_line m1 (vertex L f.2 fv))) as (m' & R' & e' & E & A & B & C & D & F).
      + apply ends_ok_mark; [done|]. destruct Hfv; auto.
      + intros j Hj. apply elem_of_cons in Hj as [-> |Hj]; [done|by apply HR].
      + apply close_candidate.
      + intros g Hg. apply close_some in Hg. naive_solver.
      + lia.
      + exists m', R', e'. split_and!; [done|done|done| |lia|].
        * intros j Hj. rewrite C by done. unfold m1. apply sv_mark_ne. intros ->. apply Hj, F. left.
        * intros j Hj. apply F. by right.
  Qed.

  Lemma grow_back_ok0 fuel : forall m R e c,
    ends_ok m -> R ⊆ P -> candidate c -> (forall f, c = Some f -> unknown m f.2) -> (unk m <= fuel)%nat ->
    exists m' R' e', grow_back fuel grid m R e c = Ok (m', R', e') /\ ends_ok m' /\ R' ⊆ P /\ other_marks R' m m' /\ R ⊆ R'.
  Proof.
    induction fuel as [|fuel IH]; intros m R e c Hm HR Hc Hu Hf; destruct c as [f|];
      try (simpl; eexists _, _, _; split_and!; [done|done|done|by intros j _|done]).
    - exfalso. destruct (Hc f eq_refl) as [Hi _]. specialize (Hu f eq_refl).
      pose proof (unk_mark_lt m f.2 0 false Hi Hu). pose proof (P_size f.2 Hi). lia.
    - destruct (Hc f eq_refl) as [Hi _]. specialize (Hu f eq_refl). cbn [Mono_Model.grow_back].
      set (fv := getFarthestEndpoint L f.2 f.1). set (s1 := if (fv =? 0)%nat then _ else _). set (m1 := mark m f.2 s1 _).
      assert (Hs1 : s1 = 0%nat \/ s1 = (size f.2 - 1)%nat) by (unfold s1; case_match; auto).
      pose proof (P_size f.2 Hi) as Hs.
      pose proof (unk_mark_lt m f.2 s1 (negb (fv =? 0)%nat) Hi Hu ltac:(lia)) as Hlt. fold m1 in Hlt.
      destruct (IH m1 (R ++ [f.2]) (vertex L f.2 fv) (close_line m1 (vertex L f.2 fv))) as (m' & R' & e' & E & A & B & C & F).
      + apply ends_ok_mark; [done|]. destruct Hs1; auto.
      + intros j Hj. apply elem_of_app in Hj as [Hj|Hj]; [by apply HR|]. apply elem_of_list_singleton in Hj as ->. done.
      + apply close_candidate.
      + intros g Hg. apply close_some in Hg. naive_solver.
      + lia.
      + exists m', R', e'. split_and!; [done|done|done| |].
        * intros j Hj. rewrite C by done. unfold m1. apply sv_mark_ne. intros ->. apply Hj, F.
          apply elem_of_app. right. left.
        * intros j Hj. apply F. apply elem_of_app. by left.
  Qed.

  Lemma grow_back_ok fuel : forall m R e c,
    ends_ok m -> R ⊆ P -> candidate c -> (unk m < fuel)%nat ->
    exists m' R' e', grow_back fuel grid m R e c = Ok (m', R', e') /\ ends_ok m' /\ R' ⊆ P /\ other_marks R' m m' /\ R ⊆ R'.
  Proof.
    intros m R e c Hm HR Hc Hf. destruct fuel as [|fuel]; [lia|].
    destruct c as [f|]; [|simpl; eexists _, _, _; split_and!; [done|done|done|by intros j _|done]].
    destruct (Hc f eq_refl) as [Hi _]. cbn [Mono_Model.grow_back].
    set (fv := getFarthestEndpoint L f.2 f.1). set (s1 := if (fv =? 0)%nat then _ else _). set (m1 := mark m f.2 s1 _).
    assert (Hs1 : s1 = 0%nat \/ s1 = (size f.2 - 1)%nat) by (unfold s1; case_match; auto).
    pose proof (P_size f.2 Hi) as Hs.
    pose proof (unk_mark_le m f.2 s1 (negb (fv =? 0)%nat) ltac:(lia)) as Hle. fold m1 in Hle.
    destruct (grow_back_ok0 fuel m1 (R ++ [f.2]) (vertex L f.2 fv) (close_line m1 (vertex L f.2 fv))) as (m' & R' & e' & E & A & B & C & F).
    - apply ends_ok_mark; [done|]. destruct Hs1; auto.
    - intros j Hj. apply elem_of_app in Hj as [Hj|Hj]; [by apply HR|]. apply elem_of_list_singleton in Hj as ->. done.
    - apply close_candidate.
    - intros g Hg. apply close_some in Hg. naive_solver.
    - lia.
    - exists m', R', e'. split_and!; [done|done|done| |].
      + intros j Hj. rewrite C by done. unfold m1. apply sv_mark_ne. intros ->. apply Hj, F.
        apply elem_of_app. right. left.
      + intros j Hj. apply F. apply elem_of_app. by left.
  Qed.

  Lemma flip_sv m i : sv (flip L m i) i = 0%nat \/ sv (flip L m i) i = (size i - 1)%nat.
  Proof. unfold flip. rewrite sv_mark_eq. case_match; auto. Qed.

  Lemma flips_other R : forall m j, j ∉ R -> sv (fold_left (flip L) R m) j = sv m j.
  Proof.
    induction R as [|i R IH]; intros m j Hj; [done|]. cbn [fold_left]. apply not_elem_of_cons in Hj as [H1 H2].
    rewrite IH by done. unfold flip. by apply sv_mark_ne.
  Qed.
  Lemma flips_in R : forall m j, j ∈ R ->
    sv (fold_left (flip L) R m) j = 0%nat \/ sv (fold_left (flip L) R m) j = (size j - 1)%nat.
  Proof.
    induction R as [|i R IH]; intros m j Hj; [inversion Hj|]. cbn [fold_left].
    destruct (decide (j ∈ R)) as [Hin|Hin]; [by apply IH|].
    apply elem_of_cons in Hj as [-> |Hj]; [|done]. rewrite flips_other by done. apply flip_sv.
  Qed.
  Lemma flips_ok R m : ends_ok m -> ends_ok (fold_left (flip L) R m).
  Proof.
    intros Hm j Hj. destruct (decide (j ∈ R)) as [Hin|Hin].
    - destruct (flips_in R m j Hin); auto.
    - rewrite flips_other by done. by apply Hm.
  Qed.

  Notation findPolylineString := (findPolylineString L v).

  Lemma find_string_ok m i : ends_ok m -> i ∈ P ->
    exists m' R, findPolylineString (length P + 2) grid m i = Ok (m', R) /\ ends_ok m' /\ R ⊆ P /\
      other_marks R m m' /\ i ∈ R.
  Proof.
    intros Hm Hi. unfold Mono_Model.findPolylineString. pose proof (P_size i Hi) as Hs.
    destruct (Nat.eqb_spec (size i) 0); [lia|]. cbv zeta.
    set (m0 := mark m i 0 (bw m i)).
    assert (Hm0 : ends_ok m0) by (apply ends_ok_mark; [done|by left]).
    destruct (grow_front_ok (length P + 2) m0 [i] (front i) (close_line m0 (front i))) as (m1 & R1 & e1 & E1 & A1 & B1 & C1 & D1 & F1).
    { done. } { intros j Hj. apply elem_of_list_singleton in Hj as ->. done. } { apply close_candidate. }
    { intros g Hg. apply close_some in Hg. naive_solver. } { pose proof (unk_le m0). lia. }
    rewrite E1. cbn [rbind].
    destruct (grow_back_ok (length P + 2) m1 R1 (back i) (close_line m0 (back i))) as (m2 & R2 & e2 & E2 & A2 & B2 & C2 & F2).
    { done. } { done. } { apply close_candidate. } { pose proof (unk_le m1). lia. }
    cbn [fst snd]. rewrite E2. cbn [rbind fst snd].
    set (fl := negb _). set (R3 := if fl then rev R2 else R2). set (m3 := if fl then _ else m2).
    assert (HR3 : forall j, j ∈ R3 <-> j ∈ R2).
    { intros j. unfold R3. destruct fl; [|done]. rewrite !elem_of_list_In. symmetry. apply in_rev. }
    assert (Hi3 : i ∈ R3) by (apply HR3, F2, F1; left).
    assert (Hm3 : ends_ok m3) by (unfold m3; destruct fl; [by apply flips_ok|done]).
    assert (Ho3 : other_marks R3 m m3).
    { intros j Hj. assert (j <> i) by (intros ->; done). assert (j ∉ R2) by (by rewrite <- HR3).
      transitivity (sv m2 j); [unfold m3; destruct fl; [by apply flips_other|done]|].
      rewrite C2 by done. rewrite C1 by (intros ?; by apply H0, F2). unfold m0. by apply sv_mark_ne. }
    assert (HP3 : R3 ⊆ P) by (intros j Hj; apply B2; by apply HR3).
    destruct R3 as [|a [|b R3]].
    - inversion Hi3.
    - eexists _, _. split; [reflexivity|]. split_and!; [|done| |done].
      + apply ends_ok_mark; [done|auto].
      + intros j Hj. rewrite sv_mark_ne; [by apply Ho3|]. intros ->. apply Hj. left.
    - eexists _, _. split; [reflexivity|]. done.
  Qed.

  (** ** The string of a line, when no three ends meet *)
  Section strings.
  Hypothesis meet2 : forall a b c : nat * bool, a.1 ∈ P -> b.1 ∈ P -> c.1 ∈ P -> b <> a -> c <> a ->
    coincide (pos b) (pos a) -> coincide (pos c) (pos a) -> b = c.

  (** [D i]: line [i] is connected to a next one already. *)
  Definition pairs_ok (D : nat -> Prop) (m : marks) : Prop :=
    forall a b x y, a ∈ P -> b ∈ P -> a <> b -> coincide (pos (a, x)) (pos (b, y)) ->
      (~ D a /\ ~ D b /\ unknown m a /\ unknown m b) \/ (D a /\ ~ unknown m a) \/ (D b /\ ~ unknown m b).

  Definition Inv (D : nat -> Prop) (i : nat) (m0 m : marks) (R : list nat) (F : list (nat * bool)) : Prop :=
    (forall a, a ∈ R -> a ∈ P /\ ~ unknown m a /\ (a = i \/ unknown m0 a) /\ ~ D a) /\
    (forall a, a ∉ R -> sv m a = sv m0 a) /\
    (forall a x, a ∈ R -> (a, x) ∉ F ->
       exists b y, b ∈ R /\ (b, y) ∉ F /\ (b, y) <> (a, x) /\ coincide (pos (b, y)) (pos (a, x))).

  Lemma step_inv D i mb m0 m R R' (p q : nat * bool) f x s b :
    pairs_ok D mb -> (forall j, j <> i -> sv m0 j = sv mb j) -> i ∈ R ->
    Inv D i m0 m R [p; q] -> p.1 ∈ R -> q.1 ∈ R -> p <> q ->
    f.2 ∈ P -> unknown m f.2 -> f.1 = pos (f.2, x) -> coincide f.1 (pos p) -> s <> size f.2 ->
    (forall j, j ∈ R' <-> j = f.2 \/ j ∈ R) ->
    f.2 ∉ R /\ Inv D i m0 (mark m f.2 s b) R' [(f.2, negb x); q] /\ (f.2, negb x) <> q.
  Proof.
    intros HI2 Hmb HiR (I1 & I2 & I3) Hp Hq Hpq Hf Hu Hx Hc Hs HR'.
    assert (HfR : f.2 ∉ R) by (intros Hin; apply I1 in Hin as (_ & Hk & _); done).
    assert (Hfi : f.2 <> i) by (intros E; apply HfR; by rewrite E).
    assert (Hu0 : unknown m0 f.2) by (unfold unknown in *; by rewrite <- I2).
    assert (Hub : unknown mb f.2) by (unfold unknown in *; rewrite <- Hmb; done).
    assert (Hfq : (f.2, negb x) <> q) by (intros <-; done).
    split; [done|split; [|done]]. split; [|split].
    - intros a Ha. apply HR' in Ha as [-> |Ha].
      + split_and!; [done|unfold unknown; by rewrite sv_mark_eq|by right|].
        destruct p as [h eb]. simpl in Hp. destruct (I1 h Hp) as (HhP & _ & Hh & HhD).
        destruct (HI2 h f.2 eb x HhP Hf) as [(_ & ? & _)|[[? _]|[_ ?]]]; [by intros ->| |done..].
        rewrite <- Hx. by apply coincide_sym.
      + destruct (I1 a Ha) as (H1 & H2 & H3). split_and!; [done| |apply H3|apply H3].
        unfold unknown in *. rewrite sv_mark_ne; [done|]. intros ->. done.
    - intros a Ha. rewrite HR' in Ha. rewrite sv_mark_ne by tauto. apply I2. tauto.
    - intros a y Ha HaF. apply HR' in Ha.
      rewrite not_elem_of_cons, elem_of_list_singleton in HaF. destruct HaF as [HaF1 HaF2].
      destruct (decide (a = f.2)) as [-> |Hna].
      + assert (y = x) as -> by (destruct x, y; simpl in *; congruence).
        destruct p as [h eb]. exists h, eb. simpl in Hp. split_and!.
        * apply HR'. by right.
        * rewrite not_elem_of_cons, elem_of_list_singleton. split; [|done]. intros E. apply HfR. inversion E; by subst.
        * intros E. apply HfR. inversion E; by subst.
        * rewrite <- Hx. by apply coincide_sym.
      + destruct Ha as [? |Ha]; [done|]. destruct (decide ((a, y) = p)) as [Ep|Hnp].
        * exists f.2, x. split_and!.
          -- apply HR'. by left.
          -- rewrite not_elem_of_cons, elem_of_list_singleton. split; [by destruct x|].
             intros E. apply HfR. by rewrite <- E in Hq.
          -- intros E. by inversion E.
          -- rewrite <- Hx, Ep. done.
        * destruct (I3 a y Ha) as (b' & z & Hb & HbF & Hbne & Hbc).
          { rewrite not_elem_of_cons, elem_of_list_singleton. done. }
          exists b', z. split_and!; [apply HR'; by right| |done|done].
          rewrite not_elem_of_cons, elem_of_list_singleton in HbF |- *. split; [|tauto].
          intros E. apply HfR. inversion E; by subst.
  Qed.

  Lemma Inv_swap D i m0 m R p q : Inv D i m0 m R [p; q] -> Inv D i m0 m R [q; p].
  Proof.
    assert (E : forall e : nat * bool, e ∉ [p; q] <-> e ∉ [q; p]).
    { intros e. rewrite !not_elem_of_cons. pose proof (not_elem_of_nil e). tauto. }
    intros (X & Y & Z). split_and!; [done|done|]. intros a x Ha Hn. apply E in Hn.
    destruct (Z a x Ha Hn) as (b & y & ? & Hb & ?). exists b, y. apply E in Hb. done.
  Qed.

  Lemma unknown_back D i m0 m R F : Inv D i m0 m R F -> forall b, unknown m b -> unknown m0 b /\ b ∉ R.
  Proof.
    intros (I1 & I2 & _) b Hb. assert (b ∉ R) by (intros Hin; apply I1 in Hin; tauto).
    split; [|done]. unfold unknown in *. by rewrite <- I2.
  Qed.

  Definition quiet (m : marks) (p : nat * bool) : Prop := forall j y, j ∈ P -> coincide (pos (j, y)) (pos p) -> ~ unknown m j.

  Lemma grow_front_inv D i mb m0 fuel : forall m R p m' R' e',
    pairs_ok D mb -> (forall j, j <> i -> sv m0 j = sv mb j) -> i ∈ R -> hd_error R = Some p.1 ->
    NoDup R -> Inv D i m0 m R [p; (i, true)] -> p.1 ∈ R -> p <> (i, true) ->
    grow_front fuel grid m R (pos p) (close_line m (pos p)) = Ok (m', R', e') ->
    exists p', Inv D i m0 m' R' [p'; (i, true)] /\ p'.1 ∈ R' /\ p' <> (i, true) /\ quiet m' p' /\ NoDup R' /\
      hd_error R' = Some p'.1 /\ e' = pos p' /\ i ∈ R'.
  Proof.
    induction fuel as [|fuel IH]; intros m R p m' R' e' HI2 Hmb Hi Hhd Hnd HI Hp Hpi H;
      destruct (close_line m (pos p)) as [f|] eqn:Ec; cbn [Mono_Model.grow_front] in H; try done.
    1, 3: injection H as <- <- <-; exists p; split_and!; try done; intros j y Hj; by apply (close_none _ _ Ec).
    destruct (close_some _ _ _ Ec) as (Hf & Hu & [x Hx] & Hc).
    pose proof (P_size f.2 Hf) as Hs. pose proof (farthest_val f.2 f.1) as Hfv.
    assert (Hv : vertex L f.2 (getFarthestEndpoint L f.2 f.1) = pos (f.2, negb x)) by (rewrite Hx; apply farthest_spec).
    rewrite Hv in H. set (fv := getFarthestEndpoint L f.2 f.1) in *. clearbody fv.
    destruct (step_inv D i mb m0 m R (f.2 :: R) p (i, true) f x fv (negb (fv =? 0)%nat)) as (S1 & S2 & S3);
      try done; [lia|intros j; by rewrite elem_of_cons|].
    eapply IH in H; try done; [by right|by apply NoDup_cons|left].
  Qed.

  Lemma grow_back_inv D i mb m0 fuel : forall m R p q m' R' e',
    pairs_ok D mb -> (forall j, j <> i -> sv m0 j = sv mb j) -> i ∈ R -> hd_error R = Some p.1 ->
    NoDup R -> Inv D i m0 m R [q; p] -> p.1 ∈ R -> q.1 ∈ R -> q <> p -> quiet m p ->
    grow_back fuel grid m R (pos q) (close_line m (pos q)) = Ok (m', R', e') ->
    exists q', Inv D i m0 m' R' [q'; p] /\ quiet m' p /\ quiet m' q' /\ NoDup R' /\ R ⊆ R' /\ R' <> [].
  Proof.
    induction fuel as [|fuel IH]; intros m R p q m' R' e' HI2 Hmb Hi Hhd Hnd HI Hp Hq Hqp Hqu H;
      destruct (close_line m (pos q)) as [f|] eqn:Ec; cbn [Mono_Model.grow_back] in H; try done.
    1, 3: injection H as <- <- <-; exists q; split_and!; try done; [intros j y Hj; by apply (close_none _ _ Ec)|by destruct R].
    destruct (close_some _ _ _ Ec) as (Hf & Hu & [x Hx] & Hc).
    pose proof (P_size f.2 Hf) as Hs. pose proof (farthest_val f.2 f.1) as Hfv.
    assert (Hv : vertex L f.2 (getFarthestEndpoint L f.2 f.1) = pos (f.2, negb x)) by (rewrite Hx; apply farthest_spec).
    rewrite Hv in H. set (fv := getFarthestEndpoint L f.2 f.1) in *. clearbody fv.
    set (s := if (fv =? 0)%nat then (size f.2 - 1)%nat else 0%nat) in *.
    assert (Hs1 : s <> size f.2) by (unfold s; case_match; lia).
    destruct (step_inv D i mb m0 m R (R ++ [f.2]) q p f x s (negb (fv =? 0)%nat)) as (S1 & S2 & S3);
      try done; [intros j; rewrite elem_of_app, elem_of_list_singleton; tauto|].
    eapply IH in H; try done.
    - destruct H as (q' & K1 & K2 & K3 & K4 & K5 & K6). exists q'. split_and!; try done.
      intros j Hj. apply K5, elem_of_app. by left.
    - apply elem_of_app. by left.
    - by destruct R.
    - apply NoDup_app. split_and!; [done| |apply NoDup_singleton].
      intros j Hj Hj'. apply elem_of_list_singleton in Hj' as ->. done.
    - apply elem_of_app. by left.
    - apply elem_of_app. right. left.
    - intros j y Hj Hcj Huj. apply (Hqu j y Hj Hcj). unfold unknown in *. rewrite sv_mark in Huj.
      destruct (Nat.eqb_spec j f.2) as [-> |]; [done|done].
  Qed.

  (** What the string of a line is. *)
  Definition string_spec (D : nat -> Prop) (i : nat) (m m' : marks) (R : list nat) : Prop :=
    (forall a, a ∈ R -> a ∈ P /\ ~ D a) /\
    (forall a b x y, a ∈ R -> b ∈ P -> a <> b -> coincide (pos (b, y)) (pos (a, x)) -> unknown m b -> b ∈ R) /\
    NoDup (removelast R) /\
    match R with
    | [] => False
    | [a] => a = i /\ unknown m' i
    | _ => forall a, a ∈ R -> ~ unknown m' a
    end.

  Lemma removelast_rev {A} (y : A) l : removelast (y :: l ++ [y]) = y :: l.
  Proof. change (y :: l ++ [y]) with ((y :: l) ++ [y]). apply removelast_last. Qed.

  Lemma NoDup_removelast {A} (l : list A) : NoDup l -> NoDup (removelast l).
  Proof.
    intros H. destruct l as [|a l] using rev_ind; [done|]. rewrite removelast_last.
    by apply NoDup_app in H as [? _].
  Qed.

  Lemma find_string_spec D m i m' R : pairs_ok D m -> i ∈ P -> ~ D i ->
    findPolylineString (length P + 2) grid m i = Ok (m', R) -> string_spec D i m m' R.
  Proof.
    intros HI2 Hi HDi H. unfold Mono_Model.findPolylineString in H. pose proof (P_size i Hi) as Hs.
    destruct (Nat.eqb_spec (size i) 0); [lia|]. cbv zeta in H.
    set (m0 := mark m i 0 (bw m i)) in *.
    assert (Hmb : forall j, j <> i -> sv m0 j = sv m j) by (intros j Hj; unfold m0; by apply sv_mark_ne).
    assert (Hi0 : ~ unknown m0 i) by (unfold unknown, m0; rewrite sv_mark_eq; lia).
    apply rbind_ok in H as ([[m1 R1] e1] & E1 & H). cbn [fst snd] in H.
    apply rbind_ok in H as ([[m2 R2] e2] & E2 & H). cbn [fst snd] in H.
    rewrite <- pos_front in E1.
    destruct (grow_front_inv D i m m0 (length P + 2) m0 [i] (i, false) m1 R1 e1 HI2 Hmb) as (p & I1 & Hp & Hpi & Hqp & Hnd1 & Hhd & _ & Hi1);
      try done; [left|apply NoDup_singleton| |left|].
    { split; [|split].
      - intros a Ha. apply elem_of_list_singleton in Ha as ->. auto.
      - done.
      - intros a x Ha HF. apply elem_of_list_singleton in Ha as ->. exfalso. apply HF.
        destruct x; [right; left|left]. }
    clear E1.
    (* the string before it is possibly turned around *)
    assert (K : (forall a, a ∈ R2 -> a ∈ P /\ ~ unknown m2 a /\ ~ D a) /\ i ∈ R2 /\
      (forall a b x y, a ∈ R2 -> b ∈ P -> a <> b -> coincide (pos (b, y)) (pos (a, x)) -> unknown m b -> b ∈ R2) /\
      (NoDup R2 \/ exists y l, R2 = y :: l ++ [y] /\ NoDup (y :: l))).
    { assert (Hclose : forall m2 R2 q, i ∈ R2 -> Inv D i m0 m2 R2 [q; p] -> quiet m2 p -> quiet m2 q ->
        forall a b x y, a ∈ R2 -> b ∈ P -> a <> b -> coincide (pos (b, y)) (pos (a, x)) -> unknown m b -> b ∈ R2).
      { clear E2 H m2 R2 e2. intros m2 R2 q Hi2 HI Hp' Hq a b x y Ha Hb Hab Hc Hu. destruct HI as (X1 & X2 & X3).
        destruct (decide ((a, x) ∈ [q; p])) as [HF|HF].
        - destruct (decide (b ∈ R2)) as [|Hn]; [done|]. exfalso.
          assert (Hk : unknown m2 b).
          { unfold unknown in *. rewrite X2 by done. unfold m0. rewrite sv_mark_ne; [done|]. intros ->. done. }
          apply elem_of_cons in HF as [HF|HF].
          + rewrite HF in Hc. by apply (Hq b y).
          + apply elem_of_list_singleton in HF. rewrite HF in Hc. by apply (Hp' b y).
        - destruct (X3 a x Ha HF) as (b' & y' & Hb' & _ & Hne & Hc').
          assert (E : (b, y) = (b', y')).
          { apply (meet2 (a, x)); try done; [by apply X1|simpl; by apply X1|]. intros E. inversion E. by subst. }
          inversion E. by subst. }
      destruct (close_line m0 (back i)) as [f|] eqn:Ec.
      2: { replace (length P + 2)%nat with (S (S (length P))) in E2 by (rewrite Nat.add_comm; done). cbn [Mono_Model.grow_back] in E2.
           injection E2 as <- <- <-. pose proof I1 as (J1 & _).
           split_and!; [intros a Ha; destruct (J1 a Ha); tauto|done| |by left].
           eapply (Hclose m1 R1 (i, true)); try done.
           - by apply Inv_swap.
           - intros j y Hj Hcj Huj. apply (close_none _ _ Ec j y); [done|done|].
             by apply (unknown_back _ _ _ _ _ _ I1). }
      destruct (close_some _ _ _ Ec) as (Hf & Hu & [x Hx] & Hc).
      assert (Hfi : f.2 <> i) by (intros E; rewrite E in Hu; done).
      pose proof (P_size f.2 Hf) as Hs2. pose proof (farthest_val f.2 f.1) as Hfv.
      assert (Hv : vertex L f.2 (getFarthestEndpoint L f.2 f.1) = pos (f.2, negb x)) by (rewrite Hx; apply farthest_spec).
      replace (length P + 2)%nat with (S (S (length P))) in E2 by (rewrite Nat.add_comm; done).
      remember (S (length P)) as fuel. cbn [Mono_Model.grow_back] in E2.
      rewrite Hv in E2. set (fv := getFarthestEndpoint L f.2 f.1) in *. clearbody fv.
      set (s := if (fv =? 0)%nat then (size f.2 - 1)%nat else 0%nat) in *.
      assert (Hs1 : s <> size f.2) by (unfold s; destruct (fv =? 0)%nat; clear - Hs2; lia).
      assert (I1' : Inv D i m0 m1 R1 [(i, true); p]).
      { by apply Inv_swap. }
      destruct (decide (f.2 ∈ R1)) as [HfR|HfR].
      - (* a closed chain *)
        assert (Hfp : (f.2, x) = p).
        { destruct (decide ((f.2, x) = p)) as [|Hne]; [done|exfalso].
          destruct I1 as (X & _ & Z). destruct (Z f.2 x HfR) as (b & y & Hb & HbF & Hbne & Hbc).
          { rewrite not_elem_of_cons, elem_of_list_singleton. split; [done|]. intros E. inversion E. done. }
          assert (E : (b, y) = (i, true)).
          { apply (meet2 (f.2, x)); try done; [by apply X|intros E; inversion E; by subst|].
            rewrite <- Hx. by apply coincide_sym. }
          apply HbF. rewrite E. right. left. }
        set (mm := mark m1 f.2 s _) in *.
        assert (Hmm : forall a, a ∈ R1 -> ~ unknown mm a).
        { intros a Ha. unfold unknown, mm. rewrite sv_mark. destruct (Nat.eqb_spec a f.2) as [-> |]; [done|].
          destruct I1 as (X & _). by apply X. }
        assert (Hpart : forall a y, a ∈ R1 -> exists b z, b ∈ R1 /\ (b, z) <> (a, y) /\ coincide (pos (b, z)) (pos (a, y))).
        { intros a y Ha. destruct (decide ((a, y) = p)) as [E|Hne].
          - exists i, true. split_and!; [done|by rewrite E|]. rewrite E, <- Hfp, <- Hx. by apply coincide_sym.
          - destruct (decide ((a, y) = (i, true))) as [E|Hne'].
            + exists f.2, x. split_and!; [done| |]; rewrite E; [intros E'; by inversion E'|by rewrite <- Hx].
            + destruct I1 as (_ & _ & Z). destruct (Z a y Ha) as (b & z & ? & _ & ? & ?); [|by exists b, z].
              rewrite not_elem_of_cons, elem_of_list_singleton. done. }
        assert (Hcl : close_line mm (pos (f.2, negb x)) = None).
        { destruct (close_line mm (pos (f.2, negb x))) as [g|] eqn:Eg; [exfalso|done].
          destruct (close_some _ _ _ Eg) as (Hg & Hgu & [y Hy] & Hgc).
          destruct (Hpart f.2 (negb x) HfR) as (b & z & Hb & Hbne & Hbc).
          assert (Hgn : g.2 ∉ R1) by (intros Hin; by apply (Hmm g.2)).
          destruct I1 as (X & _).
          assert (E : (b, z) = (g.2, y)).
          { apply (meet2 (f.2, negb x)); try done; [by apply X|intros E; apply Hgn; injection E as E1 _; by rewrite E1|by rewrite <- Hy]. }
          apply Hgn. injection E as E1 _. by rewrite <- E1. }
        rewrite Hcl in E2. subst fuel. cbn [Mono_Model.grow_back] in E2. injection E2 as <- <- <-.
        assert (HR2 : forall a, a ∈ R1 ++ [f.2] <-> a ∈ R1).
        { intros a. rewrite elem_of_app, elem_of_list_singleton. split; [intros [?| ->]; done|by left]. }
        split_and!.
        + intros a Ha. apply HR2 in Ha. destruct I1 as (X & _). destruct (X a Ha) as (? & _ & _ & ?). split_and!; auto.
        + by apply HR2.
        + intros a b y z Ha Hb Hab Hcab Hub. apply HR2. apply HR2 in Ha.
          destruct (Hpart a y Ha) as (b' & z' & Hb' & Hne & Hc'). destruct I1 as (X & _).
          assert (E : (b, z) = (b', z')).
          { apply (meet2 (a, y)); try done; [by apply X|simpl; by apply X|intros E; inversion E; by subst]. }
          inversion E. by subst.
        + right. destruct R1 as [|h l]; [done|]. simpl in Hhd. injection Hhd as Hh.
          assert (h = f.2) as -> by (rewrite Hh, <- Hfp; done). by exists f.2, l.
      - assert (Hu1 : unknown m1 f.2).
        { destruct I1 as (_ & Y & _). unfold unknown in *. by rewrite Y. }
        destruct (step_inv D i m m0 m1 R1 (R1 ++ [f.2]) (i, true) p f x s (negb (fv =? 0)%nat)) as (S1 & S2 & S3);
          try done; [intros j; rewrite elem_of_app, elem_of_list_singleton; tauto|].
        set (mm := mark m1 f.2 s _) in *.
        assert (HiR : i ∈ R1 ++ [f.2]) by (apply elem_of_app; by left).
        destruct (grow_back_inv D i m m0 fuel mm (R1 ++ [f.2]) p (f.2, negb x) m2 R2 e2) as (q & K1 & K2 & K3 & K4 & K5 & K6); try done.
        + by destruct R1.
        + apply NoDup_app. split_and!; [done| |apply NoDup_singleton].
          intros j Hj Hj'. apply elem_of_list_singleton in Hj' as ->. done.
        + apply elem_of_app. by left.
        + apply elem_of_app. right. left.
        + intros j y Hj Hcj Huj. apply (Hqp j y Hj Hcj). unfold unknown, mm in *. rewrite sv_mark in Huj.
          destruct (Nat.eqb_spec j f.2) as [-> |]; [done|done].
        + assert (HiR2 : i ∈ R2) by (by apply K5). split_and!; [|done| |by left].
          * intros a Ha. destruct K1 as (X & _). destruct (X a Ha) as (? & ? & _ & ?). done.
          * by eapply (Hclose m2 R2 q). }
    destruct K as (K1 & K2 & K3 & K4). clear E2.
    set (fl := negb _) in H. set (R3 := if fl then rev R2 else R2) in *. set (m3 := if fl then _ else m2) in *.
    assert (HR3 : forall j, j ∈ R3 <-> j ∈ R2).
    { intros j. unfold R3. destruct fl; [|done]. rewrite !elem_of_list_In. symmetry. apply in_rev. }
    assert (Hm3 : forall a, a ∈ R3 -> ~ unknown m3 a).
    { intros a Ha. apply HR3 in Ha as Ha2. destruct (K1 a Ha2) as (HaP & Hk & _). unfold m3. destruct fl; [|done].
      unfold unknown. pose proof (P_size a HaP). destruct (flips_in R3 m2 a Ha); lia. }
    assert (HnD : NoDup (removelast R3)).
    { destruct K4 as [Hn|(y & l & -> & Hn)].
      - apply NoDup_removelast. unfold R3. destruct fl; [|done]. apply NoDup_ListNoDup, NoDup_rev, NoDup_ListNoDup, Hn.
      - unfold R3. destruct fl.
        + simpl. rewrite rev_app_distr. simpl rev at 1. cbn [app]. rewrite removelast_rev.
          apply NoDup_cons in Hn as [Hn1 Hn2]. apply NoDup_cons. split.
          * rewrite elem_of_list_In, <- in_rev, <- elem_of_list_In. done.
          * apply NoDup_ListNoDup, NoDup_rev, NoDup_ListNoDup, Hn2.
        + by rewrite removelast_rev. }
    assert (HRm : m' = match R3 with [a] => mark m3 a (size a) (bw m3 a) | _ => m3 end /\ R = R3).
    { destruct R3 as [|a [|b R3']]; injection H as <- <-; done. }
    destruct HRm as [-> ->]. split_and!.
    - intros a Ha. apply HR3 in Ha. destruct (K1 a Ha) as (? & _ & ?). done.
    - intros a b x y Ha Hb Hab Hc Hu. apply HR3. apply HR3 in Ha. by apply (K3 a b x y).
    - done.
    - destruct R3 as [|a [|b R3']].
      + apply HR3 in K2. inversion K2.
      + apply HR3, elem_of_list_singleton in K2 as ->. split; [done|]. unfold unknown. by rewrite sv_mark_eq.
      + done.
  Qed.
  End strings.

  (** ** Connecting the lines *)
  Inductive reach (k : links) : nat -> Prop :=
  | reach_start a : a ∈ starting k -> reach k a
  | reach_next a b : reach k a -> connections k !! a = Some b -> reach k b.

  Lemma reach_mono k k' : starting k ⊆ starting k' ->
    (forall a b, connections k !! a = Some b -> connections k' !! a = Some b) -> forall a, reach k a -> reach k' a.
  Proof.
    intros HS HE a. induction 1 as [a Ha|a b _ IH E]; [apply reach_start, HS, Ha|].
    apply (reach_next k' a); [done|by apply HE].
  Qed.

  Lemma overlapping_sub adj me l : forall o, o ∈ overlapping L v adj me l -> o ∈ l.
  Proof.
    induction l as [|j l IH]; intros o Ho; [by inversion Ho|]. cbn [overlapping] in Ho.
    destruct (negb _ || negb _); [inversion Ho|]. destruct (_ || _).
    - apply elem_of_cons in Ho as [-> |Ho]; [left|right; by apply IH].
    - right. by apply IH.
  Qed.
  Lemma after_sub i l : forall o, o ∈ after i l -> o ∈ l.
  Proof.
    induction l as [|j l IH]; intros o Ho; [by inversion Ho|]. cbn [after] in Ho.
    destruct (j =? i)%nat; [by right|right; by apply IH].
  Qed.
  Lemma getOverlappingLines_sub i adj o : o ∈ getOverlappingLines L v i P adj -> o ∈ P.
  Proof. intros H. by eapply after_sub, overlapping_sub. Qed.

  Definition links_in (k : links) : Prop :=
    (forall a, a ∈ starting k -> a ∈ P) /\ (forall a, a ∈ connected k -> a ∈ P) /\
    (forall a b, connections k !! a = Some b -> a ∈ P /\ b ∈ P).

  Lemma link_string_spec adj ps r : forall k, r ⊆ P ->
    let k' := link_string L v adj P ps r k in
    (links_in k -> links_in k') /\
    starting k ⊆ starting k' /\
    (forall a, a ∉ removelast r -> connections k' !! a = connections k !! a) /\
    (forall a, a ∈ connected k' <-> a ∈ connected k \/ a ∈ List.tl r) /\
    (NoDup (removelast r) -> forall l1 a b l2, r = l1 ++ a :: b :: l2 -> connections k' !! a = Some b).
  Proof.
    induction r as [|a r IH]; intros k Hr; cbn zeta.
    - split_and!; [done|done|done|intros a; split; [by left|intros [?|H]; [done|inversion H]]|].
      intros _ l1 ? ? ? E. by destruct l1.
    - destruct r as [|b r].
      + split_and!; [done|done|done|intros c; split; [by left|intros [?|H]; [done|inversion H]]|].
        intros _ l1 ? ? ? E. destruct l1 as [|? [|]]; done.
      + cbn [link_string]. set (over := List.filter _ _). set (s' := match over with [] => _ | _ => _ end).
        set (k1 := Links _ s' _).
        assert (Ha : a ∈ P) by (apply Hr; left). assert (Hb : b ∈ P) by (apply Hr; right; left).
        assert (Hs' : starting k ⊆ s') by (unfold s'; destruct over; [done|set_solver +]).
        assert (Hin : links_in k -> links_in k1).
        { intros (X & Y & Z). split_and!; unfold k1; cbn [starting connected connections].
          - intros c Hc. assert (Hc' : c ∈ starting k \/ c = b \/ c ∈ over).
            { unfold s' in Hc. destruct over; [by left|]. rewrite !elem_of_union, elem_of_singleton, elem_of_list_to_set in Hc. tauto. }
            destruct Hc' as [?|[-> |Ho]]; [by apply X|done|].
            unfold over in Ho. apply elem_of_list_In, filter_In in Ho as [Ho _].
            apply elem_of_list_In in Ho. by eapply getOverlappingLines_sub.
          - intros c Hc. apply elem_of_union in Hc as [Hc|Hc]; [apply elem_of_singleton in Hc as ->; done|by apply Y].
          - intros c d Hc. destruct (decide (c = a)) as [-> |Hn].
            + rewrite lookup_insert in Hc. by injection Hc as <-.
            + rewrite lookup_insert_ne in Hc by done. by apply Z. }
        destruct (IH k1) as (A & B & C & D & F); [intros c Hc; apply Hr; by right|].
        cbn [removelast] in *. cbn [List.tl] in *.
        assert (EC : forall c, c ∉ a :: removelast (b :: r) ->
          connections (link_string L v adj P ps (b :: r) k1) !! c = connections k !! c).
        { intros c Hc. apply not_elem_of_cons in Hc as [Hc1 Hc2]. rewrite C by done. unfold k1. cbn.
          by rewrite lookup_insert_ne. }
        split_and!.
        * intros Hk. by apply A, Hin.
        * etransitivity; [exact Hs'|]. exact B.
        * exact EC.
        * intros c. rewrite D. unfold k1. cbn [connected]. rewrite elem_of_union, elem_of_singleton, elem_of_cons. tauto.
        * intros Hnd l1 a' b' l2 E. apply NoDup_cons in Hnd as [Hn1 Hn2].
          destruct l1 as [|? l1].
          -- injection E as <- <- <-. rewrite C by done. unfold k1. cbn. by rewrite lookup_insert.
          -- injection E as <- E. by apply (F Hn2 l1 a' b' l2).
  Qed.

  Lemma link_single_in adj i k : i ∈ P -> links_in k -> links_in (link_single L v adj P i k).
  Proof.
    intros Hi (X & Y & Z). unfold link_single. set (s' := if bool_decide _ then _ else _).
    assert (Hs' : forall a, a ∈ s' -> a ∈ P).
    { intros a Ha. unfold s' in Ha. case_bool_decide; [by apply X|]. apply elem_of_union in Ha as [Ha|Ha]; [|by apply X].
      apply elem_of_singleton in Ha as ->. done. }
    pose proof (fun o => getOverlappingLines_sub i adj o) as Ho.
    destruct (getOverlappingLines L v i P adj) as [|o [|o' os]].
    - split_and!; [|done|done]. intros a Ha. cbn in Ha. apply elem_of_union in Ha as [Ha|Ha]; [by apply elem_of_empty in Ha|auto].
    - assert (Hoi : o ∈ P) by (apply Ho; left).
      assert (HE : forall a b, <[i:=o]> (connections k) !! a = Some b -> a ∈ P /\ b ∈ P).
      { intros a b Hab. destruct (decide (a = i)) as [-> |].
        - rewrite lookup_insert in Hab. by injection Hab as <-.
        - rewrite lookup_insert_ne in Hab by done. by apply Z. }
      case_bool_decide; split_and!; cbn; try done.
      + intros a Ha. apply elem_of_union in Ha as [Ha|Ha]; [apply elem_of_singleton in Ha as ->; done|auto].
      + intros a Ha. apply elem_of_union in Ha as [Ha|Ha]; [apply elem_of_singleton in Ha as ->; done|auto].
    - split_and!; [|done|done]. intros a Ha. cbn [starting] in Ha. apply elem_of_union in Ha as [Ha|Ha]; [|auto].
      apply elem_of_list_to_set in Ha. by apply Ho.
  Qed.

  Definition gen_ok (m0 : marks) (s : marks * links) : Prop :=
    ends_ok s.1 /\ links_in s.2 /\ forall j, j ∉ P -> sv s.1 j = sv m0 j.

  Lemma link_line_ok adj m0 s i : gen_ok m0 s -> i ∈ P ->
    exists s', link_line L v grid adj P s i = Ok s' /\ gen_ok m0 s'.
  Proof.
    intros (A & B & C) Hi. unfold link_line. case_bool_decide; [by exists s|].
    destruct (find_string_ok s.1 i A Hi) as (m' & R & E & HA & HR & Ho & HiR). rewrite E. cbn [rbind fst snd].
    assert (Hm' : forall j, j ∉ P -> sv m' j = sv m0 j).
    { intros j Hj. rewrite Ho by (intros Hin; apply Hj; by apply HR). by apply C. }
    destruct R as [|a [|b R]].
    - inversion HiR.
    - eexists. split; [done|]. split_and!; [done|by apply link_single_in|done].
    - eexists. split; [done|]. split_and!; [done| |done]. cbn [snd].
      apply (link_string_spec adj (a :: b :: R) (a :: b :: R)); [done|].
      destruct B as (X & Y & Z). split_and!; [|done|done]. intros c Hc. cbn in Hc.
      apply elem_of_union in Hc as [Hc|Hc]; [|auto]. apply elem_of_singleton in Hc as ->. apply HR. left.
  Qed.

  Lemma link_lines_ok adj m0 l : forall s, gen_ok m0 s -> l ⊆ P ->
    exists s', link_lines L v grid adj P s l = Ok s' /\ gen_ok m0 s'.
  Proof.
    induction l as [|i l IH]; intros s Hs Hl; [by exists s|]. cbn [link_lines].
    destruct (link_line_ok adj m0 s i Hs) as (s1 & E & Hs1); [apply Hl; left|]. rewrite E. cbn [rbind].
    apply IH; [done|]. intros j Hj. apply Hl. by right.
  Qed.

  Section reaching.
  Hypothesis meet2 : forall a b c : nat * bool, a.1 ∈ P -> b.1 ∈ P -> c.1 ∈ P -> b <> a -> c <> a ->
    coincide (pos b) (pos a) -> coincide (pos c) (pos a) -> b = c.

  Definition linked (k : links) (a : nat) : Prop := is_Some (connections k !! a).
  Definition reach_ok (done : list nat) (s : marks * links) : Prop :=
    pairs_ok (linked s.2) s.1 /\
    forall a, a ∈ done \/ a ∈ connected s.2 \/ linked s.2 a -> reach s.2 a.

  Lemma elem_removelast (R : list nat) a : a ∈ R -> List.last R 0%nat <> a -> a ∈ removelast R.
  Proof.
    destruct R as [|b R] using rev_ind; intros Ha Hl; [inversion Ha|]. rewrite removelast_last.
    rewrite last_last in Hl. apply elem_of_app in Ha as [Ha|Ha]; [done|]. apply elem_of_list_singleton in Ha as ->. done.
  Qed.
  Lemma removelast_sub (R : list nat) a : a ∈ removelast R -> a ∈ R.
  Proof.
    destruct R as [|b R] using rev_ind; [done|]. rewrite removelast_last. intros Ha. apply elem_of_app. by left.
  Qed.

  Lemma link_line_reach adj m0 s i s' dn : gen_ok m0 s -> i ∈ P -> reach_ok dn s ->
    link_line L v grid adj P s i = Ok s' -> reach_ok (dn ++ [i]) s'.
  Proof.
    intros (HA & HB & HC) Hi (HP & HR) H. unfold link_line in H. case_bool_decide as HD.
    { injection H as <-. split; [done|]. intros a [Ha|Ha]; [|apply HR; tauto].
      apply elem_of_app in Ha as [Ha|Ha]; [apply HR; tauto|]. apply elem_of_list_singleton in Ha as ->. apply HR; auto. }
    destruct (find_string_ok s.1 i HA Hi) as (m' & R & E & _ & HRP & Ho & HiR). rewrite E in H. cbn [rbind fst snd] in H.
    destruct (find_string_spec meet2 (linked s.2) s.1 i m' R HP Hi HD E) as (S1 & S2 & S3 & S4).
    destruct R as [|a [|b R]]; [done| |].
    - destruct S4 as [-> Hui]. injection H as <-. cbn [fst snd].
      assert (HL : forall c, linked s.2 c -> linked (link_single L v adj P i s.2) c).
      { intros c Hc. unfold linked, link_single in *. destruct (getOverlappingLines L v i P adj) as [|o [|o' os]]; try done.
        assert (c <> i) by (intros ->; done). case_bool_decide; cbn; by rewrite lookup_insert_ne. }
      split.
      + intros c d x y Hc Hd Hcd Hcc.
        assert (Hne : forall e, e <> i -> unknown m' e <-> unknown s.1 e).
        { intros e He. unfold unknown. rewrite Ho; [done|]. by rewrite elem_of_list_singleton. }
        assert (K : forall c d x y, c ∈ P -> d ∈ P -> c <> d -> coincide (pos (c, x)) (pos (d, y)) -> c = i ->
                    linked (link_single L v adj P i s.2) d /\ ~ unknown m' d).
        { clear c d x y Hc Hd Hcd Hcc. intros c d x y Hc Hd Hcd Hcc ->.
          destruct (HP i d x y Hc Hd Hcd Hcc) as [(_ & _ & _ & Hud)|[[? _]|[Hld Hud]]]; [|done|].
          - exfalso. apply Hcd. symmetry. apply elem_of_list_singleton. apply (S2 i d x y); [left|done|done|by apply coincide_sym|done].
          - split; [by apply HL|]. rewrite Hne; [done|]. by intros ->. }
        destruct (decide (c = i)) as [Hci|Hci].
        { right. right. apply (K c d x y); done. }
        destruct (decide (d = i)) as [Hdi|Hdi].
        { right. left. apply (K d c y x); try done. by apply coincide_sym. }
        assert (HL' : forall e, e <> i -> linked (link_single L v adj P i s.2) e <-> linked s.2 e).
        { intros e He. unfold linked, link_single in *. destruct (getOverlappingLines L v i P adj) as [|o [|o' os]]; try done.
          case_bool_decide; cbn; by rewrite lookup_insert_ne. }
        rewrite !HL', !Hne by done. by apply (HP c d x y).
      + assert (HS : starting s.2 ⊆ starting (link_single L v adj P i s.2)).
        { unfold link_single. destruct (getOverlappingLines L v i P adj) as [|o [|o' os]]; repeat case_bool_decide; cbn [starting]; set_solver +. }
        assert (HE : forall c d, connections s.2 !! c = Some d -> connections (link_single L v adj P i s.2) !! c = Some d).
        { intros c d Hcd. unfold link_single. destruct (getOverlappingLines L v i P adj) as [|o [|o' os]]; try done.
          assert (c <> i) by (intros ->; apply HD; by exists d). case_bool_decide; cbn; by rewrite lookup_insert_ne. }
        pose proof (reach_mono _ _ HS HE) as Hmono.
        assert (Hii : reach (link_single L v adj P i s.2) i).
        { destruct (decide (i ∈ connected s.2)) as [Hc|Hc]; [apply Hmono, HR; auto|].
          apply reach_start. unfold link_single. rewrite (bool_decide_eq_false_2 _ Hc).
          destruct (getOverlappingLines L v i P adj) as [|o [|o' os]]; repeat case_bool_decide; cbn [starting]; set_solver +. }
        intros c Hc.
        assert (Hc' : c ∈ dn \/ c ∈ connected s.2 \/ linked s.2 c \/ c = i \/
          connections (link_single L v adj P i s.2) !! i = Some c).
        { destruct Hc as [Hc|[Hc|Hc]].
          - apply elem_of_app in Hc as [Hc|Hc]; [auto|]. apply elem_of_list_singleton in Hc as ->. auto.
          - revert Hc. unfold link_single. destruct (getOverlappingLines L v i P adj) as [|o [|o' os]]; cbn; auto.
            case_bool_decide; cbn; [auto|]. rewrite lookup_insert. intros Hc.
            apply elem_of_union in Hc as [Hc|Hc]; [apply elem_of_singleton in Hc as ->; auto 10|auto].
          - destruct (decide (c = i)) as [-> |Hn]; [auto 10|]. right; right; left. revert Hc.
            unfold linked, link_single. destruct (getOverlappingLines L v i P adj) as [|o [|o' os]]; try done.
            case_bool_decide; cbn; by rewrite lookup_insert_ne. }
        destruct Hc' as [?|[?|[?|[-> |?]]]]; [apply Hmono, HR; auto..|done|]. by apply (reach_next _ i).
    - set (RR := a :: b :: R) in *.
      set (k0 := Links (connected s.2) ({[a]} ∪ starting s.2) (connections s.2)) in *.
      assert (Es' : s' = (m', link_string L v adj P RR RR k0)) by congruence. rewrite Es'. clear H Es' s'.
      unfold reach_ok. cbn [fst snd].
      destruct (link_string_spec adj RR RR k0 HRP) as (_ & B1 & B2 & B3 & B4). specialize (B4 S3).
      set (k' := link_string L v adj P RR RR k0) in *.
      assert (HL : forall c, linked k' c <-> linked s.2 c \/ c ∈ removelast RR).
      { intros c. unfold linked. destruct (decide (c ∈ removelast RR)) as [Hin|Hin].
        - split; [by right|]. intros _. 
          assert (Hsp : exists l1 d l2, RR = l1 ++ c :: d :: l2).
          { clear - Hin. destruct RR as [|z l] using rev_ind; [inversion Hin|]. rewrite removelast_last in Hin.
            apply elem_of_list_split in Hin as (l1 & l2 & ->). destruct l2 as [|d l2].
            - exists l1, z, []. by rewrite <- app_assoc.
            - exists l1, d, (l2 ++ [z]). by rewrite <- app_assoc. }
          destruct Hsp as (l1 & d & l2 & Hsp). exists d. by apply (B4 l1 c d l2).
        - rewrite B2 by done. change (connections k0) with (connections s.2). tauto. }
      assert (HS : starting s.2 ⊆ starting k') by (etransitivity; [|exact B1]; unfold k0; cbn [starting]; set_solver +).
      assert (HE : forall c d, connections s.2 !! c = Some d -> connections k' !! c = Some d).
      { intros c d Hcd. rewrite B2; [done|]. intros Hin. apply removelast_sub in Hin. apply S1 in Hin as [_ Hin].
        apply Hin. by exists d. }
      pose proof (reach_mono _ _ HS HE) as Hmono.
      assert (Hstr : forall c, c ∈ RR -> reach k' c).
      { assert (G : forall l2 l1 c, RR = l1 ++ c :: l2 -> reach k' c -> forall d, d ∈ l2 -> reach k' d).
        { induction l2 as [|e l2 IH]; intros l1 c Eq Hc d Hd; [inversion Hd|].
          assert (He : reach k' e) by (apply (reach_next _ c); [done|by apply (B4 l1 c e l2)]).
          apply elem_of_cons in Hd as [-> |Hd]; [done|].
          apply (IH (l1 ++ [c]) e); [by rewrite <- app_assoc|done|done]. }
        assert (Ha : reach k' a) by (apply reach_start, B1; unfold k0; cbn; set_solver).
        intros c Hc. apply elem_of_cons in Hc as [-> |Hc]; [done|]. by apply (G (b :: R) [] a). }
      split.
      + intros c d x y Hc Hd Hcd Hcc.
        assert (Hne : forall e, e ∉ RR -> (unknown m' e <-> unknown s.1 e) /\ (linked k' e <-> linked s.2 e)).
        { intros e He. split; [unfold unknown; by rewrite Ho|]. rewrite HL. split; [intros [?|Hin]; [done|]|by left].
          by apply removelast_sub in Hin. }
        assert (Hlk : forall e, linked s.2 e -> ~ unknown s.1 e -> linked k' e /\ ~ unknown m' e).
        { intros e He Hu. assert (e ∉ RR) by (intros Hin; apply S1 in Hin; tauto). split; [apply HL; by left|].
          destruct (Hne e) as [-> _]; done. }
        destruct (HP c d x y Hc Hd Hcd Hcc) as [(Hlc & Hld & Huc & Hud)|[[? ?]|[? ?]]];
          [|right; left; by apply Hlk|right; right; by apply Hlk].
        assert (Hin : c ∈ RR <-> d ∈ RR).
        { split; intros Hin.
          - apply (S2 c d x y); [done|done|done|by apply coincide_sym|done].
          - apply (S2 d c y x); [done|done|done|done|done]. }
        destruct (decide (c ∈ RR)) as [Hcin|Hcin].
        * apply Hin in Hcin as Hdin.
          destruct (decide (List.last RR 0%nat = c)) as [El|El].
          -- right. right. split; [apply HL; right|by apply S4]. apply elem_removelast; [done|]. by rewrite El.
          -- right. left. split; [apply HL; right|by apply S4]. by apply elem_removelast.
        * left. destruct (Hne c Hcin) as [-> ->]. destruct (Hne d) as [-> ->]; [by rewrite <- Hin|]. done.
      + intros c [Hc|[Hc|Hc]].
        * apply elem_of_app in Hc as [Hc|Hc]; [apply Hmono, HR; auto|].
          apply elem_of_list_singleton in Hc as ->. by apply Hstr.
        * apply B3 in Hc as [Hc|Hc]; [apply Hmono, HR; auto|]. apply Hstr. by right.
        * apply HL in Hc as [Hc|Hc]; [apply Hmono, HR; auto|]. apply Hstr. by apply removelast_sub.
  Qed.

  Lemma link_lines_reach adj m0 l : forall s dn s', gen_ok m0 s -> l ⊆ P -> reach_ok dn s ->
    link_lines L v grid adj P s l = Ok s' -> reach_ok (dn ++ l) s'.
  Proof.
    induction l as [|i l IH]; intros s dn s' Hg Hl Hr H.
    - injection H as <-. by rewrite app_nil_r.
    - cbn [link_lines] in H. apply rbind_ok in H as (s1 & E1 & H).
      assert (Hi : i ∈ P) by (apply Hl; left).
      destruct (link_line_ok adj m0 s i Hg Hi) as (s1' & E1' & Hg1). rewrite E1 in E1'. injection E1' as <-.
      replace (dn ++ i :: l) with ((dn ++ [i]) ++ l) by (by rewrite <- app_assoc).
      eapply IH; [exact Hg1| |exact (link_line_reach adj m0 s i s1 dn Hg Hi Hr E1)|done]. intros j Hj. apply Hl. by right.
  Qed.

  (** In the end every line can be reached from one of the starting lines. *)
  Lemma link_all_reach adj m s' : (forall i, i ∈ P -> unknown m i) ->
    link_lines L v grid adj P (m, Links ∅ ∅ ∅) P = Ok s' -> forall i, i ∈ P -> reach s'.2 i.
  Proof.
    intros Hm H i Hi.
    assert (Hg : gen_ok m (m, Links ∅ ∅ ∅)).
    { split; [|split; [|done]].
      - intros j Hj. right. right. by apply Hm.
      - split; [|split].
        + intros a Ha. cbn in Ha. apply elem_of_empty in Ha. done.
        + intros a Ha. cbn in Ha. apply elem_of_empty in Ha. done.
        + intros a b Hab. cbn in Hab. rewrite lookup_empty in Hab. done. }
    destruct (link_lines_reach adj m P (m, Links ∅ ∅ ∅) [] s' Hg ltac:(done)) as [_ HR]; [|done|].
    - split.
      + intros a b x y Ha Hb _ _. left. split; [|split; [|split; [by apply Hm|by apply Hm]]];
          intros [? E]; cbn in E; rewrite lookup_empty in E; done.
      + intros a [Ha|[Ha|[? Ha]]]; cbn in Ha; [inversion Ha|apply elem_of_empty in Ha; done|rewrite lookup_empty in Ha; done].
    - apply HR. by left.
  Qed.
  End reaching.

  (** ** Printing *)
  Hypothesis near_lines : forall i p, i ∈ P -> p ∈ L i -> near_origin p.

  Lemma near_vertex i k : i ∈ P -> near_origin (vertex L i k).
  Proof.
    intros Hi. unfold vertex. destruct (nth_in_or_default k (L i) (0, 0)) as [H| ->].
    - apply (near_lines i); [done|by apply elem_of_list_In].
    - unfold near_origin. simpl. lia.
  Qed.

  Lemma dist_bound p q : near_origin p -> near_origin q -> vSize2 (psub p q) < coord_max.
  Proof.
    intros [A B] [C D]. unfold vSize2, psub, coord_max. simpl.
    assert (Z.abs (p.1 - q.1) <= 2000000000) by lia. assert (Z.abs (p.2 - q.2) <= 2000000000) by lia.
    assert (K : forall z, Z.abs z <= 2000000000 -> z * z <= 4000000000000000000).
    { intros z Hz. rewrite <- Z.abs_square. pose proof (Z.abs_nonneg z).
      change 4000000000000000000 with (2000000000 * 2000000000). apply Z.mul_le_mono_nonneg; lia. }
    pose proof (K _ H). pose proof (K _ H0). lia.
  Qed.

  Lemma closest_inv here l : near_origin here -> (forall i, i ∈ l -> i ∈ P) -> forall best,
    best = (None, coord_max) \/ (exists i b, best.1 = Some (i, b)) ->
    (l = [] /\ fold_left (closest_step L here) l best = best) \/
    (exists i b, (fold_left (closest_step L here) l best).1 = Some (i, b) /\ (i ∈ l \/ best.1 = Some (i, b))).
  Proof.
    intros Hh. induction l as [|j l IH]; intros Hl best Hb; [by left|right].
    cbn [fold_left]. set (b1 := closest_step L here best j).
    assert (Hj : j ∈ P) by (apply Hl; left).
    assert (Hb1 : exists i b, b1.1 = Some (i, b) /\ (i = j \/ best.1 = Some (i, b))).
    { unfold b1, closest_step.
      pose proof (dist_bound here (front j) Hh) as D1. rewrite <- vertex_front in D1. specialize (D1 (near_vertex j _ Hj)).
      rewrite vertex_front in D1.
      destruct Hb as [-> |(i & b & Hb)]; cbn [fst snd].
      - apply Z.ltb_lt in D1. rewrite D1. cbn [fst snd]. case_match; eauto.
      - destruct (_ <? best.2); cbn [fst snd]; destruct (_ <? _); cbn [fst snd]; eauto 10. }
    destruct Hb1 as (i & b & E & Hib).
    destruct (IH ltac:(intros i' Hi'; apply Hl; by right) b1) as [[-> E2]|(i2 & b2 & E2 & H2)]; [eauto|..].
    - rewrite E2. exists i, b. split; [done|]. destruct Hib as [-> |?]; [left; left|by right].
    - exists i2, b2. split; [done|]. destruct H2 as [H2|H2]; [left; by right|].
      rewrite E in H2. injection H2 as <- <-. destruct Hib as [-> |?]; [left; left|by right].
  Qed.

  Lemma row_sub first l i : i ∈ row L v first l -> i ∈ l.
  Proof.
    induction l as [|j l IH]; intros Hi; [by inversion Hi|]. cbn [row] in Hi. destruct (key_lt _ _); [by inversion Hi|].
    apply elem_of_cons in Hi as [-> |Hi]; [left|right; by apply IH].
  Qed.
  Lemma key_lt_irrefl a : key_lt a a = false.
  Proof. unfold key_lt. rewrite !Z.ltb_irrefl, andb_false_r. done. Qed.

  Definition plan_id (x : planned) : nat := x.1.1.
  Definition plan_ok (x : planned) : Prop := x.1.1 ∈ P /\ (x.1.2 = 0%nat \/ x.1.2 = (size x.1.1 - 1)%nat).

  Fixpoint path (k : links) (a : nat) (c : list nat) : Prop :=
    match c with
    | [] => True
    | b :: c => connections k !! a = Some b /\ b ∉ starting k /\ path k b c
    end.

  Lemma setStart_ok m i b : ends_ok m -> ends_ok (setStartVertex L m i b) /\
    (sv (setStartVertex L m i b) i = 0%nat \/ sv (setStartVertex L m i b) i = (size i - 1)%nat) /\
    (forall j, j <> i -> sv (setStartVertex L m i b) j = sv m j).
  Proof.
    intros Hm. unfold setStartVertex. destruct b.
    - split_and!; [apply ends_ok_mark; auto|rewrite sv_mark_eq; auto|intros; by apply sv_mark_ne].
    - split_and!; [apply ends_ok_mark; auto|rewrite sv_mark_eq; auto|intros; by apply sv_mark_ne].
  Qed.

  Lemma follow_ok k : links_in k -> forall fuel m here checked line reordered,
    ends_ok m -> near_origin here -> (base.size (dom (connections k) ∖ checked) < fuel)%nat ->
    (forall a b, a ∈ checked -> connections k !! a = Some b -> b ∈ starting k \/ b ∈ checked \/ b = line) ->
    exists m' here' c, follow L fuel k m here checked line reordered = Ok (m', here', reordered ++ c) /\
      ends_ok m' /\ near_origin here' /\ Forall plan_ok c /\ path k line (map plan_id c) /\
      (forall j, j ∉ P -> sv m' j = sv m j) /\
      (forall a b, a ∈ checked \/ a ∈ line :: map plan_id c -> connections k !! a = Some b ->
         b ∈ starting k \/ b ∈ checked \/ b ∈ line :: map plan_id c).
  Proof.
    intros Hk. induction fuel as [|fuel IH]; intros m here checked line reordered Hm Hh Hf Hc; [lia|].
    cbn [follow]. destruct (connections k !! line) as [next|] eqn:En.
    2: { exists m, here, []. rewrite app_nil_r. split_and!; try done.
         intros a b [Ha|Ha] Hab; [destruct (Hc a b Ha Hab) as [?|[?| ->]]; [auto|auto|right; right; left]|].
         apply elem_of_list_singleton in Ha as ->. congruence. }
    destruct (bool_decide (next ∈ starting k) || bool_decide (line ∈ checked)) eqn:Eb.
    { exists m, here, []. rewrite app_nil_r. split_and!; try done.
      intros a b [Ha|Ha] Hab; [destruct (Hc a b Ha Hab) as [?|[?| ->]]; [auto|auto|right; right; left]|].
      apply elem_of_list_singleton in Ha as ->. apply orb_true_iff in Eb as [Eb|Eb]; apply bool_decide_eq_true in Eb.
      - left. congruence.
      - destruct (Hc line b Eb Hab) as [?|[?| ->]]; [auto|auto|right; right; left]. }
    apply orb_false_iff in Eb as [Eb1 Eb2]. apply bool_decide_eq_false in Eb1, Eb2.
    assert (Hnext : next ∈ P) by (apply (proj2 (proj2 Hk) line next En)).
    unfold optimizeClosestStartPoint.
    set (m1 := if (sv m next =? size next)%nat then _ else m). cbn [fst snd].
    assert (Hm1 : ends_ok m1 /\ (sv m1 next = 0%nat \/ sv m1 next = (size next - 1)%nat) /\ forall j, j ∉ P -> sv m1 j = sv m j).
    { unfold m1. destruct (Nat.eqb_spec (sv m next) (size next)) as [E|E].
      - destruct (setStart_ok m next (vSize2 (psub here (back next)) <=? vSize2 (psub here (front next))) Hm) as (A & B & C).
        split_and!; [done|done|]. intros j Hj. apply C. by intros ->.
      - split_and!; [done| |done]. destruct (Hm next Hnext) as [?|[?|?]]; auto. done. }
    destruct Hm1 as (A1 & B1 & C1).
    destruct (IH m1 (vertex L next (size next - 1 - sv m1 next)) ({[line]} ∪ checked) next (reordered ++ [(next, sv m1 next, bw m1 next)]))
      as (m' & here' & c & E & A & B & C & D & F & G).
    { done. } { by apply near_vertex. }
    { assert (dom (connections k) ∖ ({[line]} ∪ checked) ⊂ dom (connections k) ∖ checked).
      { split; [set_solver +|]. intros Hsub. assert (Hl : line ∈ dom (connections k) ∖ checked).
        { apply elem_of_difference. split; [|done]. apply elem_of_dom. by exists next. }
        apply Hsub in Hl. set_solver. }
      apply subset_size in H. lia. }
    { intros a b Ha Hab. apply elem_of_union in Ha as [Ha|Ha].
      - apply elem_of_singleton in Ha as ->. right. right. congruence.
      - destruct (Hc a b Ha Hab) as [?|[?| ->]]; [auto|right; left; apply elem_of_union; by right|].
        right. left. apply elem_of_union. left. by apply elem_of_singleton. }
    exists m', here', ((next, sv m1 next, bw m1 next) :: c). rewrite E, <- app_assoc. split_and!; try done.
    - apply Forall_cons. split; [|done]. split; [done|]. exact B1.
    - intros j Hj. rewrite F by done. by apply C1.
    - intros a b Ha Hab. cbn [map plan_id fst].
      assert (Ha' : a ∈ {[line]} ∪ checked \/ a ∈ next :: map plan_id c).
      { destruct Ha as [Ha|Ha]; [left; apply elem_of_union; by right|].
        apply elem_of_cons in Ha as [-> |Ha]; [left; apply elem_of_union; left; by apply elem_of_singleton|by right]. }
      destruct (G a b Ha' Hab) as [?|[Hb|Hb]]; [auto| |].
      + apply elem_of_union in Hb as [Hb|Hb]; [|auto]. apply elem_of_singleton in Hb as ->. right. right. left.
      + right. right. right. done.
  Qed.

  (** The blocks in which the result is put together: a starting line and what is printed together with it. *)
  Definition block_ids (b : nat * list nat) : list nat := b.1 :: b.2.
  Definition block_ok (k : links) (b : nat * list nat) : Prop :=
    path k b.1 b.2 /\
    forall a c, a ∈ block_ids b -> connections k !! a = Some c -> c ∈ starting k \/ c ∈ block_ids b.
  Definition not_after (a b : nat) : Prop := key_lt (LineProjections L v b) (LineProjections L v a) = false.

  Lemma filter_ne_perm i pre : NoDup pre -> i ∈ pre -> i :: List.filter (fun j => negb (j =? i)%nat) pre ≡ₚ pre.
  Proof.
    induction pre as [|a l IH]; intros Hnd Hi; [inversion Hi|]. apply NoDup_cons in Hnd as [Hn Hnd]. cbn [List.filter].
    destruct (Nat.eqb_spec a i) as [-> |Hne]; cbn [negb].
    - f_equiv. clear - Hn. induction l as [|b l IH]; [done|]. apply not_elem_of_cons in Hn as [H1 H2]. cbn [List.filter].
      destruct (Nat.eqb_spec b i) as [-> |]; [done|]. cbn [negb]. f_equiv. by apply IH.
    - apply elem_of_cons in Hi as [-> |Hi]; [done|]. rewrite Permutation_swap. f_equiv. by apply IH.
  Qed.

  Lemma row_key first l i : i ∈ row L v first l -> not_after i first.
  Proof.
    induction l as [|j l IH]; intros Hi; [by inversion Hi|]. cbn [row] in Hi.
    destruct (key_lt _ _) eqn:E; [by inversion Hi|]. apply elem_of_cons in Hi as [-> |Hi]; [exact E|by apply IH].
  Qed.

  Lemma not_after_trans a b c : not_after a b -> not_after b c -> not_after a c.
  Proof.
    unfold not_after, key_lt. destruct (LineProjections L v a) as [x1 y1], (LineProjections L v b) as [x2 y2],
      (LineProjections L v c) as [x3 y3]. simpl. rewrite !orb_false_iff, !andb_false_iff, !Z.ltb_ge, !Z.eqb_neq. lia.
  Qed.

  Lemma StronglySorted_filter {A} (R : A -> A -> Prop) f l : StronglySorted R l -> StronglySorted R (List.filter f l).
  Proof.
    induction 1 as [|a l Hs IH Hf]; cbn [List.filter]; [constructor|]. destruct (f a); [|done]. constructor; [done|].
    rewrite Forall_forall in *. intros x Hx. apply Hf. apply elem_of_list_In, filter_In in Hx as [Hx _]. by apply elem_of_list_In.
  Qed.

  Lemma print_rows_ok k : links_in k -> forall fuel m here pre reordered,
    ends_ok m -> near_origin here -> (length pre <= fuel)%nat -> NoDup pre -> (forall i, i ∈ pre -> i ∈ P) ->
    exists m' out bs, print_rows L v fuel k m here pre reordered = Ok (m', reordered ++ out) /\
      ends_ok m' /\ Forall plan_ok out /\ map plan_id out = concat (map block_ids bs) /\ map fst bs ≡ₚ pre /\
      Forall (block_ok k) bs /\ (forall j, j ∉ P -> sv m' j = sv m j) /\
      (StronglySorted not_after pre -> StronglySorted not_after (map fst bs)).
  Proof.
    intros Hk. induction fuel as [|fuel IH]; intros m here pre reordered Hm Hh Hf Hnd HP.
    { destruct pre as [|]; [|simpl in Hf; lia]. exists m, [], []. rewrite app_nil_r. by split_and!. }
    destruct pre as [|first pre']; [exists m, [], []; rewrite app_nil_r; by split_and!|].
    cbn [print_rows]. remember (first :: pre') as pre eqn:Epre.
    assert (Hfirst : first ∈ row L v first pre).
    { rewrite Epre. cbn [row]. rewrite key_lt_irrefl. left. }
    destruct (closest_inv here (row L v first pre) Hh ltac:(intros i Hi; by apply HP, (row_sub first)) (None, coord_max))
      as [[E _]|(i & b & E & Hi)]; [by left|rewrite E in Hfirst; inversion Hfirst|].
    destruct Hi as [Hi|Hi]; [|done]. rewrite E.
    pose proof (row_key _ _ _ Hi) as Hik. apply row_sub in Hi. assert (HiP : i ∈ P) by auto.
    destruct (setStart_ok m i b Hm) as (A1 & B1 & C1). set (m1 := setStartVertex L m i b) in *. cbv zeta.
    destruct (follow_ok k Hk (S (base.size (connections k))) m1 (vertex L i (size i - 1 - sv m1 i)) ∅ i
      (reordered ++ [(i, sv m1 i, bw m1 i)])) as (m2 & here2 & c & E2 & A2 & B2 & C2 & D2 & F2 & G2).
    { done. } { by apply near_vertex. }
    { rewrite difference_empty_L, size_dom. lia. }
    { intros a b' Ha. apply elem_of_empty in Ha. done. }
    rewrite E2. cbn [rbind fst snd].
    set (pre2 := List.filter _ pre). pose proof (filter_ne_perm i pre Hnd Hi) as Hperm. fold pre2 in Hperm.
    assert (Hnd2 : NoDup pre2) by (rewrite <- Hperm in Hnd; by apply NoDup_cons in Hnd as [_ ?]).
    destruct (IH m2 here2 pre2 ((reordered ++ [(i, sv m1 i, bw m1 i)]) ++ c)) as (m' & out & bs & E3 & A3 & B3 & C3 & D3 & F3 & G3 & H3).
    { done. } { done. } { apply Permutation_length in Hperm. simpl in Hperm. lia. } { done. }
    { intros j Hj. apply HP. rewrite <- Hperm. by right. }
    exists m', ((i, sv m1 i, bw m1 i) :: c ++ out), ((i, map plan_id c) :: bs).
    split; [rewrite E3; f_equal; f_equal; rewrite <- !app_assoc; done|]. split_and!.
    - done.
    - apply Forall_cons. split; [by split|]. apply Forall_app. done.
    - cbn [map concat block_ids fst snd]. rewrite map_app, C3. done.
    - cbn [map fst]. by rewrite D3.
    - apply Forall_cons. split; [|done]. split; [done|]. intros a b' Ha Hab.
      destruct (G2 a b' (or_intror Ha) Hab) as [?|[Hb|?]]; [auto|by apply elem_of_empty in Hb|auto].
    - intros j Hj. rewrite G3, F2 by done. apply C1. by intros ->.
    - intros Hs. cbn [map fst]. assert (Hs2 : StronglySorted not_after pre2) by (by apply StronglySorted_filter).
      constructor; [by apply H3|]. apply Forall_forall. intros j Hj. rewrite D3 in Hj.
      assert (Hj' : j ∈ pre) by (rewrite <- Hperm; by right).
      apply (not_after_trans i first j); [done|].
      rewrite Epre in Hs, Hj'. apply StronglySorted_inv in Hs as [_ Hs]. apply elem_of_cons in Hj' as [-> |Hj'].
      + unfold not_after. apply key_lt_irrefl.
      + rewrite Forall_forall in Hs. by apply Hs.
  Qed.

  Lemma pre_insert_perm i l : pre_order_insert L v i l ≡ₚ i :: l.
  Proof.
    induction l as [|j l IH]; [done|]. cbn [pre_order_insert]. destruct (key_lt _ _); [done|].
    rewrite IH. apply Permutation_swap.
  Qed.

  Lemma key_lt_asym a b : key_lt (LineProjections L v a) (LineProjections L v b) = true -> not_after a b.
  Proof.
    unfold not_after, key_lt. destruct (LineProjections L v a) as [x1 y1], (LineProjections L v b) as [x2 y2]. simpl.
    rewrite !orb_true_iff, !andb_true_iff, !orb_false_iff, !andb_false_iff, !Z.ltb_ge, !Z.ltb_lt, !Z.eqb_neq, !Z.eqb_eq. lia.
  Qed.

  Lemma pre_insert_sorted i l : StronglySorted not_after l -> StronglySorted not_after (pre_order_insert L v i l).
  Proof.
    induction 1 as [|j l Hs IH Hf]; cbn [pre_order_insert]; [repeat constructor|].
    destruct (key_lt _ _) eqn:E.
    - apply key_lt_asym in E. constructor; [by constructor|]. constructor; [done|].
      rewrite Forall_forall in *. intros x Hx. apply (not_after_trans i j x); [done|by apply Hf].
    - constructor; [done|]. rewrite Forall_forall in *. intros x Hx. rewrite pre_insert_perm in Hx.
      apply elem_of_cons in Hx as [-> |Hx]; [done|by apply Hf].
  Qed.

  Lemma pre_ordered l : forall acc, StronglySorted not_after acc ->
    fold_left (fun l i => pre_order_insert L v i l) l acc ≡ₚ l ++ acc /\
    StronglySorted not_after (fold_left (fun l i => pre_order_insert L v i l) l acc).
  Proof.
    induction l as [|i l IH]; intros acc Ha; [done|]. cbn [fold_left].
    destruct (IH (pre_order_insert L v i acc) (pre_insert_sorted i acc Ha)) as [A B]. split; [|done].
    rewrite A, pre_insert_perm. rewrite <- app_comm_cons. symmetry. apply Permutation_middle.
  Qed.

  Hypothesis near_start : near_origin start.

  Lemma makeOrderedPath_ok m adj : (forall i, i ∈ P -> unknown m i) ->
    exists s m' out bs,
      link_lines L v grid adj P (m, Links ∅ ∅ ∅) P = Ok s /\
      makeOrderedPath L v start shuffle walk m P adj = Ok (m', out) /\
      Forall plan_ok out /\ map plan_id out = concat (map block_ids bs) /\
      (forall i, i ∈ map fst bs <-> i ∈ starting s.2) /\ NoDup (map fst bs) /\
      links_in s.2 /\ Forall (block_ok s.2) bs /\ (forall j, j ∉ P -> sv m' j = sv m j) /\
      StronglySorted not_after (map fst bs).
  Proof.
    intros Hm.
    assert (Hg : gen_ok m (m, Links ∅ ∅ ∅)).
    { split; [|split; [|done]].
      - intros j Hj. right. right. by apply Hm.
      - split; [|split].
        + intros a Ha. cbn in Ha. apply elem_of_empty in Ha. done.
        + intros a Ha. cbn in Ha. apply elem_of_empty in Ha. done.
        + intros a b Hab. cbn in Hab. rewrite lookup_empty in Hab. done. }
    destruct (link_lines_ok adj m P (m, Links ∅ ∅ ∅) Hg ltac:(done)) as (s & E & (A & B & C)).
    unfold makeOrderedPath. cbv zeta. rewrite E. cbn [rbind].
    set (pre := fold_left _ _ []).
    destruct (pre_ordered (walk (elements (starting s.2))) [] ltac:(constructor)) as [Hp Hs]. fold pre in Hp, Hs.
    rewrite app_nil_r, walk_perm in Hp.
    assert (Hnd : NoDup pre) by (rewrite Hp; apply NoDup_elements).
    assert (Hin : forall i, i ∈ pre <-> i ∈ starting s.2) by (intros i; rewrite Hp; apply elem_of_elements).
    destruct (print_rows_ok s.2 B (length pre) s.1 start pre []) as (m' & out & bs & E2 & A2 & B2 & C2 & D2 & F2 & G2 & H2).
    { done. } { done. } { done. } { done. } { intros i Hi. apply (proj1 B). by apply Hin. }
    exists s, m', out, bs. split; [done|]. split; [exact E2|]. split_and!; try done.
    - intros i. rewrite D2. apply Hin.
    - by rewrite D2.
    - intros j Hj. rewrite G2 by done. by apply C.
    - by apply H2.
  Qed.

  Lemma makeOrderedPath_all m adj m' out :
    (forall a b c : nat * bool, a.1 ∈ P -> b.1 ∈ P -> c.1 ∈ P -> b <> a -> c <> a ->
      coincide (pos b) (pos a) -> coincide (pos c) (pos a) -> b = c) ->
    (forall i, i ∈ P -> unknown m i) ->
    makeOrderedPath L v start shuffle walk m P adj = Ok (m', out) -> forall i, i ∈ P -> i ∈ map plan_id out.
  Proof.
    intros Hmeet Hm H i Hi.
    destruct (makeOrderedPath_ok m adj Hm) as (s & m2 & out2 & bs & E & E2 & A & B & C & D & F & G & _).
    rewrite H in E2. injection E2 as <- <-.
    pose proof (link_all_reach Hmeet adj m s Hm E i Hi) as Hr. rewrite B.
    assert (Hc : forall a, a ∈ concat (map block_ids bs) <-> exists b, b ∈ bs /\ a ∈ block_ids b).
    { intros a. rewrite elem_of_list_In, in_concat. split.
      - intros (l & Hl & Ha). apply in_map_iff in Hl as (b & <- & Hb). exists b. by rewrite !elem_of_list_In.
      - intros (b & Hb & Ha). exists (block_ids b). rewrite !elem_of_list_In in *. split; [|done]. apply in_map_iff. by exists b. }
    assert (Hst : forall a, a ∈ starting s.2 -> a ∈ concat (map block_ids bs)).
    { intros a Ha. apply C in Ha. apply Hc. change (map fst bs) with (fst <$> bs) in Ha.
      apply elem_of_list_fmap in Ha as (b & -> & Hb). exists b. split; [done|]. left. }
    induction Hr as [a Ha|a b _ IH Eab]; [by apply Hst|].
    apply Hc in IH as (bl & Hbl & Ha); [|by apply F in Eab as [? _]]. rewrite Forall_forall in G. destruct (G bl Hbl) as [_ Gc].
    destruct (Gc a b Ha Eab) as [?|?]; [by apply Hst|]. apply Hc. by exists bl.
  Qed.

  (** ** Lines whose ends do not coincide *)
  Section apart.
  Hypothesis apart : forall a b x y, a ∈ P -> b ∈ P -> a <> b -> ~ coincide (pos (a, x)) (pos (b, y)).
  Variable adj : Z.

  Lemma find_string_apart m i : i ∈ P ->
    exists m', findPolylineString (length P + 2) grid m i = Ok (m', [i]).
  Proof.
    intros Hi. unfold Mono_Model.findPolylineString. pose proof (P_size i Hi) as Hs.
    destruct (Nat.eqb_spec (size i) 0); [lia|]. cbv zeta. set (m0 := mark m i 0 (bw m i)).
    assert (Hn : forall x, close_line m0 (pos (i, x)) = None).
    { intros x. destruct (close_line m0 (pos (i, x))) as [f|] eqn:E; [exfalso|done].
      apply close_some in E as (Hf & Hu & [y Hy] & Hc). rewrite Hy in Hc.
      destruct (decide (f.2 = i)) as [Ef|Ef].
      - rewrite Ef in Hu. unfold unknown, m0 in Hu. rewrite sv_mark_eq in Hu. lia.
      - by apply (apart f.2 i y x). }
    pose proof (Hn false) as H1. rewrite pos_front in H1. pose proof (Hn true) as H2. rewrite pos_back in H2.
    rewrite H1, H2. replace (length P + 2)%nat with (S (S (length P))) by (rewrite Nat.add_comm; done).
    cbn [Mono_Model.grow_front Mono_Model.grow_back rbind fst snd].
    destruct (negb _); cbn [rev app]; eauto.
  Qed.

  Notation over i := (getOverlappingLines L v i P adj).

  Definition single_inv (dn : list nat) (k : links) : Prop :=
    (forall i, i ∈ dn -> i ∈ starting k \/ i ∈ connected k) /\
    (forall q, q ∈ connected k <-> exists p, connections k !! p = Some q) /\
    (forall p p' q, q ∉ starting k -> connections k !! p = Some q -> connections k !! p' = Some q -> p = p') /\
    (forall p q, connections k !! p = Some q -> p ∈ dn /\ over p = [q]) /\
    (forall p q, p ∈ dn -> q ∈ over p -> q ∈ starting k \/ connections k !! p = Some q).

  Lemma link_single_inv dn i k : i ∉ dn -> single_inv dn k -> single_inv (dn ++ [i]) (link_single L v adj P i k).
  Proof.
    intros Hi (A & B & C & D & F). unfold link_single.
    set (s' := if bool_decide (i ∈ connected k) then _ else _).
    assert (Hs' : starting k ⊆ s') by (unfold s'; case_bool_decide; set_solver +).
    assert (His : i ∈ s' \/ i ∈ connected k) by (unfold s'; case_bool_decide; [auto|left; set_solver +]).
    assert (Hki : connections k !! i = None).
    { destruct (connections k !! i) as [q|] eqn:E; [|done]. apply D in E as [E _]. done. }
    assert (Hne : forall p q, connections k !! p = Some q -> p <> i) by (intros p q E ->; congruence).
    assert (Hdn : forall j, j ∈ dn ++ [i] <-> j ∈ dn \/ j = i).
    { intros j. by rewrite elem_of_app, elem_of_list_singleton. }
    assert (G : forall E' s2 c2, s' ⊆ s2 ->
      (forall q, q ∈ over i -> q ∈ s2 \/ E' !! i = Some q) ->
      (forall q, E' !! i = Some q -> over i = [q] /\ (q ∈ connected k -> q ∈ s2)) ->
      (forall p, p <> i -> E' !! p = connections k !! p) ->
      (forall q, q ∈ c2 <-> q ∈ connected k \/ E' !! i = Some q) ->
      single_inv (dn ++ [i]) (Links c2 s2 E')).
    { intros E' s2 c2 Hs2 Ho Hq HE Hc. unfold single_inv. cbn [starting connected connections]. split_and!.
      - intros j Hj. apply Hdn in Hj as [Hj| ->].
        + destruct (A j Hj) as [?|?]; [left; by apply Hs2, Hs'|right; apply Hc; by left].
        + destruct His as [?|?]; [left; by apply Hs2|right; apply Hc; by left].
      - intros q. rewrite Hc, B. split.
        + intros [[p Hp]|Hp]; [|by exists i]. exists p. rewrite HE; [done|by eapply Hne].
        + intros [p Hp]. destruct (decide (p = i)) as [-> |Hn]; [by right|]. rewrite HE in Hp by done. left. by exists p.
      - intros p p' q Hqs Hp Hp'.
        assert (Hqk : q ∉ starting k) by (intros Hin; by apply Hqs, Hs2, Hs').
        assert (K : forall r, r <> i -> E' !! r = Some q -> E' !! i = Some q -> False).
        { intros r Hr Er Ei. rewrite HE in Er by done. apply Hqs. apply (proj2 (Hq q Ei)). apply B. by exists r. }
        destruct (decide (p = i)) as [-> |Hn], (decide (p' = i)) as [-> |Hn']; [done| | |].
        + exfalso. by apply (K p').
        + exfalso. by apply (K p).
        + rewrite HE in Hp, Hp' by done. by apply (C p p' q).
      - intros p q Hp. destruct (decide (p = i)) as [-> |Hn].
        + split; [apply Hdn; by right|]. by apply Hq.
        + rewrite HE in Hp by done. apply D in Hp as [? ?]. split; [apply Hdn; by left|done].
      - intros p q Hp Hpq. apply Hdn in Hp as [Hp| ->]; [|by apply Ho].
        destruct (F p q Hp Hpq) as [?|Hc2]; [left; by apply Hs2, Hs'|right]. rewrite HE; [done|by eapply Hne]. }
    destruct (over i) as [|o [|o' os]] eqn:Eo.
    - apply G.
      + set_solver +.
      + intros q Hq. inversion Hq.
      + intros q Hq. congruence.
      + done.
      + intros q. rewrite Hki. split; [by left|intros [?|?]; done].
    - case_bool_decide as Hco; apply G.
      + set_solver +.
      + intros q Hq. right. rewrite lookup_insert. apply elem_of_list_singleton in Hq as ->. done.
      + intros q Hq. rewrite lookup_insert in Hq. injection Hq as <-. split; [done|]. intros _. set_solver +.
      + intros p Hp. by rewrite lookup_insert_ne.
      + intros q. rewrite lookup_insert. split; [by left|]. intros [?|Hq]; [done|]. by injection Hq as <-.
      + done.
      + intros q Hq. right. rewrite lookup_insert. apply elem_of_list_singleton in Hq as ->. done.
      + intros q Hq. rewrite lookup_insert in Hq. injection Hq as <-. split; [done|]. intros ?. done.
      + intros p Hp. by rewrite lookup_insert_ne.
      + intros q. rewrite lookup_insert, elem_of_union, elem_of_singleton. split.
        * intros [-> |?]; auto.
        * intros [?|Hq]; [auto|]. injection Hq as <-. auto.
    - apply G.
      + set_solver +.
      + intros q Hq. left. apply elem_of_union. left. by apply elem_of_list_to_set.
      + intros q Hq. congruence.
      + done.
      + intros q. rewrite Hki. split; [by left|intros [?|?]; done].
  Qed.

  Lemma link_lines_single l : forall dn s s', NoDup (dn ++ l) -> l ⊆ P -> single_inv dn s.2 ->
    link_lines L v grid adj P s l = Ok s' -> single_inv (dn ++ l) s'.2.
  Proof.
    induction l as [|i l IH]; intros dn s s' Hnd Hl Hs H.
    - injection H as <-. by rewrite app_nil_r.
    - cbn [link_lines] in H. apply rbind_ok in H as (s1 & E1 & H).
      assert (Hi : i ∈ P) by (apply Hl; left).
      assert (Hni : i ∉ dn).
      { apply NoDup_app in Hnd as (_ & Hnd & _). intros Hin. apply (Hnd i Hin). left. }
      replace (dn ++ i :: l) with ((dn ++ [i]) ++ l) in * by (by rewrite <- app_assoc).
      apply (IH (dn ++ [i]) s1); [done|intros j Hj; apply Hl; by right| |done].
      unfold link_line in E1. destruct (bool_decide (is_Some (connections s.2 !! i))) eqn:Eb.
      { apply bool_decide_eq_true in Eb as [q Hq]. apply Hs in Hq as [? _]. done. }
      destruct (find_string_apart s.1 i Hi) as [m' E]. rewrite E in E1. cbn [rbind fst snd] in E1. injection E1 as <-.
      cbn [snd]. by apply link_single_inv.
  Qed.

  Lemma link_all_single m s : link_lines L v grid adj P (m, Links ∅ ∅ ∅) P = Ok s -> single_inv P s.2.
  Proof.
    intros H. apply (link_lines_single P [] (m, Links ∅ ∅ ∅)); [done|done| |done].
    unfold single_inv. cbn [snd starting connected connections]. split; [|split; [|split; [|split]]].
    - intros i Hi. inversion Hi.
    - intros q. split; [intros Hq; apply elem_of_empty in Hq; done|intros [p Hp]; rewrite lookup_empty in Hp; done].
    - intros p p' q _ Hp. rewrite lookup_empty in Hp. done.
    - intros p q Hp. rewrite lookup_empty in Hp. done.
    - intros p q Hp. inversion Hp.
  Qed.

  (** The order of the lines. *)
  Definition lt_P (a b : nat) : Prop := exists i j, (i < j)%nat /\ P !! i = Some a /\ P !! j = Some b.
  Lemma lt_P_irrefl a : ~ lt_P a a.
  Proof. intros (i & j & Hij & Hi & Hj). pose proof (NoDup_lookup P i j a P_nodup Hi Hj). lia. Qed.
  Lemma lt_P_trans a b c : lt_P a b -> lt_P b c -> lt_P a c.
  Proof.
    intros (i & j & Hij & Hi & Hj) (j' & k & Hjk & Hj' & Hk). pose proof (NoDup_lookup P j j' b P_nodup Hj Hj') as <-.
    exists i, k. split_and!; [lia|done|done].
  Qed.
  Lemma after_lt i : forall l pre q, P = pre ++ l -> q ∈ after i l -> lt_P i q.
  Proof.
    induction l as [|j l IH]; intros pre q E Hq; [inversion Hq|]. cbn [after] in Hq.
    destruct (Nat.eqb_spec j i) as [-> |Hn].
    - apply elem_of_list_lookup in Hq as [k Hk]. exists (length pre), (length pre + S k)%nat. split_and!; [lia| |].
      + rewrite E, lookup_app_r, Nat.sub_diag by lia. done.
      + rewrite E, lookup_app_r by lia. replace (length pre + S k - length pre)%nat with (S k) by lia. done.
    - apply (IH (pre ++ [j])); [by rewrite <- app_assoc|done].
  Qed.
  Lemma over_lt p q : q ∈ over p -> lt_P p q.
  Proof. intros H. apply overlapping_sub in H. by apply (after_lt p P []). Qed.

  Inductive rooted (k : links) (s : nat) : nat -> Prop :=
  | rooted_self : s ∈ starting k -> rooted k s s
  | rooted_next a b : rooted k s a -> connections k !! a = Some b -> b ∉ starting k -> rooted k s b.

  Lemma rooted_unique k s s' x : single_inv P k -> rooted k s x -> rooted k s' x -> s = s'.
  Proof.
    intros (_ & _ & C & _) H. revert s'. induction H as [Hs|a b Ha IH E Hb]; intros s' H'.
    - inversion H' as [|a b Ha E Hb]; subst; [done|done].
    - inversion H' as [|a' b' Ha' E' Hb']; subst; [done|]. apply IH. by rewrite (C a a' b Hb E E').
  Qed.

  Lemma path_rooted k : forall c s a, rooted k s a -> path k a c -> forall x, x ∈ a :: c -> rooted k s x.
  Proof.
    induction c as [|b c IH]; intros s a Ha Hp x Hx.
    - apply elem_of_list_singleton in Hx as ->. done.
    - apply elem_of_cons in Hx as [-> |Hx]; [done|]. destruct Hp as (E & Hb & Hp).
      apply (IH s b); [by apply (rooted_next _ _ a)|done|done].
  Qed.

  Lemma path_sorted k : single_inv P k -> forall c a, path k a c -> (forall x, x ∈ c -> lt_P a x) /\ NoDup (a :: c).
  Proof.
    intros Hk. pose proof Hk as (_ & _ & _ & D & _). induction c as [|b c IH]; intros a Hp.
    - split; [intros x Hx; inversion Hx|apply NoDup_singleton].
    - destruct Hp as (E & Hb & Hp). destruct (IH b Hp) as [H1 H2].
      assert (Hab : lt_P a b) by (apply over_lt; apply D in E as [_ ->]; left).
      assert (K : forall x, x ∈ b :: c -> lt_P a x).
      { intros x Hx. apply elem_of_cons in Hx as [-> |Hx]; [done|]. apply (lt_P_trans a b x); [done|by apply H1]. }
      split; [done|]. apply NoDup_cons. split; [|done]. intros Hin. by apply (lt_P_irrefl a), K.
  Qed.

  Lemma blocks_nodup k bs : single_inv P k -> NoDup (map fst bs) -> (forall i, i ∈ map fst bs -> i ∈ starting k) ->
    Forall (block_ok k) bs -> NoDup (concat (map block_ids bs)).
  Proof.
    intros Hk. induction bs as [|b bs IH]; intros Hnd Hst Hok; [apply NoDup_nil_2|]. cbn [map concat] in *.
    apply NoDup_cons in Hnd as [Hn Hnd]. apply Forall_cons in Hok as [[Hp Hcl] Hok].
    apply NoDup_app. split; [|split].
    - by apply (path_sorted k Hk).
    - intros x Hx Hx'. apply elem_of_list_In, in_concat in Hx' as (l & Hl & Hx'). apply in_map_iff in Hl as (b' & <- & Hb').
      apply elem_of_list_In in Hx', Hb'.
      assert (Hb'f : b'.1 ∈ map fst bs).
      { change (map fst bs) with (fst <$> bs). apply elem_of_list_fmap. by exists b'. }
      rewrite Forall_forall in Hok. destruct (Hok b' Hb') as [Hp' _].
      assert (R1 : rooted k b.1 x) by (apply (path_rooted k b.2 b.1 b.1); [apply rooted_self, Hst; left|done|done]).
      assert (R2 : rooted k b'.1 x) by (apply (path_rooted k b'.2 b'.1 b'.1); [apply rooted_self, Hst; by right|done|done]).
      pose proof (rooted_unique k _ _ x Hk R1 R2) as E. rewrite E in Hn. done.
    - apply IH; [done| |done]. intros i Hi. apply Hst. by right.
  Qed.

  Lemma apart_meet : forall a b c : nat * bool, a.1 ∈ P -> b.1 ∈ P -> c.1 ∈ P -> b <> a -> c <> a ->
    coincide (pos b) (pos a) -> coincide (pos c) (pos a) -> b = c.
  Proof.
    intros [a x] [b y] [c z] Ha Hb Hc Hba Hca H1 H2. simpl in *.
    assert (b = a) as -> by (destruct (decide (b = a)); [done|]; exfalso; by apply (apart b a y x)).
    assert (c = a) as -> by (destruct (decide (c = a)); [done|]; exfalso; by apply (apart c a z x)).
    destruct x, y, z; congruence.
  Qed.

  Lemma makeOrderedPath_once m m' out : (forall i, i ∈ P -> unknown m i) ->
    makeOrderedPath L v start shuffle walk m P adj = Ok (m', out) -> map plan_id out ≡ₚ P.
  Proof.
    intros Hm H. pose proof (makeOrderedPath_all m adj m' out apart_meet Hm H) as Hall.
    destruct (makeOrderedPath_ok m adj Hm) as (s & m2 & out2 & bs & E & E2 & A & B & C & D & F & G & _).
    rewrite H in E2. injection E2 as <- <-. apply link_all_single in E as Hk.
    apply NoDup_Permutation.
    - rewrite B. apply (blocks_nodup s.2); [done|done| |done]. intros i Hi. by apply C.
    - done.
    - intros i. split; [|apply Hall]. intros Hi. change (map plan_id out) with (plan_id <$> out) in Hi.
      apply elem_of_list_fmap in Hi as (x & -> & Hx). rewrite Forall_forall in A. by apply A.
  Qed.

  (** *** The order in which they are printed *)
  Hypothesis P_sorted : StronglySorted (fun a b => (low L v a <= low L v b)%Q) P.

  Lemma lt_P_low a b : lt_P a b -> (low L v a <= low L v b)%Q.
  Proof.
    intros (i & j & Hij & Hi & Hj). revert i j Hij Hi Hj. clear - P_sorted.
    induction P_sorted as [|c l Hs IH Hf]; intros i j Hij Hi Hj; [done|].
    destruct j as [|j]; [lia|]. destruct i as [|i]; simpl in *.
    - injection Hi as <-. rewrite Forall_forall in Hf. apply Hf. by eapply elem_of_list_lookup_2.
    - apply (IH Hs i j); [lia|done|done].
  Qed.
  Lemma rooted_low k s x : single_inv P k -> rooted k s x -> (low L v s <= low L v x)%Q.
  Proof.
    intros (_ & _ & _ & D & _) H. induction H as [|a b Ha IH E Hb]; [apply Qle_refl|].
    eapply Qle_trans; [exact IH|]. apply lt_P_low, over_lt. apply D in E as [_ ->]. left.
  Qed.

  Lemma path_before k : single_inv P k -> forall c a p q, path k a c -> p ∈ a :: c -> q ∉ starting k ->
    connections k !! p = Some q -> q ∈ a :: c -> q <> a -> before (a :: c) p q.
  Proof.
    intros (_ & _ & C & _). induction c as [|b c IH]; intros a p q Hp Hpin Hqs E Hq Hqa.
    - apply elem_of_list_singleton in Hq as ->. done.
    - destruct Hp as (Eab & Hb & Hp). apply elem_of_cons in Hq as [? |Hq]; [done|].
      destruct (decide (q = b)) as [-> |Hqb].
      + rewrite (C p a b Hb E Eab). exists [], [], c. done.
      + assert (Hpin' : p ∈ b :: c).
        { apply elem_of_cons in Hpin as [-> |?]; [|done]. congruence. }
        destruct (IH b p q Hp Hpin' Hqs E Hq Hqb) as (l1 & l2 & l3 & El). exists (a :: l1), l2, l3.
        by rewrite El.
  Qed.

  Lemma before_concat {A} (ll : list (list A)) (l : list A) p q : l ∈ ll -> before l p q -> before (concat ll) p q.
  Proof.
    intros Hl (l1 & l2 & l3 & ->). apply elem_of_list_split in Hl as (k1 & k2 & ->).
    exists (concat k1 ++ l1), l2, (l3 ++ concat k2). rewrite concat_app. cbn [concat].
    rewrite <- !app_assoc. cbn [app]. rewrite <- !app_assoc. done.
  Qed.

  Lemma before_blocks {A} (k1 k2 k3 : list (list A)) (l l' : list A) p q : p ∈ l -> q ∈ l' ->
    before (concat (k1 ++ l :: k2 ++ l' :: k3)) p q.
  Proof.
    intros Hp Hq. apply elem_of_list_split in Hp as (a1 & a2 & ->). apply elem_of_list_split in Hq as (b1 & b2 & ->).
    exists (concat k1 ++ a1), (a2 ++ concat k2 ++ b1), (b2 ++ concat k3).
    rewrite concat_app. cbn [concat]. rewrite concat_app. cbn [concat].
    repeat first [rewrite <- app_assoc | progress (cbn [app])]. done.
  Qed.

  Lemma makeOrderedPath_order m m' out p q : (forall i, i ∈ P -> unknown m i) ->
    makeOrderedPath L v start shuffle walk m P adj = Ok (m', out) ->
    p ∈ P -> q ∈ over p -> (forall a, (low L v a <= low L v p)%Q -> (LineProjections L v a).1 < (LineProjections L v q).1) ->
    before (map plan_id out) p q.
  Proof.
    intros Hm H Hp Hq Hkey. pose proof (makeOrderedPath_once m m' out Hm H) as Hperm.
    destruct (makeOrderedPath_ok m adj Hm) as (s & m2 & out2 & bs & E & E2 & A & B & C & D & F & G & _ & Hsort).
    rewrite H in E2. injection E2 as <- <-. apply link_all_single in E as Hk.
    assert (Hblk : forall x, x ∈ P -> exists b, b ∈ bs /\ x ∈ block_ids b).
    { intros x Hx. rewrite <- Hperm, B in Hx. apply elem_of_list_In, in_concat in Hx as (l & Hl & Hx).
      apply in_map_iff in Hl as (b & <- & Hb). exists b. by rewrite !elem_of_list_In. }
    rewrite B. destruct (Hblk p Hp) as (b1 & Hb1 & Hp1).
    rewrite Forall_forall in G. destruct (G b1 Hb1) as [Hpath Hcl].
    assert (Hst : forall b, b ∈ bs -> b.1 ∈ starting s.2).
    { intros b Hb. apply C. change (map fst bs) with (fst <$> bs). apply elem_of_list_fmap. by exists b. }
    assert (Hroot : rooted s.2 b1.1 p) by (apply (path_rooted s.2 b1.2 b1.1 b1.1); [by apply rooted_self, Hst|done|done]).
    pose proof Hk as (_ & _ & _ & _ & K5). destruct (decide (q ∈ starting s.2)) as [Hqs|Hqs].
    - apply C in Hqs. change (map fst bs) with (fst <$> bs) in Hqs. apply elem_of_list_fmap in Hqs as (b2 & Eq & Hb2).
      pose proof (Hkey b1.1 (rooted_low s.2 _ _ Hk Hroot)) as Hlt. rewrite Eq in Hlt.
      apply elem_of_list_split in Hb1 as Hsp. destruct Hsp as (k1 & k2 & Ebs).
      rewrite Ebs in Hb2. apply elem_of_app in Hb2 as [Hb2|Hb2].
      + exfalso. apply elem_of_list_split in Hb2 as (k3 & k4 & ->). rewrite Ebs in Hsort.
        rewrite !map_app in Hsort. cbn [map] in Hsort. clear - Hsort Hlt.
        assert (Hs2 : not_after b2.1 b1.1).
        { rewrite <- app_assoc in Hsort. induction (map fst k3) as [|x l IH]; cbn [app] in Hsort.
          - apply StronglySorted_inv in Hsort as [_ Hf]. rewrite Forall_forall in Hf. apply Hf. apply elem_of_app. right. left.
          - apply StronglySorted_inv in Hsort as [Hs _]. by apply IH. }
        unfold not_after, key_lt in Hs2. apply Z.ltb_lt in Hlt. rewrite Hlt in Hs2. done.
      + apply elem_of_cons in Hb2 as [-> |Hb2]; [lia|]. apply elem_of_list_split in Hb2 as (k3 & k4 & ->).
        rewrite Ebs, !map_app. cbn [map]. rewrite map_app. cbn [map]. apply before_blocks; [done|].
        rewrite Eq. left.
    - destruct (K5 p q Hp Hq) as [?|Epq]; [done|].
      destruct (Hcl p q Hp1 Epq) as [?|Hq1]; [done|].
      apply (before_concat _ (block_ids b1)).
      + change (map block_ids bs) with (block_ids <$> bs). apply elem_of_list_fmap. by exists b1.
      + apply (path_before s.2); try done. intros ->. apply Hqs. by apply Hst.
  Qed.
  End apart.
End proofs.
