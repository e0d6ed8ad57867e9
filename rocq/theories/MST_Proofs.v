(** Lemmas for C23: spanning modulo a set of points, and the invariant of the loop. *)
From Coq Require Import ZArith Lia.
From stdpp Require Import gmap list relations.
From Verif Require Import Common Geo_Model MST_Model MST_Spec.
Open Scope Z_scope.

Lemma sq_dist_nonneg p q : 0 <= sq_dist p q.
Proof. unfold sq_dist. pose proof (Z.square_nonneg (p.1 - q.1)). pose proof (Z.square_nonneg (p.2 - q.2)). lia. Qed.
Lemma sq_dist_sym p q : sq_dist p q = sq_dist q p.
Proof. unfold sq_dist. ring. Qed.
Lemma sq_pos a : a <> 0 -> 0 < a * a.
Proof. nia. Qed.
Lemma sq_dist_pos p q : p <> q -> 0 < sq_dist p q.
Proof.
  intros N. unfold sq_dist. destruct p as [px py], q as [qx qy]; cbn.
  destruct (decide (px = qx)) as [-> | X].
  - assert (Y : py <> qy) by congruence. assert (0 < (py - qy) * (py - qy)) by (apply sq_pos; lia). lia.
  - assert (0 < (px - qx) * (px - qx)) by (apply sq_pos; lia). pose proof (Z.square_nonneg (py - qy)). lia.
Qed.
Lemma vSize2_sub p q : vSize2 (psub p q) = sq_dist p q.
Proof. reflexivity. Qed.
Lemma total_nonneg es : 0 <= total es.
Proof. induction es as [| e es IH]; cbn; [lia|]. pose proof (sq_dist_nonneg e.1 e.2). lia. Qed.
Lemma total_app a b : total (a ++ b) = total a + total b.
Proof. induction a as [| e a IH]; cbn; lia. Qed.
Lemma total_perm a b : a ≡ₚ b -> total a = total b.
Proof. induction 1; cbn; lia. Qed.

Global Instance joined_sym es : Symmetric (joined es).
Proof. intros p q [H | H]; [right | left]; exact H. Qed.
Lemma connected_sym es p q : connected es p q -> connected es q p.
Proof. intros H. unfold connected in *. induction H; [constructor|]. eapply rtc_r; [exact IHrtc|]. by symmetry. Qed.
Lemma joined_mono es es' p q : (forall e, e ∈ es -> e ∈ es') -> joined es p q -> joined es' p q.
Proof. intros M [H | H]; [left | right]; auto. Qed.
Lemma connected_mono es es' p q : (forall e, e ∈ es -> e ∈ es') -> connected es p q -> connected es' p q.
Proof. intros M. apply rtc_subrel. intros x y. by apply joined_mono. Qed.

(** Reaching a set along edges. *)
Inductive reach (es : list (pt * pt)) (S : list pt) : pt -> Prop :=
| reach_in y : y ∈ S -> reach es S y
| reach_step y z : joined es y z -> reach es S z -> reach es S y.

Lemma reach_of_connected es S p q : connected es p q -> q ∈ S -> reach es S p.
Proof. intros C I. induction C; [by constructor|]. eapply reach_step; eauto. Qed.
Definition outside (S : list pt) (es : list (pt * pt)) (a b : pt) : Prop := joined es a b /\ a ∉ S /\ b ∉ S.

Lemma cut es S v : reach es S v -> v ∉ S -> exists x0 x1, joined es x0 x1 /\ x0 ∈ S /\ x1 ∉ S /\ rtc (outside S es) x1 v.
Proof.
  induction 1 as [y I | y z J R IH]; intros N; [done|].
  destruct (decide (z ∈ S)) as [Z1 | Z1].
  - exists z, y. repeat split; [by symmetry | done | done | constructor].
  - destruct (IH Z1) as (x0 & x1 & J1 & I0 & N1 & P). exists x0, x1. split; [done|]. split; [done|]. split; [done|].
    eapply rtc_r; [exact P|]. split; [by symmetry|]. done.
Qed.

(** Removing one edge that leaves the set. *)
Lemma contract es es' f S v x0 x1 :
  es ≡ₚ f :: es' -> f = (x0, x1) \/ f = (x1, x0) -> x0 ∈ S -> x1 ∉ S -> rtc (outside S es) x1 v ->
  forall y, reach es S y -> reach es' (v :: S) y.
Proof.
  intros P Ff I0 N1 R y Hy.
  assert (M : forall a b, joined es a b -> joined es' a b \/ (a = x0 /\ b = x1) \/ (a = x1 /\ b = x0)).
  { intros a b [H | H]; rewrite P in H; apply elem_of_cons in H as [H | H];
      [| by left; left | | by left; right]; destruct Ff as [-> | ->]; injection H as -> ->; auto. }
  assert (X1 : reach es' (v :: S) x1).
  { assert (G : forall x, rtc (outside S es) x v -> reach es' (v :: S) x).
    { induction 1 as [x | x y' z [J [Nx Ny]] R' IH]; [constructor; left|].
      destruct (M _ _ J) as [J' | [[-> ->] | [-> ->]]]; [| done | done].
      apply (reach_step _ _ _ y'); [done | exact (IH R)]. }
    by apply G. }
  induction Hy as [y I | y z J R' IH]; [constructor; by right|].
  destruct (M _ _ J) as [J' | [[-> ->] | [-> ->]]].
  - eapply reach_step; eauto.
  - constructor. by right.
  - exact X1.
Qed.

(** * The elementary steps *)
Lemma min_from_spec l b : (min_from b l = b \/ min_from b l ∈ l) /\
  c_distance (min_from b l) <= c_distance b /\ forall c, c ∈ l -> c_distance (min_from b l) <= c_distance c.
Proof.
  revert b. induction l as [| c l IH]; intros b; cbn.
  - split; [by left|]. split; [lia|]. intros c C. by apply elem_of_nil in C.
  - destruct (IH (if c_distance c <? c_distance b then c else b)) as (M & L & A).
    destruct (c_distance c <? c_distance b) eqn:E; [apply Z.ltb_lt in E | apply Z.ltb_ge in E].
    + split; [destruct M as [-> | M]; right; [left | by right]|]. split; [lia|].
      intros d D. apply elem_of_cons in D as [-> | D]; [done | by apply A].
    + split; [destruct M as [M | M]; [by left | by right; right]|]. split; [lia|].
      intros d D. apply elem_of_cons in D as [-> | D]; [lia | by apply A].
Qed.
Lemma min_element_spec l c : min_element l = Some c -> c ∈ l /\ forall d, d ∈ l -> c_distance c <= c_distance d.
Proof.
  destruct l as [| b l]; [done|]. cbn. intros [= <-]. destruct (min_from_spec l b) as (M & L & A). split.
  - destruct M as [-> | M]; [left | by right].
  - intros d D. apply elem_of_cons in D as [-> | D]; [done | by apply A].
Qed.
Lemma min_element_none l : min_element l = None -> l = [].
Proof. by destruct l. Qed.

Lemma elem_of_initial v vs i c : c ∈ initial v i vs -> exists k p, vs !! k = Some p /\ c = Cand (i + k) (sq_dist p v) 0.
Proof.
  revert i. induction vs as [| w vs IH]; intros i C; cbn in C; [by apply elem_of_nil in C|].
  apply elem_of_cons in C as [-> | C].
  - exists 0%nat, w. rewrite Nat.add_0_r. done.
  - destruct (IH _ C) as (k & p & L & ->). exists (S k), p. split; [done|]. f_equal. lia.
Qed.
Lemma initial_elem v vs i k p : vs !! k = Some p -> Cand (i + k) (sq_dist p v) 0 ∈ initial v i vs.
Proof.
  revert i k. induction vs as [| w vs IH]; intros i k L; [done|]. destruct k as [| k]; cbn in *.
  - injection L as ->. rewrite Nat.add_0_r. left.
  - right. replace (i + S k)%nat with (S i + k)%nat by lia. by apply IH.
Qed.
Lemma initial_vertices v vs i : c_vertex <$> initial v i vs = seq i (length vs).
Proof. revert i. induction vs as [| w vs IH]; intros i; cbn; [done|]. by rewrite IH. Qed.

Lemma update_ok vs closest p l : Forall (fun c => (c_vertex c < length vs)%nat) l ->
  exists r, update vs closest p l = Ok r /\
    Forall2 (fun c d => c_vertex d = c_vertex c /\ exists q, vs !! c_vertex c = Some q /\
      ((sq_dist p q < c_distance c /\ c_distance d = sq_dist p q /\ c_to d = closest) \/
       (c_distance c <= sq_dist p q /\ d = c))) l r.
Proof.
  induction 1 as [| c l C L IH]; cbn; [by exists []|].
  destruct (lookup_lt_is_Some_2 vs (c_vertex c) C) as [q Q]. rewrite Q; cbn.
  destruct IH as (r & -> & F); cbn. eexists. split; [done|]. constructor; [| done].
  rewrite vSize2_sub. destruct (sq_dist p q <? c_distance c) eqn:E; [apply Z.ltb_lt in E | apply Z.ltb_ge in E]; cbn.
  - split; [done|]. exists q. split; [done|]. by left.
  - split; [done|]. exists q. split; [done|]. by right.
Qed.

(** * The graph *)
Definition graph_ok (g : graph) (T : list (pt * pt)) (S : list pt) : Prop :=
  (T = [] -> g = ∅) /\
  (T <> [] -> forall x, x ∈ S <-> is_Some (g !! x)) /\
  (forall x es, g !! x = Some es -> (forall e, e ∈ es -> e.1 = x) /\ es.*2 ≡ₚ neighbours x T).

Lemma graph_size g T S : graph_ok g T S -> NoDup S -> T <> [] -> size g = length S.
Proof.
  intros (_ & D & _) N NT. specialize (D NT). rewrite <- (size_dom (D := gset pt) g).
  replace (dom g) with (list_to_set S : gset pt).
  - by rewrite size_list_to_set.
  - apply set_eq. intros x. rewrite elem_of_list_to_set, D. symmetry. apply elem_of_dom.
Qed.
Lemma neighbours_none p T S : among S T -> p ∉ S -> neighbours p T = [].
Proof.
  intros A N. induction T as [| e T IH]; [done|]. cbn.
  destruct (A e (elem_of_list_here _ _)) as [E1 E2].
  rewrite bool_decide_eq_false_2, bool_decide_eq_false_2 by (intros <-; done). cbn.
  apply IH. intros f F. apply A. by right.
Qed.

Lemma graph_add g T S p q : graph_ok g T S -> among S T -> p ∉ S -> q ∈ S -> (T = [] -> S = [q]) ->
  graph_ok (add_edge (add_edge g p q) q p) ((p, q) :: T) (p :: S).
Proof.
  intros (G0 & GD & GN) A Np Iq S0. assert (Npq : p <> q) by (intros ->; done).
  assert (Gp : g !! p = None).
  { destruct (decide (T = [])) as [-> | NT].
    - rewrite (G0 eq_refl). apply lookup_empty.
    - destruct (g !! p) eqn:E; [| done]. exfalso. apply Np. apply (GD NT). by exists l. }
  split; [done|]. split.
  - intros _ x. unfold add_edge. rewrite (lookup_insert_ne g p q) by done. rewrite elem_of_cons. split.
    + intros [-> | I].
      * rewrite lookup_insert_ne by done. rewrite lookup_insert. done.
      * destruct (decide (x = q)) as [-> | Nx]; [rewrite lookup_insert; done|].
        assert (x <> p) by (intros ->; done).
        rewrite lookup_insert_ne by done. rewrite lookup_insert_ne by done.
        destruct (decide (T = [])) as [-> | NT].
        -- rewrite (S0 eq_refl) in I. apply elem_of_list_singleton in I. done.
        -- by apply (GD NT).
    + intros I. destruct (decide (x = q)) as [-> | Nx]; [by right|].
      rewrite lookup_insert_ne in I by done. destruct (decide (x = p)) as [-> | Nxp]; [by left|].
      rewrite lookup_insert_ne in I by done. right.
      destruct (decide (T = [])) as [-> | NT].
      * rewrite (G0 eq_refl), lookup_empty in I. by destruct I.
      * by apply (GD NT).
  - intros x es. unfold add_edge. rewrite (lookup_insert_ne g p q) by done.
    destruct (decide (x = q)) as [-> | Nx].
    + rewrite lookup_insert. intros [= <-].
      assert (B : (forall e, e ∈ default [] (g !! q) -> e.1 = q) /\ (default [] (g !! q)).*2 ≡ₚ neighbours q T).
      { destruct (g !! q) as [es' |] eqn:E; cbn; [by apply GN|]. split; [intros e I; by apply elem_of_nil in I|].
        destruct (decide (T = [])) as [-> | NT]; [done|].
        apply (GD NT) in Iq. rewrite E in Iq. by destruct Iq. }
      destruct B as [B1 B2]. split.
      * intros e I. apply elem_of_app in I as [I | I]; [by apply B1|]. apply elem_of_list_singleton in I as ->. done.
      * cbn. rewrite (bool_decide_eq_false_2 (p = q)), bool_decide_eq_true_2 by done. cbn.
        rewrite fmap_app, B2. cbn. apply Permutation_app_comm.
    + rewrite lookup_insert_ne by done. destruct (decide (x = p)) as [-> | Nxp].
      * rewrite lookup_insert. rewrite Gp. intros [= <-]. cbn. split.
        -- intros e I. apply elem_of_list_singleton in I as ->. done.
        -- rewrite bool_decide_eq_true_2, bool_decide_eq_false_2 by done. cbn. rewrite (neighbours_none p T S); done.
      * rewrite lookup_insert_ne by done. intros E. cbn.
        rewrite bool_decide_eq_false_2, bool_decide_eq_false_2 by done. cbn. by apply GN.
Qed.

(** * The loop *)
Record inv (v0 : pt) (vs S : list pt) (cands : list candidate) (g : graph) (T : list (pt * pt)) : Prop := Inv {
  inv_nodup : NoDup S;
  inv_sub : forall x, x ∈ S -> x ∈ vs;
  inv_root : v0 ∈ S;
  inv_cands : NoDup (c_vertex <$> cands);
  inv_cand : forall c, c ∈ cands -> exists p q, vs !! c_vertex c = Some p /\ vs !! c_to c = Some q /\
     p ∉ S /\ q ∈ S /\ c_distance c = sq_dist p q /\ forall s, s ∈ S -> c_distance c <= sq_dist p s;
  inv_all : forall x, x ∈ vs -> x ∈ S \/ exists c, c ∈ cands /\ vs !! c_vertex c = Some x;
  inv_count : (length S + length cands)%nat = length vs;
  inv_tree : length S = Datatypes.S (length T);
  inv_among : among S T;
  inv_conn : forall s, s ∈ S -> connected T s v0;
  inv_graph : graph_ok g T S;
  inv_ne : forall e, e ∈ T -> e.1 <> e.2 }.

Lemma filter_one (l : list candidate) c : NoDup (c_vertex <$> l) -> c ∈ l ->
  l ≡ₚ c :: filter (fun d => c_vertex d <> c_vertex c) l.
Proof.
  induction l as [| d l IH]; intros N I; [by apply elem_of_nil in I|].
  rewrite fmap_cons in N. apply NoDup_cons in N as [N1 N2]. apply elem_of_cons in I as [-> | I].
  - rewrite filter_cons_False by (intros X; by apply X). constructor.
    assert (E : filter (fun d0 => c_vertex d0 <> c_vertex d) l = l); [| by rewrite E].
    clear IH N2. induction l as [| e l IH]; [done|]. rewrite fmap_cons in N1. apply not_elem_of_cons in N1 as [N1 N2].
    rewrite filter_cons_True by congruence. f_equal. by apply IH.
  - assert (c_vertex d <> c_vertex c).
    { intros E. apply N1. rewrite E. apply elem_of_list_fmap. by exists c. }
    rewrite filter_cons_True by done. rewrite (IH N2 I) at 1. constructor.
Qed.

Lemma inv_step v0 vs S cands g T c : NoDup vs -> inv v0 vs S cands g T -> c ∈ cands ->
  exists p q cands', vs !! c_vertex c = Some p /\ vs !! c_to c = Some q /\
    update vs (c_vertex c) p (filter (fun d => c_vertex d <> c_vertex c) cands) = Ok cands' /\
    p ∉ S /\ q ∈ S /\ c_distance c = sq_dist p q /\ (length cands = Datatypes.S (length cands')) /\
    inv v0 vs (p :: S) cands' (add_edge (add_edge g p q) q p) ((p, q) :: T).
Proof.
  intros NV I C. destruct (inv_cand _ _ _ _ _ _ I c C) as (p & q & Lp & Lq & Np & Iq & D & Min).
  pose proof (filter_one cands c (inv_cands _ _ _ _ _ _ I) C) as P.
  set (rest := filter (fun d => c_vertex d <> c_vertex c) cands) in *.
  assert (R : forall d, d ∈ rest -> d ∈ cands /\ c_vertex d <> c_vertex c).
  { intros d H. apply elem_of_list_filter in H as [H1 H2]. done. }
  destruct (update_ok vs (c_vertex c) p rest) as (cands' & U & F).
  { apply Forall_forall. intros d H. apply R in H as [H _].
    destruct (inv_cand _ _ _ _ _ _ I d H) as (p' & q' & Lp' & _). by apply lookup_lt_Some in Lp'. }
  assert (V : c_vertex <$> cands' = c_vertex <$> rest).
  { clear - F. induction F as [| x y l l' [E _] F IH]; [done|]. cbn. congruence. }
  assert (Len : length cands' = length rest) by (symmetry; by eapply Forall2_length).
  exists p, q, cands'. split; [done|]. split; [done|]. split; [done|]. split; [done|]. split; [done|]. split; [done|].
  split; [rewrite (Permutation_length P); cbn; lia|].
  destruct I as [I1 I2 I3 I4 I5 I6 I7 I8 I9 I10 I11 I12]. constructor.
  - by constructor.
  - intros x H. apply elem_of_cons in H as [-> | H]; [by eapply elem_of_list_lookup_2 | by apply I2].
  - by right.
  - rewrite V. rewrite P in I4. cbn in I4. by apply NoDup_cons in I4 as [_ I4].
  - intros d' H. apply elem_of_list_lookup in H as [k H].
    destruct (Forall2_lookup_r _ _ _ _ _ F H) as (d & Hd & Ev & q' & Lq' & W).
    apply elem_of_list_lookup_2 in Hd. apply R in Hd as [Hd Hn].
    destruct (I5 d Hd) as (dp & dq & Ldp & Ldq & Ndp & Idq & Dd & Md).
    assert (q' = dp) as -> by congruence.
    assert (dp <> p). { intros X. rewrite X in Ldp. apply Hn. exact (NoDup_lookup vs _ _ _ NV Ldp Lp). }
    exists dp. destruct W as [(W1 & W2 & W3) | [W1 ->]].
    + exists p. rewrite Ev, W2, W3. split; [done|]. split; [done|].
      split; [by apply not_elem_of_cons|]. split; [left|]. split; [apply sq_dist_sym|].
      intros s H1. apply elem_of_cons in H1 as [-> | H1]; [rewrite sq_dist_sym; lia|]. specialize (Md s H1). lia.
    + exists dq. split; [done|]. split; [done|]. split; [by apply not_elem_of_cons|]. split; [by right|]. split; [done|].
      intros s H1. apply elem_of_cons in H1 as [-> | H1]; [rewrite sq_dist_sym; lia|]. by apply Md.
  - intros x H. destruct (I6 x H) as [H1 | (d & Hd & Ld)]; [left; by right|].
    rewrite P in Hd. apply elem_of_cons in Hd as [-> | Hd].
    + left. rewrite Lp in Ld. injection Ld as ->. left.
    + right. apply elem_of_list_lookup in Hd as [k Hd]. destruct (Forall2_lookup_l _ _ _ _ _ F Hd) as (d' & Hd' & Ev & _).
      exists d'. split; [by eapply elem_of_list_lookup_2|]. by rewrite Ev.
  - rewrite (Permutation_length P) in I7. cbn in *. lia.
  - cbn. lia.
  - intros e H. apply elem_of_cons in H as [-> | H]; cbn.
    + split; [left | by right].
    + destruct (I9 e H). split; by right.
  - intros s H. apply elem_of_cons in H as [-> | H].
    + apply (rtc_l _ _ q); [left; left|]. apply (connected_mono T); [intros e; by right|]. by apply I10.
    + apply (connected_mono T); [intros e; by right|]. by apply I10.
  - apply graph_add; try done. intros ->. cbn in I8. destruct S as [| x [| y S]]; cbn in I8; try lia.
    apply elem_of_list_singleton in Iq. congruence.
  - intros e H. apply elem_of_cons in H as [-> | H]; [cbn; by intros -> | by apply I12].
Qed.

Section loop.
  Context (iter : nat -> list candidate -> list candidate) (iter_perm : forall k l, iter k l ≡ₚ l).

  Lemma grow_spec vs v0 : NoDup vs -> (2 <= length vs)%nat -> forall fuel k S cands g T,
    inv v0 vs S cands g T -> (length cands < fuel)%nat ->
    exists g' N S', grow iter fuel k vs g cands = Ok g' /\ inv v0 vs S' [] g' (N ++ T) /\
      forall F, among vs F -> (forall y, y ∈ vs -> reach F S y) -> total N <= total F.
  Proof.
    intros NV LV. induction fuel as [| fuel IH]; intros k S cands g T I Fu; [lia|]. cbn [grow].
    assert (Sz : (size g <? length vs)%nat = negb (bool_decide (cands = []))).
    { destruct (decide (T = [])) as [-> | NT].
      - destruct (inv_graph _ _ _ _ _ _ I) as (G0 & _). rewrite (G0 eq_refl), map_size_empty.
        pose proof (inv_count _ _ _ _ _ _ I). pose proof (inv_tree _ _ _ _ _ _ I) as Tr. cbn in Tr.
        rewrite bool_decide_eq_false_2 by (intros ->; cbn in *; lia). apply Nat.ltb_lt. lia.
      - rewrite (graph_size g T S); [| by eapply inv_graph | by eapply inv_nodup | done].
        pose proof (inv_count _ _ _ _ _ _ I). case_bool_decide as E.
        + rewrite E in *. cbn in *. apply Nat.ltb_ge. lia.
        + apply Nat.ltb_lt. destruct cands; [done | cbn in *; lia]. }
    rewrite Sz. case_bool_decide as E; cbn [negb].
    - rewrite E in *. exists g, [], S. split; [done|]. split; [done|]. intros F _ _. cbn. apply total_nonneg.
    - destruct (min_element (iter k cands)) as [c |] eqn:M.
      2:{ apply min_element_none in M. exfalso. apply E. apply Permutation_nil. rewrite <- M. by rewrite iter_perm. }
      apply min_element_spec in M as [Mc Mm]. rewrite iter_perm in Mc.
      destruct (inv_step v0 vs S cands g T c NV I Mc) as (p & q & cands' & Lp & Lq & U & Np & Iq & D & Len & I').
      rewrite Lp, Lq. cbn. rewrite U. cbn.
      destruct (IH (Datatypes.S k) (p :: S) cands' _ _ I') as (g' & N & S' & G & I'' & Opt); [lia|].
      exists g', (N ++ [(p, q)]), S'. split; [exact G|]. split; [by rewrite <- app_assoc|].
      intros F AF Sp. rewrite total_app. cbn.
      assert (Vp : p ∈ vs) by by eapply elem_of_list_lookup_2.
      destruct (cut F S p (Sp p Vp) Np) as (x0 & x1 & J & I0 & N1 & Pth).
      assert (Ff : exists f, f ∈ F /\ (f = (x0, x1) \/ f = (x1, x0))).
      { destruct J as [J | J]; eexists; (split; [exact J|]); auto. }
      destruct Ff as (f & Hf & Sh).
      apply elem_of_Permutation in Hf as [F' PF].
      assert (V1 : x1 ∈ vs).
      { destruct J as [J | J]; apply AF in J as [? ?]; done. }
      destruct (inv_all _ _ _ _ _ _ I x1 V1) as [X | (d & Hd & Ld)]; [done|].
      destruct (inv_cand _ _ _ _ _ _ I d Hd) as (dp & dq & Ldp & _ & _ & _ & _ & Md).
      assert (dp = x1) as -> by congruence. specialize (Md x0 I0).
      assert (Dm : c_distance c <= c_distance d). { apply Mm. by rewrite iter_perm. }
      assert (Wf : sq_dist f.1 f.2 = sq_dist x1 x0). { destruct Sh as [-> | ->]; cbn; [apply sq_dist_sym | done]. }
      rewrite (total_perm _ _ PF). cbn. rewrite Wf.
      assert (total N <= total F').
      { apply Opt.
        - intros e He. apply AF. rewrite PF. by right.
        - intros y Vy. by apply (contract F F' f S p x0 x1 PF Sh I0 N1 Pth), Sp. }
      lia.
  Qed.
End loop.

Lemma initial_inv v vs : NoDup (v :: vs) -> inv v (v :: vs) [v] (initial v 1 vs) ∅ [].
Proof.
  intros NV. pose proof NV as [Nv Nvs]%NoDup_cons. constructor.
  - apply NoDup_singleton.
  - intros x H. apply elem_of_list_singleton in H as ->. left.
  - left.
  - rewrite initial_vertices. apply NoDup_seq.
  - intros c C. apply elem_of_initial in C as (k & p & L & ->). exists p, v. cbn. split; [done|]. split; [done|].
    split. { intros H. apply elem_of_list_singleton in H as ->. apply Nv. by eapply elem_of_list_lookup_2. }
    split; [left|]. split; [done|]. intros s H. apply elem_of_list_singleton in H as ->. lia.
  - intros x H. apply elem_of_cons in H as [-> | H]; [left; left|]. right.
    apply elem_of_list_lookup in H as [k H]. exists (Cand (1 + k) (sq_dist x v) 0). split; [by apply initial_elem | done].
  - pose proof (f_equal length (initial_vertices v vs 1)) as L. rewrite fmap_length, seq_length in L. cbn. lia.
  - done.
  - intros e H. by apply elem_of_nil in H.
  - intros s H. apply elem_of_list_singleton in H as ->. constructor.
  - split; [done|]. split; [done|]. intros x es H. by rewrite lookup_empty in H.
  - intros e H. by apply elem_of_nil in H.
Qed.

(** Points that occur twice. *)
Lemma size_dups (vs : list pt) : (size (list_to_set vs : gset pt) <= length vs)%nat.
Proof.
  induction vs as [| v vs IH]; cbn; [by rewrite size_empty|].
  pose proof (size_union_alt {[v]} (list_to_set vs : gset pt)) as E. rewrite E, size_singleton.
  pose proof (subseteq_size (list_to_set vs ∖ {[v]} : gset pt) (list_to_set vs)) as Sub. cbn in Sub.
  assert (X : (size (list_to_set vs ∖ {[v]} : gset pt) <= size (list_to_set vs : gset pt))%nat) by (apply Sub; set_solver).
  lia.
Qed.
Lemma size_dups_lt (vs : list pt) : ~ NoDup vs -> (size (list_to_set vs : gset pt) < length vs)%nat.
Proof.
  induction vs as [| v vs IH]; intros N; [exfalso; apply N; constructor|]. cbn.
  destruct (decide (v ∈ vs)) as [I | I].
  - replace ({[v]} ∪ list_to_set vs : gset pt) with (list_to_set vs : gset pt).
    + pose proof (size_dups vs). lia.
    + apply set_eq. intros x. rewrite elem_of_union, elem_of_singleton, elem_of_list_to_set.
      split; [by right|]. intros [-> | H]; done.
  - assert (N' : ~ NoDup vs) by (intros X; apply N; by constructor). specialize (IH N').
    pose proof (size_union_alt {[v]} (list_to_set vs : gset pt)) as E. rewrite E, size_singleton.
    pose proof (subseteq_size (list_to_set vs ∖ {[v]} : gset pt) (list_to_set vs)) as Sub.
    assert (X : (size (list_to_set vs ∖ {[v]} : gset pt) <= size (list_to_set vs : gset pt))%nat) by (apply Sub; set_solver).
    lia.
Qed.

Section dups.
  Context (iter : nat -> list candidate -> list candidate) (iter_perm : forall k l, iter k l ≡ₚ l).

  Lemma grow_dups vs : ~ NoDup vs -> forall fuel k cands g,
    Forall (fun c => (c_vertex c < length vs /\ c_to c < length vs)%nat) cands -> NoDup (c_vertex <$> cands) ->
    (forall x, is_Some (g !! x) -> x ∈ vs) -> (length cands < fuel)%nat -> grow iter fuel k vs g cands = UB.
  Proof.
    intros ND. induction fuel as [| fuel IH]; intros k cands g FV NC D Fu; [lia|]. cbn [grow].
    assert (Sz : (size g < length vs)%nat).
    { apply Nat.le_lt_trans with (size (list_to_set vs : gset pt)); [| by apply size_dups_lt].
      rewrite <- (size_dom (D := gset pt) g). apply subseteq_size. intros x H. apply elem_of_dom in H.
      apply elem_of_list_to_set. by apply D. }
    apply Nat.ltb_lt in Sz. rewrite Sz.
    destruct (min_element (iter k cands)) as [c |] eqn:M; [| done].
    apply min_element_spec in M as [Mc _]. rewrite iter_perm in Mc.
    pose proof (filter_one cands c NC Mc) as P.
    rewrite Forall_forall in FV. destruct (FV c Mc) as [V1 V2].
    destruct (lookup_lt_is_Some_2 vs _ V1) as [p Lp]. destruct (lookup_lt_is_Some_2 vs _ V2) as [q Lq].
    rewrite Lp, Lq. cbn.
    set (rest := filter (fun d => c_vertex d <> c_vertex c) cands) in *.
    assert (FR : forall d, d ∈ rest -> d ∈ cands) by (intros d H; apply elem_of_list_filter in H; tauto).
    destruct (update_ok vs (c_vertex c) p rest) as (cands' & U & F).
    { apply Forall_forall. intros d H. by apply FV, FR. }
    rewrite U. cbn.
    assert (V : c_vertex <$> cands' = c_vertex <$> rest).
    { clear - F. induction F as [| x y l l' [E _] F IH]; [done|]. cbn. congruence. }
    assert (Len : length cands' = length rest) by (symmetry; by eapply Forall2_length).
    apply IH.
    - apply Forall_forall. intros d' H. apply elem_of_list_lookup in H as [i H].
      destruct (Forall2_lookup_r _ _ _ _ _ F H) as (d & Hd & Ev & q' & Lq' & W).
      apply elem_of_list_lookup_2 in Hd. apply FR, FV in Hd as [H1 H2]. rewrite Ev.
      destruct W as [(_ & _ & ->) | [_ ->]]; done.
    - rewrite V. rewrite P in NC. cbn in NC. by apply NoDup_cons in NC as [_ NC].
    - intros x. unfold add_edge. intros H.
      apply lookup_insert_is_Some' in H as [<- | H]; [by eapply elem_of_list_lookup_2|].
      apply lookup_insert_is_Some' in H as [<- | H]; [by eapply elem_of_list_lookup_2|]. by apply D.
    - pose proof (Permutation_length P) as PL. cbn in PL. lia.
  Qed.
End dups.
