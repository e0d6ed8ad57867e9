(** C23: the minimum spanning tree. *)
From Coq Require Import ZArith Lia.
From stdpp Require Import gmap list relations.
From Verif Require Import Common Geo_Model MST_Model MST_Spec MST_Proofs.
Open Scope Z_scope.

(** C23.  For distinct points, in whatever order the hash maps are iterated, the tree is built; its points are the given
    ones; the neighbours it reports are those of a set of edges between the points; there is one edge less than there are
    points; the edges connect all points; no set of edges between the points that connects them is shorter in total, and
    without any one of the edges the points are no longer connected, so there is no cycle. *)
Theorem C23_tree : forall iter, (forall k l, iter k l ≡ₚ l) -> forall vs, NoDup vs ->
  exists g tree, prim iter vs = Ok g /\ vertices g ≡ₚ vs /\ among vs tree /\
    (forall p, p ∈ vs -> adjacentNodes g p ≡ₚ neighbours p tree) /\
    length tree = (length vs - 1)%nat /\ spans vs tree /\
    (forall es, among vs es -> spans vs es -> total tree <= total es) /\
    (forall e es, tree ≡ₚ e :: es -> ~ spans vs es).
Proof.
  intros iter P vs NV. destruct vs as [| v [| w vs]].
  - exists ∅, []. split; [done|]. split; [unfold vertices; by rewrite map_to_list_empty|].
    split; [intros e H; by apply elem_of_nil in H|]. split; [intros p H; by apply elem_of_nil in H|]. split; [done|].
    split; [intros p q H; by apply elem_of_nil in H|]. split; [intros es _ _; apply total_nonneg|].
    intros e es H. by apply Permutation_nil_cons in H.
  - exists {[ v := [] ]}, []. split; [done|]. split; [unfold vertices; by rewrite map_to_list_singleton|].
    split; [intros e H; by apply elem_of_nil in H|]. split.
    { intros p H. apply elem_of_list_singleton in H as ->. unfold adjacentNodes. by rewrite lookup_singleton. }
    split; [done|]. split.
    { intros p q H1 H2. apply elem_of_list_singleton in H1 as ->. apply elem_of_list_singleton in H2 as ->. constructor. }
    split; [intros es _ _; apply total_nonneg|]. intros e es H. by apply Permutation_nil_cons in H.
  - set (l := v :: w :: vs) in *.
    destruct (grow_spec iter P l v NV ltac:(cbn; lia) (S (length l)) 0 [v] (initial v 1 (w :: vs)) ∅ [] (initial_inv v _ NV))
      as (g & N & R & G & I & Opt).
    { pose proof (f_equal length (initial_vertices v (w :: vs) 1)) as L. rewrite fmap_length, seq_length in L.
      rewrite L. cbn. lia. }
    rewrite app_nil_r in I.
    assert (RV : forall x, x ∈ R <-> x ∈ l).
    { intros x. split; [apply (inv_sub _ _ _ _ _ _ I)|]. intros H.
      destruct (inv_all _ _ _ _ _ _ I x H) as [H1 | (c & C & _)]; [done | by apply elem_of_nil in C]. }
    assert (NN : N <> []).
    { intros ->. pose proof (inv_count _ _ _ _ _ _ I) as C. pose proof (inv_tree _ _ _ _ _ _ I) as T. cbn in C, T. lia. }
    destruct (inv_graph _ _ _ _ _ _ I) as (_ & GD & GN). specialize (GD NN).
    assert (AM : among l N). { intros e H. destruct (inv_among _ _ _ _ _ _ I e H). by rewrite <- !RV. }
    assert (LN : length N = (length l - 1)%nat).
    { pose proof (inv_count _ _ _ _ _ _ I) as C. pose proof (inv_tree _ _ _ _ _ _ I) as T. cbn [length] in C. lia. }
    assert (SP : spans l N).
    { intros p q H1 H2. unfold connected. transitivity v.
      - by apply (inv_conn _ _ _ _ _ _ I), RV.
      - by apply connected_sym, (inv_conn _ _ _ _ _ _ I), RV. }
    assert (OPT : forall es, among l es -> spans l es -> total N <= total es).
    { intros es A Sp. apply Opt; [done|]. intros y H. apply (reach_of_connected _ _ _ v); [| left].
      apply Sp; [done | left]. }
    exists g, N. split; [exact G|]. split.
    { apply NoDup_Permutation; [apply NoDup_fst_map_to_list | done |]. intros x. rewrite <- RV, GD.
      unfold vertices. rewrite elem_of_list_fmap. split.
      - intros ([k es] & -> & H). apply elem_of_map_to_list in H. by exists es.
      - intros [es H]. exists (x, es). split; [done|]. by apply elem_of_map_to_list. }
    split; [done|]. split.
    { intros p H. apply RV, GD in H as [es H]. unfold adjacentNodes. rewrite H. destruct (GN p es H) as [E1 E2].
      rewrite <- E2. clear - E1. induction es as [| e es IH]; [done|]. cbn.
      rewrite bool_decide_eq_true_2 by (apply E1; left). constructor. apply IH. intros f F. apply E1. by right. }
    split; [done|]. split; [done|]. split; [done|].
    intros e es PE Sp.
    assert (AE : among l es). { intros f F. apply AM. rewrite PE. by right. }
    specialize (OPT es AE Sp). rewrite (total_perm _ _ PE) in OPT. cbn in OPT.
    assert (NE : e.1 <> e.2). { apply (inv_ne _ _ _ _ _ _ I). rewrite PE. left. }
    pose proof (sq_dist_pos _ _ NE). lia.
Qed.
Print Assumptions C23_tree.

(** C23.  The leaves are the points with at most one neighbour, each once. *)
Theorem C23_leaves : forall iter, (forall k l, iter k l ≡ₚ l) -> forall vs g, NoDup vs -> prim iter vs = Ok g ->
  NoDup (leaves g) /\ forall p, p ∈ leaves g <-> p ∈ vs /\ (length (adjacentNodes g p) <= 1)%nat.
Proof.
  intros iter P vs g NV H. destruct (C23_tree iter P vs NV) as (g' & T & H' & V & _).
  rewrite H in H'. injection H' as <-. split.
  - unfold leaves. pose proof (NoDup_fst_map_to_list g) as N. induction (map_to_list g) as [| kv l IH]; [constructor|].
    rewrite fmap_cons in N. apply NoDup_cons in N as [N1 N2]. rewrite filter_cons. case_decide; [| by apply IH].
    rewrite fmap_cons. constructor; [| by apply IH]. intros I. apply N1. apply elem_of_list_fmap in I as (e & E & I).
    apply elem_of_list_filter in I as [_ I]. apply elem_of_list_fmap. by exists e.
  - intros p. rewrite <- V. unfold leaves, vertices, adjacentNodes. rewrite !elem_of_list_fmap. split.
    + intros ([k es] & -> & F). apply elem_of_list_filter in F as [F1 F2]. cbn in *.
      split; [by exists (k, es)|]. apply elem_of_map_to_list in F2. rewrite F2. by rewrite fmap_length.
    + intros [([k es] & -> & F) L]. cbn in *. exists (k, es). split; [done|]. apply elem_of_list_filter. split; [| done].
      apply elem_of_map_to_list in F. rewrite F, fmap_length in L. done.
Qed.
Print Assumptions C23_leaves.

(** When a point is given twice, the tree can not reach the expected number of points: the loop goes on until it takes the
    closest of no points. *)
Theorem C23_duplicates_refuted : forall iter, (forall k l, iter k l ≡ₚ l) -> forall vs, ~ NoDup vs -> prim iter vs = UB.
Proof.
  intros iter P vs ND. destruct vs as [| v [| w vs]].
  - exfalso. apply ND. constructor.
  - exfalso. apply ND. apply NoDup_singleton.
  - set (l := v :: w :: vs) in *. change (prim iter l) with (grow iter (S (length l)) 0 l ∅ (initial v 1 (w :: vs))).
    pose proof (f_equal length (initial_vertices v (w :: vs) 1)) as L. rewrite fmap_length, seq_length in L.
    apply grow_dups; try done.
    + apply Forall_forall. intros c C. apply elem_of_initial in C as (k & p & Lk & ->). cbn.
      apply lookup_lt_Some in Lk. cbn in Lk. lia.
    + rewrite initial_vertices. apply NoDup_seq.
    + intros x [es H]. by rewrite lookup_empty in H.
    + rewrite L. cbn. lia.
Qed.
Print Assumptions C23_duplicates_refuted.

(** A square with a point in the middle: the middle gets all others as neighbours.  Visiting the candidates backwards
    gives the same tree. *)
Definition five_points : list pt := [(0, 0); (10, 0); (10, 10); (0, 10); (5, 4)].
Example C23_example :
  NoDup five_points /\
  (forall iter, iter = (fun _ l => l) \/ iter = (fun (_ : nat) l => rev l) ->
    (forall k l, iter k l ≡ₚ l) /\
    exists g, prim iter five_points = Ok g /\ length (adjacentNodes g (5, 4)) = 4%nat /\ length (leaves g) = 4%nat) /\
  prim (fun _ l => l) ((5, 4) :: five_points) = UB.
Proof.
  split; [unfold five_points; repeat (constructor; [set_solver by done|]); try constructor|].
  split; [| vm_compute; reflexivity]. intros iter [-> | ->].
  - split; [done|]. eexists. split; [vm_compute; reflexivity|]. split; vm_compute; reflexivity.
  - split; [intros _ l; symmetry; apply Permutation_rev|].
    eexists. split; [vm_compute; reflexivity|]. split; vm_compute; reflexivity.
Qed.
