(** C01: union-find maintains a partition. *)
From Coq Require Import Relations.
From Verif Require Import Common UnionFind_Model UnionFind_Spec UnionFind_Proofs.

(** For every history of adds, finds and unions-by-item that is legal for the
    specification (both items of a union have been added), the implementation runs
    without undefined behaviour or unbounded recursion, and afterwards [find]
    recognises exactly the added items and gives equal handles to exactly the items
    that the specification puts in the same set. *)
Theorem C01_union_find_is_partition :
  forall (E : Type) (EqD : EqDecision E) (ops : list (op E)) (s : spec_state E),
    spec_run spec_init ops s ->
    exists u, uf_run uf_empty ops = Ok u /\
      (forall e, exists u' h, uf_find u e = Ok (u', h)) /\
      forall a b ua ha ub hb,
        uf_find u a = Ok (ua, ha) -> uf_find u b = Ok (ub, hb) ->
        (ha <> None <-> In a (ss_items s)) /\
        (ha <> None -> hb <> None -> (ha = hb <-> same_set s a b)).
Proof.
  intros E EqD ops s Hrun.
  destruct (run_refines ops uf_empty spec_init s inv_init Hrun) as (u & Hu & Hinv).
  exists u. split; [exact Hu|]. split.
  - intros e. destruct (assoc (uf_pos u) e) as [m|] eqn:Hpos.
    + destruct (find_spec u s e m Hinv) as (u' & r & Hf & _); [by apply (inv_pos _ _ Hinv)|]. eauto.
    + unfold uf_find. rewrite Hpos. eauto.
  - intros. eapply find_answers; eassumption.
Qed.

(** Non-vacuity: a history over numbers with two unions. *)
Definition ex_ops : list (op nat) :=
  [OpAdd 7; OpAdd 8; OpAdd 9; OpAdd 10; OpUnite 7 8; OpUnite 9 8; OpFind 9].

Example C01_nonvacuous :
  exists s, spec_run spec_init ex_ops s /\ same_set s 7 9 /\ ~ same_set s 7 10.
Proof.
  assert (Hn : forall l e m, [7;8;9;10] !! m = Some e -> names (SS [7;8;9;10] l) e m).
  { intros l e m Hm. apply names_check; [exact Hm|]. simpl.
    do 4 (destruct m as [|m]; [simpl in Hm; simplify_eq; repeat constructor; lia|]).
    destruct m; discriminate Hm. }
  exists (SS [7;8;9;10] [(2,1);(0,1)]). split; [|split].
  - unfold ex_ops, spec_init.
    do 4 (eapply SRCons; [apply SAdd|simpl]).
    eapply SRCons; [apply (SUnite _ 7 8 0 1); by apply Hn|simpl].
    eapply SRCons; [apply (SUnite _ 9 8 2 1); by apply Hn|simpl].
    eapply SRCons; [apply SFind|constructor].
  - exists 0, 2. split; [by apply Hn|]. split; [by apply Hn|].
    eapply rst_trans; [apply rst_step; right; left; reflexivity|]. apply rst_sym, rst_step. left. reflexivity.
  - intros (ma & mb & [Ha _] & [Hb _] & Ht). simpl in *.
    assert (ma = 0) as -> by (do 4 (destruct ma as [|ma]; [simpl in Ha; congruence|]); destruct ma; discriminate Ha).
    assert (mb = 3) as -> by (do 4 (destruct mb as [|mb]; [simpl in Hb; congruence|]); destruct mb; discriminate Hb).
    assert (Hgen : forall x y, together (SS [7;8;9;10] [(2,1);(0,1)]) x y -> (x = 3 <-> y = 3)).
    { intros x y H. induction H as [x y [H|[H|[]]]|x|x y H IH|x y z H1 IH1 H2 IH2]; simplify_eq; intuition lia. }
    apply Hgen in Ht. lia.
Qed.

(** The interface comment says [unite] takes "one of the sets"; passing the handle that [add]
    returned (a valid handle, but possibly not the representative any more) is not safe.
    Here 0,1 and 2,3 are united, then unite(1,3) is called with those raw handles, and the
    chain 0-1-3-2 is not one set: items 0 and 2, in connected sets, get different handles. *)
Definition ex_raw : res (option nat * option nat) :=
  let u0 := fst (uf_add (fst (uf_add (fst (uf_add (fst (uf_add (uf_empty (E:=nat)) 0)) 1)) 2)) 3) in
  let! r1 := uf_unite u0 0 1 in
  let! r2 := uf_unite (fst r1) 2 3 in
  let! r3 := uf_unite (fst r2) 1 3 in
  let! f0 := uf_find (fst r3) 0 in
  let! f2 := uf_find (fst r3) 2 in
  Ok (snd f0, snd f2).

Theorem C01_unite_of_raw_handles_refuted :
  exists h h', ex_raw = Ok (Some h, Some h') /\ h <> h'.
Proof. exists 0, 2. split; [vm_compute; reflexivity|lia]. Qed.

Print Assumptions C01_union_find_is_partition.
Print Assumptions C01_nonvacuous.
Print Assumptions C01_unite_of_raw_handles_refuted.
