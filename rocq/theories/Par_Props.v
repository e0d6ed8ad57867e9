(** C42: parallel_for runs each index exactly once, waits for all, and does not deadlock, in every schedule. *)
From Coq Require Import ZArith Lia.
From stdpp Require Import list list_numbers.
From Verif Require Import Common Par_Model Par_Spec Par_Chunks.

Notation thread := (base * list frame)%type.

(** ** Sums over all frames and over the queue *)

Notation fsum g fs := (sum_list_with g fs).
Definition sumT (g : frame -> nat) (ths : list thread) : nat := sum_list_with (fun th => fsum g th.2) ths.
Local Arguments sumT : simpl never.

Definition ind (P : Prop) `{Decision P} : nat := if decide P then 1 else 0.

Definition chunkc (c : nat) (f : frame) : nat := match f with FChunk d _ _ _ => ind (d = c) | _ => 0 end.
Definition fcallc (c : nat) (f : frame) : nat := match f with FCall d => ind (d = c) | _ => 0 end.
Definition callc (c : nat) (f : frame) : nat := match f with FCall d | FSleep d | FWoken d => ind (d = c) | _ => 0 end.
Definition inb (c : nat) (x : Z) (f : frame) : nat := match f with FBody d i _ => ind (d = c /\ i = x) | _ => 0 end.
Definition pend (c : nat) (x : Z) (f : frame) : nat := match f with FChunk d i e _ => ind (d = c /\ (i <= x < e)%Z) | _ => 0 end.
Definition taskc (c : nat) (tk : task) : nat := ind (t_call tk = c).
Definition tpend (c : nat) (x : Z) (tk : task) : nat := ind (t_call tk = c /\ (t_first tk <= x < t_last tk)%Z).
Definition ask (c : nat) (x : Z) (e : event) : nat := match e with Called d f l => ind (d = c /\ (f <= x < l)%Z) | _ => 0 end.
Definition ncalled (c : nat) (e : event) : nat := match e with Called d f l => ind (d = c) | _ => 0 end.

Lemma ind_le P `{Decision P} : ind P <= 1.
Proof. unfold ind. destruct (decide P); lia. Qed.
Lemma ind_true P `{Decision P} : P -> ind P = 1.
Proof. intros. unfold ind. by rewrite decide_True. Qed.
Lemma ind_false P `{Decision P} : ~ P -> ind P = 0.
Proof. intros. unfold ind. by rewrite decide_False. Qed.

Lemma sum_list_with_insert {A} (g : A -> nat) l t x y : l !! t = Some x ->
  sum_list_with g (<[t := y]> l) + g x = sum_list_with g l + g y.
Proof.
  revert t. induction l as [|z l IH]; intros [|t] Ht; try done.
  - injection Ht as ->. cbn. lia.
  - change (<[S t := y]> (z :: l)) with (z :: <[t := y]> l). cbn [sum_list_with]. specialize (IH t Ht). lia.
Qed.

Lemma sumT_put g ths t b fs b' fs' : ths !! t = Some (b, fs) ->
  sumT g (<[t := (b', fs')]> ths) + fsum g fs = sumT g ths + fsum g fs'.
Proof. intros H. apply (sum_list_with_insert (fun th : thread => fsum g th.2) ths t (b, fs) (b', fs') H). Qed.

Lemma sumT_wake g ths : sumT g (map wake ths) = sumT g ths.
Proof.
  unfold sumT. induction ths as [|[b fs] ths IH]; [done|]. cbn [map sum_list_with]. rewrite IH. by destruct b.
Qed.

Lemma sumT_notify_one g k ths ths' : notify_one k ths = Some ths' -> sumT g ths' = sumT g ths.
Proof.
  unfold notify_one. destruct (existsb is_asleep ths); [|naive_solver].
  destruct (ths !! k) as [[[] fs]|] eqn:E; intros [=<-].
  pose proof (sumT_put g ths k BSleep fs BWorker fs E). lia.
Qed.
Lemma sumT_notifies g ks ths ths' : notifies ks ths = Some ths' -> sumT g ths' = sumT g ths.
Proof.
  revert ths. induction ks as [|k ks IH]; cbn; intros ths H; [by injection H as <-|].
  destruct (notify_one k ths) as [ths1|] eqn:E; [|done]. apply (sumT_notify_one g) in E. rewrite <- E. by apply IH.
Qed.

(** [g] does not tell a sleeping caller from a woken one. *)
Definition blind (g : frame -> nat) := forall c, g (FSleep c) = g (FWoken c).
Lemma sumT_wake_caller g c ths : blind g -> sumT g (map (wake_caller c) ths) = sumT g ths.
Proof.
  intros Hg. unfold sumT. induction ths as [|[b fs] ths IH]; [done|]. cbn [map sum_list_with]. rewrite IH. f_equal.
  unfold wake_caller. cbn [fst snd]. destruct fs as [|[] r]; cbn; try done. destruct (Nat.eqb c c0); cbn; [|done]. by rewrite (Hg c0).
Qed.
Lemma blind_chunkc c : blind (chunkc c). Proof. done. Qed.
Lemma blind_callc c : blind (callc c). Proof. done. Qed.
Lemma blind_fcallc c : blind (fcallc c). Proof. done. Qed.
Lemma blind_inb c x : blind (inb c x). Proof. done. Qed.
Lemma blind_pend c x : blind (pend c x). Proof. done. Qed.

Lemma sumT_lookup g ths t b fs : ths !! t = Some (b, fs) -> fsum g fs <= sumT g ths.
Proof. intros H. pose proof (sumT_put g ths t b fs b [] H) as E. cbn in E. lia. Qed.

Lemma sumT_pos g ths : 0 < sumT g ths -> exists t b fs f, ths !! t = Some (b, fs) /\ f ∈ fs /\ 0 < g f.
Proof.
  unfold sumT. induction ths as [|[b fs] ths IH]; cbn; [lia|]. intros H.
  destruct (decide (fsum g fs = 0)) as [E|E].
  - destruct IH as (t & b' & fs' & f & H1 & H2 & H3); [lia|]. exists (S t), b', fs', f. done.
  - exists 0, b, fs. assert (Hf : exists f, f ∈ fs /\ 0 < g f).
    { clear -E. induction fs as [|f fs IH]; cbn in E; [done|].
      destruct (decide (g f = 0)) as [E'|E'].
      - destruct IH as (f' & ? & ?); [lia|]. exists f'. split; [by right|done].
      - exists f. split; [by left|lia]. }
    destruct Hf as (f & ? & ?). exists f. done.
Qed.

Lemma fsum_elem (g : frame -> nat) fs f : f ∈ fs -> g f <= fsum g fs.
Proof. induction 1; cbn; lia. Qed.

(** ** Counting events *)
Lemma times_app e l l' : times e (l ++ l') = times e l + times e l'.
Proof. induction l as [|d l IH]; cbn; [done|]. rewrite IH. destruct (decide (d = e)); lia. Qed.

Lemma ncalled_ask c x l : sum_list_with (ask c x) l <= sum_list_with (ncalled c) l.
Proof.
  induction l as [|[] l IH]; cbn; try lia. unfold ind. repeat destruct (decide _); try lia; naive_solver.
Qed.

Lemma ncalled_range c l : sum_list_with (ncalled c) l = 1 -> exists f e, Called c f e ∈ l /\
  forall x, sum_list_with (ask c x) l = if decide (f <= x < e)%Z then 1 else 0.
Proof.
  induction l as [|d l IH]; cbn; [done|]. intros H.
  destruct (decide (ncalled c d = 0)) as [E|E].
  - destruct IH as (f & e & H1 & H2); [lia|]. exists f, e. split; [by right|]. intros x. rewrite <- (H2 x).
    assert (ask c x d = 0); [|lia]. destruct d; cbn in *; try done.
    destruct (decide (c0 = c)) as [-> |Hn]; [by rewrite ind_true in E|]. apply ind_false. naive_solver.
  - destruct d as [d f e| | |]; cbn in E; try done.
    destruct (decide (d = c)) as [-> |Hn]; [|by rewrite ind_false in E].
    exists f, e. split; [by left|]. intros x. cbn in H. rewrite ind_true in H by done.
    pose proof (ncalled_ask c x l). assert (sum_list_with (ask c x) l = 0) as -> by lia. cbn. unfold ind.
    repeat destruct (decide _); try lia; naive_solver.
Qed.

(** ** The invariant *)

Definition sleepy (f : frame) : Prop := match f with FSleep _ | FWoken _ => True | _ => False end.

Fixpoint stack_ok (n : nat) (fs : list frame) : Prop :=
  match fs with
  | [] => True
  | f :: r => stack_ok n r /\ Forall (fun f => ~ sleepy f) r /\
    match f with
    | FChunk c _ _ _ => c < n
    | FBody c _ _ => c < n /\ exists i e b r', r = FChunk c i e b :: r'
    | FCall c | FSleep c | FWoken c => c < n /\ Forall (fun f => match f with FChunk d _ _ _ => d < c | _ => True end) r
    end
  end.

Record InvA (s : st) : Prop := {
  a_rem : forall c, remaining s c = sumT (chunkc c) (threads s) + sum_list_with (taskc c) (tasks s);
  a_fresh : forall c, ncalls s <= c -> remaining s c = 0;
  a_call : forall c, sumT (callc c) (threads s) + times (Returned c) (log s) = ind (c < ncalls s);
  a_called : forall c, sum_list_with (ncalled c) (log s) = ind (c < ncalls s);
  a_items : forall c x, times (Finished c x) (log s) + sumT (inb c x) (threads s) + sumT (pend c x) (threads s)
     + sum_list_with (tpend c x) (tasks s) = sum_list_with (ask c x) (log s);
  a_began : forall c x, times (Began c x) (log s) = times (Finished c x) (log s) + sumT (inb c x) (threads s);
  a_tasks : forall c, 0 < sum_list_with (taskc c) (tasks s) -> 0 < sumT (fcallc c) (threads s);
  a_done : forall c, 0 < times (Returned c) (log s) -> remaining s c = 0;
  a_ret : forall l1 c l2, log s = l1 ++ Returned c :: l2 -> done_in c l1;
}.

Definition quiet_base (b : base) : Prop := match b with BSleep | BEnd | BThreadJoin => True | _ => False end.
Definition main_base (b : base) : Prop := match b with BMain _ | BJoin | BThreadJoin | BEnd => True | _ => False end.
Definition worker_base (b : base) : Prop := match b with BWorker | BSleep | BEnd => True | _ => False end.
Definition is_main (b : base) : Prop := match b with BMain _ => True | _ => False end.

Record InvB (s : st) : Prop := {
  b_stack : forall t b fs, threads s !! t = Some (b, fs) -> stack_ok (ncalls s) fs;
  b_sleep : forall t b c r, threads s !! t = Some (b, FSleep c :: r) -> 0 < remaining s c;
  b_quiet : forall t b fs, threads s !! t = Some (b, fs) -> quiet_base b -> fs = [];
  b_main : exists b fs, threads s !! 0 = Some (b, fs) /\ main_base b /\ (is_main b <-> wait_for_new_tasks s = true);
  b_worker : forall t b fs, threads s !! (S t) = Some (b, fs) -> worker_base b;
  b_wait : wait_for_new_tasks s = false -> forall t fs, threads s !! t <> Some (BSleep, fs);
}.

Lemma inb_chunk n c x fs : stack_ok n fs -> fsum (inb c x) fs + match fs with FChunk d _ _ _ :: _ => ind (d = c) | _ => 0 end
  <= fsum (chunkc c) fs.
Proof.
  induction fs as [|f r IH]; [cbn; lia|]. intros (Hr & _ & Hf). specialize (IH Hr).
  destruct f; cbn; try lia.
  destruct Hf as (_ & i' & e & b & r' & ->). cbn in *. unfold ind in *. repeat destruct (decide _); try lia; naive_solver.
Qed.

Lemma sumT_inb s c x : InvB s -> sumT (inb c x) (threads s) <= sumT (chunkc c) (threads s).
Proof.
  intros B. pose proof (b_stack _ B) as Hs. unfold sumT. revert Hs. generalize (threads s) as ths.
  induction ths as [|[b fs] ths IH]; cbn; intros Hs; [lia|].
  assert (fsum (inb c x) fs <= fsum (chunkc c) fs).
  { pose proof (inb_chunk (ncalls s) c x fs (Hs 0 b fs eq_refl)). lia. }
  assert (sum_list_with (fun th : thread => fsum (inb c x) th.2) ths <= sum_list_with (fun th : thread => fsum (chunkc c) th.2) ths).
  { apply IH. intros t b' fs' Ht. by apply (Hs (S t) b' fs'). }
  lia.
Qed.

Lemma pend_chunk c x fs : fsum (pend c x) fs <= fsum (chunkc c) fs.
Proof. induction fs as [|[] fs IH]; cbn; try lia. unfold ind. repeat destruct (decide _); try lia; naive_solver. Qed.
Lemma sumT_pend c x ths : sumT (pend c x) ths <= sumT (chunkc c) ths.
Proof. unfold sumT. induction ths as [|[b fs] ths IH]; cbn; [lia|]. pose proof (pend_chunk c x fs). lia. Qed.
Lemma tpend_taskc c x tks : sum_list_with (tpend c x) tks <= sum_list_with (taskc c) tks.
Proof.
  induction tks as [|tk tks IH]; cbn; [lia|]. assert (tpend c x tk <= taskc c tk); [|lia].
  unfold tpend, taskc, ind. repeat destruct (decide _); try lia; naive_solver.
Qed.

(** When a call has no chunks left, everything it was asked for is done. *)
Lemma finished_done s c : InvA s -> InvB s -> c < ncalls s -> remaining s c = 0 -> done_in c (log s).
Proof.
  intros A B Hc Hr. pose proof (a_called _ A c) as Hn. rewrite ind_true in Hn by done.
  destruct (ncalled_range c _ Hn) as (f & e & H1 & H2). exists f, e. split; [done|]. intros x.
  rewrite <- !H2. pose proof (a_rem _ A c). pose proof (a_items _ A c x). pose proof (a_began _ A c x).
  pose proof (sumT_inb s c x B). pose proof (sumT_pend c x (threads s)). pose proof (tpend_taskc c x (tasks s)). lia.
Qed.

Lemma ret_snoc l es : (forall l1 c l2, l = l1 ++ Returned c :: l2 -> done_in c l1) ->
  (forall es1 c es2, es = es1 ++ Returned c :: es2 -> done_in c (l ++ es1)) ->
  forall l1 c l2, l ++ es = l1 ++ Returned c :: l2 -> done_in c l1.
Proof.
  intros H1 H2 l1 c l2 E. apply app_eq_inv in E as [(k & -> & E)|(k & -> & E)].
  - destruct k as [|d k].
    + cbn in E. specialize (H2 [] c l2). rewrite !app_nil_r in H2. by apply H2.
    + injection E as <- ->. by apply (H1 _ _ k).
  - by apply (H2 k c l2).
Qed.

Lemma sum_app {A} (g : A -> nat) l l' : sum_list_with g (l ++ l') = sum_list_with g l + sum_list_with g l'.
Proof. induction l as [|x l IH]; cbn; [done|]. rewrite IH. lia. Qed.

(** A step that changes one thread's frames and adds to the log, and nothing else. *)
Ltac case_ind := unfold ind in *; repeat match goal with
  | |- context [decide ?P] => destruct (decide P)
  | H : context [decide ?P] |- _ => destruct (decide P)
  end; try lia; try (exfalso; naive_solver lia).

(** Only the base of threads, or sleeping callers, change. *)
Lemma invA_quiet s ths w : InvA s -> (forall g, blind g -> sumT g ths = sumT g (threads s)) ->
  InvA (St ths (tasks s) (remaining s) (ncalls s) w (log s)).
Proof.
  intros A Hg. split; cbn [threads tasks remaining ncalls wait_for_new_tasks log add_log put take].
  - intros c. rewrite (Hg _ (blind_chunkc c)). apply A.
  - apply A.
  - intros c. rewrite (Hg _ (blind_callc c)). apply A.
  - apply A.
  - intros c x. rewrite (Hg _ (blind_inb c x)), (Hg _ (blind_pend c x)). apply A.
  - intros c x. rewrite (Hg _ (blind_inb c x)). apply A.
  - intros c. rewrite (Hg _ (blind_fcallc c)). apply A.
  - apply A.
  - apply A.
Qed.

Section onestep.
Variables (s : st) (t : nat) (b : base) (r : list frame).
Hypothesis A : InvA s.
Hypothesis B : InvB s.

(** Entering the body for an index. *)
Lemma invA_begin c i e body b' : threads s !! t = Some (b, FChunk c i e body :: r) -> (i < e)%Z ->
  InvA (add_log (put s t b' (FBody c i (body i) :: FChunk c (i + 1) e body :: r)) [Began c i]).
Proof.
  intros Ht Hi. pose proof (fun g => sumT_put g _ t _ _ b' (FBody c i (body i) :: FChunk c (i + 1) e body :: r) Ht) as P.
  split; cbn [threads tasks remaining ncalls wait_for_new_tasks log add_log put take].
  - intros d. specialize (P (chunkc d)). cbn in P. rewrite (a_rem _ A d). lia.
  - apply A.
  - intros d. specialize (P (callc d)). cbn in P. rewrite times_app. cbn. rewrite <- (a_call _ A d). case_ind.
  - intros d. rewrite sum_app. cbn. rewrite <- (a_called _ A d). lia.
  - intros d x. rewrite sum_app, times_app. cbn. rewrite <- (a_items _ A d x).
    pose proof (P (inb d x)) as P1. pose proof (P (pend d x)) as P2. cbn in P1, P2. case_ind.
  - intros d x. rewrite !times_app. cbn. rewrite (a_began _ A d x). pose proof (P (inb d x)) as P1. cbn in P1. case_ind.
  - intros d Hd. pose proof (a_tasks _ A d Hd). pose proof (P (fcallc d)) as P1. cbn in P1. lia.
  - intros d. rewrite times_app. cbn. intros Hd. apply (a_done _ A). revert Hd. case_ind.
  - apply ret_snoc; [apply A|]. intros [|? [|]] ? ? ?; done.
Qed.

(** Leaving it. *)
Lemma invA_finish c i b' : threads s !! t = Some (b, FBody c i [] :: r) -> InvA (add_log (put s t b' r) [Finished c i]).
Proof.
  intros Ht. pose proof (fun g => sumT_put g _ t _ _ b' r Ht) as P.
  split; cbn [threads tasks remaining ncalls wait_for_new_tasks log add_log put take].
  - intros d. specialize (P (chunkc d)). cbn in P. rewrite (a_rem _ A d). lia.
  - apply A.
  - intros d. specialize (P (callc d)). cbn in P. rewrite times_app. cbn. rewrite <- (a_call _ A d). case_ind.
  - intros d. rewrite sum_app. cbn. rewrite <- (a_called _ A d). lia.
  - intros d x. rewrite sum_app, times_app. cbn. rewrite <- (a_items _ A d x).
    pose proof (P (inb d x)) as P1. pose proof (P (pend d x)) as P2. cbn in P1, P2. case_ind.
  - intros d x. rewrite !times_app. cbn. rewrite (a_began _ A d x). pose proof (P (inb d x)) as P1. cbn in P1. case_ind.
  - intros d Hd. pose proof (a_tasks _ A d Hd). pose proof (P (fcallc d)) as P1. cbn in P1. lia.
  - intros d. rewrite times_app. cbn. intros Hd. apply (a_done _ A). revert Hd. case_ind.
  - apply ret_snoc; [apply A|]. intros [|? [|]] ? ? ?; done.
Qed.

(** Returning from a call. *)
Lemma invA_return c f b' : threads s !! t = Some (b, f :: r) -> f = FCall c \/ f = FWoken c -> remaining s c = 0 ->
  InvA (add_log (put s t b' r) [Returned c]).
Proof.
  intros Ht Hf Hr. pose proof (fun g => sumT_put g _ t _ _ b' r Ht) as P.
  assert (Hc : c < ncalls s).
  { pose proof (b_stack _ B _ _ _ Ht) as (_ & _ & H). destruct Hf as [-> | ->]; apply H. }
  split; cbn [threads tasks remaining ncalls wait_for_new_tasks log add_log put take].
  - intros d. specialize (P (chunkc d)). rewrite (a_rem _ A d). destruct Hf as [-> | ->]; cbn in P; lia.
  - apply A.
  - intros d. specialize (P (callc d)). rewrite times_app. rewrite <- (a_call _ A d). destruct Hf as [-> | ->]; cbn in P |- *; case_ind.
  - intros d. rewrite sum_app. cbn. rewrite <- (a_called _ A d). lia.
  - intros d x. rewrite sum_app, times_app. cbn. rewrite <- (a_items _ A d x).
    pose proof (P (inb d x)) as P1. pose proof (P (pend d x)) as P2. destruct Hf as [-> | ->]; cbn in P1, P2; case_ind.
  - intros d x. rewrite !times_app. cbn. rewrite (a_began _ A d x). pose proof (P (inb d x)) as P1.
    destruct Hf as [-> | ->]; cbn in P1; case_ind.
  - intros d Hd. pose proof (a_tasks _ A d Hd). pose proof (P (fcallc d)) as P1.
    assert (d <> c). { intros ->. rewrite (a_rem _ A c) in Hr. lia. }
    destruct Hf as [-> | ->]; cbn in P1; rewrite ?ind_false in P1 by done; lia.
  - intros d. rewrite times_app. cbn. destruct (decide (d = c)) as [-> |Hd]; [done|]. intros H. apply (a_done _ A). revert H. case_ind.
  - apply ret_snoc; [apply A|]. intros es1 d es2 E. destruct es1 as [|? [|]]; [|done..].
    injection E as <- <-. rewrite app_nil_r. by apply finished_done.
Qed.

(** Taking a task. *)
Lemma invA_take fs tk tks b' : threads s !! t = Some (b, fs) -> tasks s = tk :: tks -> InvA (take s t b' fs tk tks).
Proof.
  intros Ht Htk. pose proof (fun g => sumT_put g _ t _ _ b' (FChunk (t_call tk) (t_first tk) (t_last tk) (t_body tk) :: fs) Ht) as P.
  split; cbn [threads tasks remaining ncalls wait_for_new_tasks log add_log put take].
  - intros d. specialize (P (chunkc d)). cbn in P. rewrite (a_rem _ A d), Htk. cbn. unfold taskc. lia.
  - apply A.
  - intros d. specialize (P (callc d)). cbn in P. rewrite <- (a_call _ A d). lia.
  - apply A.
  - intros d x. rewrite <- (a_items _ A d x), Htk.
    pose proof (P (inb d x)) as P1. pose proof (P (pend d x)) as P2. cbn in P1, P2 |- *. unfold tpend. lia.
  - intros d x. rewrite (a_began _ A d x). pose proof (P (inb d x)) as P1. cbn in P1. lia.
  - intros d Hd. pose proof (a_tasks _ A d) as H. rewrite Htk in H. cbn in H.
    pose proof (P (fcallc d)) as P1. cbn in P1. lia.
  - apply A.
  - apply A.
Qed.

(** Going to sleep in work_done.wait. *)
Lemma invA_sleep c f b' : threads s !! t = Some (b, f :: r) -> (f = FCall c /\ tasks s = []) \/ f = FWoken c ->
  InvA (put s t b' (FSleep c :: r)).
Proof.
  intros Ht Hf. pose proof (fun g => sumT_put g _ t _ _ b' (FSleep c :: r) Ht) as P.
  split; cbn [threads tasks remaining ncalls wait_for_new_tasks log add_log put take].
  - intros d. specialize (P (chunkc d)). rewrite (a_rem _ A d). destruct Hf as [[-> _]| ->]; cbn in P; lia.
  - apply A.
  - intros d. specialize (P (callc d)). rewrite <- (a_call _ A d). destruct Hf as [[-> _]| ->]; cbn in P; lia.
  - apply A.
  - intros d x. rewrite <- (a_items _ A d x).
    pose proof (P (inb d x)) as P1. pose proof (P (pend d x)) as P2. destruct Hf as [[-> _]| ->]; cbn in P1, P2; lia.
  - intros d x. rewrite (a_began _ A d x). pose proof (P (inb d x)) as P1. destruct Hf as [[-> _]| ->]; cbn in P1; lia.
  - intros d Hd. destruct Hf as [[-> E]| ->]; [rewrite E in Hd; cbn in Hd; lia|].
    pose proof (a_tasks _ A d Hd) as H. pose proof (P (fcallc d)) as P1. cbn in P1. lia.
  - apply A.
  - apply A.
Qed.

(** Finishing a chunk. *)
Lemma invA_chunk c i e body n ths b' : threads s !! t = Some (b, FChunk c i e body :: r) -> (e <= i)%Z -> remaining s c = S n ->
  (forall g, blind g -> sumT g ths = sumT g (<[t := (b', r)]> (threads s))) ->
  InvA (St ths (tasks s) (set_remaining (remaining s) c n) (ncalls s) (wait_for_new_tasks s) (log s)).
Proof.
  intros Ht Hi Hr Hg. pose proof (fun g => sumT_put g _ t _ _ b' r Ht) as P.
  split; cbn [threads tasks remaining ncalls wait_for_new_tasks log add_log put take].
  - intros d. rewrite (Hg _ (blind_chunkc d)). specialize (P (chunkc d)). cbn in P. pose proof (a_rem _ A d).
    unfold set_remaining. destruct (Nat.eqb_spec d c) as [-> |Hn]; [rewrite ind_true in P by done|rewrite ind_false in P by done]; lia.
  - intros d Hd. unfold set_remaining. pose proof (a_fresh _ A d Hd). destruct (Nat.eqb_spec d c) as [-> |Hn]; lia.
  - intros d. rewrite (Hg _ (blind_callc d)). specialize (P (callc d)). cbn in P. rewrite <- (a_call _ A d). lia.
  - apply A.
  - intros d x. rewrite (Hg _ (blind_inb d x)), (Hg _ (blind_pend d x)). rewrite <- (a_items _ A d x).
    pose proof (P (inb d x)) as P1. pose proof (P (pend d x)) as P2. cbn in P1, P2. rewrite ind_false in P2 by lia. lia.
  - intros d x. rewrite (Hg _ (blind_inb d x)). rewrite (a_began _ A d x). pose proof (P (inb d x)) as P1. cbn in P1. lia.
  - intros d Hd. rewrite (Hg _ (blind_fcallc d)). pose proof (a_tasks _ A d Hd) as H. pose proof (P (fcallc d)) as P1. cbn in P1. lia.
  - intros d Hd. pose proof (a_done _ A d Hd). unfold set_remaining. destruct (Nat.eqb_spec d c) as [-> |]; lia.
  - apply A.
Qed.

(** A call of an empty range. *)
Lemma invA_call_empty fs fs' first last b' : threads s !! t = Some (b, fs) -> (last <= first)%Z ->
  (forall g, (forall c i js js', g (FBody c i js) = g (FBody c i js')) -> fsum g fs' = fsum g fs) ->
  InvA (St (<[t := (b', fs')]> (threads s)) (tasks s) (remaining s) (S (ncalls s)) (wait_for_new_tasks s)
          (log s ++ [Called (ncalls s) first last; Returned (ncalls s)])).
Proof.
  intros Ht Hl Hfs. pose proof (fun g => sumT_put g _ t _ _ b' fs' Ht) as P.
  set (n := ncalls s) in *.
  split; cbn [threads tasks remaining ncalls wait_for_new_tasks log add_log put take].
  - intros d. specialize (P (chunkc d)). rewrite (Hfs (chunkc d)) in P by done. rewrite (a_rem _ A d). lia.
  - intros d Hd. apply A. fold n. lia.
  - intros d. specialize (P (callc d)). rewrite (Hfs (callc d)) in P by done. rewrite times_app. cbn.
    pose proof (a_call _ A d) as E. fold n in E. destruct (decide (d = n)) as [-> |Hdn]; case_ind.
  - intros d. rewrite sum_app. cbn. rewrite (a_called _ A d). fold n. case_ind.
  - intros d x. rewrite sum_app, times_app. cbn. rewrite <- (a_items _ A d x).
    pose proof (P (inb d x)) as P1. pose proof (P (pend d x)) as P2.
    rewrite (Hfs (inb d x)) in P1 by done. rewrite (Hfs (pend d x)) in P2 by done. case_ind.
  - intros d x. rewrite !times_app. cbn. rewrite (a_began _ A d x). pose proof (P (inb d x)) as P1.
    rewrite (Hfs (inb d x)) in P1 by done. case_ind.
  - intros d Hd. pose proof (a_tasks _ A d Hd) as H. pose proof (P (fcallc d)) as P1. rewrite (Hfs (fcallc d)) in P1 by done. lia.
  - intros d. rewrite times_app. cbn. destruct (decide (d = n)) as [-> |Hd]; [intros _; apply A; unfold n; lia|]. intros H. apply (a_done _ A). revert H. case_ind.
  - apply ret_snoc; [apply A|]. intros es1 d es2 E. destruct es1 as [|e1 [|e2 es1]]; [done| |by destruct es1].
    injection E as <- <- <-. exists first, last. split; [apply elem_of_app; right; by left|]. intros x.
    rewrite decide_False by lia.
    pose proof (a_called _ A n) as E1. fold n in E1. rewrite ind_false in E1 by lia.
    pose proof (ncalled_ask n x (log s)). pose proof (a_items _ A n x) as E3. pose proof (a_began _ A n x).
    rewrite !times_app. cbn. case_ind.
Qed.
End onestep.

Definition cnt (x : Z) (l : list Z) : nat := sum_list_with (fun y => ind (y = x)) l.
Lemma cnt_seqZ x a n : cnt x (seqZ a n) = ind (a <= x < a + n)%Z.
Proof.
  unfold cnt. destruct (Z.le_gt_cases n 0) as [H|H]; [rewrite seqZ_nil by done; cbn; by rewrite ind_false by lia|].
  rewrite <- (Z2Nat.id n) by lia. generalize (Z.to_nat n) as m. clear. intros m. revert a.
  induction m as [|m IH]; intros a; [cbn; by rewrite ind_false by lia|].
  rewrite (seqZ_cons a) by lia. cbn [sum_list_with].
  replace (Z.pred (Z.of_nat (S m))) with (Z.of_nat m) by lia. rewrite (IH (Z.succ a)). case_ind.
Qed.
Lemma cnt_concat x (bs : list (Z * Z)) : cnt x (concat (map (fun p => seqZ p.1 (p.2 - p.1)) bs)) =
  sum_list_with (fun p : Z * Z => ind (p.1 <= x < p.2)%Z) bs.
Proof.
  induction bs as [|p bs IH]; [done|]. cbn [map concat sum_list_with]. unfold cnt in *. rewrite sum_app, IH. f_equal.
  etransitivity; [apply (cnt_seqZ x p.1 (p.2 - p.1))|]. by replace (p.1 + (p.2 - p.1))%Z with p.2 by lia.
Qed.

(** Calling parallel_for on a range that is not empty. *)
Lemma invA_call s t b fs fs' first last ks ths bs body b' : InvA s -> threads s !! t = Some (b, fs) ->
  (forall g, (forall c i js js', g (FBody c i js) = g (FBody c i js')) -> fsum g fs' = fsum g fs) ->
  notifies ks (<[t := (b', FCall (ncalls s) :: fs')]> (threads s)) = Some ths ->
  concat (map (fun p => seqZ p.1 (p.2 - p.1)) bs) = seqZ first (last - first) ->
  InvA (St ths (tasks s ++ map (fun p => Task (ncalls s) p.1 p.2 body) bs)
           (set_remaining (remaining s) (ncalls s) (length bs)) (S (ncalls s)) (wait_for_new_tasks s)
           (log s ++ [Called (ncalls s) first last])).
Proof.
  intros A Ht Hfs Hn Hb.
  assert (P : forall g, (forall c i js js', g (FBody c i js) = g (FBody c i js')) ->
    sumT g ths = sumT g (threads s) + g (FCall (ncalls s))).
  { intros g Hg. rewrite (sumT_notifies g _ _ _ Hn).
    pose proof (sumT_put g _ t _ _ b' (FCall (ncalls s) :: fs') Ht) as E. cbn [sum_list_with] in E. rewrite (Hfs g Hg) in E. lia. }
  set (n := ncalls s) in *.
  assert (T1 : forall d, sum_list_with (taskc d) (map (fun p : Z * Z => Task n p.1 p.2 body) bs) = if decide (d = n) then length bs else 0).
  { intros d. clear. induction bs as [|p bs IH]; cbn; [by destruct (decide _)|]. rewrite IH. unfold taskc. cbn. case_ind. }
  assert (T2 : forall d x, sum_list_with (tpend d x) (map (fun p : Z * Z => Task n p.1 p.2 body) bs) =
    if decide (d = n) then sum_list_with (fun p : Z * Z => ind (p.1 <= x < p.2)%Z) bs else 0).
  { intros d x. clear. induction bs as [|p bs IH]; cbn; [by destruct (decide _)|]. rewrite IH. unfold tpend. cbn. case_ind. }
  assert (Hr0 : remaining s n = 0) by (apply A; unfold n; lia).
  split; cbn [threads tasks remaining ncalls wait_for_new_tasks log].
  - intros d. rewrite sum_app, T1, (P (chunkc d)) by done. cbn. pose proof (a_rem _ A d) as E. unfold set_remaining.
    destruct (Nat.eqb_spec d n) as [-> |Hd]; [rewrite decide_True by done|rewrite decide_False by done]; lia.
  - intros d Hd. unfold set_remaining. destruct (Nat.eqb_spec d n) as [-> |Hn']; [lia|]. apply A. fold n. lia.
  - intros d. rewrite (P (callc d)) by done. rewrite times_app. cbn. pose proof (a_call _ A d) as E. fold n in E.
    destruct (decide (d = n)) as [-> |Hdn]; case_ind.
  - intros d. rewrite sum_app. cbn. rewrite (a_called _ A d). fold n. case_ind.
  - intros d x. rewrite !sum_app, T2, times_app, (P (inb d x)), (P (pend d x)) by done. cbn. rewrite <- (a_items _ A d x).
    rewrite <- cnt_concat, Hb, cnt_seqZ.
    replace (first + (last - first))%Z with last by lia. destruct (decide (d = n)) as [-> |Hdn]; case_ind.
  - intros d x. rewrite !times_app, (P (inb d x)) by done. cbn. rewrite (a_began _ A d x). case_ind.
  - intros d. rewrite sum_app, T1, (P (fcallc d)) by done. cbn. destruct (decide (d = n)) as [-> |Hdn].
    + rewrite ind_true by done. lia.
    + rewrite Nat.add_0_r. intros Hd. pose proof (a_tasks _ A d Hd). lia.
  - intros d. rewrite times_app. cbn. intros H. assert (H' : 0 < times (Returned d) (log s)) by (revert H; case_ind).
    pose proof (a_call _ A d) as E. fold n in E. unfold set_remaining. destruct (Nat.eqb_spec d n) as [-> |]; [rewrite ind_false in E by lia; lia|by apply (a_done _ A)].
  - apply ret_snoc; [apply A|]. intros [|? [|]] ? ? ?; done.
Qed.

(** ** Threads *)

Lemma lookup_put (ths : list thread) t x y k z : ths !! t = Some x -> <[t := y]> ths !! k = Some z ->
  (k = t /\ z = y) \/ (k <> t /\ ths !! k = Some z).
Proof.
  intros Ht Hk. destruct (decide (k = t)) as [-> |Hn].
  - rewrite list_lookup_insert in Hk by (by eapply lookup_lt_Some). left. split; congruence.
  - rewrite list_lookup_insert_ne in Hk by done. by right.
Qed.

Lemma stack_weaken n m fs : n <= m -> stack_ok n fs -> stack_ok m fs.
Proof.
  intros Hnm. induction fs as [|f r IH]; [done|]. intros (H1 & H2 & H3). split; [by apply IH|]. split; [done|].
  destruct f; try lia; destruct H3 as [? ?]; split; try lia; done.
Qed.

Lemma stack_ids n fs : stack_ok n fs -> Forall (fun f => match f with FChunk d _ _ _ => d < n | _ => True end) fs.
Proof. induction fs as [|f r IH]; [constructor|]. intros (H1 & H2 & H3). apply Forall_cons_2; [by destruct f|by apply IH]. Qed.

Lemma stack_not_sleepy n f r : stack_ok n (f :: r) -> Forall (fun f => ~ sleepy f) r.
Proof. by intros (_ & H & _). Qed.

(** What a thread may become while another one moves: it may be woken. *)
Definition woken (th th' : thread) : Prop :=
  (th'.1 = th.1 \/ th.1 = BSleep /\ th'.1 = BWorker) /\
  (th'.2 = th.2 \/ exists c r, th.2 = FSleep c :: r /\ th'.2 = FWoken c :: r).

Definition all_woken (ths ths' : list thread) : Prop := forall t th', ths' !! t = Some th' ->
  exists th, ths !! t = Some th /\ woken th th'.

Lemma woken_refl th : woken th th.
Proof. split; auto. Qed.
Lemma all_woken_refl ths : all_woken ths ths.
Proof. intros t th H. exists th. split; [done|apply woken_refl]. Qed.
Lemma all_woken_wake ths : all_woken ths (map wake ths).
Proof.
  intros t th' H. apply list_lookup_fmap_inv in H as ([b fs] & -> & H). exists (b, fs). split; [done|].
  destruct b; try apply woken_refl. split; [by right|by left].
Qed.
Lemma all_woken_notifies ks ths ths' : notifies ks ths = Some ths' -> length ths' = length ths /\ all_woken ths ths'.
Proof.
  revert ths. induction ks as [|k ks IH]; cbn; intros ths H; [injection H as <-; split; [done|apply all_woken_refl]|].
  destruct (notify_one k ths) as [ths1|] eqn:E; [|done]. apply IH in H as [L H]. unfold notify_one in E.
  destruct (existsb is_asleep ths); [|by injection E as <-].
  destruct (ths !! k) as [[[] fs]|] eqn:Ek; try done. injection E as <-. rewrite insert_length in L. split; [done|].
  intros t th' Ht. destruct (H t th' Ht) as (th & H1 & H2).
  destruct (lookup_put _ _ _ _ _ _ Ek H1) as [[-> ->]|[Hn H3]]; [|eauto].
  exists (BSleep, fs). split; [done|]. destruct H2 as [[H2|[H2 _]] H3]; [|done]. split; [right; by split|done].
Qed.
Lemma all_woken_caller c ths : all_woken ths (map (wake_caller c) ths).
Proof.
  intros t th' H. apply list_lookup_fmap_inv in H as ([b fs] & -> & H). exists (b, fs). split; [done|].
  unfold wake_caller. split; [by left|]. cbn. destruct fs as [|[] r]; try by left. cbn.
  destruct (Nat.eqb c c0); [|by left]. right. eauto.
Qed.

(** The structural part of the invariant survives a step of thread [t], if the thread itself is in order afterwards. *)
Lemma invB_change s t b fs b' fs' ths tks rem n w lg : InvB s -> threads s !! t = Some (b, fs) ->
  all_woken (<[t := (b', fs')]> (threads s)) ths -> length ths = length (threads s) ->
  ncalls s <= n -> stack_ok n fs' ->
  (forall k b c r, ths !! k = Some (b, FSleep c :: r) -> 0 < rem c) ->
  (quiet_base b' -> fs' = []) ->
  (t = 0 -> main_base b' /\ (is_main b' <-> w = true)) -> (t <> 0 -> w = wait_for_new_tasks s /\ worker_base b') ->
  (w = false -> forall t fs, ths !! t <> Some (BSleep, fs)) ->
  InvB (St ths tks rem n w lg).
Proof.
  intros B Ht Hw Hlen Hn Hst Hsl Hq Hm0 Hm1 Hws.
  assert (Hstack : forall k bk fk, ths !! k = Some (bk, fk) -> exists bo fo, <[t := (b', fs')]> (threads s) !! k = Some (bo, fo) /\
    woken (bo, fo) (bk, fk) /\ stack_ok n fo /\ (quiet_base bo -> fo = [])).
  { intros k bk fk Hk. destruct (Hw _ _ Hk) as ([bo fo] & H1 & H2). exists bo, fo. split_and!; [done..| |].
    - destruct (lookup_put _ _ _ _ _ _ Ht H1) as [[-> [= -> ->]]|[Hne H3]]; [done|]. eapply stack_weaken; [done|]. by eapply b_stack.
    - destruct (lookup_put _ _ _ _ _ _ Ht H1) as [[-> [= -> ->]]|[Hne H3]]; [done|]. by eapply b_quiet. }
  split; cbn [threads tasks remaining ncalls wait_for_new_tasks log].
  - intros k bk fk Hk. destruct (Hstack _ _ _ Hk) as (bo & fo & _ & [_ [H2|(c & r & H2 & H3)]] & H4 & _); cbn in *; subst; done.
  - done.
  - intros k bk fk Hk Hqb. destruct (Hstack _ _ _ Hk) as (bo & fo & _ & [H1 H2] & _ & H5); cbn in *.
    assert (bk = bo) as -> by (destruct H1 as [->|[-> ->]]; done).
    specialize (H5 Hqb). subst fo. destruct H2 as [->|(c & r & H2 & _)]; done.
  - destruct (b_main _ B) as (b0 & fs0 & E0 & M1 & M2).
    assert (H0 : exists th, ths !! 0 = Some th).
    { apply lookup_lt_is_Some. rewrite Hlen. by eapply lookup_lt_Some. }
    destruct H0 as [[b1 fs1] H0]. exists b1, fs1. split; [done|].
    destruct (Hstack _ _ _ H0) as (bo & fo & H1 & [H2 _] & _); cbn in *.
    assert (Hbo : main_base bo /\ (is_main bo <-> w = true)).
    { destruct (lookup_put _ _ _ _ _ _ Ht H1) as [[<- [= -> ->]]|[Hne H3]].
      - by apply Hm0.
      - destruct (Hm1 ltac:(done)) as [-> _]. rewrite E0 in H3. injection H3 as -> ->. done. }
    destruct H2 as [->|[-> ->]]; [done|]. destruct Hbo as [[] _].
  - intros k bk fk Hk. destruct (Hstack _ _ _ Hk) as (bo & fo & H1 & [H2 _] & _); cbn in *.
    assert (Hbo : worker_base bo).
    { destruct (lookup_put _ _ _ _ _ _ Ht H1) as [[<- [= -> ->]]|[Hne H3]]; [by apply Hm1|]. by eapply b_worker. }
    destruct H2 as [->|[-> ->]]; done.
  - done.
Qed.

Lemma invB_same s t b fs b' fs' ths tks rem n lg : InvB s -> threads s !! t = Some (b, fs) -> ~ quiet_base b' ->
  (main_base b -> main_base b') -> (worker_base b -> worker_base b') -> (is_main b' <-> is_main b) ->
  all_woken (<[t := (b', fs')]> (threads s)) ths -> length ths = length (threads s) ->
  ncalls s <= n -> stack_ok n fs' ->
  (forall k b c r, ths !! k = Some (b, FSleep c :: r) -> 0 < rem c) ->
  InvB (St ths tks rem n (wait_for_new_tasks s) lg).
Proof.
  intros B Ht Hq Hm Hwk Him Hw Hlen Hn Hst Hsl. eapply invB_change; try done.
  - intros ->. destruct (b_main _ B) as (b0 & fs0 & E0 & M1 & M2). rewrite Ht in E0. injection E0 as <- <-.
    split; [by apply Hm|]. by rewrite Him.
  - intros H0. split; [done|]. apply Hwk. destruct t as [|t]; [done|]. by eapply b_worker.
  - intros Hf k fk Hk. destruct (Hw _ _ Hk) as ([bo fo] & H1 & [[H2|[_ H2]] _]); cbn in H2; [|done]. subst bo.
    destruct (lookup_put _ _ _ _ _ _ Ht H1) as [[-> [= <- <-]]|[Hne H3]]; [by destruct Hq|].
    by eapply (b_wait _ B Hf).
Qed.

Lemma sleep_origin s t b fs b' fs' ths k bk c r : InvB s -> threads s !! t = Some (b, fs) ->
  all_woken (<[t := (b', fs')]> (threads s)) ths -> ths !! k = Some (bk, FSleep c :: r) ->
  (0 < remaining s c /\ k <> t) \/ fs' = FSleep c :: r.
Proof.
  intros B Ht Hw Hk. destruct (Hw _ _ Hk) as ([bo fo] & H1 & [_ [H2|(c' & r' & _ & H2)]]); cbn in H2; [|done]. subst fo.
  destruct (lookup_put _ _ _ _ _ _ Ht H1) as [[-> [= -> ->]]|[Hne H3]]; [by right|]. left. split; [by eapply b_sleep|done].
Qed.

Lemma not_quiet s t b f r : InvB s -> threads s !! t = Some (b, f :: r) -> ~ quiet_base b.
Proof. intros B Ht Hq. by pose proof (b_quiet _ B _ _ _ Ht Hq). Qed.

Lemma body_sum f c i j js r : f = FBody c i (j :: js) ->
  forall g : frame -> nat, (forall c i js js', g (FBody c i js) = g (FBody c i js')) ->
  fsum g (FBody c i js :: r) = fsum g (f :: r).
Proof. intros -> g Hg. cbn. by rewrite (Hg c i js (j :: js)). Qed.

Lemma notifies_total n ths : exists ks ths', length ks = n /\ notifies ks ths = Some ths'.
Proof.
  revert ths. induction n as [|n IH]; intros ths; [exists [], ths; done|].
  assert (H : exists k ths1, notify_one k ths = Some ths1).
  { unfold notify_one. destruct (existsb is_asleep ths) eqn:E; [|by exists 0, ths].
    apply existsb_exists in E as ([b fs] & Hin & Hb). apply elem_of_list_In, elem_of_list_lookup in Hin as [k Hk].
    destruct b; try done. exists k. rewrite Hk. eauto. }
  destruct H as (k & ths1 & Hk). destruct (IH ths1) as (ks & ths' & L & H). exists (k :: ks), ths'. cbn. rewrite Hk. split; [lia|done].
Qed.

(** A call by thread [t], in any place. *)
Lemma inv_call s t b fs b' r j ks o : InvA s -> InvB s -> threads s !! t = Some (b, fs) -> ~ quiet_base b' ->
  (main_base b -> main_base b') -> (worker_base b -> worker_base b') -> (is_main b' <-> is_main b) ->
  (forall g : frame -> nat, (forall c i js js', g (FBody c i js) = g (FBody c i js')) -> fsum g r = fsum g fs) ->
  stack_ok (ncalls s) r -> Forall (fun f => ~ sleepy f) r ->
  call s t b' r j ks = Some o -> exists s', o = Ok s' /\ InvA s' /\ InvB s'.
Proof.
  intros A B Ht Hq Hm Hwk Him Hg Hst Hns. destruct j as [first last factor pw body]. cbn.
  destruct (Z.leb_spec last first) as [Hl|Hl].
  { intros [=<-]. eexists. split; [done|]. split.
    - by eapply invA_call_empty.
    - eapply invB_same; try done; [apply all_woken_refl|by rewrite insert_length|lia|eapply stack_weaken; [|done]; lia|].
      intros k bk c fk Hk. destruct (sleep_origin _ _ _ _ _ _ _ _ _ _ _ B Ht (all_woken_refl _) Hk) as [[? _]|Hk']; [done|].
      subst r. apply Forall_cons in Hns as [H _]. exfalso. by apply H. }
  destruct (C42_chunks (length (threads s)) first last factor pw) as (bs & E & Hcc & Hlen & _ & Hlb & _); [|done|].
  { pose proof (lookup_lt_Some _ _ _ Ht). lia. }
  change (Z.to_nat (last - first)) with (Z.to_nat (last - first)) in E.
  cbn [chunk_bounds] in E. rewrite E. clear E.
  destruct (Nat.eqb_spec (length ks) (length bs)) as [Hk|_]; [|done].
  destruct (notifies ks _) as [ths|] eqn:En; [|done]. intros [=<-]. eexists. split; [done|].
  destruct (all_woken_notifies _ _ _ En) as [Hlt Hw]. rewrite insert_length in Hlt. rewrite <- Hlen. split.
  - by eapply invA_call.
  - eapply invB_same; try done; [lia|split_and!; [by eapply stack_weaken; [|done]; lia|done|lia|by apply stack_ids]|].
    intros k bk c fk Hk'. unfold set_remaining. destruct (Nat.eqb_spec c (ncalls s)) as [-> |Hn]; [lia|].
    destruct (sleep_origin _ _ _ _ _ _ _ _ _ _ _ B Ht Hw Hk') as [[? _]|Hk2]; done.
Qed.

Lemma sleep_keep s t b fs b' fs' rem : InvB s -> threads s !! t = Some (b, fs) ->
  (forall c r, fs' = FSleep c :: r -> 0 < rem c) -> (forall c, 0 < remaining s c -> 0 < rem c) ->
  forall k bk c r, <[t := (b', fs')]> (threads s) !! k = Some (bk, FSleep c :: r) -> 0 < rem c.
Proof.
  intros B Ht H1 H2 k bk c r Hk.
  destruct (sleep_origin _ _ _ _ _ _ _ _ _ _ _ B Ht (all_woken_refl _) Hk) as [[? _]|Hk']; eauto.
Qed.

Lemma not_sleepy_head fs c r : Forall (fun f => ~ sleepy f) fs -> fs = FSleep c :: r -> False.
Proof. intros H ->. apply Forall_cons in H as [H _]. by apply H. Qed.

Ltac same_base B Ht := eapply (invB_same _ _ _ _ _ _ _ _ _ _ _ B Ht); [..|apply all_woken_refl|by rewrite insert_length|lia| |]; try done; try (by intros []).

(** Every step from a good state is defined, and leads to a good state. *)
Theorem inv_step s m o : InvA s -> InvB s -> step s m = Some o -> exists s', o = Ok s' /\ InvA s' /\ InvB s'.
Proof.
  intros A B. destruct m as [t ks|t]; cbn [step].
  - destruct (threads s !! t) as [[b fs]|] eqn:Ht; [|done].
    pose proof (b_stack _ B _ _ _ Ht) as Hst.
    destruct fs as [|f r].
    + (* base *) destruct b as [[|j js]| | | | |]; cbn [step_base]; try done.
      * (* join begins *) intros [=<-]. eexists. split; [done|]. split.
        -- apply (invA_quiet s _ _ A). intros g _.
           assert (Ht' : map wake (threads s) !! t = Some (BMain [], [])) by (by rewrite list_lookup_fmap, Ht).
           pose proof (sumT_put g _ t _ _ BJoin [] Ht') as E. rewrite sumT_wake in E. lia.
        -- assert (t = 0) as ->.
           { destruct t as [|t]; [done|]. by pose proof (b_worker _ B _ _ _ Ht). }
           assert (Hw : all_woken (<[0 := (BJoin, [])]> (threads s)) (<[0 := (BJoin, [])]> (map wake (threads s)))).
           { intros k th' Hk. destruct (lookup_put (map wake (threads s)) 0 (BMain [], []) _ _ _ ltac:(by rewrite list_lookup_fmap, Ht) Hk) as [[-> ->]|[Hn Hk']].
             - exists (BJoin, []). split; [|apply woken_refl]. apply list_lookup_insert. by eapply lookup_lt_Some.
             - destruct (all_woken_wake _ _ _ Hk') as (th & H1 & H2). exists th. split; [|done]. by rewrite list_lookup_insert_ne. }
           eapply (invB_change _ _ _ _ BJoin [] _ _ _ _ _ _ B Ht Hw); try done.
           ++ by rewrite insert_length, map_length.
           ++ intros k bk c r Hk. by destruct (sleep_origin _ _ _ _ _ _ _ _ _ _ _ B Ht Hw Hk) as [[? _]|?].
           ++ intros _ k fk Hk.
              destruct (lookup_put (map wake (threads s)) 0 (BMain [], []) _ _ _ ltac:(by rewrite list_lookup_fmap, Ht) Hk) as [[-> ?]|[Hn Hk']]; [done|].
              apply list_lookup_fmap_inv in Hk' as ([b0 f0] & E & _). by destruct b0.
      * (* a call *) intros H. eapply (inv_call s t _ _ (BMain js) [] j ks o A B Ht); try done. by intros [].
      * (* joining thread *) destruct (tasks s) as [|tk tks] eqn:Etk.
        -- intros [=<-]. eexists. split; [done|]. split.
           ++ apply (invA_quiet s _ _ A). intros g _. pose proof (sumT_put g _ t _ _ BThreadJoin [] Ht). lia.
           ++ eapply (invB_change _ _ _ _ BThreadJoin [] _ _ _ _ _ _ B Ht (all_woken_refl _)); try done.
              ** by rewrite insert_length.
              ** by eapply sleep_keep.
              ** intros ->. destruct (b_main _ B) as (b0 & fs0 & E0 & M1 & M2). rewrite Ht in E0. injection E0 as <- <-. done.
              ** intros H0. destruct t as [|t]; [done|]. by pose proof (b_worker _ B _ _ _ Ht).
              ** intros Hf k fk Hk. destruct (lookup_put _ _ _ _ _ _ Ht Hk) as [[-> ?]|[Hn Hk']]; [done|]. by eapply (b_wait _ B Hf).
        -- intros [=<-]. eexists. split; [done|]. split; [by eapply invA_take|]. unfold take. same_base B Ht.
           ++ split_and!; [done|constructor|]. destruct (decide (t_call tk < ncalls s)) as [|Hn]; [done|].
              pose proof (a_fresh _ A (t_call tk) ltac:(lia)) as E0. rewrite (a_rem _ A), Etk in E0. cbn in E0. unfold taskc in E0 at 1.
              rewrite ind_true in E0 by done. lia.
           ++ by eapply sleep_keep.
      * (* thread.join() *) destruct (all_ended_but t (threads s)) eqn:Ee; [|done]. intros [=<-]. eexists. split; [done|]. split.
        -- apply (invA_quiet s _ _ A). intros g _. pose proof (sumT_put g _ t _ _ BEnd [] Ht). lia.
        -- eapply (invB_change _ _ _ _ BEnd [] _ _ _ _ _ _ B Ht (all_woken_refl _)); try done.
           ++ by rewrite insert_length.
           ++ by eapply sleep_keep.
           ++ intros ->. destruct (b_main _ B) as (b0 & fs0 & E0 & M1 & M2). rewrite Ht in E0. injection E0 as <- <-. done.
           ++ intros Hf k fk Hk. destruct (lookup_put _ _ _ _ _ _ Ht Hk) as [[-> ?]|[Hn Hk']]; [done|]. by eapply (b_wait _ B Hf).
      * (* worker *)
        assert (Ht0 : t <> 0).
        { intros ->. destruct (b_main _ B) as (b0 & fs0 & E0 & M1 & M2). rewrite Ht in E0. injection E0 as <- <-. done. }
        destruct (tasks s) as [|tk tks] eqn:Etk.
        -- assert (Hgo : forall b', b' = BSleep \/ b' = BEnd -> (b' = BSleep -> wait_for_new_tasks s = true) ->
             InvA (put s t b' []) /\ InvB (put s t b' [])).
           { intros b' Hb' Hbs. split.
             - apply (invA_quiet s _ _ A). intros g _. pose proof (sumT_put g _ t _ _ b' [] Ht). lia.
             - eapply (invB_change _ _ _ _ b' [] _ _ _ _ _ _ B Ht (all_woken_refl _)); try done.
               + by rewrite insert_length.
               + by eapply sleep_keep.
               + intros _. split; [done|]. by destruct Hb' as [-> | ->].
               + intros Hf k fk Hk. destruct (lookup_put _ _ _ _ _ _ Ht Hk) as [[-> E]|[Hn Hk']]; [|by eapply (b_wait _ B Hf)].
                 injection E as <- ->. rewrite Hbs in Hf; done. }
           destruct (wait_for_new_tasks s) eqn:Ew; intros [=<-]; (eexists; split; [done|]); apply Hgo; auto; done.
        -- intros [=<-]. eexists. split; [done|]. split; [by eapply invA_take|]. unfold take. same_base B Ht.
           ++ split_and!; [done|constructor|]. destruct (decide (t_call tk < ncalls s)) as [|Hn]; [done|].
              pose proof (a_fresh _ A (t_call tk) ltac:(lia)) as E0. rewrite (a_rem _ A), Etk in E0. cbn in E0. unfold taskc in E0 at 1.
              rewrite ind_true in E0 by done. lia.
           ++ by eapply sleep_keep.
    + (* frame *)
      pose proof (not_quiet _ _ _ _ _ B Ht) as Hq. destruct Hst as (Hst & Hns & Hf).
      destruct f as [c i e body|c i [|j js]|c|c|c]; cbn [step_frame].
      * destruct (Z.ltb_spec i e) as [Hi|Hi].
        -- intros [=<-]. eexists. split; [done|]. split; [by eapply invA_begin|]. cbn [add_log put threads tasks remaining ncalls wait_for_new_tasks log]. unfold add_log, put; cbn [threads tasks remaining ncalls wait_for_new_tasks log]. same_base B Ht.
           ++ cbn. split_and!; try done; [by apply Forall_cons_2; [intros []|]|eauto 10].
           ++ by eapply sleep_keep.
        -- assert (Hr : 0 < remaining s c).
           { rewrite (a_rem _ A). pose proof (sumT_lookup (chunkc c) _ _ _ _ Ht) as E. cbn in E. rewrite ind_true in E by done. lia. }
           destruct (remaining s c) as [|n] eqn:Er; [lia|]. intros [=<-]. eexists. split; [done|]. cbn [put threads].
           split.
           ++ eapply invA_chunk; try done. intros g Hg. destruct (Nat.eqb n 0); [by apply sumT_wake_caller|done].
           ++ destruct (Nat.eqb_spec n 0) as [-> |Hn].
              ** eapply (invB_same _ _ _ _ b r _ _ _ _ _ B Ht); try done; [apply all_woken_caller|by rewrite map_length, insert_length|].
                 intros k bk d fk Hk. unfold set_remaining.
                 destruct (sleep_origin _ _ _ _ _ _ _ _ _ _ _ B Ht (all_woken_caller c _) Hk) as [[? Hkt]|Hr']; [|by exfalso; eapply not_sleepy_head].
                 destruct (Nat.eqb_spec d c) as [-> |Hd]; [|done].
                 apply list_lookup_fmap_inv in Hk as ([b0 f0] & E & _). cbn in E. injection E as -> E.
                 destruct f0 as [|[] f0]; try done. cbn in E. destruct (Nat.eqb_spec c c0) as [->|Hcc]; congruence.
              ** same_base B Ht. eapply sleep_keep; try done.
                 --- intros d fk Hr'. by exfalso; eapply not_sleepy_head.
                 --- intros d Hd. unfold set_remaining. destruct (Nat.eqb_spec d c) as [-> |Hd']; [lia|done].
      * intros [=<-]. eexists. split; [done|]. split; [by eapply invA_finish|]. unfold add_log, put; cbn [threads tasks remaining ncalls wait_for_new_tasks log]. same_base B Ht.
        eapply sleep_keep; try done. intros d fk Hr'. by exfalso; eapply not_sleepy_head.
      * intros H. eapply (inv_call s t b _ b (FBody c i js :: r) j ks o A B Ht); try done.
        -- by apply (body_sum (FBody c i (j :: js)) c i j).
        -- by apply Forall_cons_2; [intros []|].
      * destruct (Nat.eqb_spec (remaining s c) 0) as [Hr|Hr].
        { intros [=<-]. eexists. split; [done|]. split; [eapply invA_return; eauto|]. unfold add_log, put; cbn [threads tasks remaining ncalls wait_for_new_tasks log]. same_base B Ht.
          eapply sleep_keep; try done. intros d fk Hr'. by exfalso; eapply not_sleepy_head. }
        destruct (tasks s) as [|tk tks] eqn:Etk.
        -- intros [=<-]. eexists. split; [done|]. split; [eapply invA_sleep; eauto|]. unfold put. same_base B Ht.
           eapply sleep_keep; try done. intros d fk [= -> ->]. lia.
        -- intros [=<-]. eexists. split; [done|]. split; [by eapply invA_take|]. unfold take. same_base B Ht.
           ++ split_and!; [done|by apply Forall_cons_2; [intros []|]|]. destruct (decide (t_call tk < ncalls s)) as [|Hn]; [done|].
              pose proof (a_fresh _ A (t_call tk) ltac:(lia)) as E0. rewrite (a_rem _ A), Etk in E0. cbn in E0. unfold taskc in E0 at 1.
              rewrite ind_true in E0 by done. lia.
           ++ by eapply sleep_keep.
      * done.
      * destruct (Nat.eqb_spec (remaining s c) 0) as [Hr|Hr].
        { intros [=<-]. eexists. split; [done|]. split; [eapply invA_return; eauto|]. unfold add_log, put; cbn [threads tasks remaining ncalls wait_for_new_tasks log]. same_base B Ht.
          eapply sleep_keep; try done. intros d fk Hr'. by exfalso; eapply not_sleepy_head. }
        intros [=<-]. eexists. split; [done|]. split; [eapply invA_sleep; eauto|]. unfold put. same_base B Ht.
        eapply sleep_keep; try done. intros d fk [= -> ->]. lia.
  - destruct (threads s !! t) as [[b fs]|] eqn:Ht; [|done].
    assert (Hw2 : forall c r, fs = FSleep c :: r -> InvA (put s t b (FWoken c :: r)) /\ InvB (put s t b (FWoken c :: r))).
    { intros c r ->. pose proof (not_quiet _ _ _ _ _ B Ht) as Hq. split.
      - apply (invA_quiet s _ _ A). intros g Hg. pose proof (sumT_put g _ t _ _ b (FWoken c :: r) Ht) as E. cbn in E. rewrite (Hg c) in E. lia.
      - unfold put. same_base B Ht; [exact (b_stack _ B _ _ _ Ht)|]. by eapply sleep_keep. }
    destruct b, fs as [|[] r]; try done; intros [=<-]; eexists; (split; [done|]); try (by apply Hw2).
    split.
    + apply (invA_quiet s _ _ A). intros g Hg. pose proof (sumT_put g _ t _ _ BWorker [] Ht) as E. lia.
    + eapply (invB_change _ _ _ _ BWorker [] _ _ _ _ _ _ B Ht (all_woken_refl _)); try done.
      * by rewrite insert_length.
      * by eapply sleep_keep.
      * intros ->. destruct (b_main _ B) as (b0 & fs0 & E0 & M1 & M2). rewrite Ht in E0. by injection E0 as <- <-.
      * intros Hf k fk Hk. destruct (lookup_put _ _ _ _ _ _ Ht Hk) as [[-> ?]|[Hn Hk']]; [done|]. by eapply (b_wait _ B Hf).
Qed.

Lemma inv_init js n : InvA (init js n) /\ InvB (init js n).
Proof.
  assert (H0 : forall g, sumT g (threads (init js n)) = 0).
  { intros g. unfold sumT, init. cbn. induction n; cbn; done. }
  split; split; cbn [tasks remaining ncalls wait_for_new_tasks log init].
  - intros c. by rewrite H0.
  - done.
  - intros c. rewrite H0. cbn. by rewrite ind_false by lia.
  - intros c. cbn. by rewrite ind_false by lia.
  - intros c x. by rewrite !H0.
  - intros c x. by rewrite !H0.
  - cbn. lia.
  - cbn. lia.
  - by intros [].
  - intros [|t] b fs Ht; cbn in Ht; [by injection Ht as <- <-|]. apply lookup_replicate in Ht as [[= -> ->] _]. done.
  - intros [|t] b c r Ht; cbn in Ht; [done|]. by apply lookup_replicate in Ht as [? _].
  - intros [|t] b fs Ht; cbn in Ht; [by injection Ht as <- <-|]. apply lookup_replicate in Ht as [[= -> ->] _]. done.
  - exists (BMain js), []. done.
  - intros t b fs Ht; cbn in Ht. apply lookup_replicate in Ht as [[= -> ->] _]. done.
  - done.
Qed.

Lemma inv_run s ms s' : InvA s -> InvB s -> run s ms = Some s' -> InvA s' /\ InvB s'.
Proof.
  revert s. induction ms as [|m ms IH]; cbn; intros s A B H; [by injection H as <-|].
  destruct (step s m) as [o|] eqn:E; [|done]. destruct (inv_step s m o A B E) as (s1 & -> & A1 & B1). eauto.
Qed.

(** ** The program's view *)

(** When a call returns, the body has been run exactly once for each index of its range, all of these runs have
    finished, and it has not been run for any other index. *)
Theorem C42_exactly_once js n ms s l1 c l2 : run (init js n) ms = Some s ->
  log s = l1 ++ Returned c :: l2 -> done_in c l1.
Proof.
  intros H. destruct (inv_run _ _ _ (proj1 (inv_init js n)) (proj2 (inv_init js n)) H) as [A B]. apply (a_ret _ A).
Qed.

(** At no time has the body been entered twice for an index of a call, or for an index outside its range. *)
Theorem C42_at_most_once js n ms s c i : run (init js n) ms = Some s ->
  times (Began c i) (log s) <= 1 /\
  (0 < times (Began c i) (log s) -> exists first last, Called c first last ∈ log s /\ (first <= i < last)%Z).
Proof.
  intros H. destruct (inv_run _ _ _ (proj1 (inv_init js n)) (proj2 (inv_init js n)) H) as [A B].
  pose proof (a_began _ A c i) as E1. pose proof (a_items _ A c i) as E2. pose proof (a_called _ A c) as E3.
  pose proof (ncalled_ask c i (log s)) as E4. pose proof (ind_le (c < ncalls s)). split; [lia|]. intros Hp.
  destruct (ncalled_range c (log s)) as (f & e & H1 & H2); [lia|]. exists f, e. split; [done|].
  specialize (H2 i). destruct (decide _); [done|lia].
Qed.

(** A call's shared state is on the stack of the thread that made it: no chunk of a call that has returned is still
    queued or running. *)
Theorem C42_no_dangling js n ms s c : run (init js n) ms = Some s -> Returned c ∈ log s ->
  (forall tk, tk ∈ tasks s -> t_call tk <> c) /\
  (forall t b fs i e body, threads s !! t = Some (b, fs) -> FChunk c i e body ∈ fs -> False).
Proof.
  intros H Hin. destruct (inv_run _ _ _ (proj1 (inv_init js n)) (proj2 (inv_init js n)) H) as [A B].
  assert (Ht : 0 < times (Returned c) (log s)).
  { clear -Hin. induction Hin as [|d l Hin IH]; cbn; [|lia]. rewrite decide_True by done. lia. }
  pose proof (a_done _ A c Ht) as Hr. rewrite (a_rem _ A c) in Hr. split.
  - intros tk Htk E. assert (0 < sum_list_with (taskc c) (tasks s)); [|lia].
    clear -Htk E. induction Htk as [|x l Htk IH]; cbn; [|lia]. unfold taskc at 1. rewrite ind_true by done. lia.
  - intros t b fs i e body Hth Hf. pose proof (sumT_lookup (chunkc c) _ _ _ _ Hth).
    pose proof (fsum_elem (chunkc c) _ _ Hf) as E. cbn in E. rewrite ind_true in E by done. lia.
Qed.

(** No schedule runs into undefined behaviour: the count of remaining chunks does not wrap around, the chunks are as many
    as were counted. *)
Theorem C42_defined js n ms s m : run (init js n) ms = Some s ->
  match step s m with Some UB | Some NoFuel => False | _ => True end.
Proof.
  intros H. destruct (inv_run _ _ _ (proj1 (inv_init js n)) (proj2 (inv_init js n)) H) as [A B].
  destruct (step s m) as [o|] eqn:E; [|done]. by destruct (inv_step s m o A B E) as (s1 & -> & _).
Qed.

Definition ended (th : thread) : Prop := th.1 = BEnd /\ th.2 = [].

(** A thread that cannot move. *)
Lemma stuck s t b fs : InvA s -> InvB s -> threads s !! t = Some (b, fs) ->
  (exists ks o, step s (Go t ks) = Some o) \/
  (fs = [] /\ (b = BSleep \/ b = BEnd \/ b = BThreadJoin /\ all_ended_but t (threads s) = false)) \/ exists c r, fs = FSleep c :: r.
Proof.
  intros A B Ht. cbn [step]. rewrite Ht.
  assert (Hcall : forall b' r j, exists ks o, call s t b' r j ks = Some o).
  { intros b' r [first last factor pw body]. cbn. destruct (Z.leb_spec last first) as [Hl|Hl]; [by exists [], (Ok (St (<[t := (b', r)]> (threads s)) (tasks s) (remaining s) (S (ncalls s)) (wait_for_new_tasks s)
          (log s ++ [Called (ncalls s) first last; Returned (ncalls s)])))|].
    destruct (C42_chunks (length (threads s)) first last factor pw) as (bs & E & _); [|done|].
    { pose proof (lookup_lt_Some _ _ _ Ht). lia. }
    cbn [chunk_bounds] in E. rewrite E.
    destruct (notifies_total (length bs) (<[t := (b', FCall (ncalls s) :: r)]> (threads s))) as (ks & ths & L & Hn).
    exists ks. rewrite L, Nat.eqb_refl, Hn. eauto. }
  destruct fs as [|f r].
  - destruct b as [[|j js]| | | | |]; cbn [step_base].
    + left. exists []. eauto.
    + left. apply Hcall.
    + left. exists []. destruct (tasks s); eauto.
    + destruct (all_ended_but t (threads s)); [left; exists []; eauto|]. right; left. auto.
    + left. exists []. destruct (tasks s); [destruct (wait_for_new_tasks s)|]; eauto.
    + right; left. auto.
    + right; left. auto.
  - destruct f as [c i e body|c i [|j js]|c|c|c]; cbn [step_frame].
    + left. exists []. destruct (i <? e)%Z; [eauto|]. destruct (remaining s c); eauto.
    + left. exists []. eauto.
    + left. apply Hcall.
    + left. exists []. destruct (Nat.eqb (remaining s c) 0); [eauto|]. destruct (tasks s); eauto.
    + right; right. eauto.
    + left. exists []. destruct (Nat.eqb (remaining s c) 0); eauto.
Qed.

(** If no thread can move then no caller sleeps: the chunk that it waits for would be held by a thread that waits for a
    call made later. *)
Lemma no_sleeper s : InvA s -> InvB s -> (forall t ks, step s (Go t ks) = None) ->
  forall k c t b r, ncalls s - c <= k -> threads s !! t = Some (b, FSleep c :: r) -> False.
Proof.
  intros A B Hno k. induction k as [|k IH]; intros c t b r Hk Ht.
  - destruct (b_stack _ B _ _ _ Ht) as (_ & _ & Hc & _). lia.
  - pose proof (b_sleep _ B _ _ _ _ Ht) as Hr. rewrite (a_rem _ A c) in Hr.
    pose proof (a_call _ A c) as Hcall. pose proof (ind_le (c < ncalls s)).
    pose proof (sumT_lookup (callc c) _ _ _ _ Ht) as Hmine.
    pose proof (sumT_put (callc c) _ t _ _ b (FCall c :: r) Ht) as Hp1.
    pose proof (sumT_put (fcallc c) _ t _ _ b (FSleep c :: r) Ht) as Hp2.
    cbn in Hmine. rewrite ind_true in Hmine by done.
    assert (Hnt : sum_list_with (taskc c) (tasks s) = 0).
    { destruct (decide (sum_list_with (taskc c) (tasks s) = 0)) as [|Hn]; [done|].
      pose proof (a_tasks _ A c ltac:(lia)) as Hf.
      assert (Hle : sumT (fcallc c) (threads s) + 1 <= sumT (callc c) (threads s)).
      { assert (Hfc : forall fs, fsum (fcallc c) fs <= fsum (callc c) fs).
        { intros fs. induction fs as [|[] fs IH']; cbn; lia. }
        assert (G : forall ths, sumT (fcallc c) ths <= sumT (callc c) ths).
        { unfold sumT. induction ths as [|[b0 f0] ths IH']; cbn; [lia|]. pose proof (Hfc f0). lia. }
        pose proof (G (<[t := (b, r)]> (threads s))) as G1.
        pose proof (sumT_put (callc c) _ t _ _ b r Ht) as E1. pose proof (sumT_put (fcallc c) _ t _ _ b r Ht) as E2.
        cbn in E1, E2. rewrite ind_true in E1 by done. lia. }
      lia. }
    destruct (sumT_pos (chunkc c) (threads s)) as (t' & b' & fs' & f & Ht' & Hf & Hg); [lia|].
    destruct f as [d i e body| | | |]; cbn in Hg; try lia.
    destruct (decide (d = c)) as [-> |Hd]; [|rewrite ind_false in Hg by done; lia].
    destruct (stuck s t' b' fs' A B Ht') as [(ks & o & Hs)|[[-> _]|(c' & r' & ->)]].
    + by rewrite Hno in Hs.
    + by apply elem_of_nil in Hf.
    + destruct (b_stack _ B _ _ _ Ht') as (_ & _ & Hc' & Hall).
      apply elem_of_cons in Hf as [?|Hf]; [done|]. rewrite Forall_forall in Hall. specialize (Hall _ Hf). cbn in Hall.
      apply (IH c' t' b' r'); [lia|done].
Qed.

(** Unless all threads have ended, one of them can take its next step: no deadlock, wherever the calls are made. *)
Theorem C42_no_deadlock js n ms s : run (init js n) ms = Some s -> ~ Forall ended (threads s) ->
  exists t ks s', step s (Go t ks) = Some (Ok s').
Proof.
  intros H Hne. destruct (inv_run _ _ _ (proj1 (inv_init js n)) (proj2 (inv_init js n)) H) as [A B].
  assert (Hfind : (exists t ks o, step s (Go t ks) = Some o) \/ forall t ks, step s (Go t ks) = None).
  { assert (G : forall k, (exists t ks o, step s (Go t ks) = Some o) \/ forall t ks, t < k -> step s (Go t ks) = None).
    { induction k as [|k [IH|IH]]; [right; intros; lia|by left|].
      destruct (threads s !! k) as [[b fs]|] eqn:Ek.
      - destruct (stuck s k b fs A B Ek) as [(ks & o & E)|E]; [left; eauto|]. right. intros t ks Htk.
        destruct (decide (t = k)) as [-> |]; [|apply IH; lia]. cbn [step]. rewrite Ek.
        destruct E as [(-> & [-> |[-> |[-> E]]])|(c & r & ->)]; try done. cbn. by rewrite E.
      - right. intros t ks Htk. destruct (decide (t = k)) as [-> |]; [|apply IH; lia]. cbn [step]. by rewrite Ek. }
    destruct (G (length (threads s))) as [E|E]; [by left|]. right. intros t ks.
    destruct (decide (t < length (threads s))) as [|Hl]; [by apply E|]. cbn [step]. rewrite lookup_ge_None_2 by lia. done. }
  destruct Hfind as [(t & ks & o & E)|Hno].
  { destruct (inv_step s _ o A B E) as (s' & -> & _). eauto. }
  exfalso. apply Hne.
  assert (Hst : forall t b fs, threads s !! t = Some (b, fs) ->
    fs = [] /\ (b = BSleep \/ b = BEnd \/ b = BThreadJoin /\ all_ended_but t (threads s) = false)).
  { intros t b fs Ht. destruct (stuck s t b fs A B Ht) as [(ks & o & E)|[E|(c & r & ->)]]; [by rewrite Hno in E|done|].
    exfalso. by eapply (no_sleeper s A B Hno (ncalls s - c) c). }
  destruct (b_main _ B) as (b0 & fs0 & E0 & M1 & M2).
  assert (Hw : wait_for_new_tasks s = false).
  { destruct (wait_for_new_tasks s) eqn:Ew; [|done]. destruct (Hst _ _ _ E0) as [-> Hb].
    assert (is_main b0) by (by apply M2). by destruct Hb as [-> |[-> |[-> _]]]. }
  assert (Hend : forall t b fs, threads s !! S t = Some (b, fs) -> b = BEnd /\ fs = []).
  { intros t b fs Ht. destruct (Hst _ _ _ Ht) as [-> [-> |[-> |[-> _]]]]; [by destruct (b_wait _ B Hw _ _ Ht)|done|].
    by pose proof (b_worker _ B _ _ _ Ht). }
  assert (Hall : all_ended_but 0 (threads s) = true).
  { unfold all_ended_but. destruct (threads s) as [|th ths] eqn:Eth; [done|]. cbn. apply forallb_forall. intros [b fs] Hin.
    apply elem_of_list_In, elem_of_list_lookup in Hin as [t Ht]. by destruct (Hend t b fs Ht) as [-> _]. }
  apply Forall_lookup. intros t [b fs] Ht. destruct t as [|t]; [|by destruct (Hend _ _ _ Ht) as [-> ->]].
  rewrite E0 in Ht. injection Ht as <- <-. destruct (Hst _ _ _ E0) as [-> [-> |[-> |[-> E]]]]; [done|done|]. by rewrite Hall in E.
Qed.

(** When all threads have ended, every call that was made has returned. *)
Theorem C42_all_return js n ms s c first last : run (init js n) ms = Some s -> Forall ended (threads s) ->
  Called c first last ∈ log s -> Returned c ∈ log s.
Proof.
  intros H Hall Hin. destruct (inv_run _ _ _ (proj1 (inv_init js n)) (proj2 (inv_init js n)) H) as [A B].
  assert (H0 : sumT (callc c) (threads s) = 0).
  { unfold sumT. clear -Hall. induction Hall as [|[b fs] ths [_ E] _ IH]; cbn in *; [done|]. by rewrite E, IH. }
  assert (Hn : 0 < sum_list_with (ncalled c) (log s)).
  { clear -Hin. induction (log s) as [|d l IH]; [by apply elem_of_nil in Hin|]. cbn. apply elem_of_cons in Hin as [<-|Hin]; [|specialize (IH Hin); lia].
    cbn. rewrite ind_true by done. lia. }
  pose proof (a_called _ A c) as E1. pose proof (a_call _ A c) as E2.
  assert (Ht : 0 < times (Returned c) (log s)) by lia.
  clear -Ht. induction (log s) as [|d l IH]; cbn in Ht; [lia|]. destruct (decide (d = Returned c)) as [-> |]; [by left|].
  right. apply IH. lia.
Qed.

(** ** Every run ends *)
Fixpoint jsize (j : job) : nat :=
  match j with Job first last _ _ body =>
    3 + sum_list_with (fun x => 6 + sum_list_with jsize (body x)) (seqZ first (last - first)) end.
Definition isize (body : Z -> list job) (x : Z) : nat := 2 + sum_list_with jsize (body x).
Definition csize (body : Z -> list job) (i e : Z) : nat := sum_list_with (isize body) (seqZ i (e - i)).
Definition fsize (f : frame) : nat :=
  match f with
  | FChunk c i e body => 2 + csize body i e
  | FBody c i js => 1 + sum_list_with jsize js
  | FCall _ | FWoken _ => 2
  | FSleep _ => 1
  end.
Definition tsize (tk : task) : nat := 3 + csize (t_body tk) (t_first tk) (t_last tk).
Definition bsize (n : nat) (b : base) : nat :=
  match b with
  | BMain js => sum_list_with jsize js + n + 4
  | BJoin => 2 | BThreadJoin => 1 | BWorker => 2 | BSleep => 1 | BEnd => 0
  end.
Definition thsize (n : nat) (th : thread) : nat := bsize n th.1 + sum_list_with fsize th.2.
Definition size (s : st) : nat :=
  sum_list_with (thsize (length (threads s))) (threads s) + sum_list_with tsize (tasks s).

Lemma jsize_call first last factor pw body : (first < last)%Z ->
  jsize (Job first last factor pw body) = 3 + csize body first last + 4 * Z.to_nat (last - first).
Proof.
  intros Hl. cbn [jsize]. unfold csize, isize.
  assert (E : forall l, sum_list_with (fun x => 6 + sum_list_with jsize (body x)) l = sum_list_with (fun x => 2 + sum_list_with jsize (body x)) l + 4 * length l).
  { induction l as [|x l IH]; cbn [sum_list_with length]; lia. }
  rewrite E, seqZ_length. lia.
Qed.

Lemma csize_bounds body (bs : list (Z * Z)) : sum_list_with (fun p : Z * Z => csize body p.1 p.2) bs =
  sum_list_with (isize body) (concat (map (fun p => seqZ p.1 (p.2 - p.1)) bs)).
Proof. induction bs as [|p bs IH]; [done|]. cbn [map concat sum_list_with]. rewrite sum_app, IH. done. Qed.

Lemma thsize_put n ths t b fs b' fs' : ths !! t = Some (b, fs) ->
  sum_list_with (thsize n) (<[t := (b', fs')]> ths) + thsize n (b, fs) = sum_list_with (thsize n) ths + thsize n (b', fs').
Proof. intros H. by apply sum_list_with_insert. Qed.

Lemma thsize_notifies n ks ths ths' : notifies ks ths = Some ths' ->
  sum_list_with (thsize n) ths' <= sum_list_with (thsize n) ths + length ks.
Proof.
  revert ths. induction ks as [|k ks IH]; cbn [notifies]; intros ths H; [injection H as <-; cbn; lia|].
  destruct (notify_one k ths) as [ths1|] eqn:E; [|done]. specialize (IH _ H). cbn [length].
  unfold notify_one in E. destruct (existsb is_asleep ths); [|injection E as <-; lia].
  destruct (ths !! k) as [[[] fs]|] eqn:Ek; try done. injection E as <-.
  pose proof (thsize_put n ths k BSleep fs BWorker fs Ek) as E. unfold thsize in E at 2 4. cbn in E. lia.
Qed.

Lemma thsize_wake n ths : sum_list_with (thsize n) (map wake ths) <= sum_list_with (thsize n) ths + length ths.
Proof.
  induction ths as [|[b fs] ths IH]; cbn [map sum_list_with length]; [lia|].
  assert (thsize n (wake (b, fs)) <= thsize n (b, fs) + 1); [|lia]. unfold thsize. destruct b; cbn; lia.
Qed.

Lemma thsize_wake_caller n c ths : sum_list_with (thsize n) (map (wake_caller c) ths) <= sum_list_with (thsize n) ths + sumT (callc c) ths.
Proof.
  unfold sumT. induction ths as [|[b fs] ths IH]; cbn [map sum_list_with]; [lia|].
  assert (thsize n (wake_caller c (b, fs)) <= thsize n (b, fs) + fsum (callc c) fs); [|cbn [snd]; lia].
  unfold thsize, wake_caller. cbn [fst snd]. destruct fs as [|[] r]; cbn; try lia.
  destruct (Nat.eqb_spec c c0) as [-> |]; cbn; [rewrite ind_true by done|]; lia.
Qed.

Lemma notifies_length ks ths ths' : notifies ks ths = Some ths' -> length ths' = length ths.
Proof. intros H. by apply all_woken_notifies in H as [? _]. Qed.

Lemma size_call s t b fs b' r j ks s' : threads s !! t = Some (b, fs) ->
  call s t b' r j ks = Some (Ok s') ->
  length (threads s') = length (threads s) /\
  size s' + thsize (length (threads s)) (b, fs) + 1 <= size s + thsize (length (threads s)) (b', r) + jsize j.
Proof.
  intros Ht. destruct j as [first last factor pw body]. cbn [call].
  destruct (Z.leb_spec last first) as [Hl|Hl].
  { intros [=<-]. unfold size. cbn [threads tasks]. rewrite insert_length. split; [done|].
    pose proof (thsize_put (length (threads s)) _ _ _ _ b' r Ht). cbn [jsize]. lia. }
  destruct (C42_chunks (length (threads s)) first last factor pw) as (bs & E & Hcc & Hlen & _ & Hlb & _); [|done|].
  { pose proof (lookup_lt_Some _ _ _ Ht). lia. }
  cbn [chunk_bounds] in E |- *. rewrite E. clear E.
  destruct (Nat.eqb_spec (length ks) (length bs)) as [Hk|_]; [|done].
  destruct (notifies ks _) as [ths|] eqn:En; [|done]. intros [=<-]. unfold size. cbn [threads tasks].
  pose proof (notifies_length _ _ _ En) as L. rewrite insert_length in L. rewrite L. split; [done|].
  pose proof (thsize_notifies (length (threads s)) _ _ _ En) as N.
  pose proof (thsize_put (length (threads s)) _ _ _ _ b' (FCall (ncalls s) :: r) Ht) as P.
  rewrite sum_app.
  assert (T : forall c, sum_list_with tsize (map (fun p : Z * Z => Task c p.1 p.2 body) bs) = 3 * length bs + csize body first last).
  { intros c. unfold csize at 1. rewrite <- Hcc, <- csize_bounds. clear. induction bs as [|p bs IH]; [done|].
    cbn [map sum_list_with length]. unfold tsize at 1. cbn [t_body t_first t_last]. lia. }
  rewrite T, (jsize_call first last factor pw body Hl).
  unfold thsize in P at 2 4. unfold thsize at 2 4. cbn [fst snd sum_list_with fsize] in *. lia.
Qed.

Lemma csize_cons body i e : (i < e)%Z -> csize body i e = isize body i + csize body (i + 1) e.
Proof.
  intros H. unfold csize. rewrite (seqZ_cons i) by lia. cbn [sum_list_with].
  by replace (Z.pred (e - i)) with (e - (i + 1))%Z by lia.
Qed.

Lemma size_step s m s' : InvA s -> InvB s -> step s m = Some (Ok s') ->
  length (threads s') = length (threads s) /\ size s' + (if is_go m then 1 else 0) <= size s + (if is_go m then 0 else 1).
Proof.
  intros A B. set (n := length (threads s)).
  assert (Hput : forall t b fs b' fs', threads s !! t = Some (b, fs) ->
    sum_list_with (thsize n) (<[t := (b', fs')]> (threads s)) + thsize n (b, fs) = sum_list_with (thsize n) (threads s) + thsize n (b', fs'))
    by (intros; by apply thsize_put).
  destruct m as [t ks|t]; cbn [step is_go].
  - destruct (threads s !! t) as [[b fs]|] eqn:Ht; [|done].
    destruct fs as [|f r].
    + destruct b as [[|j js]| | | | |]; cbn [step_base]; try done.
      * intros [=<-]. unfold size. cbn [threads tasks]. rewrite insert_length, map_length. split; [done|]. fold n.
        assert (Ht' : map wake (threads s) !! t = Some (BMain [], [])) by (by rewrite list_lookup_fmap, Ht).
        pose proof (thsize_put n _ _ _ _ BJoin [] Ht') as E. unfold thsize in E at 2 4. cbn in E.
        pose proof (thsize_wake n (threads s)). fold n in H. lia.
      * intros H. destruct (size_call _ _ _ _ _ _ _ _ _ Ht H) as [L E]. split; [done|]. unfold thsize in E. cbn in E. lia.
      * destruct (tasks s) as [|tk tks] eqn:Etk; intros [=<-]; unfold size, take, put; cbn [threads tasks]; rewrite insert_length;
          (split; [done|]); fold n; rewrite ?Etk.
        -- pose proof (Hput t _ _ BThreadJoin [] Ht) as E. unfold thsize in E at 2 4. cbn in E |- *. lia.
        -- pose proof (Hput t _ _ BJoin [FChunk (t_call tk) (t_first tk) (t_last tk) (t_body tk)] Ht) as E.
           unfold thsize in E at 2 4. cbn [sum_list_with fst snd fsize bsize] in E |- *. unfold tsize at 2. lia.
      * destruct (all_ended_but t (threads s)); [|done]. intros [=<-]. unfold size, put. cbn [threads tasks]. rewrite insert_length.
        split; [done|]. fold n. pose proof (Hput t _ _ BEnd [] Ht) as E. unfold thsize in E at 2 4. cbn in E |- *. lia.
      * destruct (tasks s) as [|tk tks] eqn:Etk.
        -- assert (G : forall b', bsize n b' <= 1 -> length (threads (put s t b' [])) = n /\ size (put s t b' []) + 1 <= size s + 0).
           { intros b' Hb'. unfold size, put. cbn [threads tasks]. rewrite insert_length. split; [done|]. fold n.
             pose proof (Hput t _ _ b' [] Ht) as E. unfold thsize in E at 2 4. cbn in E |- *. lia. }
           destruct (wait_for_new_tasks s); intros [=<-]; apply G; cbn; lia.
        -- intros [=<-]. unfold size, take. cbn [threads tasks]. rewrite insert_length. split; [done|]. fold n. rewrite Etk.
           pose proof (Hput t _ _ BWorker [FChunk (t_call tk) (t_first tk) (t_last tk) (t_body tk)] Ht) as E.
           unfold thsize in E at 2 4. cbn [sum_list_with fst snd fsize bsize] in E |- *. unfold tsize at 2. lia.
    + destruct f as [c i e body|c i [|j js]|c|c|c]; cbn [step_frame].
      * destruct (Z.ltb_spec i e) as [Hi|Hi].
        -- intros [=<-]. unfold size, add_log, put. cbn [threads tasks]. rewrite insert_length. split; [done|]. fold n.
           pose proof (Hput t _ _ b (FBody c i (body i) :: FChunk c (i + 1) e body :: r) Ht) as E.
           unfold thsize in E at 2 4. cbn [sum_list_with fst snd fsize bsize] in E |- *. rewrite (csize_cons body i e Hi) in E.
           unfold isize in E. lia.
        -- destruct (remaining s c) as [|k]; [done|]. intros [=<-]. unfold size. cbn [threads tasks put].
           pose proof (Hput t _ _ b r Ht) as E. unfold thsize in E at 2 4. cbn [sum_list_with fst snd fsize bsize] in E.
           destruct (Nat.eqb k 0); rewrite ?map_length, insert_length; (split; [done|]); fold n; [|lia].
           pose proof (thsize_wake_caller n c (<[t := (b, r)]> (threads s))) as W.
           pose proof (sumT_put (callc c) _ _ _ _ b r Ht) as E2. cbn in E2. pose proof (a_call _ A c) as E3. pose proof (ind_le (c < ncalls s)). lia.
      * intros [=<-]. unfold size, add_log, put. cbn [threads tasks]. rewrite insert_length. split; [done|]. fold n.
        pose proof (Hput t _ _ b r Ht) as E. unfold thsize in E at 2 4. cbn [sum_list_with fst snd fsize bsize] in E |- *. lia.
      * intros H. destruct (size_call _ _ _ _ _ _ _ _ _ Ht H) as [L E]. split; [done|]. unfold thsize in E. cbn in E. lia.
      * destruct (Nat.eqb (remaining s c) 0).
        { intros [=<-]. unfold size, add_log, put. cbn [threads tasks]. rewrite insert_length. split; [done|]. fold n.
          pose proof (Hput t _ _ b r Ht) as E. unfold thsize in E at 2 4. cbn [sum_list_with fst snd fsize bsize] in E |- *. lia. }
        destruct (tasks s) as [|tk tks] eqn:Etk; intros [=<-]; unfold size, take, put; cbn [threads tasks]; rewrite insert_length;
          (split; [done|]); fold n; rewrite ?Etk.
        -- pose proof (Hput t _ _ b (FSleep c :: r) Ht) as E. unfold thsize in E at 2 4. cbn [sum_list_with fst snd fsize bsize] in E |- *. lia.
        -- pose proof (Hput t _ _ b (FChunk (t_call tk) (t_first tk) (t_last tk) (t_body tk) :: FCall c :: r) Ht) as E.
           unfold thsize in E at 2 4. cbn [sum_list_with fst snd fsize bsize] in E |- *. unfold tsize at 2. lia.
      * done.
      * destruct (Nat.eqb (remaining s c) 0); intros [=<-]; unfold size, add_log, put; cbn [threads tasks]; rewrite insert_length;
          (split; [done|]); fold n.
        -- pose proof (Hput t _ _ b r Ht) as E. unfold thsize in E at 2 4. cbn [sum_list_with fst snd fsize bsize] in E |- *. lia.
        -- pose proof (Hput t _ _ b (FSleep c :: r) Ht) as E. unfold thsize in E at 2 4. cbn [sum_list_with fst snd fsize bsize] in E |- *. lia.
  - destruct (threads s !! t) as [[b fs]|] eqn:Ht; [|done].
    assert (Hw2 : forall c r, fs = FSleep c :: r -> length (threads (put s t b (FWoken c :: r))) = n /\ size (put s t b (FWoken c :: r)) + 0 <= size s + 1).
    { intros c r ->. unfold size, put. cbn [threads tasks]. rewrite insert_length. split; [done|]. fold n.
      pose proof (Hput t _ _ b (FWoken c :: r) Ht) as E. unfold thsize in E at 2 4. cbn [sum_list_with fst snd fsize bsize] in E |- *. lia. }
    destruct b, fs as [|[] r]; try done; intros [=<-]; try (by apply Hw2).
    unfold size, put. cbn [threads tasks]. rewrite insert_length. split; [done|]. fold n.
    pose proof (Hput t _ _ BWorker [] Ht) as E. unfold thsize in E at 2 4. cbn in E |- *. lia.
Qed.

Lemma size_run s ms s' : InvA s -> InvB s -> run s ms = Some s' -> size s' + go_steps ms <= size s + spurious_steps ms.
Proof.
  unfold go_steps, spurious_steps.
  revert s. induction ms as [|m ms IH]; cbn [run List.filter]; intros s A B H; [injection H as <-; cbn; lia|].
  destruct (step s m) as [o|] eqn:E; [|done]. destruct (inv_step s m o A B E) as (s1 & -> & A1 & B1).
  destruct (size_step s m s1 A B E) as [_ E1]. specialize (IH s1 A1 B1 H). destruct (is_go m); cbn [negb length] in *; lia.
Qed.

(** A run of a program has a bounded number of steps, as long as threads are not woken up for no reason over and over.
    [jsize] bounds a call by the number of its indices and the calls that these make. *)
Theorem C42_terminates js n ms s : run (init js n) ms = Some s ->
  go_steps ms <= sum_list_with jsize js + 3 * n + 5 + spurious_steps ms.
Proof.
  intros H. pose proof (size_run _ _ _ (proj1 (inv_init js n)) (proj2 (inv_init js n)) H) as E.
  assert (size (init js n) = sum_list_with jsize js + 3 * n + 5); [|lia].
  unfold size, init. cbn [threads tasks length sum_list_with]. rewrite replicate_length.
  assert (G : forall k, sum_list_with (thsize (S n)) (replicate k (BWorker, [])) = 2 * k).
  { induction k as [|k IH]; [done|]. cbn [replicate sum_list_with]. rewrite IH. unfold thsize. cbn. lia. }
  rewrite G. unfold thsize. cbn. lia.
Qed.

(** ** A case: one pool thread, a loop of two indices, the first of which runs a loop of its own. *)
Definition inner : job := Job 5 7 1 1 (fun _ => []).
Definition outer : job := Job 0 2 1 1 (fun i => if (i =? 0)%Z then [inner] else []).
Fixpoint drive (fuel : nat) (sched : list nat) (s : st) : list move * st :=
  match fuel with
  | O => ([], s)
  | S fuel =>
    (fix pick (ts : list nat) : list move * st :=
       match ts with
       | [] => ([], s)
       | t :: ts => match step s (Go t [1; 1]) with
                    | Some (Ok s') => let r := drive fuel (rev sched) s' in (Go t [1; 1] :: r.1, r.2)
                    | _ => match step s (Go t []) with
                           | Some (Ok s') => let r := drive fuel (rev sched) s' in (Go t [] :: r.1, r.2)
                           | _ => pick ts
                           end
                    end
       end) sched
  end.
Example C42_example : exists ms s, run (init [outer] 1) ms = Some s /\ Forall ended (threads s) /\
  Returned 0 ∈ log s /\ Returned 1 ∈ log s /\ times (Began 1 6) (log s) = 1.
Proof.
  exists (drive 200 [0; 1] (init [outer] 1)).1, (drive 200 [0; 1] (init [outer] 1)).2.
  split; [vm_compute; reflexivity|]. split; [vm_compute; repeat (apply Forall_cons_2; [done|]); apply Forall_nil_2|].
  split; [|split; [|vm_compute; reflexivity]].
  - apply elem_of_list_In. vm_compute. tauto.
  - apply elem_of_list_In. vm_compute. tauto.
Qed.

Print Assumptions C42_exactly_once.
Print Assumptions C42_at_most_once.
Print Assumptions C42_no_dangling.
Print Assumptions C42_defined.
Print Assumptions C42_no_deadlock.
Print Assumptions C42_all_return.
Print Assumptions C42_terminates.
