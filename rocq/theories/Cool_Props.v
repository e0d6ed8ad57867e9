(** * C36, C37: minimum layer time and fan speed *)
From stdpp Require Import list.
From Coq Require Import ZArith QArith Qminmax Qabs Lqa Qfield.
From Verif Require Import Common Cool_Model Cool_Spec.
Local Open Scope Q_scope.

Lemma Qltb_true a b : Qltb a b = true <-> a < b.
Proof.
  unfold Qltb. rewrite negb_true_iff. split.
  - intros H. apply Qnot_le_lt. intros L. apply Qle_bool_iff in L. congruence.
  - intros H. destruct (Qle_bool b a) eqn:E; [|done]. apply Qle_bool_iff in E. lra.
Qed.
Lemma Qltb_false a b : Qltb a b = false <-> b <= a.
Proof. unfold Qltb. by rewrite negb_false_iff, Qle_bool_iff. Qed.
Lemma Qle_bool_false a b : Qle_bool a b = false <-> b < a.
Proof.
  split.
  - intros H. apply Qnot_le_lt. intros L. apply Qle_bool_iff in L. congruence.
  - intros H. destruct (Qle_bool a b) eqn:E; [|done]. apply Qle_bool_iff in E. lra.
Qed.

Lemma Qsq_nonneg x : 0 <= x * x.
Proof. destruct (Qlt_le_dec x 0); [|by apply Qmult_le_0_compat]. assert (0 <= (- x) * (- x)) by (apply Qmult_le_0_compat; lra). lra. Qed.

Lemma Qdiv_nonneg a b : 0 <= a -> 0 < b -> 0 <= a / b.
Proof. intros. apply Qle_shift_div_l; [done|]. lra. Qed.
Lemma Qdiv_pos a b : 0 < a -> 0 < b -> 0 < a / b.
Proof. intros. apply Qlt_shift_div_l; [done|]. lra. Qed.

Lemma total_app a b : total (a ++ b) == total a + total b.
Proof. induction a as [|x a IH]; cbn; [ring|]. rewrite IH. ring. Qed.
Lemma total_nonneg l : Forall (fun x => 0 <= x) l -> 0 <= total l.
Proof. induction 1; cbn; lra. Qed.
Lemma total_le {A} (f g : A -> Q) l : (forall x, x ∈ l -> f x <= g x) -> total (map f l) <= total (map g l).
Proof.
  induction l as [|x l IH]; intros H; cbn; [lra|]. pose proof (H x (elem_of_list_here _ _)).
  assert (total (map f l) <= total (map g l)); [|lra]. apply IH. intros. apply H. by right.
Qed.
Lemma total_eq {A} (f g : A -> Q) l : (forall x, x ∈ l -> f x == g x) -> total (map f l) == total (map g l).
Proof.
  intros H. apply Qle_antisym; apply total_le; intros x Hx; rewrite (H x Hx); apply Qle_refl.
Qed.
Lemma total_scale {A} (f : A -> Q) k l : total (map (fun x => f x * k) l) == total (map f l) * k.
Proof. induction l as [|x l IH]; cbn; [ring|]. rewrite IH. ring. Qed.
Lemma total_plus {A} (f g : A -> Q) l : total (map (fun x => f x + g x) l) == total (map f l) + total (map g l).
Proof. induction l as [|x l IH]; cbn; [ring|]. rewrite IH. ring. Qed.

Lemma fold_div (l : list Q) v : forall t, fold_left (fun t len => t + len / v) l t == t + total l / v.
Proof.
  induction l as [|x l IH]; intros t; cbn [fold_left total].
  - unfold Qdiv. ring.
  - rewrite IH. unfold Qdiv. ring.
Qed.
Lemma fold_over (l : list Q) v : Forall (fun len => 0 <= len) l -> forall t,
  fold_left (fun t len => if Qle_bool len 0 then t else t + len / v) l t == t + total l / v.
Proof.
  induction 1 as [|x l Hx Hl IH]; intros t; cbn [fold_left total].
  - unfold Qdiv. ring.
  - rewrite IH. destruct (Qle_bool x 0) eqn:E.
    + apply Qle_bool_iff in E. assert (x == 0) as -> by lra. unfold Qdiv. ring.
    + unfold Qdiv. ring.
Qed.
Lemma fold_sum {A} (f : A -> Q) l : forall t, fold_left (fun t p => t + f p) l t == t + total (map f l).
Proof. induction l as [|x l IH]; intros t; cbn; [ring|]. rewrite IH. ring. Qed.

Lemma elem_extr p ps : p ∈ extrusions ps <-> p ∈ ps /\ travel p = false.
Proof.
  unfold extrusions. rewrite elem_of_list_In, filter_In, negb_true_iff, <- elem_of_list_In. done.
Qed.
Lemma extr_nonneg pl p : fresh pl -> p ∈ paths pl -> 0 <= length_of p.
Proof.
  intros F Hp. apply total_nonneg. pose proof (f_lens _ F) as H. rewrite Forall_forall in H. by apply H.
Qed.
Lemma extr_speed pl p : fresh pl -> p ∈ paths pl -> 0 < speed p.
Proof.
  intros F Hp. pose proof (f_speeds _ F) as H. rewrite Forall_forall in H. destruct (H p Hp) as [H1 H2].
  unfold speed. by apply Qmult_lt_0_compat.
Qed.

(** Sums over all paths of something that is nothing for travels. *)
Lemma total_extr (f : path -> Q) ps : (forall p, p ∈ ps -> travel p = true -> f p == 0) ->
  total (map f ps) == total (map f (extrusions ps)).
Proof.
  induction ps as [|p ps IH]; intros H; [done|]. cbn. destruct (travel p) eqn:E; cbn.
  - rewrite (H p) by (done || by left). rewrite IH; [unfold extrusions; ring|]. intros. apply H; [by right|done].
  - rewrite IH; [reflexivity|]. intros. apply H; [by right|done].
Qed.
Lemma total_trav (f : path -> Q) ps : (forall p, p ∈ ps -> travel p = false -> f p == 0) ->
  total (map f ps) == total (map f (travels ps)).
Proof.
  induction ps as [|p ps IH]; intros H; [done|]. cbn. destruct (travel p) eqn:E; cbn.
  - rewrite IH; [reflexivity|]. intros. apply H; [by right|done].
  - rewrite (H p) by (done || by left). rewrite IH; [unfold travels; ring|]. intros. apply H; [by right|done].
Qed.

Lemma slowest_fold ps : forall v0 w0, fold_left slowest_step ps (Some v0) = Some w0 ->
  w0 <= v0 /\ (forall p, p ∈ extrusions ps -> w0 <= speed p) /\
  (w0 == v0 \/ exists p, p ∈ extrusions ps /\ speed p == w0).
Proof.
  induction ps as [|p ps IH]; intros v0 w0 H; cbn in H.
  - injection H as ->. split; [lra|]. split; [by intros ? ?%elem_of_nil|]. left. reflexivity.
  - unfold slowest_step at 2 in H. destruct (travel p) eqn:E.
    + destruct (IH _ _ H) as (H1 & H2 & H3). unfold extrusions. cbn. rewrite E. cbn. done.
    + destruct (IH _ _ H) as (H1 & H2 & H3). unfold extrusions. cbn. rewrite E. cbn.
      pose proof (Q.le_min_l v0 (cfg_speed p * speed_factor p)). pose proof (Q.le_min_r v0 (cfg_speed p * speed_factor p)).
      split; [lra|]. split.
      * intros q [->|Hq]%elem_of_cons; [unfold speed; lra|by apply H2].
      * destruct H3 as [H3|(q & Hq & Hw)]; [|right; exists q; split; [by right|done]].
        destruct (Q.min_spec v0 (cfg_speed p * speed_factor p)) as [[? Hm]|[? Hm]].
        -- left. rewrite H3, Hm. reflexivity.
        -- right. exists p. split; [by left|]. rewrite H3, Hm. reflexivity.
Qed.

Lemma slowest_some ps p : p ∈ extrusions ps -> exists w, slowest_speed ps = Some w /\ slowest_is w ps.
Proof.
  unfold slowest_speed. induction ps as [|q ps IH]; intros Hp; [by apply elem_of_nil in Hp|].
  cbn. unfold slowest_step at 2. unfold extrusions in Hp. cbn in Hp. destruct (travel q) eqn:E; cbn in Hp.
  - destruct (IH Hp) as (w & H1 & H2). exists w. split; [done|]. unfold slowest_is, extrusions. cbn. by rewrite E.
  - clear IH Hp. destruct (fold_left slowest_step ps (Some (cfg_speed q * speed_factor q))) as [w|] eqn:F.
    + exists w. split; [done|]. apply slowest_fold in F as (H1 & H2 & H3).
      unfold slowest_is, extrusions. cbn. rewrite E. cbn. split.
      * destruct H3 as [H3|(p' & Hp' & Hw)]; [exists q; split; [by left|]; unfold speed; by symmetry|].
        exists p'. split; [by right|done].
      * intros p' [->|Hp']%elem_of_cons; [unfold speed; lra|by apply H2].
    + exfalso. clear -F. revert F. generalize (cfg_speed q * speed_factor q).
      induction ps as [|r ps IH]; intros v F; [done|]. cbn in F. unfold slowest_step at 2 in F.
      destruct (travel r); by eapply IH.
Qed.

(** ** The estimates *)

Lemma map_extr f ps : (forall p, travel (f p) = travel p) -> extrusions (map f ps) = map f (extrusions ps).
Proof.
  intros H. unfold extrusions. induction ps as [|p ps IH]; [done|]. cbn. rewrite H. destruct (travel p); cbn; by rewrite IH.
Qed.

Lemma naive_travel pl w p : travel (naive_path pl w p) = travel p.
Proof. unfold naive_path. destruct (travel p) eqn:E; cbn; congruence. Qed.
Lemma naive_speed pl w p : speed (naive_path pl w p) = speed p.
Proof. unfold naive_path, speed. by destruct (travel p). Qed.
Lemma naive_lens pl w p : lens (naive_path pl w p) = lens p.
Proof. unfold naive_path. by destruct (travel p). Qed.

Lemma naive_extrude pl : fresh pl -> p_extrude (naive pl) == print_time (paths pl).
Proof.
  intros F. unfold naive. cbn. rewrite fold_sum. destruct (f_plan _ F) as (-> & _). rewrite map_map.
  rewrite (total_extr (fun p => e_extrude (naive_path pl (slowest_speed (paths pl)) p))).
  - unfold print_time. rewrite (total_eq _ (fun p => length_of p / speed p)); [ring|].
    intros p [Hp Ht]%elem_extr. unfold naive_path. rewrite Ht. cbn. rewrite fold_div.
    pose proof (f_paths _ F) as K. rewrite Forall_forall in K. destruct (K p Hp) as (-> & _).
    unfold length_of, speed. ring.
  - intros p Hp Ht. unfold naive_path. rewrite Ht. cbn.
    pose proof (f_paths _ F) as K. rewrite Forall_forall in K. destruct (K p Hp) as (-> & _). reflexivity.
Qed.

Lemma naive_minimum pl : fresh pl ->
  sum_of e_minimum (paths (naive pl)) == time_at (min_speed (settings pl)) (paths pl).
Proof.
  intros F. unfold sum_of. rewrite fold_sum. unfold naive. cbn [paths]. rewrite map_map.
  rewrite (total_extr (fun p => e_minimum (naive_path pl (slowest_speed (paths pl)) p))).
  - unfold time_at. rewrite (total_eq _ (fun p => length_of p / min_speed (settings pl))); [ring|].
    intros p [Hp Ht]%elem_extr. unfold naive_path. rewrite Ht. cbn [e_minimum].
    pose proof (f_lens _ F) as K. rewrite Forall_forall in K. rewrite fold_over by (by apply K).
    unfold length_of. ring.
  - intros p Hp Ht. unfold naive_path. rewrite Ht. reflexivity.
Qed.

Lemma naive_slowest pl w : fresh pl -> slowest_speed (paths pl) = Some w ->
  sum_of e_slowest (paths (naive pl)) == time_at w (paths pl).
Proof.
  intros F Hw. unfold sum_of. rewrite fold_sum. unfold naive. cbn [paths]. rewrite map_map, Hw.
  rewrite (total_extr (fun p => e_slowest (naive_path pl (Some w) p))).
  - unfold time_at. rewrite (total_eq _ (fun p => length_of p / w)); [ring|].
    intros p [Hp Ht]%elem_extr. unfold naive_path. rewrite Ht. cbn [e_slowest].
    pose proof (f_lens _ F) as K. rewrite Forall_forall in K. rewrite fold_over by (by apply K).
    unfold length_of. ring.
  - intros p Hp Ht. unfold naive_path. rewrite Ht. reflexivity.
Qed.

Lemma naive_travels pl : fresh pl -> travel_time (naive pl) == travels_time pl.
Proof.
  intros F. unfold travel_time, naive. cbn [p_retracted p_unretracted]. rewrite !fold_sum.
  destruct (f_plan _ F) as (_ & -> & -> & _). rewrite !map_map.
  set (s := slowest_speed (paths pl)).
  assert (K : forall p, p ∈ paths pl -> e_extrude p = 0 /\ e_unretracted p = 0 /\ e_retracted p = 0).
  { pose proof (f_paths _ F) as K. by rewrite Forall_forall in K. }
  transitivity (total (map (fun p => e_retracted (naive_path pl s p) + e_unretracted (naive_path pl s p)) (paths pl))).
  { rewrite total_plus. ring. }
  rewrite (total_trav (fun p => e_retracted (naive_path pl s p) + e_unretracted (naive_path pl s p))).
  - unfold travels_time. apply total_eq. intros p Hp.
    unfold travels in Hp. apply elem_of_list_In, filter_In in Hp as [Hp Ht]. apply elem_of_list_In in Hp.
    destruct (K p Hp) as (K1 & K2 & K3). unfold naive_path. rewrite Ht.
    destruct (retracts p); cbn [e_retracted e_unretracted]; rewrite fold_div, K2, K3; unfold length_of, speed; ring.
  - intros p Hp Ht. destruct (K p Hp) as (K1 & K2 & K3). unfold naive_path. rewrite Ht. cbn. rewrite K2, K3. ring.
Qed.

Lemma time_at_len w ps : time_at w ps == total (map length_of (extrusions ps)) / w.
Proof. unfold time_at, Qdiv. by rewrite total_scale. Qed.

(** ** Slowing down *)

Lemma slow_speed f p : travel p = false -> speed (slow_path f p) == speed p * f p.
Proof. intros E. unfold slow_path, speed. rewrite E. cbn. ring. Qed.

Lemma Qmin_div a v : 0 < v -> v * Qmin (a / v) 1 == Qmin a v.
Proof.
  intros Hv. assert (v * (a / v) == a) as E by (field; lra).
  destruct (Q.min_spec (a / v) 1) as [[H ->]|[H ->]]; destruct (Q.min_spec a v) as [[K ->]|[K ->]]; try lra.
  - assert (v * (a / v) < v * 1) by (apply Qmult_lt_l; done). lra.
  - assert (v * 1 <= v * (a / v)) by (apply Qmult_le_l; done). lra.
Qed.

Lemma slow_to_speed tgt p : travel p = false -> 0 < speed p -> speed (slow_path (slow_to tgt) p) == Qmin tgt (speed p).
Proof. intros E Hp. rewrite slow_speed by done. unfold slow_to. fold (speed p). by apply Qmin_div. Qed.
Lemma slow_towards_speed a f p : travel p = false -> 0 < speed p ->
  speed (slow_path (slow_towards a f) p) == Qmin (a * (1 - f) + speed p * f) (speed p).
Proof. intros E Hp. rewrite slow_speed by done. unfold slow_towards. fold (speed p). by apply Qmin_div. Qed.

Lemma slow_travel f p : travel (slow_path f p) = travel p.
Proof. unfold slow_path. destruct (travel p) eqn:E; cbn; congruence. Qed.
Lemma slow_lens f p : lens (slow_path f p) = lens p.
Proof. unfold slow_path. by destruct (travel p). Qed.

(** ** What is decided *)

(** The three ways to slow down, in terms of the specification. *)
Inductive case (pl pl' : plan) (minTime other : Q) : Prop :=
| Case_none :
    pl' = naive pl ->
    (minTime - epsilon <= travels_time pl + print_time (paths pl) + other \/ print_time (paths pl) <= 0) ->
    case pl pl' minTime other
| Case_minimum M w :
    slowest_is w (paths pl) -> 0 < print_time (paths pl) ->
    M == minTime - travels_time pl - other -> print_time (paths pl) + epsilon < M ->
    time_at (min_speed (settings pl)) (paths pl) <= M ->
    paths pl' = map (fun p => slow_path (slow_to (min_speed (settings pl))) (naive_path pl (Some w) p)) (paths pl) ->
    (extra_time pl' == minTime - time_at (min_speed (settings pl)) (paths pl) - travels_time pl /\ epsilon < extra_time pl' \/
     extra_time pl' == 0 /\ minTime - time_at (min_speed (settings pl)) (paths pl) - travels_time pl <= epsilon) ->
    case pl pl' minTime other
| Case_below M w f :
    slowest_is w (paths pl) -> 0 < print_time (paths pl) ->
    M == minTime - travels_time pl - other -> print_time (paths pl) + epsilon < M ->
    M < time_at (min_speed (settings pl)) (paths pl) -> time_at w (paths pl) <= M ->
    epsilon <= Qabs (time_at (min_speed (settings pl)) (paths pl) - time_at w (paths pl)) ->
    f == (1 / time_at (min_speed (settings pl)) (paths pl) - 1 / M) /
         (1 / time_at (min_speed (settings pl)) (paths pl) - 1 / time_at w (paths pl)) ->
    paths pl' = map (fun p => slow_path (slow_to (min_speed (settings pl) * (1 - f) + w * f)) (naive_path pl (Some w) p)) (paths pl) ->
    extra_time pl' = 0 -> p_extrude pl' == M ->
    case pl pl' minTime other
| Case_above M w f :
    slowest_is w (paths pl) -> 0 < print_time (paths pl) ->
    M == minTime - travels_time pl - other -> print_time (paths pl) + epsilon < M ->
    M < time_at (min_speed (settings pl)) (paths pl) ->
    (M < time_at w (paths pl) \/
     Qabs (time_at (min_speed (settings pl)) (paths pl) - time_at w (paths pl)) < epsilon) ->
    f == (1 / time_at w (paths pl) - 1 / M) / (1 / time_at w (paths pl) - 1 / print_time (paths pl)) ->
    paths pl' = map (fun p => slow_path (slow_towards w f) (naive_path pl (Some w) p)) (paths pl) ->
    extra_time pl' = 0 -> p_extrude pl' == M ->
    case pl pl' minTime other.

Lemma print_pos_extr ps : 0 < print_time ps -> exists p, p ∈ extrusions ps.
Proof.
  unfold print_time. destruct (extrusions ps) as [|p r]; cbn; [lra|]. intros _. exists p. left.
Qed.

Lemma force_case pl minTime other : fresh pl -> case pl (force_minimal (naive pl) minTime other).1 minTime other.
Proof.
  intros F. unfold force_minimal.
  change (settings (naive pl)) with (settings pl).
  pose proof (naive_extrude pl F) as HE. pose proof (naive_travels pl F) as HT. pose proof (naive_minimum pl F) as HM.
  destruct (Qltb _ (minTime - epsilon) && Qltb 0 _) eqn:E.
  2:{ apply Case_none; [done|]. apply andb_false_iff in E as [E|E]; apply Qltb_false in E; rewrite HE in E.
      - left. rewrite HT in E. done.
      - by right. }
  apply andb_true_iff in E as [E1 E2]. apply Qltb_true in E1, E2. rewrite HT, HE in E1. rewrite HE in E2.
  destruct (print_pos_extr _ E2) as [p0 Hp0]. destruct (slowest_some _ _ Hp0) as (w & Hw & Hs).
  pose proof (naive_slowest pl w F Hw) as HS.
  change (slowest (naive pl)) with (slowest_speed (paths pl)). rewrite Hw.
  set (M := minTime - (travel_time (naive pl) + p_extrude (naive pl) + other - p_extrude (naive pl))).
  assert (HMM : M == minTime - travels_time pl - other) by (unfold M; rewrite HT; ring).
  set (A := sum_of e_minimum (paths (naive pl))) in *. set (S := sum_of e_slowest (paths (naive pl))) in *.
  assert (Hp : forall f, map (slow_path f) (paths (naive pl)) = map (fun p => slow_path f (naive_path pl (Some w) p)) (paths pl)).
  { intros f. unfold naive. cbn [paths]. rewrite Hw, map_map. done. }
  destruct (Qle_bool A M) eqn:EA.
  - apply Qle_bool_iff in EA. eapply (Case_minimum _ _ _ _ M w); try done.
    + rewrite HMM. lra.
    + by rewrite <- HM.
    + cbn [fst snd set_paths paths]. apply Hp.
    + cbn [fst snd]. match goal with |- context [Qltb ?a ?b] => destruct (Qltb a b) eqn:EX end; cbn [set_paths extra_time set_extra_time set_extrude set_temperature_factor].
      * apply Qltb_true in EX. left. rewrite HM, HT in EX |- *. split; [reflexivity|done].
      * apply Qltb_false in EX. right. rewrite HM, HT in EX. split; [|done].
        change (extra_time (naive pl)) with (extra_time pl). destruct (f_plan _ F) as (_ & _ & _ & ->). reflexivity.
  - apply Qle_bool_false in EA.
    destruct (Qle_bool S M && Qle_bool epsilon (Qabs (A - S))) eqn:ES; cbn [fst snd].
    + apply andb_true_iff in ES as [ES1 ES2]. apply Qle_bool_iff in ES1, ES2.
      eapply (Case_below _ _ _ _ M w ((1 / A - 1 / M) / (1 / A - 1 / S))); try done.
      * rewrite HMM. lra.
      * by rewrite <- HM.
      * by rewrite <- HS.
      * by rewrite <- HM, <- HS.
      * rewrite HM, HS. reflexivity.
      * cbn [set_paths paths]. apply Hp.
      * cbn. by destruct (f_plan _ F) as (_ & _ & _ & ->).
    + eapply (Case_above _ _ _ _ M w ((1 / S - 1 / M) / (1 / S - 1 / p_extrude (naive pl)))); try done.
      * rewrite HMM. lra.
      * by rewrite <- HM.
      * apply andb_false_iff in ES as [ES|ES]; apply Qle_bool_false in ES; [left|right].
        -- by rewrite <- HS.
        -- by rewrite <- HM, <- HS.
      * rewrite HS, HE. reflexivity.
      * cbn [set_paths paths]. apply Hp.
      * cbn. by destruct (f_plan _ F) as (_ & _ & _ & ->).
Qed.

(** ** Arithmetic of the factors *)

Lemma inv_lt a b : 0 < a -> a < b -> 1 / b < 1 / a.
Proof.
  intros Ha Hab. assert (0 < b) by lra. apply Qlt_shift_div_l; [done|].
  assert (1 / b * b == 1) by (field; lra).
  assert (1 / b * a < 1 / b * b); [|lra]. apply Qmult_lt_l; [|done]. apply Qdiv_pos; lra.
Qed.
Lemma inv_le a b : 0 < a -> a <= b -> 1 / b <= 1 / a.
Proof.
  intros Ha Hab. destruct (Qlt_le_dec a b) as [L|L].
  - apply Qlt_le_weak. by apply inv_lt.
  - assert (a == b) as -> by lra. apply Qle_refl.
Qed.

(** Interpolating between [1/s] and [1/a] where [1/m] is. *)
Lemma factor_eq a m s f : 0 < s -> s < a -> s <= m -> m < a -> f == (1 / a - 1 / m) / (1 / a - 1 / s) ->
  0 <= f <= 1 /\ f * (1 / s - 1 / a) == 1 / m - 1 / a.
Proof.
  intros Hs Hsa Hsm Hma Hf.
  pose proof (inv_lt s a Hs Hsa). pose proof (inv_le s m Hs Hsm).
  assert (0 < m) as Hm by lra. pose proof (inv_lt m a Hm Hma).
  assert (f * (1 / s - 1 / a) == 1 / m - 1 / a) as E by (rewrite Hf; field; split; [lra|]; split; [lra|]; split; lra).
  split; [|done].
  assert (f == (1 / m - 1 / a) / (1 / s - 1 / a)) as -> by (rewrite <- E; field; split; [lra|]; split; lra).
  split; [apply Qdiv_nonneg; lra|]. apply Qle_shift_div_r; lra.
Qed.

Lemma Forall2_map_diag {A} (R : A -> A -> Prop) (f : A -> A) l : (forall p, p ∈ l -> R p (f p)) -> Forall2 R l (map f l).
Proof.
  induction l as [|x l IH]; intros H; cbn; constructor; [apply H; by left|]. apply IH. intros. apply H. by right.
Qed.

Section facts.
  Context (pl : plan) (F : fresh pl).
  Local Notation ps := (paths pl).
  Local Notation vmin := (min_speed (settings pl)).

  Lemma elem_path p : p ∈ extrusions ps -> p ∈ ps.
  Proof. by intros [? _]%elem_extr. Qed.

  Lemma slowest_pos w : slowest_is w ps -> 0 < w.
  Proof. intros [(p & Hp & E) _]. rewrite <- E. apply (extr_speed pl); [done|]. by apply elem_path. Qed.

  Lemma print_le w : slowest_is w ps -> print_time ps <= time_at w ps.
  Proof.
    intros Hs. pose proof (slowest_pos _ Hs) as Hw. destruct Hs as [_ Hs]. unfold print_time, time_at. apply total_le.
    intros p Hp. pose proof (extr_nonneg pl p F (elem_path p Hp)) as Hl. pose proof (Hs p Hp).
    apply Qle_shift_div_r; [lra|]. assert (length_of p / w * w == length_of p) as E by (field; lra).
    rewrite <- E at 1. rewrite (Qmult_comm _ w), (Qmult_comm _ (speed p)).
    apply Qmult_le_compat_r; [done|]. by apply Qdiv_nonneg.
  Qed.

  Lemma len_pos w : slowest_is w ps -> 0 < print_time ps -> 0 < total (map length_of (extrusions ps)).
  Proof.
    intros Hs Hp. pose proof (print_le w Hs) as H. pose proof (slowest_pos w Hs). rewrite time_at_len in H.
    set (L := total _) in *. destruct (Qlt_le_dec 0 L) as [|Hn]; [done|]. exfalso.
    assert (L / w <= 0); [|lra]. apply Qle_shift_div_r; lra.
  Qed.

  Lemma print_time_map f s : print_time (map (fun p => slow_path f (naive_path pl s p)) ps) ==
    total (map (fun p => length_of p / speed (slow_path f (naive_path pl s p))) (extrusions ps)).
  Proof.
    unfold print_time. rewrite map_extr by (intros; by rewrite slow_travel, naive_travel). rewrite map_map.
    apply total_eq. intros p _. unfold length_of. by rewrite slow_lens, naive_lens.
  Qed.

  Lemma naive_pos s p : p ∈ ps -> 0 < speed (naive_path pl s p).
  Proof. intros. rewrite naive_speed. by apply (extr_speed pl). Qed.

  Lemma slow_to_ps s tgt p : p ∈ extrusions ps ->
    speed (slow_path (slow_to tgt) (naive_path pl s p)) == Qmin tgt (speed p).
  Proof.
    intros [Hp Ht]%elem_extr. rewrite slow_to_speed; [by rewrite naive_speed|by rewrite naive_travel|by apply naive_pos].
  Qed.
  Lemma slow_towards_ps s a f p : p ∈ extrusions ps ->
    speed (slow_path (slow_towards a f) (naive_path pl s p)) == Qmin (a * (1 - f) + speed p * f) (speed p).
  Proof.
    intros [Hp Ht]%elem_extr. rewrite slow_towards_speed; [by rewrite naive_speed|by rewrite naive_travel|by apply naive_pos].
  Qed.

  Lemma slowest_eq w w' : slowest_is w ps -> slowest_is w' ps -> w == w'.
  Proof.
    intros [(p & Hp & E) H] [(p' & Hp' & E') H']. pose proof (H p' Hp'). pose proof (H' p Hp). lra.
  Qed.
  Lemma time_at_eq w w' : w == w' -> time_at w ps == time_at w' ps.
  Proof. intros E. rewrite !time_at_len. by rewrite E. Qed.

  (** Slowing below the slowest path's speed: everything is printed at one speed. *)
  Lemma below_speed M w f : slowest_is w ps -> 0 < print_time ps -> print_time ps < M ->
    M < time_at vmin ps -> time_at w ps <= M ->
    epsilon <= Qabs (time_at vmin ps - time_at w ps) ->
    f == (1 / time_at vmin ps - 1 / M) / (1 / time_at vmin ps - 1 / time_at w ps) ->
    vmin * (1 - f) + w * f == total (map length_of (extrusions ps)) / M /\
    vmin <= vmin * (1 - f) + w * f <= w.
  Proof.
    intros Hs Hp HpM HMA HSM _ Hf. pose proof (len_pos w Hs Hp) as HL. pose proof (slowest_pos w Hs) as Hw.
    pose proof (f_min _ F) as Hv. pose proof (print_le w Hs) as HpS.
    destruct (factor_eq (time_at vmin ps) M (time_at w ps) f) as [Hf01 E]; [lra..|done|].
    rewrite !time_at_len in E. set (L := total _) in *.
    assert (1 / (L / w) == w / L) as E1 by (field; lra).
    assert (1 / (L / vmin) == vmin / L) as E2 by (field; lra).
    rewrite E1, E2 in E.
    assert (f * (w - vmin) == L / M - vmin) as E3.
    { assert (f * (w - vmin) == L * (f * (w / L - vmin / L))) as -> by (field; lra). rewrite E. field. lra. }
    assert (vmin * (1 - f) + w * f == L / M) as E4 by lra.
    split; [done|].
    assert (vmin <= w) as Hvw.
    { assert (time_at w ps <= time_at vmin ps) as H by lra. rewrite !time_at_len in H. fold L in H.
      assert (L / w * w == L) by (field; lra). assert (L / vmin * vmin == L) by (field; lra).
      destruct (Qlt_le_dec w vmin) as [Hn|]; [|done]. exfalso.
      assert (0 < L / w) by (by apply Qdiv_pos).
      assert (L / w * w < L / w * vmin) by (by apply Qmult_lt_l).
      assert (L / w * vmin <= L / vmin * vmin) by (apply Qmult_le_compat_r; lra). lra. }
    split; [|nra]. nra.
  Qed.

  (** Slowing towards the slowest path's speed. *)
  Lemma above_factor M w f : slowest_is w ps -> 0 < print_time ps -> print_time ps < M -> M < time_at w ps ->
    f == (1 / time_at w ps - 1 / M) / (1 / time_at w ps - 1 / print_time ps) ->
    0 <= f <= 1 /\ f * (1 / print_time ps - 1 / time_at w ps) == 1 / M - 1 / time_at w ps.
  Proof. intros Hs Hp HpM HMS Hf. apply factor_eq; [lra..|done]. Qed.

  (** Slower than it was, [u] seconds per mm, against the tangent at the average. *)
  Lemma tangent c f e L u : 0 <= c -> 0 <= f -> 0 < c * u + f -> 0 < c * e + f * L ->
    u / (c * u + f) <= e / (c * e + f * L) + f * L * L / ((c * e + f * L) * (c * e + f * L)) * (u - e / L) \/ L == 0.
  Proof.
    intros Hc Hf Hu HK. destruct (Qeq_dec L 0) as [E|HL]; [by right|left].
    set (K := c * e + f * L) in *.
    apply Qle_shift_div_r; [done|].
    assert ((e / K + f * L * L / (K * K) * (u - e / L)) * (c * u + f) ==
            (u * (K * K) + c * f * ((L * u - e) * (L * u - e))) / (K * K)) as ->.
    { unfold K. field. split; [|done]. fold K. lra. }
    apply Qle_shift_div_l; [by apply Qmult_lt_0_compat|]. pose proof (Qsq_nonneg (L * u - e)).
    assert (0 <= c * f) by (by apply Qmult_le_0_compat). assert (0 <= c * f * ((L * u - e) * (L * u - e))) by (by apply Qmult_le_0_compat). lra.
  Qed.
End facts.

(** ** C36 *)

(** No path gets faster; travels stay as they are; nothing but speeds changes. *)
Theorem C36_never_faster pl minTime other : fresh pl ->
  Forall2 (fun p q => same_path p q /\ speed q <= speed p /\ (travel p = true -> speed q == speed p))
    (paths pl) (paths (force_minimal (naive pl) minTime other).1).
Proof.
  intros F. set (pl' := (force_minimal _ _ _).1).
  assert (Hs : forall f s, (forall p, p ∈ paths pl -> f (naive_path pl s p) <= 1) ->
    Forall2 (fun p q => same_path p q /\ speed q <= speed p /\ (travel p = true -> speed q == speed p))
      (paths pl) (map (fun p => slow_path f (naive_path pl s p)) (paths pl))).
  { intros f s Hf. apply Forall2_map_diag. intros p Hp. pose proof (extr_speed pl p F Hp) as Hv.
    split. { unfold same_path. rewrite slow_travel, slow_lens, naive_travel, naive_lens. split; [done|]. split; [|done].
      unfold slow_path, naive_path. destruct (travel p) eqn:E; cbn; rewrite ?E; done. }
    destruct (travel p) eqn:E.
    - assert (speed (slow_path f (naive_path pl s p)) = speed p) as ->; [|split; [lra|done]].
      unfold slow_path. by rewrite naive_travel, E, naive_speed.
    - split; [|done]. rewrite slow_speed by (by rewrite naive_travel). rewrite naive_speed. pose proof (Hf p Hp). nra. }
  pose proof (force_case pl minTime other F) as C. fold pl' in C. destruct C as [E _|M w _ _ _ _ _ -> _|M w f _ _ _ _ _ _ _ _ -> _ _|M w f _ _ _ _ _ _ _ -> _ _].
  - rewrite E. unfold naive. cbn [paths]. apply Forall2_map_diag. intros p Hp. rewrite naive_speed.
    split; [|split; [lra|done]]. unfold same_path. rewrite naive_travel, naive_lens. split; [done|]. split; [|done].
    unfold naive_path. by destruct (travel p).
  - apply Hs. intros. apply Q.le_min_r.
  - apply Hs. intros. apply Q.le_min_r.
  - apply Hs. intros. apply Q.le_min_r.
Qed.

(** A layer that takes long enough is left alone. *)
Theorem C36_long_enough pl minTime other : fresh pl ->
  minTime - (1 # 100) <= print_time (paths pl) + travels_time pl + other ->
  (force_minimal (naive pl) minTime other).2 = false /\
  Forall2 (fun p q => same_path p q /\ speed q = speed p) (paths pl) (paths (force_minimal (naive pl) minTime other).1).
Proof.
  intros F H. unfold force_minimal.
  assert (Qltb (travel_time (naive pl) + p_extrude (naive pl) + other) (minTime - epsilon) = false) as ->.
  { apply Qltb_false. rewrite (naive_travels pl F), (naive_extrude pl F). unfold epsilon. lra. }
  cbn [andb fst snd]. split; [done|]. unfold naive. cbn [paths]. apply Forall2_map_diag. intros p Hp. rewrite naive_speed.
  split; [|done]. unfold same_path. rewrite naive_travel, naive_lens. split; [done|]. split; [|done].
  unfold naive_path. by destruct (travel p).
Qed.

Lemma above_min_time pl w w' : fresh pl -> 0 < w -> w <= w' ->
  time_at w' (paths pl) <= time_at w (paths pl).
Proof.
  intros F Hw Hww. apply total_le. intros p Hp%elem_path. pose proof (extr_nonneg pl p F Hp) as Hl.
  assert (1 / w' <= 1 / w) as H by (by apply inv_le).
  assert (length_of p / w' == length_of p * (1 / w')) as -> by (field; lra).
  assert (length_of p / w == length_of p * (1 / w)) as -> by (field; lra).
  rewrite !(Qmult_comm (length_of p)). by apply Qmult_le_compat_r.
Qed.

(** If no path was slower than the minimum speed, none is afterwards (provided that
    printing at the minimum speed takes as long as at the slowest path's speed, or at
    least a hundredth of a second longer). *)
Theorem C36_min_speed pl minTime other w : fresh pl ->
  slowest_is w (paths pl) -> min_speed (settings pl) <= w ->
  (time_at (min_speed (settings pl)) (paths pl) == time_at w (paths pl) \/
   time_at w (paths pl) + (1 # 100) <= time_at (min_speed (settings pl)) (paths pl)) ->
  forall q, q ∈ extrusions (paths (force_minimal (naive pl) minTime other).1) ->
  min_speed (settings pl) <= speed q.
Proof.
  intros F Hs Hv Hgap q Hq. set (pl' := (force_minimal _ _ _).1) in *.
  pose proof (proj2 Hs) as Hall.
  assert (Hmap : forall f s, paths pl' = map (fun p => slow_path f (naive_path pl s p)) (paths pl) ->
    exists p, p ∈ extrusions (paths pl) /\ q = slow_path f (naive_path pl s p)).
  { intros f s E. rewrite E, map_extr in Hq by (intros; by rewrite slow_travel, naive_travel).
    apply elem_of_list_fmap in Hq as (p & -> & Hp). eauto. }
  pose proof (force_case pl minTime other F) as C. fold pl' in C.
  destruct C as [E _|M w2 Hs2 _ _ _ _ E _|M w2 f Hs2 Hp HM HpM HMA HSM Hab Hf E _ _|M w2 f Hs2 Hp HM HpM HMA Hor Hf E _ _].
  - rewrite E in Hq. unfold naive in Hq. cbn [paths] in Hq. rewrite map_extr in Hq by (intros; by rewrite naive_travel).
    apply elem_of_list_fmap in Hq as (p & -> & Hp). rewrite naive_speed. pose proof (Hall p Hp). lra.
  - destruct (Hmap _ _ E) as (p & Hp & ->). rewrite slow_to_ps by done. pose proof (Hall p Hp).
    apply Q.min_glb; lra.
  - destruct (Hmap _ _ E) as (p & Hp2 & ->). rewrite slow_to_ps by done. pose proof (Hall p Hp2).
    assert (print_time (paths pl) < M) as HpM' by (unfold epsilon in HpM; lra).
    destruct (below_speed pl F M w2 f) as [_ [H1 H2]]; [done..|]. apply Q.min_glb; lra.
  - destruct (Hmap _ _ E) as (p & Hp2 & ->). rewrite slow_towards_ps by done. pose proof (Hall p Hp2).
    pose proof (slowest_eq pl w w2 Hs Hs2) as Ew. pose proof (time_at_eq pl w w2 Ew) as Et.
    assert (M < time_at w2 (paths pl)) as HMS.
    { destruct Hor as [|Hab]; [done|]. destruct Hgap as [G|G]; [lra|]. exfalso. unfold epsilon in Hab.
      rewrite <- Et, Qabs_pos in Hab; lra. }
    destruct (above_factor pl M w2 f) as [[H1 H2] _]; [done|done|unfold epsilon in HpM; lra|done|done|].
    apply Q.min_glb; [|lra]. assert (w2 <= speed p) by (by apply Hs2). nra.
Qed.

(** If slowing down to the slowest path's speed is not enough, the layer reaches its
    minimum time to within a hundredth of a second, the waiting time included. *)
Theorem C36_reaches pl minTime other w : fresh pl -> 0 <= other -> 0 < print_time (paths pl) ->
  slowest_is w (paths pl) ->
  time_at w (paths pl) + travels_time pl + other <= minTime ->
  (time_at (min_speed (settings pl)) (paths pl) <= time_at w (paths pl) \/
   time_at w (paths pl) + (1 # 100) <= time_at (min_speed (settings pl)) (paths pl)) ->
  let pl' := (force_minimal (naive pl) minTime other).1 in
  minTime - (1 # 100) <= print_time (paths pl') + extra_time pl' + travels_time pl + other.
Proof.
  intros F Ho Hp0 Hs Hlong Hgap. cbv zeta. set (pl' := (force_minimal _ _ _).1) in *.
  pose proof (force_case pl minTime other F) as C. fold pl' in C.
  destruct C as [E Hor|M w2 Hs2 Hp HM HpM HA E Hx|M w2 f Hs2 Hp HM HpM HMA HSM Hab Hf E Hx _|M w2 f Hs2 Hp HM HpM HMA Hor Hf E Hx _].
  - rewrite E. unfold naive. cbn [paths extra_time].
    assert (print_time (map (naive_path pl (slowest_speed (paths pl))) (paths pl)) == print_time (paths pl)) as ->.
    { unfold print_time. rewrite map_extr by (intros; by rewrite naive_travel). rewrite map_map. apply total_eq.
      intros p _. unfold length_of. by rewrite naive_lens, naive_speed. }
    destruct (f_plan _ F) as (_ & _ & _ & ->). destruct Hor as [H|H]; [unfold epsilon in H; lra|lra].
  - rewrite E, print_time_map.
    assert (time_at (min_speed (settings pl)) (paths pl) <=
      total (map (fun p => length_of p / speed (slow_path (slow_to (min_speed (settings pl))) (naive_path pl (Some w2) p))) (extrusions (paths pl)))) as H.
    { apply total_le. intros p Hp2. rewrite slow_to_ps by done.
      pose proof (f_min _ F) as Hv. pose proof (extr_nonneg pl p F (elem_path pl p Hp2)) as Hl.
      pose proof (extr_speed pl p F (elem_path pl p Hp2)) as Hvp.
      set (m := Qmin _ _). assert (0 < m) by (apply Q.min_glb_lt; done).
      assert (m <= min_speed (settings pl)) by apply Q.le_min_l.
      assert (length_of p / min_speed (settings pl) == length_of p * (1 / min_speed (settings pl))) as -> by (field; lra).
      assert (length_of p / m == length_of p * (1 / m)) as -> by (field; lra).
      rewrite !(Qmult_comm (length_of p)). apply Qmult_le_compat_r; [by apply inv_le|done]. }
    destruct Hx as [[Hx _]|[Hx Hx2]]; unfold epsilon in *; lra.
  - rewrite E, print_time_map. pose proof (len_pos pl F w2 Hs2 Hp) as HL.
    assert (print_time (paths pl) < M) as HpM' by (unfold epsilon in HpM; lra).
    destruct (below_speed pl F M w2 f) as [H0 [H1 H2]]; [done..|].
    rewrite (total_eq _ (fun p => length_of p * (M / total (map length_of (extrusions (paths pl)))))).
    + rewrite total_scale. rewrite Hx. set (L := total _) in *. assert (L * (M / L) == M) as -> by (field; lra). lra.
    + intros p Hp2. rewrite slow_to_ps by done. assert (w2 <= speed p) by (by apply Hs2).
      rewrite Q.min_l by lra. rewrite H0. set (L := total _) in *. field. split; lra.
  - pose proof (slowest_eq pl w w2 Hs Hs2) as Ew. pose proof (time_at_eq pl w w2 Ew) as Et.
    exfalso. destruct Hor as [H|H]; [lra|]. destruct Hgap as [G|G]; [lra|].
    unfold epsilon in H. rewrite <- Et, Qabs_pos in H; lra.
Qed.

(** And exactly, without waiting, if the minimum speed is not needed. *)
Theorem C36_exact pl minTime other w : fresh pl -> 0 < print_time (paths pl) ->
  slowest_is w (paths pl) ->
  print_time (paths pl) + travels_time pl + other < minTime - (1 # 100) ->
  time_at w (paths pl) + travels_time pl + other <= minTime ->
  minTime < time_at (min_speed (settings pl)) (paths pl) + travels_time pl + other ->
  time_at w (paths pl) + (1 # 100) <= time_at (min_speed (settings pl)) (paths pl) ->
  let pl' := (force_minimal (naive pl) minTime other).1 in
  print_time (paths pl') + travels_time pl + other == minTime /\ extra_time pl' = 0 /\
  p_extrude pl' == print_time (paths pl').
Proof.
  intros F Hp0 Hs Hshort Hlong Hmin Hgap. cbv zeta. set (pl' := (force_minimal _ _ _).1) in *.
  pose proof (force_case pl minTime other F) as C. fold pl' in C.
  destruct C as [E Hor|M w2 Hs2 Hp HM HpM HA E Hx|M w2 f Hs2 Hp HM HpM HMA HSM Hab Hf E Hx He|M w2 f Hs2 Hp HM HpM HMA Hor Hf E Hx _].
  - exfalso. unfold epsilon in Hor. destruct Hor; lra.
  - exfalso. lra.
  - pose proof (len_pos pl F w2 Hs2 Hp) as HL.
    assert (print_time (paths pl) < M) as HpM' by (unfold epsilon in HpM; lra).
    destruct (below_speed pl F M w2 f) as [H0 [H1 H2]]; [done..|].
    assert (print_time (paths pl') == M) as Hpt; [|split; [lra|]; split; [done|lra]].
    rewrite E, print_time_map.
    rewrite (total_eq _ (fun p => length_of p * (M / total (map length_of (extrusions (paths pl)))))).
    + rewrite total_scale. set (L := total _) in *. field. lra.
    + intros p Hp2. rewrite slow_to_ps by done. assert (w2 <= speed p) by (by apply Hs2).
      rewrite Q.min_l by lra. rewrite H0. set (L := total _) in *. field. split; lra.
  - exfalso. pose proof (slowest_eq pl w w2 Hs Hs2) as Ew. pose proof (time_at_eq pl w w2 Ew) as Et.
    destruct Hor as [H|H]; [lra|]. unfold epsilon in H. rewrite <- Et, Qabs_pos in H; lra.
Qed.

(** If slowing down to the slowest path's speed would be more than enough, the layer
    never takes longer than its minimum time: where speeds differ it falls short,
    while the time recorded is the one aimed at. *)
Theorem C36_not_beyond pl minTime other w : fresh pl -> 0 < print_time (paths pl) ->
  slowest_is w (paths pl) -> min_speed (settings pl) <= w ->
  print_time (paths pl) + travels_time pl + other < minTime - (1 # 100) ->
  minTime < time_at w (paths pl) + travels_time pl + other ->
  let pl' := (force_minimal (naive pl) minTime other).1 in
  print_time (paths pl') + travels_time pl + other <= minTime /\
  p_extrude pl' + travels_time pl + other == minTime.
Proof.
  intros F Hp0 Hs Hv Hshort Hless. cbv zeta. set (pl' := (force_minimal _ _ _).1) in *.
  pose proof (above_min_time pl _ _ F (f_min _ F) Hv) as HSA.
  pose proof (force_case pl minTime other F) as C. fold pl' in C.
  destruct C as [E Hor|M w2 Hs2 Hp HM HpM HA E Hx|M w2 f Hs2 Hp HM HpM HMA HSM Hab Hf E Hx He|M w2 f Hs2 Hp HM HpM HMA Hor Hf E Hx He].
  - exfalso. unfold epsilon in Hor. destruct Hor; lra.
  - exfalso. lra.
  - exfalso. pose proof (slowest_eq pl w w2 Hs Hs2) as Ew. pose proof (time_at_eq pl w w2 Ew) as Et. lra.
  - split; [|lra]. pose proof (slowest_eq pl w w2 Hs Hs2) as Ew. pose proof (time_at_eq pl w w2 Ew) as Et.
    assert (print_time (paths pl) < M) as HpM' by (unfold epsilon in HpM; lra).
    assert (M < time_at w2 (paths pl)) as HMS by lra.
    destruct (above_factor pl M w2 f) as [[H1 H2] H3]; [done..|].
    pose proof (len_pos pl F w2 Hs2 Hp) as HL. pose proof (slowest_pos pl F w2 Hs2) as Hw2.
    rewrite E, print_time_map.
    set (e := print_time (paths pl)) in *. set (L := total (map length_of (extrusions (paths pl)))) in *.
    assert (He1 : e < time_at w2 (paths pl)) by lra.
    pose proof (inv_lt _ _ Hp He1) as I1. assert (0 < M) as HM0 by lra. pose proof (inv_lt _ _ HM0 HMS) as I2.
    assert (0 < f) as Hf0.
    { destruct (Qlt_le_dec 0 f) as [|Hn]; [done|]. exfalso. assert (f == 0) as Ef by lra. rewrite Ef in H3. lra. }
    rewrite time_at_len in H3. fold L in H3.
    set (c := w2 * (1 - f)). assert (0 <= c) as Hc by (unfold c; apply Qmult_le_0_compat; lra).
    set (K := c * e + f * L).
    assert (0 < f * L) as HfL by (by apply Qmult_lt_0_compat).
    assert (0 <= c * e) as Hce by (apply Qmult_le_0_compat; lra).
    assert (0 < K) as HK by (unfold K; lra).
    assert (M * K == L * e) as HMK.
    { assert (f * (1 / e - w2 / L) == 1 / M - w2 / L) as H3'.
      { assert (1 / (L / w2) == w2 / L) as X by (field; lra). rewrite X in H3. done. }
      assert (K / (L * e) == 1 / M) as X.
      { unfold K, c. assert ((w2 * (1 - f) * e + f * L) / (L * e) == w2 / L + f * (1 / e - w2 / L)) as -> by (field; split; lra).
        rewrite H3'. ring. }
      assert (M * K == (K / (L * e)) * M * (L * e)) as -> by (field; split; lra). rewrite X. field. lra. }
    assert (Hm : total (map (fun p => length_of p / speed (slow_path (slow_towards w2 f) (naive_path pl (Some w2) p))) (extrusions (paths pl)))
      <= total (map (fun p => length_of p * (e / K - f * L * L / (K * K) * (e / L)) + length_of p / speed p * (f * L * L / (K * K))) (extrusions (paths pl)))).
    { apply total_le. intros p Hp2. rewrite slow_towards_ps by done.
      pose proof (extr_nonneg pl p F (elem_path pl p Hp2)) as Hl.
      pose proof (extr_speed pl p F (elem_path pl p Hp2)) as Hvp.
      assert (w2 <= speed p) as Hwp by (by apply Hs2).
      rewrite Q.min_l by nra. fold c.
      assert (0 < c + speed p * f) as Hpos.
      { assert (0 < speed p * f) by (by apply Qmult_lt_0_compat). lra. }
      destruct (tangent c f e L (1 / speed p)) as [T|T]; [done|lra| |done| |lra].
      - assert (c * (1 / speed p) + f == (c + speed p * f) * (1 / speed p)) as -> by (field; lra).
        apply Qmult_lt_0_compat; [done|]. apply Qdiv_pos; lra.
      - fold K in T.
        assert (1 / speed p / (c * (1 / speed p) + f) == 1 / (c + speed p * f)) as X by (field; split; lra).
        rewrite X in T.
        assert (length_of p / (c + speed p * f) == 1 / (c + speed p * f) * length_of p) as -> by (field; lra).
        assert (length_of p * (e / K - f * L * L / (K * K) * (e / L)) + length_of p / speed p * (f * L * L / (K * K)) ==
          (e / K + f * L * L / (K * K) * (1 / speed p - e / L)) * length_of p) as -> by (field; split; [lra|]; split; lra).
        by apply Qmult_le_compat_r. }
    rewrite total_plus, !total_scale in Hm. fold L in Hm.
    change (total (map (fun p => length_of p / speed p) (extrusions (paths pl)))) with e in Hm.
    assert (L * (e / K - f * L * L / (K * K) * (e / L)) + e * (f * L * L / (K * K)) == M) as X.
    { assert (M == L * e / K) as -> by (rewrite <- HMK; field; lra). field. split; lra. }
    rewrite X in Hm. lra.
Qed.

(** *** What does not hold *)

Definition cool0 (vmin : Q) : cool := Cool 5 5 0 10 0 (1 # 2) 1 vmin 4.
Definition line (len v : Q) : path := Path false false [len] v 1 0 0 0 0 0.
Definition trip (len v : Q) : path := Path true true [len] v 1 0 0 0 0 0.
Definition plan0 (vmin : Q) (ps : list path) : plan :=
  Plan 0 7 false (cool0 vmin) 6 30 30 ps 0 0 0 None 0 0 0.

Lemma fresh_plan0 vmin ps : 0 < vmin ->
  Forall (fun p => (exists len v, 0 <= len /\ 0 < v /\ p = line len v) \/ (exists len v, 0 <= len /\ 0 < v /\ p = trip len v)) ps ->
  fresh (plan0 vmin ps).
Proof.
  intros Hv H. split; cbn [paths plan0 settings min_speed cool0]; [| | | |done].
  - eapply Forall_impl; [exact H|]. by intros p [(? & ? & _ & _ & ->)|(? & ? & _ & _ & ->)].
  - done.
  - eapply Forall_impl; [exact H|]. intros p [(? & ? & _ & ? & ->)|(? & ? & _ & ? & ->)]; cbn; lra.
  - eapply Forall_impl; [exact H|]. intros p [(? & ? & ? & _ & ->)|(? & ? & ? & _ & ->)]; cbn; by repeat constructor.
Qed.
Ltac fresh_tac := apply fresh_plan0; [done|];
  repeat (apply Forall_cons; split; [first [left; eexists _, _; split; [|split; [|reflexivity]]; [by vm_compute|by vm_compute] | right; eexists _, _; split; [|split; [|reflexivity]]; [by vm_compute|by vm_compute]]|]); by constructor.

(** Two paths of 10 mm at 10 and 100 mm/s, at least 1.5 s wanted: all speeds are above
    the minimum, slowing down to 10 mm/s would be more than enough, but the layer takes
    less than 1.25 s - while the recorded time is 1.5 s, so no waiting is added. *)
Theorem C36_reaches_refuted : exists pl minTime,
  fresh pl /\ (forall p, p ∈ extrusions (paths pl) -> min_speed (settings pl) <= speed p) /\
  minTime < time_at 10 (paths pl) /\ slowest_is 10 (paths pl) /\
  let pl' := (force_minimal (naive pl) minTime 0).1 in
  print_time (paths pl') + travels_time pl + extra_time pl' < minTime - (1 # 4) /\
  p_extrude pl' + travels_time pl == minTime.
Proof.
  exists (plan0 1 [line 10 10; line 10 100]), (3 # 2). split; [fresh_tac|]. split.
  { intros p. cbn. rewrite !elem_of_cons. by intros [->|[->|?%elem_of_nil]]. }
  split; [by vm_compute|]. split.
  { split; [exists (line 10 10); split; [by left|by vm_compute]|]. intros p. cbn. rewrite !elem_of_cons.
    by intros [->|[->|?%elem_of_nil]]. }
  cbv zeta. split; by vm_compute.
Qed.

(** If printing at the minimum speed takes just a little longer than at the slowest
    path's speed, the interpolation runs backwards: a speed may become negative. *)
Theorem C36_negative_refuted : exists pl minTime,
  fresh pl /\ (forall p, p ∈ extrusions (paths pl) -> min_speed (settings pl) <= speed p) /\
  exists q, q ∈ extrusions (paths (force_minimal (naive pl) minTime 0).1) /\ speed q < 0.
Proof.
  exists (plan0 (995 # 100) [line (99 # 10) 10; line (1 # 10) 1000]), (1004 # 1000). split; [fresh_tac|]. split.
  { intros p. cbn. rewrite !elem_of_cons. by intros [->|[->|?%elem_of_nil]]. }
  eexists. split; [right; left|]. by vm_compute.
Qed.

(** With one path slower than the minimum speed, others end up below it too. *)
Theorem C36_below_min_refuted : exists pl minTime p q,
  fresh pl /\ paths pl !! 1%nat = Some p /\ min_speed (settings pl) < speed p /\
  paths (force_minimal (naive pl) minTime 0).1 !! 1%nat = Some q /\ speed q < min_speed (settings pl).
Proof.
  exists (plan0 10 [line 5 5; line 12 12; line 1000 100]), 80.
  eexists _, _. split; [fresh_tac|]. split; [reflexivity|]. split; [by vm_compute|]. split; [vm_compute; reflexivity|].
  by vm_compute.
Qed.

(** *** The layer as a whole *)

Lemma force_set_fan pl fan m o : force_minimal (set_fan pl fan) m o =
  (set_fan (force_minimal pl m o).1 fan, (force_minimal pl m o).2).
Proof.
  unfold force_minimal. cbn [settings set_fan travel_time p_retracted p_unretracted p_extrude paths slowest].
  change (travel_time (set_fan pl fan)) with (travel_time pl).
  destruct (Qltb _ (m - epsilon) && _); [|done]. destruct (Qle_bool _ (m - _)); [by destruct (Qltb epsilon _)|].
  by destruct (_ && _).
Qed.

Lemma last_nr_spec pls : forall m, (m <= fold_left (fun m p => Nat.max m (extruder_nr p)) pls m)%nat /\
  (forall p, p ∈ pls -> (extruder_nr p <= fold_left (fun m p => Nat.max m (extruder_nr p)) pls m)%nat) /\
  (fold_left (fun m p => Nat.max m (extruder_nr p)) pls m = m \/
   exists p, p ∈ pls /\ extruder_nr p = fold_left (fun m p => Nat.max m (extruder_nr p)) pls m).
Proof.
  induction pls as [|p pls IH]; intros m; cbn [fold_left].
  - split; [lia|]. split; [by intros ? ?%elem_of_nil|by left].
  - destruct (IH (Nat.max m (extruder_nr p))) as (H1 & H2 & H3). split; [lia|]. split.
    + intros q [->|Hq]%elem_of_cons; [lia|by apply H2].
    + destruct H3 as [H3|(q & Hq & Hn)]; [|right; exists q; split; [by right|done]].
      destruct (Nat.max_spec m (extruder_nr p)) as [[? Hm]|[? Hm]]; rewrite Hm in *.
      * right. exists p. split; [by left|]. by rewrite H3.
      * by left.
Qed.

Lemma last_idx_spec e pls : (exists p, p ∈ pls /\ extruder_nr p = e) -> exists i p,
  last_idx e pls = Some i /\ pls !! i = Some p /\ extruder_nr p = e /\
  (forall k q, (i < k)%nat -> pls !! k = Some q -> extruder_nr q <> e).
Proof.
  induction pls as [|p pls IH]; intros (q & Hq & He); [by apply elem_of_nil in Hq|]. cbn [last_idx].
  destruct (last_idx e pls) as [j|] eqn:E.
  - assert (Hex : exists p, p ∈ pls /\ extruder_nr p = e).
    { clear -E. revert j E. induction pls as [|p pls IH]; intros j E; [done|]. cbn in E.
      destruct (last_idx e pls); [destruct (IH _ eq_refl) as (q & ? & ?); exists q; split; [by right|done]|].
      destruct (Nat.eqb_spec (extruder_nr p) e); [|done]. exists p. split; [by left|done]. }
    destruct (IH Hex) as (i & r & Hi & Hl & Hr & Ha). injection Hi as ->. exists (S i), r.
    split; [done|]. split; [done|]. split; [done|]. intros [|k] s Hk Hs; [lia|]. apply (Ha k s); [lia|done].
  - assert (Hno : forall s, s ∈ pls -> extruder_nr s <> e).
    { intros s Hs He'. destruct IH as (i & ? & Hi & _); [by exists s|]. done. }
    apply elem_of_cons in Hq as [->|Hq]; [|by destruct (Hno q)].
    rewrite He, Nat.eqb_refl. exists 0%nat, p. split; [done|]. split; [done|]. split; [done|].
    intros [|k] s Hk Hs; [lia|]. apply Hno. by eapply elem_of_list_lookup_2.
Qed.

(** The time a plan takes at its own speeds. *)
Definition plan_time (pl : plan) : Q := print_time (paths pl) + travels_time pl.
(** The minimum layer time a plan asks for. *)
Definition asked (overhang : Z) (pl : plan) : Q :=
  if (overhang_min_length (settings pl) <? overhang)%Z then min_layer_time_overhang (settings pl) else min_layer_time (settings pl).

Lemma wanted_spec ov pls : forall t, t <= fold_left (fun t p => Qmax t (asked ov p)) pls t /\
  (forall p, p ∈ pls -> asked ov p <= fold_left (fun t p => Qmax t (asked ov p)) pls t) /\
  (fold_left (fun t p => Qmax t (asked ov p)) pls t == t \/
   exists p, p ∈ pls /\ fold_left (fun t p => Qmax t (asked ov p)) pls t == asked ov p).
Proof.
  induction pls as [|p pls IH]; intros t; cbn [fold_left].
  - split; [lra|]. split; [by intros ? ?%elem_of_nil|]. left. reflexivity.
  - destruct (IH (Qmax t (asked ov p))) as (H1 & H2 & H3).
    pose proof (Q.le_max_l t (asked ov p)). pose proof (Q.le_max_r t (asked ov p)). split; [lra|]. split.
    + intros q [->|Hq]%elem_of_cons; [lra|by apply H2].
    + destruct H3 as [H3|(q & Hq & Hn)]; [|right; exists q; split; [by right|done]].
      destruct (Q.max_spec t (asked ov p)) as [[? Hm]|[? Hm]].
      * right. exists p. split; [by left|]. rewrite H3, Hm. reflexivity.
      * left. rewrite H3, Hm. reflexivity.
Qed.

Lemma other_spec e pls : Forall fresh pls -> forall t,
  fold_left (fun t p => if Nat.eqb (extruder_nr p) e then t else t + total_time p) (map first_pass pls) t ==
  t + total (map plan_time (List.filter (fun p => negb (Nat.eqb (extruder_nr p) e)) pls)).
Proof.
  induction 1 as [|p pls F Fs IH]; intros t; cbn [map fold_left List.filter]; [cbn; ring|].
  rewrite IH. change (extruder_nr (first_pass p)) with (extruder_nr p).
  destruct (Nat.eqb (extruder_nr p) e); cbn [negb map total]; [ring|].
  assert (total_time (first_pass p) == plan_time p) as ->; [|ring].
  pose proof (naive_extrude p F) as H1. pose proof (naive_travels p F) as H2. unfold plan_time.
  rewrite <- H1, <- H2. unfold first_pass, total_time, travel_time. cbn. ring.
Qed.

(** Only one plan is slowed down: the last one of the extruder with the highest number,
    as if the time of the other extruders' plans were fixed; the layer's minimum time is
    the longest any plan asks for. *)
Theorem C36_layer overhang pls : pls <> [] -> Forall fresh pls ->
  Forall (fun p => 0 <= min_layer_time (settings p) /\ 0 <= min_layer_time_overhang (settings p)) pls ->
  exists pls' b i pl pl' minTime other,
  process_layer overhang pls = Ok (pls', b) /\
  pls !! i = Some pl /\ pls' !! i = Some pl' /\ length pls' = length pls /\
  (forall q, q ∈ pls -> (extruder_nr q <= extruder_nr pl)%nat) /\
  (forall k q, (i < k)%nat -> pls !! k = Some q -> extruder_nr q <> extruder_nr pl) /\
  (forall q, q ∈ pls -> asked overhang q <= minTime) /\ (exists q, q ∈ pls /\ minTime == asked overhang q) /\
  other == total (map plan_time (List.filter (fun q => negb (Nat.eqb (extruder_nr q) (extruder_nr pl))) pls)) /\
  paths pl' = paths (force_minimal (naive pl) minTime other).1 /\
  extra_time pl' = extra_time (force_minimal (naive pl) minTime other).1 /\
  b = (force_minimal (naive pl) minTime other).2 /\
  (forall k q, k <> i -> pls !! k = Some q -> exists q', pls' !! k = Some q' /\ extra_time q' = extra_time q /\
     Forall2 (fun x y => same_path x y /\ speed y = speed x) (paths q) (paths q')).
Proof.
  intros Hne Hf Hmin. unfold process_layer. set (e := last_extruder_nr pls).
  destruct (last_nr_spec pls 0) as (_ & Hmax & Hex). fold (last_extruder_nr pls) in Hmax, Hex. fold e in Hmax, Hex.
  assert (exists p, p ∈ pls /\ extruder_nr p = e) as Hex'.
  { destruct Hex as [E|?]; [|done]. destruct pls as [|p r]; [done|]. exists p. split; [by left|].
    pose proof (Hmax p (elem_of_list_here _ _)). lia. }
  assert (exists p, p ∈ map first_pass pls /\ extruder_nr p = e) as Hex2.
  { destruct Hex' as (p & Hp & <-). exists (first_pass p). split; [|done]. apply elem_of_list_fmap. eauto. }
  destruct (last_idx_spec e _ Hex2) as (i & p & Hi & Hp & He & Hafter). rewrite Hi, Hp.
  rewrite list_lookup_fmap in Hp. destruct (pls !! i) as [pl|] eqn:Hpl; [|done]. cbn in Hp. injection Hp as <-.
  change (extruder_nr (first_pass pl)) with (extruder_nr pl) in He.
  set (other := other_time e (map first_pass pls)). set (minTime := wanted_time overhang (map first_pass pls)).
  assert (i < length pls)%nat as Hlt by (by eapply lookup_lt_Some).
  eexists _, _, i, pl, _, minTime, other.
  split; [reflexivity|]. split; [done|].
  split; [apply list_lookup_insert; by rewrite map_length|].
  split; [by rewrite insert_length, map_length|].
  split; [by rewrite He|]. split.
  { intros k q Hk Hq. rewrite He. apply (Hafter k (first_pass q)); [done|]. by rewrite list_lookup_fmap, Hq. }
  assert (Hm : minTime = fold_left (fun t p => Qmax t (asked overhang p)) pls 0).
  { unfold minTime, wanted_time. clear. generalize 0. induction pls as [|p r IH]; intros t; [done|]. cbn [map fold_left].
    by rewrite IH. }
  destruct (wanted_spec overhang pls 0) as (H0 & H1 & H2). rewrite <- Hm in H0, H1, H2.
  split; [done|]. split.
  { destruct H2 as [H2|?]; [|done]. exists pl. pose proof (elem_of_list_lookup_2 _ _ _ Hpl) as Hin. split; [done|].
    pose proof (H1 pl Hin). rewrite Forall_forall in Hmin. destruct (Hmin pl Hin).
    assert (0 <= asked overhang pl) by (unfold asked; by destruct (_ <? _)%Z). lra. }
  split; [rewrite He; unfold other, other_time; rewrite (other_spec e pls Hf 0); ring|].
  unfold first_pass. rewrite force_set_fan. cbn [fst snd paths set_fan extra_time].
  split; [done|]. split; [done|]. split; [done|].
  intros k q Hk Hq. exists (first_pass q). split; [rewrite list_lookup_insert_ne by done; by rewrite list_lookup_fmap, Hq|].
  split; [done|]. unfold first_pass, naive. cbn [paths set_fan]. apply Forall2_map_diag. intros x Hx. rewrite naive_speed.
  split; [|done]. unfold same_path. rewrite naive_travel, naive_lens. split; [done|]. split; [|done].
  unfold naive_path. by destruct (travel x).
Qed.

(** A layer that takes long enough may still be slowed down: earlier plans of the same
    extruder are not counted. *)
Theorem C36_layer_refuted : exists pls pls',
  Forall fresh pls /\ (forall q, q ∈ pls -> asked 0 q <= total (map plan_time pls)) /\
  process_layer 0 pls = Ok (pls', true).
Proof.
  exists [plan0 1 [line 1000 10]; set_extra_time (Plan 0 7 false (cool0 1) 6 30 30 [] 0 0 0 None 0 0 0) 0; plan0 1 [line 10 10]].
  eexists. split.
  { apply Forall_cons. split; [fresh_tac|]. apply Forall_cons. split; [|apply Forall_cons; split; [fresh_tac|by constructor]].
    change (set_extra_time _ _) with (plan0 1 []). fresh_tac. }
  split; [|vm_compute; reflexivity].
  intros q. rewrite !elem_of_cons. by intros [->|[->|[->|?%elem_of_nil]]].
Qed.

(** Non-trivial cases: a travel, three paths, slowed down to one speed below the
    slowest; and all the way to the minimum speed, with a wait. *)
Example C36_example :
  let pl := plan0 2 [line 10 10; trip 20 100; line 20 40; line 5 20] in
  fresh pl /\ slowest_is 10 (paths pl) /\ 0 < print_time (paths pl) /\
  map (fun q => Qred (speed q)) (paths (force_minimal (naive pl) 5 0).1) = [175 # 23; 100; 175 # 23; 175 # 23] /\
  map (fun q => Qred (speed q)) (paths (force_minimal (naive pl) 50 0).1) = [2; 100; 2; 2] /\
  Qred (extra_time (force_minimal (naive pl) 50 0).1) = 321 # 10.
Proof.
  cbv zeta. split; [fresh_tac|]. split.
  { split; [exists (line 10 10); split; [by left|by vm_compute]|]. intros p. cbn. rewrite !elem_of_cons.
    by intros [->|[->|[->|?%elem_of_nil]]]. }
  split; [by vm_compute|]. split; [by vm_compute|]. split; by vm_compute.
Qed.

(** ** C37 *)

Definition between (x a b : Q) : Prop := Qmin a b <= x <= Qmax a b.

Lemma between_mix a b f : 0 <= f <= 1 -> between (a + f * (b - a)) a b.
Proof.
  intros Hf. unfold between. destruct (Qlt_le_dec a b) as [H|H].
  - rewrite Q.min_l, Q.max_r by lra. nra.
  - rewrite Q.min_r, Q.max_l by lra. nra.
Qed.

Lemma ramp_fraction layer full : (0 <= layer)%Z -> (layer < full)%Z -> 0 <= inject_Z layer / inject_Z full <= 1.
Proof.
  intros H1 H2. assert (0 < inject_Z full) as Hf by (change 0 with (inject_Z 0); rewrite <- Zlt_Qlt; lia).
  assert (0 <= inject_Z layer) by (change 0 with (inject_Z 0); rewrite <- Zle_Qle; lia).
  assert (inject_Z layer <= inject_Z full) by (rewrite <- Zle_Qle; lia).
  split; [by apply Qdiv_nonneg|]. apply Qle_shift_div_r; lra.
Qed.

Lemma first_eq c layer : (layer < fan_full_layer c)%Z -> (0 < fan_full_layer c)%Z ->
  fan_first_layers c layer false ==
  fan_0 c + inject_Z (Z.max 0 layer) / inject_Z (fan_full_layer c) * (fan_min c - fan_0 c).
Proof.
  intros H1 H2. unfold fan_first_layers.
  rewrite (proj2 (Z.ltb_lt _ _) H1), (proj2 (Z.ltb_lt _ _) H2). cbn.
  assert (0 < inject_Z (fan_full_layer c)) as Hf by (change 0 with (inject_Z 0); rewrite <- Zlt_Qlt; lia).
  field. lra.
Qed.
Lemma first_off c layer raft : (fan_full_layer c <= layer)%Z \/ (fan_full_layer c <= 0)%Z \/ raft = true ->
  fan_first_layers c layer raft = fan_min c.
Proof.
  intros H. unfold fan_first_layers. destruct (Z.ltb_spec layer (fan_full_layer c)); [|done].
  destruct (Z.ltb_spec 0 (fan_full_layer c)); [|done]. destruct raft; [done|]. cbn. exfalso. destruct H as [|[|]]; [lia|lia|done].
Qed.

(** First layers: from the initial to the regular speed, in even steps. *)
Theorem C37_first_layers c layer raft :
  between (fan_first_layers c layer raft) (fan_0 c) (fan_min c) /\
  ((fan_full_layer c <= layer)%Z \/ (fan_full_layer c <= 0)%Z \/ raft = true -> fan_first_layers c layer raft = fan_min c) /\
  ((layer <= 0)%Z -> (0 < fan_full_layer c)%Z -> raft = false -> fan_first_layers c layer raft == fan_0 c).
Proof.
  split; [|split; [by apply first_off|]].
  - assert ((layer < fan_full_layer c)%Z /\ (0 < fan_full_layer c)%Z /\ raft = false \/
            ((fan_full_layer c <= layer)%Z \/ (fan_full_layer c <= 0)%Z \/ raft = true)) as [(H1 & H2 & ->)|H].
    { destruct raft; [auto|]. lia. }
    + unfold between. rewrite first_eq by done.
      pose proof (between_mix (fan_0 c) (fan_min c) (inject_Z (Z.max 0 layer) / inject_Z (fan_full_layer c))) as [? ?]; [|done].
      apply ramp_fraction; lia.
    + rewrite first_off by done. unfold between. split; [apply Q.le_min_r|apply Q.le_max_r].
  - intros H1 H2 ->. rewrite first_eq by lia. rewrite Z.max_l by lia. unfold Qdiv. change (inject_Z 0) with 0. ring.
Qed.

Theorem C37_ramp c raft a b : (a <= b)%Z ->
  (fan_0 c <= fan_min c -> fan_first_layers c a raft <= fan_first_layers c b raft) /\
  (fan_min c <= fan_0 c -> fan_first_layers c b raft <= fan_first_layers c a raft).
Proof.
  intros Hab.
  assert ((fan_full_layer c <= a)%Z \/ (fan_full_layer c <= 0)%Z \/ raft = true \/
          ((a < fan_full_layer c)%Z /\ (0 < fan_full_layer c)%Z /\ raft = false)) as [H|[H|[H|(H1 & H2 & ->)]]].
  { destruct raft; [auto|]. lia. }
  1-3: rewrite !first_off by (auto; left; lia); split; lra.
  assert (Hb : (b < fan_full_layer c)%Z \/ (fan_full_layer c <= b)%Z) by lia.
  destruct (C37_first_layers c a false) as [Ha _]. unfold between in Ha.
  destruct Hb as [Hb|Hb].
  - rewrite !first_eq by done.
    assert (inject_Z (Z.max 0 a) / inject_Z (fan_full_layer c) <= inject_Z (Z.max 0 b) / inject_Z (fan_full_layer c)) as Hle.
    { assert (0 < inject_Z (fan_full_layer c)) as Hf by (change 0 with (inject_Z 0); rewrite <- Zlt_Qlt; lia).
      unfold Qdiv. apply Qmult_le_compat_r; [rewrite <- Zle_Qle; lia|]. apply Qinv_le_0_compat. lra. }
    split; intros; nra.
  - rewrite (first_off c b) by auto. split; intros H.
    + rewrite (Q.max_r (fan_0 c)) in Ha by done. lra.
    + rewrite (Q.min_r (fan_0 c)) in Ha by done. lra.
Qed.

Lemma clamp_range x : 0 <= clamp01 x <= 1.
Proof.
  unfold clamp01. destruct (Qltb x 0) eqn:E; [lra|]. apply Qltb_false in E. destruct (Qltb 1 x) eqn:E2; [lra|].
  apply Qltb_false in E2. lra.
Qed.
Lemma clamp_mono x y : x <= y -> clamp01 x <= clamp01 y.
Proof.
  intros H. pose proof (clamp_range x). pose proof (clamp_range y). unfold clamp01 in *.
  destruct (Qltb x 0) eqn:E; [lra|]. apply Qltb_false in E.
  destruct (Qltb y 0) eqn:E3; [apply Qltb_true in E3; lra|].
  destruct (Qltb 1 y) eqn:E4; [lra|]. apply Qltb_false in E4.
  destruct (Qltb 1 x) eqn:E2; [apply Qltb_true in E2|]; lra.
Qed.

Lemma minus_zero a b : duration_minus a b == 0 <-> a <= b.
Proof. unfold duration_minus. destruct (Qltb 0 (a - b)) eqn:E; [apply Qltb_true in E|apply Qltb_false in E]; split; lra. Qed.
Lemma minus_pos a b : b < a -> duration_minus a b = a - b.
Proof. intros H. unfold duration_minus. by rewrite (proj2 (Qltb_true _ _)) by lra. Qed.

(** Depending on the time of the layer: the maximum speed up to the minimum layer time,
    the regular speed from the set time on, and monotone, between the two, in between. *)
Theorem C37_layer_time c regular time minTime :
  between (fan_layer_time c regular time minTime) (fan_max c) regular /\
  (minTime < fan_max_time c -> time <= minTime -> fan_layer_time c regular time minTime == fan_max c) /\
  (fan_max_time c <= time \/ fan_max_time c <= minTime -> fan_layer_time c regular time minTime == regular).
Proof.
  unfold fan_layer_time. split; [|split].
  - apply between_mix. destruct (Qeq_bool _ 0); [lra|apply clamp_range].
  - intros H1 H2. destruct (Qeq_bool _ 0) eqn:E.
    { apply Qeq_bool_iff, minus_zero in E. lra. }
    rewrite (minus_pos _ _ H1). assert (clamp01 ((time - minTime) / (fan_max_time c - minTime)) == 0) as ->; [|ring].
    unfold clamp01. assert ((time - minTime) / (fan_max_time c - minTime) <= 0) as Hle by (apply Qle_shift_div_r; lra).
    destruct (Qltb _ 0) eqn:E1; [reflexivity|]. apply Qltb_false in E1.
    destruct (Qltb 1 _) eqn:E2; [apply Qltb_true in E2|]; lra.
  - intros H. destruct (Qeq_bool _ 0) eqn:E; [ring|].
    assert (minTime < fan_max_time c) as Hlt.
    { destruct (Qlt_le_dec minTime (fan_max_time c)) as [|Hn]; [done|]. apply minus_zero, Qeq_bool_iff in Hn. congruence. }
    rewrite (minus_pos _ _ Hlt). assert (clamp01 ((time - minTime) / (fan_max_time c - minTime)) == 1) as ->; [|ring].
    unfold clamp01. assert (1 <= (time - minTime) / (fan_max_time c - minTime)) as Hle.
    { apply Qle_shift_div_l; [lra|]. destruct H; lra. }
    destruct (Qltb _ 0) eqn:E1; [apply Qltb_true in E1; lra|]. destruct (Qltb 1 _) eqn:E2; [reflexivity|].
    apply Qltb_false in E2. lra.
Qed.

Theorem C37_slower_layer c regular minTime s t : s <= t ->
  (regular <= fan_max c -> fan_layer_time c regular t minTime <= fan_layer_time c regular s minTime) /\
  (fan_max c <= regular -> fan_layer_time c regular s minTime <= fan_layer_time c regular t minTime).
Proof.
  intros H. unfold fan_layer_time. destruct (Qeq_bool _ 0) eqn:E; [split; lra|].
  assert (minTime < fan_max_time c) as Hlt.
  { destruct (Qlt_le_dec minTime (fan_max_time c)) as [|Hn]; [done|]. apply minus_zero, Qeq_bool_iff in Hn. congruence. }
  rewrite (minus_pos _ _ Hlt).
  assert ((s - minTime) / (fan_max_time c - minTime) <= (t - minTime) / (fan_max_time c - minTime)) as Hle.
  { unfold Qdiv. apply Qmult_le_compat_r; [lra|]. apply Qinv_le_0_compat. lra. }
  apply clamp_mono in Hle. set (x := clamp01 _) in *. set (y := clamp01 (_ / _)) in *. split; intros; nra.
Qed.

(** Every plan's fan speed is within the three configured speeds; and from the layer of
    full speed on, or on a raft, within the regular and the maximum speed. *)
Theorem C37_layer overhang pls pls' b i pl pl' : process_layer overhang pls = Ok (pls', b) ->
  pls !! i = Some pl -> pls' !! i = Some pl' ->
  Qmin (fan_0 (settings pl)) (Qmin (fan_min (settings pl)) (fan_max (settings pl))) <= fan_speed pl' <=
  Qmax (fan_0 (settings pl)) (Qmax (fan_min (settings pl)) (fan_max (settings pl))) /\
  ((fan_full_layer (settings pl) <= layer_nr pl)%Z \/ is_raft pl = true ->
   between (fan_speed pl') (fan_min (settings pl)) (fan_max (settings pl))).
Proof.
  intros H Hpl Hpl'. unfold process_layer in H.
  destruct (last_idx _ _) as [j|] eqn:Ej; [|done]. destruct (map first_pass pls !! j) as [p|] eqn:Ep; [|done].
  cbv zeta in H. injection H as <- _.
  set (c := settings pl) in *.
  set (f1 := fan_first_layers c (layer_nr pl) (is_raft pl)).
  assert (Hcase : fan_speed pl' = f1 \/ exists t m, fan_speed pl' = fan_layer_time c f1 t m).
  { destruct (decide (i = j)) as [->|Hn].
    - rewrite list_lookup_insert in Hpl' by (by eapply lookup_lt_Some). injection Hpl' as <-. right.
      rewrite list_lookup_fmap, Hpl in Ep. cbn in Ep. injection Ep as <-.
      assert (Hfan : forall m o, fan_speed (force_minimal (first_pass pl) m o).1 = f1).
      { intros. unfold first_pass. by rewrite force_set_fan. }
      cbn [fan_speed set_fan]. rewrite Hfan. eexists _, _. reflexivity.
    - rewrite list_lookup_insert_ne in Hpl' by done. rewrite list_lookup_fmap, Hpl in Hpl'. cbn in Hpl'. injection Hpl' as <-. by left. }
  destruct (C37_first_layers c (layer_nr pl) (is_raft pl)) as (Hf1 & Hoff & _). fold f1 in Hf1, Hoff.
  assert (Hb : between (fan_speed pl') (fan_max c) f1).
  { destruct Hcase as [->|(t & m & ->)]; [|apply C37_layer_time].
    unfold between. split; [apply Q.le_min_r|apply Q.le_max_r]. }
  unfold between in *. split.
  - destruct Hb as [B1 B2], Hf1 as [A1 A2]. split.
    + eapply Qle_trans; [|exact B1]. apply Q.min_glb.
      * eapply Qle_trans; [apply Q.le_min_r|apply Q.le_min_r].
      * eapply Qle_trans; [|exact A1]. apply Q.min_glb; [apply Q.le_min_l|].
        eapply Qle_trans; [apply Q.le_min_r|apply Q.le_min_l].
    + eapply Qle_trans; [exact B2|]. apply Q.max_lub.
      * eapply Qle_trans; [|apply Q.le_max_r]. apply Q.le_max_r.
      * eapply Qle_trans; [exact A2|]. apply Q.max_lub; [apply Q.le_max_l|].
        eapply Qle_trans; [|apply Q.le_max_r]. apply Q.le_max_l.
  - intros H. assert (f1 = fan_min c) as E by (apply Hoff; destruct H; auto). rewrite E in Hb.
    by rewrite (Q.min_comm (fan_min c)), (Q.max_comm (fan_min c)).
Qed.

(** The regular speed need not be reached on the last plan: a quick layer gets the
    maximum speed, even in the first layers. *)
Example C37_example :
  let c := cool0 1 in
  map (fun l => Qred (fan_first_layers c l false)) [(-2); 0; 1; 2; 3; 4; 9]%Z = [0; 0; 1 # 8; 1 # 4; 3 # 8; 1 # 2; 1 # 2] /\
  map (fun t => Qred (fan_layer_time c (1 # 2) t 5)) [1; 5; 6; 15 # 2; 10; 12] = [1; 1; 9 # 10; 3 # 4; 1 # 2; 1 # 2].
Proof. cbv zeta. split; by vm_compute. Qed.

Print Assumptions C36_never_faster.
Print Assumptions C36_long_enough.
Print Assumptions C36_min_speed.
Print Assumptions C36_reaches.
Print Assumptions C36_exact.
Print Assumptions C36_not_beyond.
Print Assumptions C36_layer.
Print Assumptions C36_reaches_refuted.
Print Assumptions C36_negative_refuted.
Print Assumptions C36_below_min_refuted.
Print Assumptions C36_layer_refuted.
Print Assumptions C37_first_layers.
Print Assumptions C37_ramp.
Print Assumptions C37_layer_time.
Print Assumptions C37_slower_layer.
Print Assumptions C37_layer.
