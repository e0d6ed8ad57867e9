(** Shared geometric specification: exact rational points of segments, distances, closed polygons. *)
From Coq Require Import ZArith QArith Lia Lqa.
From stdpp Require Import list.
From Verif Require Import Common Geo_Model.
Open Scope Z_scope.

Definition dist2 (p q : pt) : Z := (p.1 - q.1) * (p.1 - q.1) + (p.2 - q.2) * (p.2 - q.2).
(** The rational point at parameter t on the segment from a to b. *)
Definition along (a b : pt) (t : Q) : Q * Q :=
  (inject_Z a.1 + t * inject_Z (b.1 - a.1), inject_Z a.2 + t * inject_Z (b.2 - a.2))%Q.
(** Squared distance of an integer point to a rational point. *)
Definition qdist2 (p : pt) (u : Q * Q) : Q :=
  ((u.1 - inject_Z p.1) * (u.1 - inject_Z p.1) + (u.2 - inject_Z p.2) * (u.2 - inject_Z p.2))%Q.
(** p lies on the segment from a to b. *)
Definition on_segment (p a b : pt) : Prop :=
  exists t : Q, (0 <= t <= 1)%Q /\ (inject_Z p.1 == (along a b t).1)%Q /\ (inject_Z p.2 == (along a b t).2)%Q.

(** The edges of a closed polygon: from each vertex to the next, and from the last to the first. *)
Fixpoint edges_from (p0 : pt) (l : list pt) : list (pt * pt) :=
  match l with [] => [] | p1 :: l' => (p0, p1) :: edges_from p1 l' end.
Definition edges (poly : list pt) : list (pt * pt) :=
  match poly with [] => [] | p :: l => edges_from p (l ++ [p]) end.

Lemma on_segment_iff p a b : on_segment p a b <->
  (b.1 - a.1) * (p.2 - a.2) = (p.1 - a.1) * (b.2 - a.2) /\
  Z.min a.1 b.1 <= p.1 <= Z.max a.1 b.1 /\ Z.min a.2 b.2 <= p.2 <= Z.max a.2 b.2.
Proof.
  destruct p as [px py], a as [ax ay], b as [bx by_]. unfold on_segment, along. simpl. split.
  - intros ([k n] & [H1 H2] & E1 & E2). unfold Qeq, Qle, Qplus, Qmult, inject_Z in *. simpl in *.
    rewrite ?Z.mul_1_r, ?Pos.mul_1_r, ?Pos.mul_1_l in *. set (N := Z.pos n) in *. assert (0 < N) by (unfold N; lia). clearbody N.
        assert (X : N * (px - ax) = k * (bx - ax)) by lia. assert (Y : N * (py - ay) = k * (by_ - ay)) by lia.
    assert (Hb : forall p a b, N * (p - a) = k * (b - a) -> Z.min a b <= p <= Z.max a b).
    { intros p a b E. destruct (Z.le_ge_cases a b); [rewrite Z.min_l, Z.max_r by done|rewrite Z.min_r, Z.max_l by done]; nia. }
    split; [|split; [by apply Hb|by apply Hb]].
    apply (Z.mul_reg_l _ _ N); [lia|].
    transitivity ((bx - ax) * (N * (py - ay))); [ring|]. rewrite Y.
    transitivity ((N * (px - ax)) * (by_ - ay)); [rewrite X; ring|ring].
  - intros (Hc & Hx & Hy).
    assert (Hgen : forall p a b q c d : Z, d - c <> 0 -> (b - a) * (q - c) = (p - a) * (d - c) -> Z.min c d <= q <= Z.max c d ->
      exists t, (0 <= t <= 1)%Q /\ (inject_Z p == inject_Z a + t * inject_Z (b - a))%Q /\ (inject_Z q == inject_Z c + t * inject_Z (d - c))%Q).
    { intros p a b q c d Hd E Hq.
      exists (inject_Z (q - c) / inject_Z (d - c))%Q.
      assert (Hnz : ~ (inject_Z (d - c) == 0)%Q) by (unfold Qeq, inject_Z; simpl; lia).
      assert (T : (inject_Z (q - c) / inject_Z (d - c) * inject_Z (d - c) == inject_Z (q - c))%Q) by (field; done).
      set (t := (inject_Z (q - c) / inject_Z (d - c))%Q) in *. clearbody t.
      split; [|split].
      - destruct t as [k n]. unfold Qeq, Qle, Qmult, inject_Z in *. simpl in *. rewrite ?Z.mul_1_r, ?Pos.mul_1_r, ?Pos.mul_1_l in *.
        destruct (Z.le_ge_cases c d); [rewrite Z.min_l, Z.max_r in Hq by done|rewrite Z.min_r, Z.max_l in Hq by done]; split; nia.
      - destruct t as [k n]. unfold Qeq, Qle, Qmult, Qplus, inject_Z in *. simpl in *. rewrite ?Z.mul_1_r, ?Pos.mul_1_r, ?Pos.mul_1_l in *.
        assert (Z.pos n * (p - a) = k * (b - a)); [|lia].
        apply (Z.mul_reg_r _ _ (d - c)); [done|]. transitivity (Z.pos n * ((b - a) * (q - c))); [rewrite E; ring|].
        transitivity ((b - a) * (k * (d - c))); [rewrite T; ring|ring].
      - rewrite T. unfold Zminus. rewrite inject_Z_plus, inject_Z_opp. ring. }
    destruct (Z.eq_dec (by_ - ay) 0) as [E0|N0].
    + destruct (Z.eq_dec (bx - ax) 0) as [E1|N1].
      * exists 0%Q. assert (px = ax) as -> by lia. assert (py = ay) as -> by lia. split; [lra|]. split; ring.
      * destruct (Hgen py ay by_ px ax bx N1) as (t & Ht & A & B); [lia|done|]. exists t. auto.
    + destruct (Hgen px ax bx py ay by_ N0) as (t & Ht & A & B); [done|done|]. exists t. auto.
Qed.
