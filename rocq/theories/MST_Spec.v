(** Vocabulary for C23: edges between points, what they connect and their total squared length. *)
From Coq Require Import ZArith.
From stdpp Require Import list relations.
From Verif Require Import Common Geo_Model.
Open Scope Z_scope.

Definition sq_dist (p q : pt) : Z := (p.1 - q.1) * (p.1 - q.1) + (p.2 - q.2) * (p.2 - q.2).
(** An edge joins its two end points, in both directions. *)
Definition joined (es : list (pt * pt)) (p q : pt) : Prop := (p, q) ∈ es \/ (q, p) ∈ es.
Definition connected (es : list (pt * pt)) : pt -> pt -> Prop := rtc (joined es).
Definition among (vs : list pt) (es : list (pt * pt)) : Prop := forall e, e ∈ es -> e.1 ∈ vs /\ e.2 ∈ vs.
Definition spans (vs : list pt) (es : list (pt * pt)) : Prop := forall p q, p ∈ vs -> q ∈ vs -> connected es p q.
Fixpoint total (es : list (pt * pt)) : Z := match es with [] => 0 | e :: es' => sq_dist e.1 e.2 + total es' end.
(** The other ends of the edges at a point. *)
Fixpoint neighbours (p : pt) (es : list (pt * pt)) : list pt :=
  match es with
  | [] => []
  | e :: es' => (if bool_decide (e.1 = p) then [e.2] else []) ++ (if bool_decide (e.2 = p) then [e.1] else []) ++ neighbours p es'
  end.
