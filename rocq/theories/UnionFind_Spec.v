(** Independent specification of a disjoint-set structure: each [add] creates a new
    member; an item names the member most recently created for it; [unite a b]
    links the members currently named by a and b; two members are together iff
    a chain of links connects them. *)
From Coq Require Import Relations.
From Verif Require Import Common UnionFind_Model.

Section Spec.
  Context {E : Type} `{EqDecision E}.

  (** members are numbered 0,1,2,... in order of creation *)
  Record spec_state := SS {
    ss_items : list E;            (* item for which member i was created *)
    ss_links : list (nat * nat)   (* links made so far *)
  }.

  (** the member most recently created for item [e] *)
  Definition names (s : spec_state) (e : E) (m : nat) : Prop :=
    ss_items s !! m = Some e /\ forall m', ss_items s !! m' = Some e -> m' <= m.

  Definition linked (s : spec_state) (m m' : nat) : Prop := In (m, m') (ss_links s).

  Definition together (s : spec_state) : nat -> nat -> Prop :=
    clos_refl_sym_trans nat (linked s).

  Inductive spec_step : spec_state -> op E -> spec_state -> Prop :=
  | SAdd s e : spec_step s (OpAdd e) (SS (ss_items s ++ [e]) (ss_links s))
  | SFind s e : spec_step s (OpFind e) s
  | SUnite s a b ma mb :
      names s a ma -> names s b mb ->
      spec_step s (OpUnite a b) (SS (ss_items s) ((ma, mb) :: ss_links s)).

  Inductive spec_run : spec_state -> list (op E) -> spec_state -> Prop :=
  | SRNil s : spec_run s [] s
  | SRCons s o s' ops s'' : spec_step s o s' -> spec_run s' ops s'' -> spec_run s (o :: ops) s''.

  Definition spec_init : spec_state := SS [] [].

  (** items [a] and [b] are in the same set *)
  Definition same_set (s : spec_state) (a b : E) : Prop :=
    exists ma mb, names s a ma /\ names s b mb /\ together s ma mb.
End Spec.
Arguments spec_state E : clear implicits.
