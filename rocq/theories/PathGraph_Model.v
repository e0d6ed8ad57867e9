(** Model of PathOrderOptimizer::getOptimizerOrderWithConstraints (include/PathOrderOptimizer.h:416-592)
    and of actions::dfs (include/utils/views/dfs.h:41-62).

    Paths are numbers.  Which of several candidates is printed next depends on the geometry, the seam
    settings and the iteration order of hash sets; here it is an arbitrary function [choose] of the
    number of choices made so far and of the candidates (the geometric choice itself is modelled in
    PathOrder_Model.v). *)
From Coq Require Import ZArith.
From stdpp Require Import list.
From Verif Require Import Common.

Section constraints.
  Variable choose : nat -> list nat -> nat.
  Variable paths : list nat.
  (** order_requirements_: (u, v) means u is printed before v; a multimap, so pairs may be repeated *)
  Variable reqs : list (nat * nat).

  (** optimized_order, visited, num_incoming_edges, and the number of choices made *)
  Record gstate := GState { handled : list nat; visited : list nat; incoming : nat -> Z; ticks : nat }.

  (** order_requirements.equal_range(u) *)
  Definition neighbours (u : nat) : list nat := map snd (filter (fun e => e.1 = u) reqs).
  (** the number of pairs (u, v) in the multimap *)
  Definition edge_count (u v : nat) : nat := length (filter (fun e => e.1 = u /\ e.2 = v) reqs).

  (** PathOrderOptimizer.h:420-439: roots, leaves and the number of incoming edges *)
  Definition roots : list nat := remove_dups (filter (fun x => x ∉ map snd reqs) paths).
  Definition leaves : list nat := remove_dups (filter (fun x => x ∉ map fst reqs) paths).
  Definition incoming0 (v : nat) : Z := Z.of_nat (length (filter (fun e => e.2 = v) reqs)).

  (** PathOrderOptimizer.h:464-484: repeatedly take the best remaining candidate *)
  Fixpoint pick_all (n : nat) (t : nat) (cands : list nat) : list nat * nat :=
    match n with
    | O => ([], t)
    | S n' =>
        match cands with
        | [] => ([], t)
        | _ => let x := choose t cands in
               let '(l, t') := pick_all n' (S t) (filter (fun y => y <> x) cands) in (x :: l, t')
        end
    end.
  (** PathOrderOptimizer.h:445-488 *)
  Definition get_neighbours (x : nat) (st : gstate) : list nat * gstate :=
    let cands := remove_dups (filter (fun y => incoming st y = 0%Z) (neighbours x)) in
    let '(l, t) := pick_all (length cands) (ticks st) cands in
    (l, GState (handled st) (visited st) (incoming st) t).

  (** PathOrderOptimizer.h:490-523 (a path without vertices, which would be read out of bounds, is
      not modelled) *)
  Definition handle_node (x : nat) (st : gstate) : gstate :=
    if decide (x ∈ paths) then
      GState (handled st ++ [x]) (visited st) (fun v => incoming st v - Z.of_nat (edge_count x v))%Z (ticks st)
    else st.

  (** dfs.h:58-61: the loop over the neighbours *)
  Fixpoint run_list (f : nat -> gstate -> res gstate) (l : list nat) (st : gstate) : res gstate :=
    match l with
    | [] => Ok st
    | y :: l' => let! st' := f y st in run_list f l' st'
    end.
  (** dfs.h:41-62, with fuel *)
  Fixpoint dfs (fuel : nat) (x : nat) (st : gstate) : res gstate :=
    match fuel with
    | O => NoFuel
    | S fuel' =>
        if decide (x ∈ visited st) then Ok st
        else
          let st1 := handle_node x (GState (handled st) (x :: visited st) (incoming st) (ticks st)) in
          let '(order, st2) := get_neighbours x st1 in
          run_list (dfs fuel') order st2
    end.

  (** the while loops over a set: take the best element, erase it, do something with it *)
  Fixpoint drain (n : nat) (f : nat -> gstate -> res gstate) (set : list nat) (st : gstate) : res gstate :=
    match set with
    | [] => Ok st
    | _ =>
        match n with
        | O => NoFuel
        | S n' =>
            let x := choose (ticks st) set in
            let! st' := f x (GState (handled st) (visited st) (incoming st) (S (ticks st))) in
            drain n' f (filter (fun y => y <> x) set) st'
        end
    end.

  (** PathOrderOptimizer.h:553-569: handle the outer walls and collect their free neighbours *)
  Fixpoint drain_outer (n : nat) (set : list nat) (st : gstate) (nbs : list nat) : res (gstate * list nat) :=
    match set with
    | [] => Ok (st, nbs)
    | _ =>
        match n with
        | O => NoFuel
        | S n' =>
            let x := choose (ticks st) set in
            let st1 := handle_node x (GState (handled st) (visited st) (incoming st) (S (ticks st))) in
            let st2 := GState (handled st1) (x :: visited st1) (incoming st1) (ticks st1) in
            let '(l, st3) := get_neighbours x st2 in
            drain_outer n' (filter (fun y => y <> x) set) st3 (nbs ++ filter (fun y => y ∉ nbs) l)
        end
    end.

  Definition dfs_fuel : nat := S (length paths).

  (** PathOrderOptimizer.h:416-592 *)
  Definition order_with_constraints (group_outer_walls reverse_direction : bool) : res (list nat) :=
    let init := GState [] [] incoming0 0 in
    if group_outer_walls then
      if reverse_direction then
        let outer := leaves in
        let! st := drain (length roots) (dfs dfs_fuel) roots (GState [] outer incoming0 0) in
        let! st' := drain (length outer) (fun x st => Ok (handle_node x st)) outer st in
        Ok (handled st')
      else
        let! r := drain_outer (length roots) roots init [] in
        let! st' := drain (length r.2) (dfs dfs_fuel) r.2 r.1 in
        Ok (handled st')
    else
      let! st := drain (length roots) (dfs dfs_fuel) roots init in
      Ok (handled st).
End constraints.
