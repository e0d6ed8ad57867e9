(** Model of src/utils/MinimumSpanningTree.cpp. *)
From Coq Require Import ZArith.
From stdpp Require Import gmap list.
From Verif Require Import Common Geo_Model.
Open Scope Z_scope.

(** An edge: MinimumSpanningTree.h:29-40 (start, end).  The adjacency graph is an unordered_map from points to edges. *)
Notation graph := (gmap pt (list (pt * pt))).

(** A vertex that is not yet in the tree.  The two maps smallest_distance and smallest_distance_to always have the same
    keys, pointers into vertices_list; they are one list of (number of the vertex, distance, number of the other end). *)
Record candidate := Cand { c_vertex : nat; c_distance : Z; c_to : nat }.

(** MinimumSpanningTree.cpp:41-46 *)
Fixpoint initial (first : pt) (i : nat) (vs : list pt) : list candidate :=
  match vs with [] => [] | v :: vs' => Cand i (vSize2 (psub v first)) 0 :: initial first (S i) vs' end.

(** MinimumSpanningTree.cpp:55-61: std::min_element, the first element none is smaller than *)
Fixpoint min_from (best : candidate) (l : list candidate) : candidate :=
  match l with [] => best | c :: l' => min_from (if c_distance c <? c_distance best then c else best) l' end.
Definition min_element (l : list candidate) : option candidate :=
  match l with [] => None | c :: l' => Some (min_from c l') end.

(** MinimumSpanningTree.cpp:66-75: result[p].push_back *)
Definition add_edge (g : graph) (p q : pt) : graph := <[p := default [] (g !! p) ++ [(p, q)]]> g.

(** MinimumSpanningTree.cpp:80-89 *)
Fixpoint update (vs : list pt) (closest : nat) (p : pt) (l : list candidate) : res (list candidate) :=
  match l with
  | [] => Ok []
  | c :: l' =>
      let! q := of_opt (vs !! c_vertex c) in
      let d := vSize2 (psub p q) in
      let! r := update vs closest p l' in
      Ok ((if d <? c_distance c then Cand (c_vertex c) d closest else c) :: r)
  end.

Section prim.
  (** The order in which an unordered_map is iterated is not specified: in step [k] the candidates [l] are visited in the
      order [iter k l]. *)
  Context (iter : nat -> list candidate -> list candidate).

  (** MinimumSpanningTree.cpp:48-90.  Dereferencing the end of the empty map is undefined. *)
  Fixpoint grow (fuel : nat) (step : nat) (vs : list pt) (g : graph) (cands : list candidate) : res graph :=
    match fuel with
    | O => NoFuel
    | S fuel' =>
        if (size g <? length vs)%nat then
          match min_element (iter step cands) with
          | None => UB
          | Some c =>
              let! p := of_opt (vs !! c_vertex c) in
              let! q := of_opt (vs !! c_to c) in
              let g' := add_edge (add_edge g p q) q p in
              let rest := filter (fun d => c_vertex d <> c_vertex c) cands in
              let! cands' := update vs (c_vertex c) p rest in
              grow fuel' (S step) vs g' cands'
          end
        else Ok g
    end.

  (** MinimumSpanningTree.cpp:18-93 *)
  Definition prim (vs : list pt) : res graph :=
    match vs with
    | [] => Ok ∅
    | [v] => Ok {[ v := [] ]}
    | v :: vs' => grow (S (length vs)) 0 vs ∅ (initial v 1 vs')
    end.
End prim.

(** MinimumSpanningTree.cpp:95-112 *)
Definition adjacentNodes (g : graph) (node : pt) : list pt :=
  match g !! node with
  | Some edges => (fun e => if bool_decide (e.1 = node) then e.2 else e.1) <$> edges
  | None => []
  end.
(** MinimumSpanningTree.cpp:114-125; the order of the points is not specified *)
Definition leaves (g : graph) : list pt :=
  fst <$> filter (fun kv => (length kv.2 <= 1)%nat) (map_to_list g).
(** MinimumSpanningTree.cpp:127-140 *)
Definition vertices (g : graph) : list pt := fst <$> map_to_list g.
