(** Model of include/utils/UnionFind.h (class template UnionFind<E,Hash>). *)
From Verif Require Import Common.

Section Model.
  Context {E : Type} `{EqDecision E}.

  (** UnionFind.h:145-175 (private members [items], [element_to_position],
      [parent_index], [rank]).  The hash map [element_to_position] is an
      association list with the newest binding first: lookup of a key gives the
      last value stored for it, which is what [operator[]=] followed by [find]
      of an unordered_map does.  [size_t] is [nat]. *)
  Record uf := UF {
    uf_items : list E;
    uf_pos : list (E * nat);
    uf_parent : list nat;
    uf_rank : list nat
  }.

  (** UnionFind.h:30-33 (constructor). *)
  Definition uf_empty : uf := UF [] [] [] [].

  (** UnionFind.h:44-52 (add). *)
  Definition uf_add (u : uf) (e : E) : uf * nat :=
    let h := length (uf_parent u) in
    (UF (uf_items u ++ [e]) ((e, h) :: uf_pos u) (uf_parent u ++ [h]) (uf_rank u ++ [1]), h).

  Fixpoint assoc (l : list (E * nat)) (e : E) : option nat :=
    match l with
    | [] => None
    | (k, v) :: l' => if decide (k = e) then Some v else assoc l' e
    end.

  (** UnionFind.h:79-91 (findByHandle), on the parent vector only.  [None] in the
      result is the returned [(size_t)-1].  The recursion is given fuel;
      [NoFuel] stands for unbounded recursion (stack overflow).  If the inner call
      would return [(size_t)-1] the C++ stores that value as parent; the model
      reports [UB] there because every later read through it is out of bounds. *)
  Fixpoint find_parent (fuel : nat) (parent : list nat) (h : nat) : res (list nat * option nat) :=
    match fuel with
    | O => NoFuel
    | S fuel' =>
        match parent !! h with
        | None => Ok (parent, None)
        | Some p =>
            if decide (p = h) then Ok (parent, Some h)
            else
              let! r := find_parent fuel' parent p in
              match r with
              | (_, None) => UB
              | (parent', Some root) => Ok (<[h := root]> parent', Some root)
              end
        end
    end.

  Definition with_parent (u : uf) (p : list nat) : uf :=
    UF (uf_items u) (uf_pos u) p (uf_rank u).

  Definition uf_find_by_handle (u : uf) (h : nat) : res (uf * option nat) :=
    let! r := find_parent (S (length (uf_parent u))) (uf_parent u) h in
    Ok (with_parent u (fst r), snd r).

  (** UnionFind.h:61-70 (find). *)
  Definition uf_find (u : uf) (e : E) : res (uf * option nat) :=
    match assoc (uf_pos u) e with
    | None => Ok (u, None)
    | Some h => uf_find_by_handle u h
    end.

  (** UnionFind.h:99-117 (unite).  Reading [rank] at [(size_t)-1] and writing
      [parent_index] out of bounds are [UB]. *)
  Definition uf_unite (u : uf) (first second : nat) : res (uf * nat) :=
    let! r1 := uf_find_by_handle u first in
    let! r2 := uf_find_by_handle (fst r1) second in
    let u2 := fst r2 in
    let! first_root := of_opt (snd r1) in
    let! second_root := of_opt (snd r2) in
    let! rank1 := of_opt (uf_rank u2 !! first_root) in
    let! rank2 := of_opt (uf_rank u2 !! second_root) in
    if decide (rank1 < rank2) then
      Ok (UF (uf_items u2) (uf_pos u2) (<[first := second]> (uf_parent u2))
             (<[second_root := rank2 + rank1]> (uf_rank u2)), second)
    else
      Ok (UF (uf_items u2) (uf_pos u2) (<[second := first]> (uf_parent u2))
             (<[first_root := rank1 + rank2]> (uf_rank u2)), first).

  (** A client call sequence.  [OpUnite a b] is the idiom of the only caller
      (src/infill.cpp:926-1015, Infill::connectLines): the handles passed to
      [unite] are results of [find], and equal handles are not united. *)
  Inductive op := OpAdd (e : E) | OpFind (e : E) | OpUnite (a b : E).

  Definition uf_step (u : uf) (o : op) : res uf :=
    match o with
    | OpAdd e => Ok (fst (uf_add u e))
    | OpFind e => let! r := uf_find u e in Ok (fst r)
    | OpUnite a b =>
        let! ra := uf_find u a in
        let! rb := uf_find (fst ra) b in
        let! ha := of_opt (snd ra) in
        let! hb := of_opt (snd rb) in
        if decide (ha = hb) then Ok (fst rb)
        else let! r := uf_unite (fst rb) ha hb in Ok (fst r)
    end.

  Fixpoint uf_run (u : uf) (ops : list op) : res uf :=
    match ops with
    | [] => Ok u
    | o :: ops' => let! u' := uf_step u o in uf_run u' ops'
    end.
End Model.
Arguments uf E : clear implicits.
Arguments op E : clear implicits.
