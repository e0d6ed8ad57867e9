(** Model of include/utils/orderOptimizer.h and src/utils/scoring/BestElementFinder.cpp. *)
From Coq Require Import ZArith QArith.
From stdpp Require Import list.
From Verif Require Import Common Geo_Model.
Open Scope Z_scope.

(** Point2LL.h:147-150: std::llrint of the exact square root (a double square root of an integer that
    is not a perfect square is never a tie) *)
Definition vSize (p : pt) : Z :=
  let n := vSize2 p in let s := Z.sqrt n in if n <=? s * s + s then s else s + 1.

(** Point2LL.h:41 *)
Definition POINT_MAX : Z := 2 ^ 63 - 1.

(** orderOptimizer.h:69-80: the loop over item_idx_list; result: shortest distance, item, position in list *)
Fixpoint closest_item (items : list pt) (last : pt) (idxs : list nat) (k : nat) (best : Z * option (nat * nat))
    : res (Z * option (nat * nat)) :=
  match idxs with
  | [] => Ok best
  | item :: idxs' =>
      let! position := of_opt (items !! item) in
      let distance := vSize (psub position last) in
      closest_item items last idxs' (S k) (if distance <? best.1 then (distance, Some (item, k)) else best)
  end.
(** orderOptimizer.h:63-87: the while loop, with fuel; without a closest item, items[-1] is read *)
Fixpoint order_loop (fuel : nat) (items : list pt) (last : pt) (idxs : list nat) : res (list nat) :=
  match idxs with
  | [] => Ok []
  | _ =>
      match fuel with
      | O => NoFuel
      | S fuel' =>
          let! best := closest_item items last idxs 0 (POINT_MAX, None) in
          match best.2 with
          | None => UB
          | Some (item, pos) =>
              let! p := of_opt (items !! item) in
              let! rest := order_loop fuel' items p (delete pos idxs) in
              Ok (item :: rest)
          end
      end
  end.
(** orderOptimizer.h:46-89 (the attached items are not used) *)
Definition optimize (items : list pt) (start_position : pt) : res (list nat) :=
  order_loop (length items) items start_position (seq 0 (length items)).

(** ** BestElementFinder *)
(** std::numeric_limits<double>::epsilon() *)
Definition dbl_epsilon : Q := 1 # (2 ^ 52).
(** BestElementFinder.h:40-65: computeScore and weight of each criterion, and the threshold.  The
    scores are exact rationals. *)
Record pass := Pass { criteria : list ((nat -> Q) * Q); threshold : Q }.
(** BestElementFinder.cpp:45-51 *)
Definition pass_score (p : pass) (i : nat) : Q :=
  fold_left (fun acc c => acc + c.1 i * c.2)%Q (criteria p) 0%Q.
Notation candidate := (nat * Q)%type.
(** BestElementFinder.cpp:42-57: rescoring; the position of the first best candidate *)
Fixpoint find_best (l : list candidate) (k : nat) (best : option (nat * Q)) : option (nat * Q) :=
  match l with
  | [] => best
  | c :: l' =>
      find_best l' (S k) (match best with
                          | None => Some (k, c.2)
                          | Some (_, s) => if Qlt_le_dec s c.2 then Some (k, c.2) else best
                          end)
  end.
(** BestElementFinder.cpp:73-80 with std::remove_if (elements that are kept are moved to the front
    one by one).  The predicate reads the best candidate through its iterator, that is whatever is at
    position [b] of the array at that time. *)
Fixpoint remove_if_loop (n : nat) (delta : Q) (b i w : nat) (arr : list candidate) : res (list candidate) :=
  match n with
  | O => Ok (take w arr)
  | S n' =>
      let! c := of_opt (arr !! i) in
      let! best := of_opt (arr !! b) in
      if Qlt_le_dec delta (best.2 - c.2)%Q
      then remove_if_loop n' delta b (S i) w arr
      else remove_if_loop n' delta b (S i) (S w) (<[w := c]> arr)
  end.
(** BestElementFinder.cpp:38-88: the passes *)
Fixpoint run_passes (passes : list pass) (cands : list nat) : res (option nat) :=
  match passes with
  | [] => Ok (head cands)
  | p :: passes' =>
      let scored := map (fun i => (i, pass_score p i)) cands in
      match find_best scored 0 None with
      | None => Ok None
      | Some (b, _) =>
          match passes' with
          | [] => let! c := of_opt (scored !! b) in Ok (Some c.1)
          | _ =>
              let! kept := remove_if_loop (length scored) (threshold p + dbl_epsilon)%Q b 0 0 scored in
              match kept with
              | [c] => Ok (Some c.1)
              | _ => run_passes passes' (map fst kept)
              end
          end
      end
  end.
(** BestElementFinder.cpp:26-91 *)
Definition findBestElement (passes : list pass) (candidates_count : nat) : res (option nat) :=
  run_passes passes (seq 0 candidates_count).
