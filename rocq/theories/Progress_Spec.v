(** What C46 asks for. *)
From Coq Require Import ZArith QArith String.
From stdpp Require Import list.
From Verif Require Import Progress_Model.
Local Open Scope Q_scope.

(** A slice as it may happen: counters rise and stay below the number of layers, layers are exported in order, and the
    stages left open never report out of zero. *)
Fixpoint rising {A} (lt : A -> A -> Prop) (l : list A) : Prop :=
  match l with a :: ((b :: _) as r) => lt a b /\ rising lt r | _ => True end.
Definition mesh_ok (m : mesh_work) : Prop :=
  rising Nat.lt (walls m) /\ rising Nat.lt (skins m) /\
  Forall (fun i => i < layers m)%nat (walls m) /\ Forall (fun i => i < layers m)%nat (skins m).
Definition slice_ok (s : slice) : Prop :=
  Forall (fun p => p.2 <> 0)%Z (splitting s) /\ Forall (fun p => p.2 <> 0)%Z (supporting s) /\
  Forall mesh_ok (meshes s) /\ rising Z.lt (exported s) /\ (0 < total s)%Z.

(** What the stages are called. *)
Definition stage_name (stage : nat) : option string :=
  ["start"; "split multi-material"; "slice"; "layerparts"; "inset+skin"; "support"; "export"; "finish"]%string !! stage.
