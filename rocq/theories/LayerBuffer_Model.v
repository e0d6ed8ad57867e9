(** * The buffer of layer plans

    Models [LayerPlanBuffer::handle], [processBuffer], [flush] and
    [getCompletedLayerPlan] (/repo/src/LayerPlanBuffer.cpp:23-113) as far as it
    concerns which plans are kept, written and found.  What is changed inside the
    plans (fan speed, connecting travel, temperature commands) is left out. *)
From Coq Require Import ZArith.
From stdpp Require Import list.
From Verif Require Import Common Pipe_Model.
Local Open Scope Z_scope.

(** [buffer_size_] (/repo/include/LayerPlanBuffer.h:44-45). *)
Definition buffer_size : nat := 5.

(** [buffer_], and the plans whose [writeGCode] was called so far (each is deleted
    then). *)
Record buf (P : Type) := Buf { pending : list P; written : list P }.
Arguments Buf {P}. Arguments pending {P}. Arguments written {P}.

Definition empty_buf {P} : buf P := Buf [] [].

(** [handle] with [processBuffer] (LayerPlanBuffer.cpp:23-60). *)
Definition handle {P} (b : buf P) (p : P) : buf P :=
  let buffer := pending b ++ [p] in
  if Nat.ltb buffer_size (length buffer)
  then match buffer with
       | to_be_written :: rest => Buf rest (written b ++ [to_be_written])
       | [] => b
       end
  else Buf buffer (written b).

(** [flush] (LayerPlanBuffer.cpp:62-74). *)
Definition flush {P} (b : buf P) : buf P := Buf [] (written b ++ pending b).

(** What [FffGcodeWriter::writeGCode] does with the buffer, over all mesh groups
    (/repo/src/FffGcodeWriter.cpp:158-173). *)
Inductive request (P : Type) := Handle (p : P) | Flush.
Arguments Handle {P}. Arguments Flush {P}.

Definition serve {P} (b : buf P) (r : request P) : buf P :=
  match r with Handle p => handle b p | Flush => flush b end.
Definition serve_all {P} (b : buf P) (rs : list (request P)) : buf P := fold_left serve rs b.

(** [getCompletedLayerPlan] (LayerPlanBuffer.cpp:76-113): the plan, or [None] when
    the caller has to wait. *)
Definition completed_plan {P} (layer_nr : P -> Z) (b : buf P) (n : Z) : option P :=
  head (List.filter (fun p => layer_nr p =? n) (pending b)).

(** ** With the pipeline of layers

    The consumer of the pipeline (Pipe_Model.v) hands each plan to the buffer; the
    buffer's mutex is held all that time (LayerPlanBuffer.cpp:25), so others see
    the buffer as it is between two such calls.  While it produces layer [i], a
    worker may wait for another layer's plan (FffGcodeWriter.cpp:2188). *)
Section pipe.
  Context {V : Type} (layer_nr : V -> Z) (needs : Z -> option Z)
    (producer : Z -> V) (last max_pending : Z).

  (** The buffer after the consumer's calls so far; [begun] is the call under way. *)
  Fixpoint buffer_after (b : buf V) (begun : option V) (lg : list (event V)) : buf V :=
    match lg with
    | [] => b
    | CBegin v :: r => buffer_after b (Some v) r
    | CEnd :: r => buffer_after (match begun with Some v => handle b v | None => b end) None r
    end.
  Definition buffer_of (b0 : buf V) (s : pst V) : buf V := buffer_after b0 None (log s).

  (** A worker that produces layer [i] has to wait. *)
  Definition waiting (b0 : buf V) (s : pst V) (i : Z) : bool :=
    match needs i with
    | None => false
    | Some j => match completed_plan layer_nr (buffer_of b0 s) j with Some _ => false | None => true end
    end.

  (** A step of the pipeline in which nobody gets past a plan that is not there. *)
  Definition wstep (b0 : buf V) (s : pst V) (m : move) : option (res (pst V)) :=
    match m with
    | Go t _ =>
      match workers s !! t with
      | Some (Producing i) => if waiting b0 s i then None else step producer last max_pending s m
      | _ => step producer last max_pending s m
      end
    | _ => step producer last max_pending s m
    end.

  Fixpoint wrun (b0 : buf V) (s : pst V) (ms : list move) : option (pst V) :=
    match ms with
    | [] => Some s
    | m :: ms => match wstep b0 s m with Some (Ok s') => wrun b0 s' ms | _ => None end
    end.
End pipe.
