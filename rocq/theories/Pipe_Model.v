(** C43: the ordered producer/consumer queue on the thread pool, as a transition system.

    One step is what one thread does between two points where it takes or releases the pool's mutex; threads'
    steps interleave arbitrarily.  [std::mutex] is taken to be mutual exclusion and [std::condition_variable] to wake
    at least the threads that the standard says it wakes; waking up for no reason is a step of its own. *)
From Coq Require Import ZArith.
From stdpp Require Import list.
From Verif Require Import Common.
Local Open Scope Z_scope.

(** Where a worker is.
    [NotStarted]    its task is in the pool's queue (ThreadPool.h:287-295);
    [AtWait]        at the head of the loop in wait() (ThreadPool.h:309), the mutex not yet taken again;
    [Asleep]        in free_slot_cond_.wait (ThreadPool.h:321);
    [Producing i]   in producer_(i), the mutex released (ThreadPool.h:334-336);
    [AtConsume]     at the head of the loop in consume_many() (ThreadPool.h:349);
    [InConsumer]    in consumer_(std::move( *slot)), the mutex released (ThreadPool.h:352-355);
    [Exited]        worker() returned.
    [AtWait] and [AtConsume] can be entered with the mutex held; allowing other threads to step there only adds
    schedules. *)
Inductive wst := NotStarted | AtWait | Asleep | Producing (i : Z) | AtConsume | InConsumer | Exited.

Global Instance wst_dec : EqDecision wst.
Proof. solve_decision. Defined.

(** The thread that called run(): still inside worker(), in work_done_cond_.wait, or back with its caller
    (ThreadPool.h:297-303).  Its worker is number 0. *)
Inductive mst := InWorker | InJoin | Returned.

(** What the consumer sees: a call of consumer_ with an item begins; it ends. *)
Inductive event (V : Type) := CBegin (v : V) | CEnd.
Arguments CBegin {V} v.
Arguments CEnd {V}.

(** The members of MultipleProducersOrderedConsumer (ThreadPool.h:391-404). *)
Record pst (V : Type) := P {
  workers : list wst; queue : list (option V);
  write_idx : Z; read_idx : Z; wait_idx : Z; count : nat; main : mst; log : list (event V) }.
Arguments P {V}.
Arguments workers {V}. Arguments queue {V}. Arguments write_idx {V}. Arguments read_idx {V}.
Arguments wait_idx {V}. Arguments count {V}. Arguments main {V}. Arguments log {V}.

Section pipe.
Context {V : Type} (producer : Z -> V) (first last max_pending : Z).

(** (idx + max_pending_) % max_pending_ with C++'s %; [None] when that is no index of the ring
    (ThreadPool.h:330, 349). *)
Definition slot (i : Z) : option nat :=
  let k := Z.rem (i + max_pending) max_pending in
  if k <? 0 then None else Some (Z.to_nat k).

Definition asleep (w : wst) : bool := match w with Asleep => true | _ => false end.
Definition wake (w : wst) : wst := match w with Asleep => AtWait | _ => w end.

(** notify_all and notify_one on free_slot_cond_.  notify_one wakes thread [k], which must be asleep, unless no
    thread is. *)
Definition notify_all (ws : list wst) : list wst := map wake ws.
Definition notify_one (k : nat) (ws : list wst) : option (list wst) :=
  if existsb asleep ws
  then match ws !! k with Some Asleep => Some (<[k := AtWait]> ws) | _ => None end
  else Some ws.

Definition set_workers (s : pst V) ws := P ws (queue s) (write_idx s) (read_idx s) (wait_idx s) (count s) (main s) (log s).

(** One round of the loop in wait(), and the beginning of produce() or the end of worker()
    (ThreadPool.h:311-322, 329-334, 382-388, 298-302). *)
Definition step_wait (s : pst V) (t : nat) : res (pst V) :=
  if last <=? write_idx s then
    let ws := <[t := Exited]> (notify_all (workers s)) in
    let n := Nat.pred (count s) in
    let m := match t, main s with
             | O, _ => if Nat.eqb n 0 then Returned else InJoin
             | _, InJoin => if Nat.eqb n 0 then Returned else InJoin
             | _, m => m
             end in
    Ok (P ws (queue s) (write_idx s) (read_idx s) (wait_idx s) n m (log s))
  else if write_idx s - read_idx s <? max_pending then
    match slot (write_idx s) with
    | None => UB
    | Some _ => Ok (P (<[t := Producing (write_idx s)]> (workers s)) (queue s) (write_idx s + 1) (read_idx s)
                      (wait_idx s) (count s) (main s) (log s))
    end
  else Ok (set_workers s (<[t := Asleep]> (workers s))).

(** The end of produce() (its two asserts included) and the test in worker() (ThreadPool.h:336-343, 376). *)
Definition step_produced (s : pst V) (t : nat) (i : Z) : res (pst V) :=
  match slot i with
  | None => UB
  | Some k =>
    match queue s !! k with
    | Some None =>
      Ok (P (<[t := if i =? wait_idx s then AtConsume else AtWait]> (workers s)) (<[k := Some (producer i)]> (queue s))
            (write_idx s) (read_idx s) (wait_idx s) (count s) (main s) (log s))
    | _ => UB
    end
  end.

(** The test of the loop in consume_many(): the slot's item is handed to the consumer, or there is none and the thread
    goes back to producing (ThreadPool.h:349-352, 367). *)
Definition step_consume (s : pst V) (t : nat) : res (pst V) :=
  match slot (read_idx s) with
  | None => UB
  | Some k =>
    match queue s !! k with
    | None => UB
    | Some (Some v) => Ok (P (<[t := InConsumer]> (workers s)) (queue s) (write_idx s) (read_idx s) (wait_idx s) (count s)
                         (main s) (log s ++ [CBegin v]))
    | Some None => Ok (P (<[t := AtWait]> (workers s)) (queue s) (write_idx s) (read_idx s) (read_idx s) (count s)
                         (main s) (log s))
    end
  end.

(** The consumer returns; the slot is emptied and a waiting worker is woken if the ring was full
    (ThreadPool.h:353-365).  [None]: thread [k] cannot be the one that is woken. *)
Definition step_consumed (s : pst V) (t k : nat) : option (res (pst V)) :=
  match slot (read_idx s) with
  | None => Some UB
  | Some j =>
    let ws := <[t := AtConsume]> (workers s) in
    match (if max_pending <=? write_idx s - read_idx s then notify_one k ws else Some ws) with
    | None => None
    | Some ws' => Some (Ok (P ws' (<[j := None]> (queue s)) (write_idx s) (read_idx s + 1) (wait_idx s) (count s) (main s)
                              (log s ++ [CEnd])))
    end
  end.

(** Who moves.  [Go t k]: thread [t] does its next step, and if it wakes one thread, that is [k].
    [Spurious t]: thread [t] wakes up in free_slot_cond_.wait for no reason.
    [SpuriousJoin]: the calling thread wakes up in work_done_cond_.wait for no reason (ThreadPool.h:299-302). *)
Inductive move := Go (t k : nat) | Spurious (t : nat) | SpuriousJoin.

(** [None]: the move is not possible.  [Some UB]: it has undefined behaviour or fails an assert. *)
Definition step (s : pst V) (m : move) : option (res (pst V)) :=
  match m with
  | Go t k =>
    match workers s !! t with
    | Some NotStarted => Some (Ok (set_workers s (<[t := AtWait]> (workers s))))
    | Some AtWait => Some (step_wait s t)
    | Some (Producing i) => Some (step_produced s t i)
    | Some AtConsume => Some (step_consume s t)
    | Some InConsumer => step_consumed s t k
    | Some Asleep | Some Exited | None => None
    end
  | Spurious t =>
    match workers s !! t with
    | Some Asleep => Some (Ok (set_workers s (<[t := AtWait]> (workers s))))
    | _ => None
    end
  | SpuriousJoin =>
    match main s with
    | InJoin => Some (Ok (P (workers s) (queue s) (write_idx s) (read_idx s) (wait_idx s) (count s) Returned (log s)))
    | _ => None
    end
  end.

(** The state in which run() calls its own worker, on a pool of [threads] threads (ThreadPool.h:265-297). *)
Definition init (threads : nat) : pst V :=
  if last <=? first then P [] (replicate (Z.to_nat max_pending) None) first first first 0 Returned []
  else P (AtWait :: replicate threads NotStarted) (replicate (Z.to_nat max_pending) None)
         first first first (S threads) InWorker [].

(** A schedule: the state after the moves, if all were possible and none went wrong. *)
Fixpoint run (s : pst V) (ms : list move) : option (pst V) :=
  match ms with
  | [] => Some s
  | m :: ms => match step s m with Some (Ok s') => run s' ms | _ => None end
  end.
End pipe.

(** run_multiple_producers_ordered_consumer's ring size (ThreadPool.h:249). *)
Definition ring_size (per_worker threads : nat) : Z := Z.of_nat (per_worker * (threads + 1)).
