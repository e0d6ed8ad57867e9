(** C42: parallel_for on the thread pool, as a transition system.

    One step is what one thread does between two points where it takes or releases the pool's mutex (or calls or leaves
    the user's loop body); threads' steps interleave arbitrarily.  [std::mutex] is taken to be mutual exclusion and
    [std::condition_variable] to wake at least the threads that the standard says it wakes; waking up for no reason is a
    step of its own. *)
From Coq Require Import ZArith.
From stdpp Require Import list.
From Verif Require Import Common.

(** A call parallel_for(first, last, loop_body, chunk_size_factor, chunks_per_worker).  Of the loop body only the calls of
    parallel_for that it makes for an index matter here.  (chunks_per_worker = 0 would divide by zero; no caller passes it.) *)
Inductive job := Job (first last : Z) (factor : nat) (per_worker : positive) (body : Z -> list job).

(** ** Chunks *)

(** round_up_divide (math.h:106-109), on numbers that do not overflow. *)
Definition round_up_divide (a b : nat) : nat := Nat.div (a + b - 1) b.

(** The number of blocks, the chunk size and the number of chunks (ThreadPool.h:139-154). *)
Definition factor_of (factor : nat) : nat := if Nat.leb factor 1 then 1 else factor.
Definition blocks_of (nitems factor : nat) : nat :=
  if Nat.leb factor 1 then nitems else round_up_divide nitems factor.
Definition chunk_size (nworkers nitems factor : nat) (per_worker : positive) : nat :=
  let blocks := blocks_of nitems factor in
  let max_chunks := Nat.min (Pos.to_nat per_worker * nworkers) blocks in
  factor_of factor * round_up_divide blocks max_chunks.
Definition chunk_count (nworkers nitems factor : nat) (per_worker : positive) : nat :=
  round_up_divide nitems (chunk_size nworkers nitems factor per_worker).

(** The loop that cuts the range into chunks (ThreadPool.h:169-178). *)
Fixpoint chunk_bounds (fuel : nat) (first last increment : Z) : res (list (Z * Z)) :=
  match fuel with
  | O => NoFuel
  | S fuel =>
    if (first <? last)%Z then
      let chunk_last := if (increment <? last - first)%Z then (first + increment)%Z else last in
      let! rest := chunk_bounds fuel chunk_last last increment in
      Ok ((first, chunk_last) :: rest)
    else Ok []
  end.

(** ** Threads *)

(** What a thread is doing, innermost first.  Calls of parallel_for are numbered in the order in which they are made.
    [FChunk c i e body]  running a chunk of call [c], next index [i], up to [e] (ThreadPool.h:184-189);
    [FBody c i js]       in loop_body(i) of call [c], with the calls [js] of parallel_for still to make (ThreadPool.h:187);
    [FCall c]            in parallel_for's work_while (ThreadPool.h:198-203);
    [FSleep c]           in work_done.wait (ThreadPool.h:206);
    [FWoken c]           woken there, the mutex not yet taken again. *)
Inductive frame :=
| FChunk (c : nat) (i e : Z) (body : Z -> list job)
| FBody (c : nat) (i : Z) (js : list job)
| FCall (c : nat) | FSleep (c : nat) | FWoken (c : nat).

(** The outermost code of a thread.
    [BMain js]      the program, with the calls [js] of parallel_for still to make;
    [BJoin]         in join()'s work_while (ThreadPool.cpp:34-39); [BThreadJoin] in thread.join() (ThreadPool.cpp:41-44);
    [BWorker]       in worker() (ThreadPool.cpp:18-30); [BSleep] in condition.wait there (ThreadPool.cpp:25);
    [BEnd]          ended. *)
Inductive base := BMain (js : list job) | BJoin | BThreadJoin | BWorker | BSleep | BEnd.

Record task := Task { t_call : nat; t_first : Z; t_last : Z; t_body : Z -> list job }.

(** What the program sees: a call is made, its body is entered and left for an index, the call returns. *)
Inductive event := Called (c : nat) (first last : Z) | Began (c : nat) (i : Z) | Finished (c : nat) (i : Z) | Returned (c : nat).

(** The pool (ThreadPool.h:91-95), each call's chunks_remaining, the number of calls made, and what happened so far. *)
Record st := St {
  threads : list (base * list frame); tasks : list task; remaining : nat -> nat; ncalls : nat;
  wait_for_new_tasks : bool; log : list event }.

Definition put (s : st) (t : nat) (b : base) (fs : list frame) : st :=
  St (<[t := (b, fs)]> (threads s)) (tasks s) (remaining s) (ncalls s) (wait_for_new_tasks s) (log s).
Definition add_log (s : st) (es : list event) : st :=
  St (threads s) (tasks s) (remaining s) (ncalls s) (wait_for_new_tasks s) (log s ++ es).

(** notify_one on the pool's condition, once for each task pushed: wakes the thread given, which must be asleep, unless
    no thread is (ThreadPool.h:63). *)
Definition is_asleep (th : base * list frame) : bool := match th.1 with BSleep => true | _ => false end.
Definition notify_one (k : nat) (ths : list (base * list frame)) : option (list (base * list frame)) :=
  if existsb is_asleep ths
  then match ths !! k with Some (BSleep, fs) => Some (<[k := (BWorker, fs)]> ths) | _ => None end
  else Some ths.
Fixpoint notifies (ks : list nat) (ths : list (base * list frame)) : option (list (base * list frame)) :=
  match ks with
  | [] => Some ths
  | k :: ks => match notify_one k ths with Some ths => notifies ks ths | None => None end
  end.

(** notify_all on it. *)
Definition wake (th : base * list frame) : base * list frame := match th with (BSleep, fs) => (BWorker, fs) | _ => th end.

(** notify_one on call [c]'s work_done: the only thread that waits there is the one that made the call. *)
Definition wake_frames (c : nat) (fs : list frame) : list frame :=
  match fs with FSleep d :: r => if Nat.eqb c d then FWoken d :: r else fs | _ => fs end.
Definition wake_caller (c : nat) (th : base * list frame) : base * list frame := (th.1, wake_frames c th.2).

Definition set_remaining (f : nat -> nat) (c n : nat) : nat -> nat := fun d => if Nat.eqb d c then n else f d.

(** Thread [t] calls parallel_for, and goes on with [b], [r] afterwards (ThreadPool.h:127-195).  [ks]: the threads
    woken by the pushes.  The pool has one thread less than there are threads. *)
Definition call (s : st) (t : nat) (b : base) (r : list frame) (j : job) (ks : list nat) : option (res st) :=
  match j with Job first last factor per_worker body =>
    let c := ncalls s in
    if (last <=? first)%Z then
      Some (Ok (St (<[t := (b, r)]> (threads s)) (tasks s) (remaining s) (S c) (wait_for_new_tasks s)
                   (log s ++ [Called c first last; Returned c])))
    else
      let nitems := Z.to_nat (last - first) in
      let nworkers := length (threads s) in
      let size := chunk_size nworkers nitems factor per_worker in
      match chunk_bounds (S nitems) first last (Z.of_nat size) with
      | Ok bs =>
        if Nat.eqb (length ks) (length bs) then
          match notifies ks (<[t := (b, FCall c :: r)]> (threads s)) with
          | Some ths =>
            Some (Ok (St ths (tasks s ++ map (fun p => Task c p.1 p.2 body) bs)
                         (set_remaining (remaining s) c (chunk_count nworkers nitems factor per_worker)) (S c)
                         (wait_for_new_tasks s) (log s ++ [Called c first last])))
          | None => None
          end
        else None
      | UB => Some UB
      | NoFuel => Some NoFuel
      end
  end.

(** Take the first task (ThreadPool.h:73-77, 184). *)
Definition take (s : st) (t : nat) (b : base) (fs : list frame) (tk : task) (tks : list task) : st :=
  St (<[t := (b, FChunk (t_call tk) (t_first tk) (t_last tk) (t_body tk) :: fs)]> (threads s)) tks (remaining s)
     (ncalls s) (wait_for_new_tasks s) (log s).

Definition is_end (th : base * list frame) : bool := match th.1 with BEnd => true | _ => false end.
Definition all_ended_but (t : nat) (ths : list (base * list frame)) : bool :=
  forallb is_end (delete t ths).

(** Thread [t]'s next step.  [None]: it cannot move. *)
Definition step_frame (s : st) (t : nat) (b : base) (f : frame) (r : list frame) (ks : list nat) : option (res st) :=
  match f with
  | FChunk c i e body =>
    if (i <? e)%Z then
      Some (Ok (add_log (put s t b (FBody c i (body i) :: FChunk c (i + 1) e body :: r)) [Began c i]))
    else
      match remaining s c with
      | O => Some UB (* chunks_remaining would wrap around *)
      | S n =>
        let s' := put s t b r in
        Some (Ok (St (if Nat.eqb n 0 then map (wake_caller c) (threads s') else threads s') (tasks s)
                     (set_remaining (remaining s) c n) (ncalls s) (wait_for_new_tasks s) (log s)))
      end
  | FBody c i [] => Some (Ok (add_log (put s t b r) [Finished c i]))
  | FBody c i (j :: js) => call s t b (FBody c i js :: r) j ks
  | FCall c =>
    if Nat.eqb (remaining s c) 0 then Some (Ok (add_log (put s t b r) [Returned c]))
    else match tasks s with
         | tk :: tks => Some (Ok (take s t b (FCall c :: r) tk tks))
         | [] => Some (Ok (put s t b (FSleep c :: r)))
         end
  | FWoken c =>
    if Nat.eqb (remaining s c) 0 then Some (Ok (add_log (put s t b r) [Returned c]))
    else Some (Ok (put s t b (FSleep c :: r)))
  | FSleep c => None
  end.

Definition step_base (s : st) (t : nat) (b : base) (ks : list nat) : option (res st) :=
  match b with
  | BMain (j :: js) => call s t (BMain js) [] j ks
  | BMain [] =>
    Some (Ok (St (<[t := (BJoin, [])]> (map wake (threads s))) (tasks s) (remaining s) (ncalls s) false (log s)))
  | BJoin =>
    match tasks s with
    | tk :: tks => Some (Ok (take s t b [] tk tks))
    | [] => Some (Ok (put s t BThreadJoin []))
    end
  | BThreadJoin => if all_ended_but t (threads s) then Some (Ok (put s t BEnd [])) else None
  | BWorker =>
    match tasks s with
    | tk :: tks => Some (Ok (take s t b [] tk tks))
    | [] => if wait_for_new_tasks s then Some (Ok (put s t BSleep [])) else Some (Ok (put s t BEnd []))
    end
  | BSleep | BEnd => None
  end.

(** Who moves.  [Go t ks]: thread [t] does its next step; if it pushes tasks, the threads woken are [ks].
    [Spurious t]: thread [t] wakes up for no reason. *)
Inductive move := Go (t : nat) (ks : list nat) | Spurious (t : nat).

Definition step (s : st) (m : move) : option (res st) :=
  match m with
  | Go t ks =>
    match threads s !! t with
    | Some (b, []) => step_base s t b ks
    | Some (b, f :: r) => step_frame s t b f r ks
    | None => None
    end
  | Spurious t =>
    match threads s !! t with
    | Some (BSleep, []) => Some (Ok (put s t BWorker []))
    | Some (b, FSleep c :: r) => Some (Ok (put s t b (FWoken c :: r)))
    | _ => None
    end
  end.

(** A program that makes the calls [js] one after the other and then disposes of the pool, with a pool of [n] threads
    (ThreadPool.cpp:9-16). *)
Definition init (js : list job) (n : nat) : st :=
  St ((BMain js, []) :: replicate n (BWorker, [])) [] (fun _ => 0) 0 true [].

(** A schedule: the state after the moves, if all were possible and none went wrong. *)
Fixpoint run (s : st) (ms : list move) : option st :=
  match ms with
  | [] => Some s
  | m :: ms => match step s m with Some (Ok s') => run s' ms | _ => None end
  end.
