(** Model of Source/DKThreadPool.c 316-1066, with the default scheduling (549-595).

    A step is a section under queueMutex, or a part of one where another thread can
    interfere without the mutex (cancelling a worker).  Workers are numbered; the
    mutex is held when some worker is [Holding].  Tasks and completions are numbered in
    the order they are added.  Task groups are numbered from 1 (319, atomic increment),
    without overflow.  Memory of tasks and queues is not modelled.  A condition may be
    signalled spuriously.  The count of a queue's pending tasks is a 32-bit number in
    the code and unbounded here. *)
Require Import Coq.Lists.List Coq.Bool.Bool Coq.Arith.Arith.
Require Import Verif.Base.
Import ListNotations.

(** struct DKThreadPoolQueue, 65-76. *)
Record queue : Type := mkQ { group : nat; tasks : list nat; comps : list nat; pending : nat; closed : bool }.
(** A task taken from a queue: taskGroup is 0 for a completion; [from] is the group of
    the queue it was taken from, which the code does not keep for a completion. *)
Record job : Type := mkJ { jid : nat; taskGroup : nat; from : nat }.

(** Where a worker is in DKThreadPoolExec: about to lock the mutex for the first time;
    after the test for cancellation, with the mutex; executing a task; waiting for
    work; woken up but without the mutex; after the loop. *)
Inductive place : Type := Ready | Holding | Running (j : job) | Waiting | Woken | Stopped.
Record worker : Type := mkW { place_of : place; cancelled : bool }.

(** What happened, in order. *)
Inductive event : Type :=
| Added (t g : nat) | AddedC (c g : nat) | RanNow (c : nat)
| Started (t g : nat) | StartedC (c g : nat) | Done (t g : nat) | DoneC (c g : nat)
| WaitReturned (g : nat) | Idle (b : bool) | Removed (qs : list queue).

(** [blocked]: the groups that clients in DKThreadPoolWaitForTasks sleep for. *)
Record pool : Type := mkT { queues : list queue; last_group : nat; next_id : nat; workers : list worker; idle : nat; owed : nat; log : list event; blocked : list nat }.

(** DKThreadPoolGetQueue 316-328, DKThreadPoolGetLastQueue 334-352. *)
Definition get_queue (qs : list queue) (g : nat) : option queue := find (fun q => group q =? g) qs.
(** Replacing the queue of a group. *)
Definition set_queue (qs : list queue) (g : nat) (f : queue -> queue) : list queue := map (fun q => if group q =? g then f q else q) qs.
Fixpoint set_last (qs : list queue) (f : queue -> queue) : list queue :=
  match qs with
  | [] => []
  | [q] => [f q]
  | q :: qs' => q :: set_last qs' f
  end.
Fixpoint last_queue (qs : list queue) : option queue := match qs with [] => None | [q] => Some q | _ :: qs' => last_queue qs' end.
(** DKThreadPoolAllocQueue 276-290. *)
Definition new_queue (g : nat) : queue := mkQ g [] [] 0 false.
(** DKThreadPoolGetOpenQueue 358-367: the queues, with the open one last. *)
Definition open_queue (qs : list queue) (lg : nat) : list queue * nat :=
  match last_queue qs with
  | Some q => if closed q then (qs ++ [new_queue (S lg)], S lg) else (qs, lg)
  | None => ([new_queue (S lg)], S lg)
  end.
(** DKThreadPoolScheduleTask 396-412 and DKThreadPoolScheduleCompletion 418-434. *)
Definition add_task (t : nat) (q : queue) : queue := mkQ (group q) (tasks q ++ [t]) (comps q) (S (pending q)) (closed q).
Definition add_comp (c : nat) (q : queue) : queue := mkQ (group q) (tasks q) (comps q ++ [c]) (pending q) true.
Definition close (q : queue) : queue := mkQ (group q) (tasks q) (comps q) (pending q) true.
Definition group_of_last (qs : list queue) : nat := match last_queue qs with Some q => group q | None => 0 end.

(** DKThreadPoolGetNextTask 440-505: queues that are done are freed on the way. *)
Fixpoint next_task (qs : list queue) : list queue * option job :=
  match qs with
  | [] => ([], None)
  | q :: r =>
    match tasks q with
    | t :: ts => (mkQ (group q) ts (comps q) (pending q) (closed q) :: r, Some (mkJ t (group q) (group q)))
    | [] =>
      if pending q =? 0 then
        match comps q with
        | c :: cs => (mkQ (group q) [] cs (pending q) (closed q) :: r, Some (mkJ c 0 (group q)))
        | [] => next_task r
        end
      else let '(r', j) := next_task r in (q :: r', j)
    end
  end.

(** DKThreadPoolCompleteTask 528-543; DKRequire( pending >= 0 ). *)
Definition complete (qs : list queue) (j : job) : outcome (list queue) :=
  if taskGroup j =? 0 then Ok qs
  else match get_queue qs (taskGroup j) with
       | None => UB
       | Some q => match pending q with
                   | O => Fatal
                   | S _ => Ok (set_queue qs (taskGroup j) (fun q => mkQ (group q) (tasks q) (comps q) (pred (pending q)) (closed q)))
                   end
       end.

Definition holding (w : worker) : bool := match place_of w with Holding => true | _ => false end.
Definition mutex_free (s : pool) : bool := forallb (fun w => negb (holding w)) (workers s).
Definition put_worker (s : pool) (i : nat) (p : place) (w : worker) : pool :=
  mkT (queues s) (last_group s) (next_id s) (upd (workers s) i (mkW p (cancelled w))) (idle s) (owed s) (log s) (blocked s).
Definition note (s : pool) (e : event) : pool := mkT (queues s) (last_group s) (next_id s) (workers s) (idle s) (owed s) (log s ++ [e]) (blocked s).
Definition with_queues (s : pool) (qs : list queue) : pool := mkT qs (last_group s) (next_id s) (workers s) (idle s) (owed s) (log s) (blocked s).
Definition with_idle (s : pool) (n : nat) : pool := mkT (queues s) (last_group s) (next_id s) (workers s) n (owed s) (log s) (blocked s).
Definition with_blocked (s : pool) (b : list nat) : pool := mkT (queues s) (last_group s) (next_id s) (workers s) (idle s) (owed s) (log s) b.
(** Broadcasting stateChangedCondition when a queue was freed (486) wakes the clients. *)
Definition after_freeing (s : pool) (qs : list queue) : pool :=
  mkT qs (last_group s) (next_id s) (workers s) (idle s) (owed s) (log s) (if length qs <? length (queues s) then [] else blocked s).
(** The test at the head of the loop, 562. *)
Definition loop_head (s : pool) (i : nat) (w : worker) : pool := put_worker s i (if cancelled w then Stopped else Holding) w.

Definition start_event (j : job) : event := if taskGroup j =? 0 then StartedC (jid j) (from j) else Started (jid j) (from j).
Definition done_event (j : job) : event := if taskGroup j =? 0 then DoneC (jid j) (from j) else Done (jid j) (from j).
Definition worker_step (s : pool) (i : nat) (w : worker) : outcome pool :=
  match place_of w with
  | Ready => if mutex_free s then Ok (loop_head s i w) else Ok s
  | Holding =>
    let '(qs, j) := next_task (queues s) in
    match j with
    | Some j => Ok (note (put_worker (after_freeing s qs) i (Running j) w) (start_event j))
    | None => Ok (with_blocked (put_worker (with_idle (with_queues s qs) (S (idle s))) i Waiting w) [])
    end
  | Running j =>
    if mutex_free s then do qs <- complete (queues s) j; Ok (loop_head (note (with_queues s qs) (done_event j)) i w) else Ok s
  | Waiting => Ok s
  | Woken => if mutex_free s then Ok (loop_head (with_idle s (pred (idle s))) i w) else Ok s
  | Stopped => Ok s
  end.

(** What the threads of the process may do.  [Signal i]: a signal that is owed reaches
    worker [i], or is without effect if nobody waits. *)
Inductive label : Type :=
| Work (i : nat) | Spurious (i : nat) | Signal (i : nat)
| AddTask | AddCompletion | WaitFor (g : nat) | RemoveAll | IsIdle
| Cancel (i : nat) | SignalAll.
Definition waiting (w : worker) : bool := match place_of w with Waiting => true | _ => false end.
Definition wake (w : worker) : worker := if waiting w then mkW Woken (cancelled w) else w.
Definition with_workers (s : pool) (ws : list worker) (o : nat) : pool := mkT (queues s) (last_group s) (next_id s) ws (idle s) o (log s) (blocked s).
Definition step (s : pool) (l : label) : outcome pool :=
  match l with
  | Work i => match nth_error (workers s) i with Some w => worker_step s i w | None => Ok s end
  | Spurious i => match nth_error (workers s) i with Some w => Ok (with_workers s (upd (workers s) i (wake w)) (owed s)) | None => Ok s end
  | Signal i =>
    match owed s with
    | O => Ok s
    | S o =>
      if existsb waiting (workers s) then
        match nth_error (workers s) i with
        | Some w => if waiting w then Ok (with_workers s (upd (workers s) i (wake w)) o) else Ok s
        | None => Ok s
        end
      else Ok (with_workers s (workers s) o)
    end
  (** DKThreadPoolAddTask 940-959 up to the signal. *)
  | AddTask =>
    if mutex_free s then
      let '(qs, lg) := open_queue (queues s) (last_group s) in
      Ok (mkT (set_last qs (add_task (next_id s))) lg (S (next_id s)) (workers s) (idle s) (S (owed s)) (log s ++ [Added (next_id s) (group_of_last qs)]) (blocked s))
    else Ok s
  (** DKThreadPoolAddCompletion 988-1016. *)
  | AddCompletion =>
    if mutex_free s then
      match queues s with
      | [] => Ok (mkT (queues s) (last_group s) (S (next_id s)) (workers s) (idle s) (owed s) (log s ++ [RanNow (next_id s)]) (blocked s))
      | _ => Ok (mkT (set_last (queues s) (add_comp (next_id s))) (last_group s) (S (next_id s)) (workers s) (idle s) (S (owed s))
                     (log s ++ [AddedC (next_id s) (group_of_last (queues s))]) (blocked s))
      end
    else Ok s
  (** DKThreadPoolWaitForTasks 903-925: one turn of the loop.  A client that was blocked and
      has been woken takes another turn. *)
  | WaitFor g =>
    if mutex_free s then
      if g =? 0 then Ok s
      else match get_queue (queues s) g with
           | None => Ok (note s (WaitReturned g))
           | Some _ => Ok (with_blocked (with_queues s (set_queue (queues s) g close)) (g :: blocked s))
           end
    else Ok s
  (** DKThreadPoolRemoveAllTasks 1056-1066. *)
  | RemoveAll => if mutex_free s then Ok (note (with_queues s []) (Removed (queues s))) else Ok s
  (** DKThreadPoolIsIdle 862-878. *)
  | IsIdle => if mutex_free s then Ok (note s (Idle (idle s =? length (workers s)))) else Ok s
  (** DKThreadPoolStop 778-813: DKThreadCancel of one thread, and the broadcast. *)
  | Cancel i => match nth_error (workers s) i with Some w => Ok (with_workers s (upd (workers s) i (mkW (place_of w) true)) (owed s)) | None => Ok s end
  | SignalAll => Ok (with_workers s (map wake (workers s)) (owed s))
  end.
Fixpoint run (s : pool) (ls : list label) : outcome pool :=
  match ls with
  | [] => Ok s
  | l :: ls' => do s' <- step s l; run s' ls'
  end.
(** A pool with [n] workers that have just been started. *)
Definition init (n : nat) : pool := mkT [] 0 0 (repeat (mkW Ready false) n) 0 0 [] [].
