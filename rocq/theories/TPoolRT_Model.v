(** Model of the real-time scheduling of Source/DKThreadPool.c 601-724: adding a task
    does not wake anybody up (956), one worker stays on standby and polls.

    As in TPool_Model a step is a section under queueMutex.  There is a single group of
    tasks without completions, so DKThreadPoolGetNextTask (440-505) takes the first task.
    The worker's local variables are part of its state. *)
Require Import Coq.Lists.List Coq.Bool.Bool Coq.Arith.Arith.
Require Import Verif.Base.
Import ListNotations.

Inductive place : Type := Ready | Holding | Running (t : nat) | Yielding | Waiting | Woken | Stopped.
(** DKThreadPoolRealTimeExec's idle, standby, cooldown (613-615). *)
Record worker : Type := mkW { place_of : place; idle : bool; standby : bool; cooldown : bool; cancelled : bool }.
Record pool : Type := mkP { tasks : list nat; standbyThreads : bool; workers : list worker; owed : nat; next_id : nat; started : list nat; idleThreads : nat }.

Definition holding (w : worker) : bool := match place_of w with Holding => true | _ => false end.
Definition mutex_free (s : pool) : bool := forallb (fun w => negb (holding w)) (workers s).
Definition waiting (w : worker) : bool := match place_of w with Waiting => true | _ => false end.
(** The test at the head of the loop (624); 707-710 for a worker that stops. *)
Definition head (w : worker) : worker := mkW (if cancelled w then Stopped else Holding) (idle w) (standby w) (cooldown w) (cancelled w).
Definition put (s : pool) (i : nat) (w : worker) : pool :=
  mkP (tasks s) (standbyThreads s) (upd (workers s) i w) (owed s) (next_id s) (started s)
      (if cancelled w then (if match place_of w with Stopped => idle w | _ => false end then pred (idleThreads s) else idleThreads s) else idleThreads s).
Definition worker_step (s : pool) (i : nat) (w : worker) : pool :=
  match place_of w with
  | Ready => if mutex_free s then put s i (head w) else s
  | Holding =>
    match tasks s with
    | t :: ts =>
      (* 630-641 *)
      mkP ts (if standby w then false else standbyThreads s) (upd (workers s) i (mkW (Running t) false false (cooldown w) (cancelled w)))
          (if standby w then S (owed s) else owed s) (next_id s) (started s ++ [t]) (if idle w then pred (idleThreads s) else idleThreads s)
    | [] =>
      (* 655-664: only a worker that was not idle can become the one on standby *)
      let sb := if idle w then standby w else standby w || negb (standbyThreads s) in
      let st := if idle w then standbyThreads s else true in
      mkP [] st (upd (workers s) i (mkW (if sb || cooldown w then Yielding else Waiting) true sb (cooldown w) (cancelled w)))
          (owed s) (next_id s) (started s) (if idle w then idleThreads s else S (idleThreads s))
    end
  | Running t => if mutex_free s then put s i (head (mkW (Running t) (idle w) (standby w) true (cancelled w))) else s
  | Yielding => if mutex_free s then put s i (head (mkW Yielding (idle w) (standby w) false (cancelled w))) else s
  | Woken => if mutex_free s then put s i (head w) else s
  | Waiting | Stopped => s
  end.
Inductive label : Type := Work (i : nat) | Spurious (i : nat) | Signal (i : nat) | AddTask | Cancel (i : nat) | SignalAll | Restart (n : nat).
Definition wake (w : worker) : worker := if waiting w then mkW Woken (idle w) (standby w) (cooldown w) (cancelled w) else w.
Definition with_workers (s : pool) (ws : list worker) (o : nat) : pool := mkP (tasks s) (standbyThreads s) ws o (next_id s) (started s) (idleThreads s).
Definition fresh : worker := mkW Ready false false false false.
Definition step (s : pool) (l : label) : pool :=
  match l with
  | Work i => match nth_error (workers s) i with Some w => worker_step s i w | None => s end
  | Spurious i => match nth_error (workers s) i with Some w => with_workers s (upd (workers s) i (wake w)) (owed s) | None => s end
  | Signal i =>
    match owed s with
    | O => s
    | S o =>
      if existsb waiting (workers s) then
        match nth_error (workers s) i with
        | Some w => if waiting w then with_workers s (upd (workers s) i (wake w)) o else s
        | None => s
        end
      else with_workers s (workers s) o
    end
  (** DKThreadPoolAddTask 940-959. *)
  | AddTask => if mutex_free s then mkP (tasks s ++ [next_id s]) (standbyThreads s) (workers s) (owed s) (S (next_id s)) (started s) (idleThreads s) else s
  (** DKThreadPoolStop 778-813: cancelling one thread, and the broadcast. *)
  | Cancel i => match nth_error (workers s) i with
                | Some w => with_workers s (upd (workers s) i (mkW (place_of w) (idle w) (standby w) (cooldown w) true)) (owed s)
                | None => s
                end
  | SignalAll => with_workers s (map wake (workers s)) (owed s)
  (** DKThreadPoolStart 730-772 after DKThreadPoolStop has returned. *)
  | Restart n => if forallb (fun w => match place_of w with Stopped => true | _ => false end) (workers s) then with_workers s (repeat fresh n) (owed s) else s
  end.
Definition run (s : pool) (ls : list label) : pool := fold_left step ls s.
Definition init (n : nat) : pool := mkP [] false (repeat fresh n) 0 0 [] 0.
