(** What the history of a thread pool says. *)
Require Import Coq.Lists.List Coq.Bool.Bool Coq.Arith.Arith.
Require Import Verif.Base Verif.TPool_Model.
Import ListNotations.

(** Tasks of group [g] that were added, that were started, that are done, and that were
    removed without having been started, in order; the same for completions. *)
Definition added (g : nat) (l : list event) : list nat := flat_map (fun e => match e with Added t h => if h =? g then [t] else [] | _ => [] end) l.
Definition started (g : nat) (l : list event) : list nat := flat_map (fun e => match e with Started t h => if h =? g then [t] else [] | _ => [] end) l.
Definition done (g : nat) (l : list event) : list nat := flat_map (fun e => match e with Done t h => if h =? g then [t] else [] | _ => [] end) l.
Definition addedC (g : nat) (l : list event) : list nat := flat_map (fun e => match e with AddedC t h => if h =? g then [t] else [] | _ => [] end) l.
Definition startedC (g : nat) (l : list event) : list nat := flat_map (fun e => match e with StartedC t h => if h =? g then [t] else [] | _ => [] end) l.
Definition queued (g : nat) (qs : list queue) : list nat := flat_map (fun q => if group q =? g then tasks q else []) qs.
Definition queuedC (g : nat) (qs : list queue) : list nat := flat_map (fun q => if group q =? g then comps q else []) qs.
Definition removed (g : nat) (l : list event) : list nat := flat_map (fun e => match e with Removed qs => queued g qs | _ => [] end) l.
Definition removedC (g : nat) (l : list event) : list nat := flat_map (fun e => match e with Removed qs => queuedC g qs | _ => [] end) l.
(** What the workers are executing, and the tasks of group [g] among it. *)
Definition jobs (ws : list worker) : list job := flat_map (fun w => match place_of w with Running j => [j] | _ => [] end) ws.
Definition of_group (g : nat) (js : list job) : list nat := map jid (filter (fun j => taskGroup j =? g) js).
Definition running (g : nat) (ws : list worker) : list nat := of_group g (jobs ws).
(** All tasks and completions ever added. *)
Definition ids (l : list event) : list nat := flat_map (fun e => match e with Added t _ | AddedC t _ | RanNow t => [t] | _ => [] end) l.

(** Removing all tasks is done only while no task is being executed. *)
Definition allowed (s : pool) (l : label) : Prop := l = RemoveAll -> forall j, In j (jobs (workers s)) -> taskGroup j = 0.
Fixpoint allowed_run (s : pool) (ls : list label) : Prop :=
  match ls with
  | [] => True
  | l :: ls' => allowed s l /\ forall s', step s l = Ok s' -> allowed_run s' ls'
  end.
(** A step of a worker, or the arrival of a signal, that changes something. *)
Definition move (s s' : pool) : Prop := exists i, (step s (Work i) = Ok s' \/ step s (Signal i) = Ok s') /\ s' <> s.
Inductive moves : nat -> pool -> pool -> Prop :=
| moves_0 : forall s, moves 0 s s
| moves_S : forall n s s1 s2, move s s1 -> moves n s1 s2 -> moves (S n) s s2.
(** Nothing is left to do for the workers. *)
Definition settled (s : pool) : Prop := forall s', ~ move s s'.
(** The pool is not being stopped. *)
Definition no_cancel (ls : list label) : Prop := forall i, ~ In (Cancel i) ls.
(** A bound on what is left to do: three steps for each task, completion and signal, and
    what the workers are in the middle of. *)
Definition rank (w : worker) : nat := match place_of w with Running _ => 3 | Ready | Woken => 2 | Holding => 1 | Waiting | Stopped => 0 end.
Fixpoint total {A} (f : A -> nat) (l : list A) : nat := match l with [] => 0 | x :: r => f x + total f r end.
Definition left_to_do (s : pool) : nat := 3 * total (fun q => length (tasks q) + length (comps q)) (queues s) + total rank (workers s) + 3 * owed s.
(** A worker that is about to look for work. *)
Definition eager (w : worker) : bool := match place_of w with Ready | Holding | Woken => true | _ => false end.
