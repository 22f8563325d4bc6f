(** Thread pools. *)
Require Import Coq.Lists.List Coq.Bool.Bool Coq.Arith.Arith Coq.Sorting.Permutation.
Require Import Verif.Base Verif.TPool_Model Verif.TPool_Spec Verif.TPool_Final.
Require Verif.TPoolRT_Model Verif.TPoolRT_Proofs.
Import ListNotations.

(** C49: whatever the workers and clients do, as long as tasks are removed only while none
    is being executed: the tasks of a group are started in the order they were added,
    each once; those not started are still queued, or were removed; a started task is done
    or a worker executes it.  The same for completions. *)
Theorem C49_tasks : forall n ls, allowed_run (init n) ls -> exists s, run (init n) ls = Ok s /\
  NoDup (ids (log s)) /\
  (forall g, added g (log s) = started g (log s) ++ queued g (queues s) ++ removed g (log s)) /\
  (forall g, addedC g (log s) = startedC g (log s) ++ queuedC g (queues s) ++ removedC g (log s)) /\
  (forall g, g <> 0 -> Permutation (started g (log s)) (done g (log s) ++ running g (workers s))).
Proof. exact tasks_once. Qed.
Print Assumptions C49_tasks.
(** No task is lost: at any time the workers have only finitely many steps to make, and
    when they have made them all tasks are done or were removed and all completions were
    executed. *)
Theorem C49_no_task_lost : forall n ls s, 0 < n -> no_cancel ls -> allowed_run (init n) ls -> run (init n) ls = Ok s ->
  (forall k s', moves k s s' -> k <= left_to_do s) /\
  (exists k s', moves k s s' /\ settled s') /\
  (forall k s', moves k s s' -> settled s' ->
     (forall w, In w (workers s') -> place_of w = Waiting) /\
     (forall g t, g <> 0 -> In t (added g (log s')) -> In t (done g (log s')) \/ In t (removed g (log s'))) /\
     (forall g c, In c (addedC g (log s')) -> In c (startedC g (log s')) \/ In c (removedC g (log s')))).
Proof. exact all_run. Qed.
Print Assumptions C49_no_task_lost.
(** Without completions, no task waits while a worker sleeps: for every queued task a signal
    is on its way or a worker is about to look for work. *)
Theorem C49_parallel : forall n ls s, no_cancel ls -> ~ In AddCompletion ls -> allowed_run (init n) ls -> run (init n) ls = Ok s ->
  (exists w, In w (workers s) /\ place_of w = Waiting) ->
  total (fun q => length (tasks q)) (queues s) <= owed s + length (filter eager (workers s)).
Proof. exact busy_workers. Qed.
Print Assumptions C49_parallel.
(** C50: when a completion of a group starts, all tasks that are ever added to the group are done. *)
Theorem C50_completions : forall n ls s, allowed_run (init n) ls -> run (init n) ls = Ok s ->
  forall l1 c g l2, log s = l1 ++ StartedC c g :: l2 -> forall t, In t (added g (log s)) -> In t (done g l1).
Proof. exact completions_after. Qed.
Print Assumptions C50_completions.
(** C51: when waiting for a group ends, all tasks that were added to the group are done, or
    were removed, and all its completions have been started or were removed. *)
Theorem C51_wait : forall n ls s, allowed_run (init n) ls -> run (init n) ls = Ok s ->
  forall l1 g l2, log s = l1 ++ WaitReturned g :: l2 ->
   (forall t, In t (added g l1) -> In t (done g l1) \/ In t (removed g l1)) /\
   (forall c, In c (addedC g l1) -> In c (startedC g l1) \/ In c (removedC g l1)).
Proof. exact wait_returns. Qed.
Print Assumptions C51_wait.
(** Nobody waits for a group for ever: when the workers have nothing left to do, all
    clients have been woken up. *)
Theorem C51_wait_ends : forall n ls s, 0 < n -> no_cancel ls -> ~ In RemoveAll ls -> run (init n) ls = Ok s ->
  (exists k s', moves k s s' /\ settled s') /\
  (forall k s', moves k s s' -> settled s' -> blocked s' = []).
Proof. exact wait_woken. Qed.
Print Assumptions C51_wait_ends.
(** C52, the part that holds: a pool that reports to be idle executes nothing.
    Missing: that nothing is queued. *)
Theorem C52_idle_partial : forall n ls s, run (init n) ls = Ok s -> forall s', step s IsIdle = Ok s' -> log s' = log s ++ [Idle true] -> jobs (workers s) = [].
Proof. exact idle_no_job. Qed.
Print Assumptions C52_idle_partial.
(** The pool reports to be idle right after a task was added. *)
Theorem C52_idle_refuted : exists s, run (init 1) [Work 0; Work 0; AddTask; IsIdle] = Ok s /\ log s = [Added 0 1; Idle true] /\ queued 1 (queues s) = [0].
Proof. exact idle_with_task. Qed.
Print Assumptions C52_idle_refuted.
(** C53, the part that holds: removing all tasks while none is executed is safe.
    Missing: removing them at other times. *)
Theorem C53_remove_partial : forall n ls, allowed_run (init n) ls -> exists s, run (init n) ls = Ok s /\
  NoDup (ids (log s)) /\
  (forall g, added g (log s) = started g (log s) ++ queued g (queues s) ++ removed g (log s)) /\
  (forall g, addedC g (log s) = startedC g (log s) ++ queuedC g (queues s) ++ removedC g (log s)) /\
  (forall g, g <> 0 -> Permutation (started g (log s)) (done g (log s) ++ running g (workers s))).
Proof. exact tasks_once. Qed.
Print Assumptions C53_remove_partial.
(** Removing all tasks while one is executed: the worker dereferences NULL afterwards. *)
Theorem C53_remove_refuted : run (init 1) [AddTask; Work 0; Work 0; RemoveAll; Work 0] = UB.
Proof. exact remove_running. Qed.
Print Assumptions C53_remove_refuted.
(** C74, the part that holds: if no worker is between testing whether it was cancelled and
    going to sleep when the pool is stopped, all workers stop. *)
Theorem C74_stop_partial : forall n ls s, allowed_run (init n) ls -> run (init n) ls = Ok s -> (forall w, In w (workers s) -> place_of w <> Holding) ->
  exists s1, run s (cancel_all n ++ [SignalAll]) = Ok s1 /\
    (exists k s', moves k s1 s' /\ settled s') /\
    (forall k s', moves k s1 s' -> k <= left_to_do s1 /\ (settled s' -> forall w, In w (workers s') -> place_of w = Stopped)).
Proof. exact stop_ends. Qed.
Print Assumptions C74_stop_partial.
(** Otherwise the worker may miss the signal and sleep for ever. *)
Theorem C74_stop_refuted : exists s, run (init 1) [Work 0; Cancel 0; SignalAll; Work 0] = Ok s /\ settled s /\ workers s = [mkW Waiting true].
Proof. exact stop_waits. Qed.
Print Assumptions C74_stop_refuted.

(** C73, the part that holds for real-time scheduling: tasks are started in the order they
    were added, each once, and a worker can always take the next one. *)
Theorem C73_realtime_partial : forall n ls, Forall TPoolRT_Proofs.quiet_label ls ->
  let s := TPoolRT_Model.run (TPoolRT_Model.init n) ls in
  seq 0 (TPoolRT_Model.next_id s) = TPoolRT_Model.started s ++ TPoolRT_Model.tasks s /\
  (0 < n -> exists ls', Forall TPoolRT_Proofs.work_label ls' /\ TPoolRT_Model.tasks (TPoolRT_Model.run (TPoolRT_Model.init n) (ls ++ ls')) = []).
Proof. exact TPoolRT_Proofs.rt_tasks. Qed.
Print Assumptions C73_realtime_partial.
(** A queued task is not started by a free worker, while the other executes a task. *)
Theorem C73_realtime_refuted : exists s, TPoolRT_Model.run (TPoolRT_Model.init 2) TPoolRT_Proofs.two_busy = s /\
  TPoolRT_Model.tasks s = [1] /\ map TPoolRT_Model.place_of (TPoolRT_Model.workers s) = [TPoolRT_Model.Running 0; TPoolRT_Model.Waiting] /\
  forall ls, Forall (TPoolRT_Proofs.others 0) ls -> TPoolRT_Model.tasks (TPoolRT_Model.run s ls) = [1].
Proof. exact TPoolRT_Proofs.rt_free_worker. Qed.
Print Assumptions C73_realtime_refuted.
(** After a real-time pool was stopped and started again, tasks may never be executed. *)
Theorem C75_restart_refuted : exists s, TPoolRT_Model.run (TPoolRT_Model.init 1) TPoolRT_Proofs.restarted = s /\
  TPoolRT_Model.tasks s = [0] /\ map TPoolRT_Model.place_of (TPoolRT_Model.workers s) = [TPoolRT_Model.Waiting] /\
  forall ls, Forall (fun l => match l with TPoolRT_Model.Work _ | TPoolRT_Model.Signal _ => True | _ => False end) ls -> TPoolRT_Model.run s ls = s.
Proof. exact TPoolRT_Proofs.rt_restart. Qed.
Print Assumptions C75_restart_refuted.

(** Two workers, a group with a completion, a client that waits, tasks that are removed. *)
Definition case : list label :=
  [AddTask; AddTask; AddCompletion; WaitFor 1; Work 0; Work 0; Work 1; Work 1; Work 1; Work 0; Work 1; Work 1; Work 0; Work 0;
   Work 0; Work 0; WaitFor 1; AddTask; RemoveAll; IsIdle].
Example C49_case : exists s, run (init 2) case = Ok s /\
  log s = [Added 0 1; Added 1 1; AddedC 2 1; Started 0 1; Started 1 1; Done 1 1; Done 0 1; StartedC 2 1; DoneC 2 1; WaitReturned 1;
           Added 3 2; Removed [mkQ 2 [3] [] 1 false]; Idle true] /\ blocked s = [] /\ no_cancel case.
Proof. eexists. split; [vm_compute; reflexivity|]. split; [reflexivity|]. split; [reflexivity|]. intros i. unfold case. simpl. intuition discriminate. Qed.
Example C49_case_allowed : allowed_run (init 2) case.
Proof.
  unfold case.
  repeat (split; [intros D j J; first [discriminate D | vm_compute in J; contradiction] | intros s' E; vm_compute in E; injection E as <-]).
  exact I.
Qed.
