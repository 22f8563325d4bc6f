(** Threads and semaphores. *)
Require Import Coq.Lists.List Coq.ZArith.ZArith Lia.
Require Import Verif.Base Verif.Thread_Model Verif.Thread_Spec Verif.Thread_Proofs.
Import ListNotations.
Local Open Scope Z_scope.

(** C54, the part that holds: a thread that is cancelled once it runs stays cancelled
    until it has finished, whatever else is done with it.
    Missing: the same for a thread that has been started but does not run yet. *)
Theorem C54_cancel_partial : forall ls0 t ls t1 t',
  trun tinit ls0 = Ok t -> phase_of t = Begun -> tstate_of t = Running ->
  tstep t Cancel = Ok t1 -> trun t1 ls = Ok t' ->
  tstate_of t' = Cancelled \/ (tstate_of t' = Finished /\ In End ls).
Proof.
  exact (fun ls0 t ls t1 t' _ B R C H => cancel_runs t ls t1 t' B R C H).
Qed.
Print Assumptions C54_cancel_partial.
(** Cancelling a thread that was started is lost if the thread had not begun to run. *)
Theorem C54_cancel_refuted : exists t t', trun tinit [Start; Cancel] = Ok t /\ tstate_of t = Cancelled /\ trun t [Begin] = Ok t' /\ tstate_of t' = Running.
Proof. exact cancel_lost. Qed.
Print Assumptions C54_cancel_refuted.
(** Joining a thread that was started is undefined at any time. *)
Theorem C76_join_refuted : forall ls t, trun tinit (Start :: ls) = Ok t -> tstep t Join = UB.
Proof. exact join_undefined. Qed.
Print Assumptions C76_join_refuted.

(** C55: with amounts below 2^31 that do not add up to 2^31 the counter is the difference
    of increments and decrements and is not negative; a wait returns at a moment when
    the counter has the value; nobody sleeps while the counter has their value,
    unless a broadcast is on its way; the program ends only when more is taken than
    there is. *)
Theorem C55_semaphore : forall n ls, Forall small ls -> raised ls < 2 ^ 31 ->
  match srun (sinit n) ls with
  | Ok s =>
    counter s = balance (slog s) /\ 0 <= counter s /\
    (forall l1 i v l2, slog s = l1 ++ Returned i v :: l2 -> balance l1 = v) /\
    (forall i v, nth_error (clients s) i = Some (Asleep v) -> counter s = v -> (0 < broadcasts s)%nat)
  | Fatal => exists l1 v l2 s1, ls = l1 ++ Dec v :: l2 /\ srun (sinit n) l1 = Ok s1 /\ counter s1 < v
  | _ => False
  end.
Proof. exact semaphore_runs. Qed.
Print Assumptions C55_semaphore.
(** Without the bound the counter is wrong: taking 2^31 from nothing is accepted. *)
Theorem C55_large_refuted : exists s, srun (sinit 1) [Dec (2 ^ 31)] = Ok s /\ counter s = - 2 ^ 31.
Proof. exact semaphore_large. Qed.
Print Assumptions C55_large_refuted.

Example C54_case : exists t, trun tinit [Start; Begin] = Ok t /\ phase_of t = Begun /\ tstate_of t = Running.
Proof. eexists. split; [reflexivity|]. split; reflexivity. Qed.
Example C55_case : exists s, srun (sinit 2) [Inc 3; Wait 0 1; Check 0; Broadcast; Check 0; Dec 2; Broadcast; Check 0] = Ok s /\
  counter s = 1 /\ slog s = [Incremented 3; Decremented 2; Returned 0 1].
Proof. eexists. split; [vm_compute; reflexivity|]. split; reflexivity. Qed.
Example C55_case_fatal : srun (sinit 1) [Inc 3; Dec 4] = Fatal.
Proof. vm_compute. reflexivity. Qed.
