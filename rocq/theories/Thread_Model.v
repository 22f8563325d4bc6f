(** Models of the life of a thread object (Source/DKThread.c 416-575) and of the
    semaphore (Source/DKSemaphore.c 37-191).  Every step is a section under the object's
    lock.  The POSIX branches are modelled. *)
Require Import Coq.Lists.List Coq.ZArith.ZArith Coq.Bool.Bool.
Require Import Verif.Base.
Import ListNotations.
Local Open Scope Z_scope.

(** DKThreadState, Source/DKThread.h 38-46. *)
Inductive tstate : Type := Created | Started | Running | Cancelled | Finished.
(** How far the new thread is in DKThreadExec. *)
Inductive phase : Type := NotBegun | Begun | Ended.
Record thread : Type := mkThread { tstate_of : tstate; phase_of : phase }.
Inductive tlabel : Type := Start | Begin | End | Cancel | Join.
Definition tstep (t : thread) (l : tlabel) : outcome thread :=
  match l with
  (** DKThreadStart 463-495: pthread_create and pthread_detach. *)
  | Start => match tstate_of t with Created => Ok (mkThread Started NotBegun) | _ => Ok t end
  (** DKThreadExec 431-433. *)
  | Begin => match tstate_of t, phase_of t with Created, _ => Ok t | _, NotBegun => Ok (mkThread Running Begun) | _, _ => Ok t end
  (** 445-447. *)
  | End => match phase_of t with Begun => Ok (mkThread Finished Ended) | _ => Ok t end
  (** DKThreadCancel 531-552: 537 is an error for a thread that was not started. *)
  | Cancel => match tstate_of t with Started | Running => Ok (mkThread Cancelled (phase_of t)) | _ => Ok t end
  (** DKThreadJoin 501-525: pthread_join of a detached thread is undefined. *)
  | Join => match tstate_of t with Created => Ok t | _ => UB end
  end.
Fixpoint trun (t : thread) (ls : list tlabel) : outcome thread :=
  match ls with [] => Ok t | l :: ls' => do t' <- tstep t l; trun t' ls' end.
Definition tinit : thread := mkThread Created NotBegun.

(** ** DKSemaphore *)
(** Conversion to int32_t. *)
Definition int32 (z : Z) : Z := (z + 2 ^ 31) mod 2 ^ 32 - 2 ^ 31.
(** A client is elsewhere, about to compare the counter, or asleep in pthread_cond_wait. *)
Inductive client : Type := Free | Checking (v : Z) | Asleep (v : Z).
Inductive sevent : Type := Incremented (v : Z) | Decremented (v : Z) | Returned (i : nat) (v : Z).
Record sem : Type := mkSem { counter : Z; clients : list client; broadcasts : nat; slog : list sevent }.
Inductive slabel : Type := Inc (v : Z) | Dec (v : Z) | Broadcast | Wait (i : nat) (v : Z) | Check (i : nat) | Spurious (i : nat).
Definition wake (c : client) : client := match c with Asleep v => Checking v | _ => c end.
Definition sstep (s : sem) (l : slabel) : outcome sem :=
  match l with
  (** DKSemaphoreIncrement 107-131; the broadcast (120) is a step of its own. *)
  | Inc v => Ok (mkSem (int32 (counter s + v)) (clients s) (S (broadcasts s)) (slog s ++ [Incremented v]))
  (** DKSemaphoreDecrement 137-163. *)
  | Dec v => if int32 v <=? counter s then Ok (mkSem (int32 (counter s - v)) (clients s) (S (broadcasts s)) (slog s ++ [Decremented v])) else Fatal
  | Broadcast => match broadcasts s with O => Ok s | S n => Ok (mkSem (counter s) (map wake (clients s)) n (slog s)) end
  (** DKSemaphoreWait 169-191. *)
  | Wait i v => match nth_error (clients s) i with Some Free => Ok (mkSem (counter s) (upd (clients s) i (Checking v)) (broadcasts s) (slog s)) | _ => Ok s end
  | Check i =>
    match nth_error (clients s) i with
    | Some (Checking v) =>
      if counter s =? int32 v then Ok (mkSem (counter s) (upd (clients s) i Free) (broadcasts s) (slog s ++ [Returned i v]))
      else Ok (mkSem (counter s) (upd (clients s) i (Asleep v)) (broadcasts s) (slog s))
    | _ => Ok s
    end
  | Spurious i => match nth_error (clients s) i with Some c => Ok (mkSem (counter s) (upd (clients s) i (wake c)) (broadcasts s) (slog s)) | None => Ok s end
  end.
Fixpoint srun (s : sem) (ls : list slabel) : outcome sem :=
  match ls with [] => Ok s | l :: ls' => do s' <- sstep s l; srun s' ls' end.
Definition sinit (n : nat) : sem := mkSem 0 (repeat Free n) 0 [].
