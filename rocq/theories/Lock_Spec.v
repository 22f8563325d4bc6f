(** What is expected of read-write locks. *)
Require Import Coq.Lists.List Coq.Arith.Arith Coq.Bool.Bool.
Require Import Verif.Base Verif.Lock_Model.
Import ListNotations.

(** The session [i] has the lock: locking has returned (or trying to lock answered true) and
    unlocking has not been called. *)
Definition holds (s : state) (i : nat) (w : bool) : Prop := nth_error (sessions s) i = Some (In w).
(** The session is between its first access to the lock and its last. *)
Definition inside (s : state) (i : nat) : Prop :=
  exists p, nth_error (sessions s) i = Some p /\ p <> Out /\ forall w, p <> Waiting w.
Definition waits (s : state) (i : nat) : Prop := exists w, nth_error (sessions s) i = Some (Waiting w).
(** One session has the lock for writing, or any number for reading. *)
Definition exclusion (s : state) : Prop := forall i j w, holds s i true -> holds s j w -> i = j.
(** The next step of the session writes, or reads, the field [exclusive]. *)
Definition writes (s : state) (i : nat) : Prop := nth_error (sessions s) i = Some Got \/ nth_error (sessions s) i = Some Clearing.
Definition reads (s : state) (i : nat) : Prop := exists w, nth_error (sessions s) i = Some (Leaving w).
Definition race (s : state) : Prop := exists i j, i <> j /\ writes s i /\ (writes s j \/ reads s j).
(** No attempt to lock for writing fails to acquire the lock of the platform. *)
Fixpoint no_failure (p : platform) (s : state) (ls : list label) : Prop :=
  match ls with
  | [] => True
  | l :: ls' =>
    (forall i lucky, l = TryLock i true lucky -> nth_error (sessions s) i = Some Out -> free s && lucky = true) /\
    forall s', step p s l = Ok s' -> no_failure p s' ls'
  end.
