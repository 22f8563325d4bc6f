(** Property C134: read-write locks.

    On POSIX there is no condition.  On Windows the property is false, and proved for the histories in
    which no attempt to lock for writing fails. *)
Require Import Coq.Lists.List Coq.Arith.Arith Coq.Bool.Bool.
Require Import Verif.Base Verif.Lock_Model Verif.Lock_Spec.
Require Verif.Lock_Proofs.
Import ListNotations.

(** One session has the lock for writing or any number for reading, whatever the schedule, and the
    field of the lock is not accessed by two threads at once. *)
Theorem C134_exclusion_partial : forall p ls s, (p = Windows -> no_failure p init ls) -> run p init ls = Ok s -> exclusion s.
Proof. exact Lock_Proofs.excludes. Qed.
Print Assumptions C134_exclusion_partial.
Theorem C134_race_partial : forall p ls s, (p = Windows -> no_failure p init ls) -> run p init ls = Ok s -> ~ race s.
Proof. exact Lock_Proofs.no_race. Qed.
Print Assumptions C134_race_partial.
(** A lock is only released by those who have it, and in the way it was acquired. *)
Theorem C134_safe_partial : forall p ls, (p = Windows -> no_failure p init ls) -> exists s, run p init ls = Ok s.
Proof. exact Lock_Proofs.safe. Qed.
Print Assumptions C134_safe_partial.
(** After everyone has left, whoever waits can enter. *)
Theorem C134_enters_partial : forall p ls s, (p = Windows -> no_failure p init ls) -> run p init ls = Ok s ->
  forall i w, nth_error (sessions s) i = Some (Waiting w) -> (forall j, ~ inside s j) ->
  exists s', run p s [Step i; Step i] = Ok s' /\ holds s' i w.
Proof. exact Lock_Proofs.enters. Qed.
Print Assumptions C134_enters_partial.
(** Trying to lock answers true if and only if the session has the lock then (on Windows, after it
    has set the field), answers false without an effect, and, luck assumed, only if another session
    is inside. *)
Theorem C134_try_partial : forall p ls s, (p = Windows -> no_failure p init ls) -> run p init ls = Ok s ->
  forall i w lucky, nth_error (sessions s) i = Some Out ->
  (p = Windows -> w = true -> free s && lucky = true) ->
  let (s', b) := try_lock p s i w lucky in
  step p s (TryLock i w lucky) = Ok s' /\
  (if b then exists s'', step p s' (Step i) = Ok s'' /\ holds s'' i w else s' = s) /\
  (b = false -> lucky = true -> exists j, inside s j).
Proof. exact Lock_Proofs.tries. Qed.
Print Assumptions C134_try_partial.
(** Any number of readers at the same time. *)
Theorem C134_readers : forall p n, exists ls s, run p init ls = Ok s /\ no_failure p init ls /\ forall i, i < n -> holds s i false.
Proof. exact Lock_Proofs.readers. Qed.
Print Assumptions C134_readers.
(** C134 is false on Windows: when trying to lock for writing fails, the answer is true, and two
    have the lock for writing; when both have unlocked it the lock was released once too often. *)
Theorem C134_try_refuted :
  let ls := [New; New; Lock 0 true; Step 0; Step 0; TryLock 1 true true] in
  (exists s, run Windows init ls = Ok s /\ holds s 0 true /\ holds s 1 true) /\
  run Windows init (ls ++ [Unlock 1; Step 1; Step 1; Step 1; Unlock 0; Step 0; Step 0]) = UB.
Proof. split; [eexists; split; [vm_compute; reflexivity|split; reflexivity]|vm_compute; reflexivity]. Qed.
Print Assumptions C134_try_refuted.
(** One reads, another waits for writing, gets the lock after the first has left, and unlocks it. *)
Example C134_case : forall p, let ls := [New; New; TryLock 0 false true; Lock 1 true; Step 1; Unlock 0; Step 0; Step 0; Step 1; Step 1] in
  no_failure p init ls /\ exists s, run p init ls = Ok s /\ holds s 1 true.
Proof.
  intros p ls; unfold ls; clear ls; split.
  - cbn [no_failure]; repeat (split; [intros i lucky E; discriminate|intros ? _]); exact I.
  - destruct p; eexists; (split; [vm_compute; reflexivity|reflexivity]).
Qed.
