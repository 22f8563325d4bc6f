(** Model of read-write locks, Source/DKReadWriteLock.c, for any number of threads.

    A session is what a thread does between locking and unlocking; a thread may have several.  The
    locks of the platforms (pthread_rwlock_t, SRWLOCK) are exclusive or shared by a number of
    sessions; they do not know the sessions.  Which of the waiting sessions is served is left open.
    A step of a session is one access to the lock of the platform or to the field [exclusive].
    Locking a lock one already has for writing waits forever, as on both platforms.  Trying to lock
    may fail although the lock is available, as POSIX allows while a thread waits for writing; the
    labels tell whether it is so ([lucky]). *)
Require Import Coq.Lists.List Coq.Arith.Arith Coq.Bool.Bool.
Require Import Verif.Base.
Import ListNotations.

Inductive platform := Posix | Windows.
(** Where a session is; the flag tells whether it is for writing. *)
Inductive pc :=
| Out                   (* outside *)
| Waiting (w : bool)    (* in DKReadWriteLockLock *)
| Got                   (* Windows: acquired exclusively, [exclusive] not yet set *)
| In (w : bool)         (* DKReadWriteLockLock has returned, or DKReadWriteLockTryLock with true *)
| Leaving (w : bool)    (* in DKReadWriteLockUnlock; [w] is what the caller believes *)
| Clearing              (* Windows: about to clear [exclusive] *)
| Release_x             (* Windows: about to release exclusively *)
| Release_s.            (* Windows: about to release shared *)
(** struct DKReadWriteLock 37-47; [excl] and [shared] are the lock of the platform, the memory of
    the object is cleared when it is allocated (DKRuntime.c, DKAllocObject). *)
Record state := mkL { excl : bool; shared : nat; flag : bool; sessions : list pc }.
Definition set (s : state) (i : nat) (p : pc) : state := mkL (excl s) (shared s) (flag s) (upd (sessions s) i p).
Definition set_lock (s : state) (x : bool) (n : nat) : state := mkL x n (flag s) (sessions s).
Definition set_flag (s : state) (f : bool) : state := mkL (excl s) (shared s) f (sessions s).
Definition free (s : state) : bool := negb (excl s) && (shared s =? 0).

Inductive label := New | Lock (i : nat) (w : bool) | TryLock (i : nat) (w lucky : bool) | Unlock (i : nat) | Step (i : nat).
Definition init : state := mkL false 0 false [].
Section Platform.
Variable p : platform.
(** What follows when the lock of the platform was acquired exclusively: on Windows the field is set
    next, 133-137 and 163-169. *)
Definition acquired : pc := match p with Posix => In true | Windows => Got end.
(** DKReadWriteLockLock 119-144, at the acquisition. *)
Definition step_waiting (s : state) (i : nat) (w : bool) : state :=
  if w then (if free s then set (set_lock s true (shared s)) i acquired else s)
  else (if excl s then s else set (set_lock s false (S (shared s))) i (In false)).
(** DKReadWriteLockTryLock 150-180: what happens and the answer.  On Windows the attempt to acquire
    exclusively that fails falls through to the end, 179. *)
Definition try_lock (s : state) (i : nat) (w lucky : bool) : state * bool :=
  if w then
    if free s && lucky then (set (set_lock s true (shared s)) i acquired, true)
    else match p with Posix => (s, false) | Windows => (set s i (In true), true) end
  else if excl s || negb lucky then (s, false) else (set (set_lock s false (S (shared s))) i (In false), true).
(** DKReadWriteLockUnlock 186-207. *)
Definition release_exclusive (s : state) (i : nat) : outcome state := if excl s then Ok (set (set_lock s false (shared s)) i Out) else UB.
Definition release_shared (s : state) (i : nat) : outcome state := match shared s with S n => Ok (set (set_lock s (excl s) n) i Out) | O => UB end.
Definition step_leaving (s : state) (i : nat) : outcome state :=
  match p with
  | Posix => if excl s then release_exclusive s i else release_shared s i
  | Windows => Ok (set s i (if flag s then Clearing else Release_s))
  end.
Definition step (s : state) (l : label) : outcome state :=
  match l with
  | New => Ok (mkL (excl s) (shared s) (flag s) (sessions s ++ [Out]))
  | Lock i w => match nth_error (sessions s) i with Some Out => Ok (set s i (Waiting w)) | _ => Ok s end
  | TryLock i w lucky => match nth_error (sessions s) i with Some Out => Ok (fst (try_lock s i w lucky)) | _ => Ok s end
  | Unlock i => match nth_error (sessions s) i with Some (In w) => Ok (set s i (Leaving w)) | _ => Ok s end
  | Step i =>
    match nth_error (sessions s) i with
    | Some (Waiting w) => Ok (step_waiting s i w)
    | Some Got => Ok (set (set_flag s true) i (In true))
    | Some (Leaving _) => step_leaving s i
    | Some Clearing => Ok (set (set_flag s false) i Release_x)
    | Some Release_x => release_exclusive s i
    | Some Release_s => release_shared s i
    | _ => Ok s
    end
  end.
Fixpoint run (s : state) (ls : list label) : outcome state :=
  match ls with [] => Ok s | l :: ls' => do s <- step s l; run s ls' end.
End Platform.
