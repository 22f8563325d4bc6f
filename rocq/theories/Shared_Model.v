(** Model of lazily created shared objects (Source/DKRuntime.h 215-258, used for classes,
    selectors and other shared objects) and of the lock that every object has
    (Source/DKRuntime.c 696-726, Source/DKRuntime+Metadata.c 109-164), under sequentially
    consistent interleavings of any number of threads. *)
Require Import Coq.Lists.List Coq.Arith.Arith Coq.Bool.Bool.
Require Import Verif.Base.
Import ListNotations.

(** ** Shared objects *)
(** Where a call of the accessor is: the first check (221), taking the lock (224, which spins:
    Source/DKPlatform.h 718-726), the second check (226), creating, storing the object,
    unlocking (229), reading the result (231), done. *)
Inductive pc : Type := Check | TryLock | Recheck | Creating (x : nat) | Store (x : nat) | Unlock | Read | Done (r : option nat).
(** The shared pointer, the lock, the objects that were created (has the construction been
    completed?), and the calls. *)
Record st : Type := mkSt { shared : option nat; locked : bool; objects : list bool; calls : list pc }.
(** One step of call [t]; [None]: there is no such call, or it has returned.  The Create
    function makes a new object (one step) and completes it (another step); it is assumed to
    return an object and not to call its own accessor. *)
Definition step_pc (s : st) (p : pc) : option (st * pc) :=
  match p with
  | Check => Some (s, match shared s with Some x => Done (Some x) | None => TryLock end)
  | TryLock => if locked s then Some (s, TryLock) else Some (mkSt (shared s) true (objects s) (calls s), Recheck)
  | Recheck => match shared s with
               | None => Some (mkSt (shared s) (locked s) (objects s ++ [false]) (calls s), Creating (length (objects s)))
               | Some _ => Some (s, Unlock)
               end
  | Creating x => Some (mkSt (shared s) (locked s) (upd (objects s) x true) (calls s), Store x)
  | Store x => Some (mkSt (Some x) (locked s) (objects s) (calls s), Unlock)
  | Unlock => Some (mkSt (shared s) false (objects s) (calls s), Read)
  | Read => Some (s, Done (shared s))
  | Done _ => None
  end.
(** A new call begins, or call [t] takes a step. *)
Inductive label : Type := Begin | Step (t : nat).
Definition step (s : st) (l : label) : st :=
  match l with
  | Begin => mkSt (shared s) (locked s) (objects s) (calls s ++ [Check])
  | Step t =>
    match nth_error (calls s) t with
    | Some p => match step_pc s p with
                | Some (s', p') => mkSt (shared s') (locked s') (objects s') (upd (calls s) t p')
                | None => s
                end
    | None => s
    end
  end.
Definition run (s : st) (ls : list label) : st := fold_left step ls s.
Definition init : st := mkSt None false [] [].

(** ** The lock of an object *)
(** Where a thread is.  Locking: looking for the metadata of the object, inserting new
    metadata, looking for its mutex, making a mutex, exchanging the pointer, reading the
    pointer again, waiting for the mutex.  [Inside]: DKLockObject has returned.
    Unlocking: looking for the metadata, reading the mutex, releasing it.
    The sections of DKMetadataFindOrInsert protected by the spin lock are one step each;
    the object is alive all the time, so its metadata stays. *)
Inductive lpc : Type :=
| Outside | Find | Insert (m : nat) | CheckMutex (m : nat) | NewMutex (m : nat) | Swap (m u : nat) | ReadMutex (m : nat) | Wait (u : nat) | Inside
| UFind | UInsert (m : nat) | URead (m : nat) | URelease (u : nat).
(** [metas]: for each metadata object its mutex; [entry]: the metadata in the table; [owners]:
    for each mutex the thread that holds it. *)
Record lst : Type := mkL { metas : list (option nat); entry : option nat; owners : list (option nat); threads : list lpc }.
Inductive llabel : Type := LLock (t : nat) | LUnlock (t : nat) | LStep (t : nat).
(** A thread takes a step.  Waiting for a mutex that is held changes nothing.  Releasing a
    mutex the thread does not hold is undefined, as is using a NULL mutex: the model has [UB]
    (DKMutexUnlock ignores NULL, so the lock would silently not be there). *)
Definition lstep_pc (s : lst) (t : nat) (p : lpc) : outcome (lst * lpc) :=
  match p with
  | Find => match entry s with
            | Some m => Ok (s, CheckMutex m)
            | None => Ok (mkL (metas s ++ [None]) (entry s) (owners s) (threads s), Insert (length (metas s)))
            end
  | Insert m => match entry s with
                | None => Ok (mkL (metas s) (Some m) (owners s) (threads s), CheckMutex m)
                | Some m' => Ok (s, CheckMutex m')
                end
  | CheckMutex m => match nth_error (metas s) m with
                    | Some None => Ok (s, NewMutex m)
                    | Some (Some _) => Ok (s, ReadMutex m)
                    | None => UB
                    end
  | NewMutex m => Ok (mkL (metas s) (entry s) (owners s ++ [None]) (threads s), Swap m (length (owners s)))
  | Swap m u => match nth_error (metas s) m with
                | Some None => Ok (mkL (upd (metas s) m (Some u)) (entry s) (owners s) (threads s), ReadMutex m)
                | Some (Some _) => Ok (s, ReadMutex m)
                | None => UB
                end
  | ReadMutex m => match nth_error (metas s) m with
                   | Some (Some u) => Ok (s, Wait u)
                   | _ => UB
                   end
  | Wait u => match nth_error (owners s) u with
              | Some None => Ok (mkL (metas s) (entry s) (upd (owners s) u (Some t)) (threads s), Inside)
              | Some (Some _) => Ok (s, Wait u)
              | None => UB
              end
  | UFind => match entry s with
             | Some m => Ok (s, URead m)
             | None => Ok (mkL (metas s ++ [None]) (entry s) (owners s) (threads s), UInsert (length (metas s)))
             end
  | UInsert m => match entry s with
                 | None => Ok (mkL (metas s) (Some m) (owners s) (threads s), URead m)
                 | Some m' => Ok (s, URead m')
                 end
  | URead m => match nth_error (metas s) m with
               | Some (Some u) => Ok (s, URelease u)
               | _ => UB
               end
  | URelease u => match nth_error (owners s) u with
                  | Some (Some t') => if t' =? t then Ok (mkL (metas s) (entry s) (upd (owners s) u None) (threads s), Outside) else UB
                  | _ => UB
                  end
  | Outside => Ok (s, Outside)
  | Inside => Ok (s, Inside)
  end.
(** DKLockObject is called by threads that do not hold the lock, DKUnlockObject by threads
    that do; other calls are not made. *)
Definition lstep (s : lst) (l : llabel) : outcome lst :=
  match l with
  | LLock t => match nth_error (threads s) t with Some Outside => Ok (mkL (metas s) (entry s) (owners s) (upd (threads s) t Find)) | _ => Ok s end
  | LUnlock t => match nth_error (threads s) t with Some Inside => Ok (mkL (metas s) (entry s) (owners s) (upd (threads s) t UFind)) | _ => Ok s end
  | LStep t =>
    match nth_error (threads s) t with
    | Some p => do q <- lstep_pc s t p; Ok (mkL (metas (fst q)) (entry (fst q)) (owners (fst q)) (upd (threads s) t (snd q)))
    | None => Ok s
    end
  end.
Fixpoint lrun (s : lst) (ls : list llabel) : outcome lst :=
  match ls with [] => Ok s | l :: ls' => do s' <- lstep s l; lrun s' ls' end.
Definition linit (n : nat) : lst := mkL [] None [] (repeat Outside n).

(** ** Looking up an interface while another one is installed *)
(** DKInterfaceTableFind and DKInterfaceTableInsert (Source/DKRuntime+Interfaces.c 182-252) for
    one selector of one class.  A lookup reads the cache line (228-231), finds the row (239-241),
    reads the row after unlocking (246) and writes the cache line (246).  An installation
    writes the cache line (199) and then replaces the row (202-204), which releases the
    interface that was there; the table has the only reference to it.  Not modelled: that
    the row itself may have moved when it is read, and other selectors with the same line. *)
Inductive fpc : Type := F0 | F1 | F2 | F3 (i : nat) | FDone (r : option nat).
Inductive ipc : Type := I0 (i : nat) | I1 (i : nat) | IDone (i : nat).
Record ist : Type := mkIst { row : option nat; line : option nat; freed : list nat; finds : list fpc; installs : list ipc }.
Inductive ilabel : Type := BeginFind | BeginInstall (i : nat) | StepFind (t : nat) | StepInstall (t : nat).
Definition istep (s : ist) (l : ilabel) : ist :=
  match l with
  | BeginFind => mkIst (row s) (line s) (freed s) (finds s ++ [F0]) (installs s)
  | BeginInstall i => mkIst (row s) (line s) (freed s) (finds s) (installs s ++ [I0 i])
  | StepFind t =>
    match nth_error (finds s) t with
    | Some F0 => mkIst (row s) (line s) (freed s) (upd (finds s) t (match line s with Some i => FDone (Some i) | None => F1 end)) (installs s)
    | Some F1 => mkIst (row s) (line s) (freed s) (upd (finds s) t (match row s with Some _ => F2 | None => FDone None end)) (installs s)
    | Some F2 => mkIst (row s) (line s) (freed s) (upd (finds s) t (match row s with Some i => F3 i | None => FDone None end)) (installs s)
    | Some (F3 i) => mkIst (row s) (Some i) (freed s) (upd (finds s) t (FDone (Some i))) (installs s)
    | _ => s
    end
  | StepInstall t =>
    match nth_error (installs s) t with
    | Some (I0 i) => mkIst (row s) (Some i) (freed s) (finds s) (upd (installs s) t (I1 i))
    | Some (I1 i) => mkIst (Some i) (line s) (freed s ++ match row s with Some j => [j] | None => [] end) (finds s) (upd (installs s) t (IDone i))
    | _ => s
    end
  end.
Definition irun (s : ist) (ls : list ilabel) : ist := fold_left istep ls s.
(** The row was inherited: the cache line is still empty. *)
Definition iinit (r : option nat) : ist := mkIst r None [] [] [].
