(** Model of Source/DKRuntime+RefCount.c 50-229 and Source/DKRuntime+Metadata.c
    109-205: one object with reference counting enabled, shared by any number of
    threads.

    A step is one access to shared memory.  Memory is sequentially consistent.  The
    table of metadata is reduced to the entry of this object; a section under
    MetadataTableLock is one step.  A metadata object discarded by the loser of an
    insertion (152-155) has no effect on the rest and is not modelled.  The metadata
    object has no metadata of its own, so retaining and releasing it is one step.
    Memory of the object is not reused after deallocation.  Each thread has a number
    of strong and weak references, and makes calls only on references that it has;
    references can be handed to other threads between calls.  The disabled bit never
    changes, so the test for it is not a step. *)
Require Import Coq.ZArith.ZArith Coq.Lists.List Coq.Bool.Bool Coq.Arith.Arith.
Require Import Verif.Base.
Import ListNotations.
Local Open Scope Z_scope.

(** DKRuntime.h: bits of the reference count. *)
Definition METADATA_BIT : Z := 1073741824.
Definition COUNT_MASK : Z := 268435455.
Definition has_metadata (v : Z) : bool := negb (Z.land v METADATA_BIT =? 0).
Definition count_of (v : Z) : Z := Z.land v COUNT_MASK.

Inductive life : Type := Alive | Finalized | Freed.
(** struct DKMetadata; [target] is false for NULL; [mrc] is its reference count. *)
Record metadata : Type := mkM { target : bool; locked : bool; mrc : Z; mfreed : bool }.

Inductive pc : Type :=
| Idle
(** DKRelease, 72-119: before the read of the count, before the decrement without
    metadata, in DKMetadataFindOrInsert before the search and before the insertion,
    before the lock, the decrement, the reset of weakTarget and the unlock. *)
| Rel | RelDec | RelFind | RelIns | RelLock | RelDecM | RelNull | RelUnlock (last : bool)
(** DKMetadataRemove before the removal and before the release of the metadata,
    DKFinalize, DKDealloc. *)
| Remove | MRel | Fin | Free
(** DKTryRelease, 125-185. *)
| Try | TryCas (v : Z) | TryFind | TryIns | TryLock | TryRead | TryCasM (v : Z) | TryNull | TryUnlock (last : bool)
(** DKRetainWeak, 195-205. *)
| WFind | WIns | WRet
(** DKResolveWeak, 211-229. *)
| SLock | SRead | SInc | SUnlock (got : bool).
Record thread : Type := mkT { at_pc : pc; owned : Z; weak : Z }.
(** What a call to DKResolveWeak returned: NULL, with the number of references at
    the time weakTarget was read, or the object, with its state at the return. *)
Inductive resolved : Type := ToNull (refs : Z) | ToObject (l : life).
Record state : Type := mkS { rc : Z; alive : life; finals : nat; entry : bool; meta : option metadata; threads : list thread; log : list resolved }.

(** Calls a thread can make. *)
Inductive call : Type := CRetain | CRelease | CTry | CWeak | CResolve | CDropWeak | CGive (j : nat) | CGiveWeak (j : nat).

(** References: those the threads have, and those of releases under way. *)
Definition inflight (p : pc) : Z := match p with Rel | RelDec | RelFind | RelIns | RelLock | RelDecM => 1 | _ => 0 end.
Definition refs_of (t : thread) : Z := owned t + inflight (at_pc t).
Definition total (f : thread -> Z) (l : list thread) : Z := fold_right (fun t a => f t + a) 0 l.
Definition refs (s : state) : Z := total refs_of (threads s).

(** Access to the object and to its metadata. *)
Definition touch {A} (s : state) (k : outcome A) : outcome A := match alive s with Freed => UB | _ => k end.
Definition touchm {A} (s : state) (k : metadata -> outcome A) : outcome A :=
  match meta s with Some m => if mfreed m then UB else k m | None => UB end.
Definition put_t (s : state) (i : nat) (t : thread) : state := mkS (rc s) (alive s) (finals s) (entry s) (meta s) (upd (threads s) i t) (log s).
Definition put_rc (s : state) (v : Z) : state := mkS v (alive s) (finals s) (entry s) (meta s) (threads s) (log s).
Definition put_meta (s : state) (m : metadata) : state := mkS (rc s) (alive s) (finals s) (entry s) (Some m) (threads s) (log s).
Definition put_entry (s : state) (b : bool) : state := mkS (rc s) (alive s) (finals s) b (meta s) (threads s) (log s).
Definition put_log (s : state) (r : resolved) : state := mkS (rc s) (alive s) (finals s) (entry s) (meta s) (threads s) (log s ++ [r]).
Definition goto (s : state) (i : nat) (t : thread) (p : pc) : outcome state := Ok (put_t s i (mkT p (owned t) (weak t))).

(** DKMetadataFindOrInsert, DKRuntime+Metadata.c 109-158: the search, then the
    insertion.  Inserting again after the entry was removed is a call on a dead
    object. *)
Definition find_meta (s : state) (i : nat) (t : thread) (found missing : pc) : outcome state :=
  touch s (goto s i t (if entry s then found else missing)).
Definition insert_meta (s : state) (i : nat) (t : thread) (next : pc) : outcome state :=
  touch s (if entry s then goto s i t next
    else match meta s with
         | Some _ => UB
         | None => goto (put_entry (put_meta (put_rc s (Z.lor (rc s) METADATA_BIT)) (mkM true false 1 false)) true) i t next
         end).
(** DKSpinLockLock and DKSpinLockUnlock on weakLock. *)
Definition lock_meta (s : state) (i : nat) (t : thread) (next : pc) : outcome state :=
  touchm s (fun m => if locked m then Ok s else goto (put_meta s (mkM (target m) true (mrc m) (mfreed m))) i t next).
Definition unlock_meta (s : state) (i : nat) (t : thread) (next : pc) : outcome state :=
  touchm s (fun m => goto (put_meta s (mkM (target m) false (mrc m) (mfreed m))) i t next).
(** DKRelease of the metadata object. *)
Definition release_meta (s : state) (k : state -> outcome state) : outcome state :=
  touchm s (fun m => k (put_meta s (mkM (target m) (locked m) (mrc m - 1) (mrc m - 1 =? 0)))).

Definition step_thread (s : state) (i : nat) (t : thread) (c : call) : outcome state :=
  match at_pc t with
  | Idle =>
    match c with
    | CRetain => if 0 <? owned t then touch s (Ok (put_t (put_rc s (rc s + 1)) i (mkT Idle (owned t + 1) (weak t)))) else Ok s
    | CRelease => if 0 <? owned t then Ok (put_t s i (mkT Rel (owned t - 1) (weak t))) else Ok s
    | CTry => if 0 <? owned t then goto s i t Try else Ok s
    | CWeak => if 0 <? owned t then goto s i t WFind else Ok s
    | CResolve => if 0 <? weak t then goto s i t SLock else Ok s
    | CDropWeak => if 0 <? weak t then release_meta s (fun s => Ok (put_t s i (mkT Idle (owned t) (weak t - 1)))) else Ok s
    | CGive j =>
      if 0 <? owned t then
        match nth_error (threads s) j with
        | Some u => if (j =? i)%nat then Ok s else Ok (put_t (put_t s i (mkT Idle (owned t - 1) (weak t))) j (mkT (at_pc u) (owned u + 1) (weak u)))
        | None => Ok s
        end
      else Ok s
    | CGiveWeak j =>
      if 0 <? weak t then
        match nth_error (threads s) j with
        | Some u => if (j =? i)%nat then Ok s else Ok (put_t (put_t s i (mkT Idle (owned t) (weak t - 1))) j (mkT (at_pc u) (owned u) (weak u + 1)))
        | None => Ok s
        end
      else Ok s
    end
  | Rel => touch s (goto s i t (if has_metadata (rc s) then RelFind else RelDec))
  | RelDec => touch s (goto (put_rc s (rc s - 1)) i t (if count_of (rc s - 1) =? 0 then Fin else Idle))
  | RelFind => find_meta s i t RelLock RelIns
  | RelIns => insert_meta s i t RelLock
  | RelLock => lock_meta s i t RelDecM
  | RelDecM => touch s (goto (put_rc s (rc s - 1)) i t (if count_of (rc s - 1) =? 0 then RelNull else RelUnlock false))
  | RelNull => touchm s (fun m => goto (put_meta s (mkM false (locked m) (mrc m) (mfreed m))) i t (RelUnlock true))
  | RelUnlock last => unlock_meta s i t (if last then Remove else Idle)
  | Remove => touchm s (fun _ => goto (put_entry s false) i t MRel)
  | MRel => release_meta s (fun s => goto s i t Fin)
  | Fin => touch s (goto (mkS (rc s) Finalized (S (finals s)) (entry s) (meta s) (threads s) (log s)) i t Free)
  | Free => touch s (goto (mkS (rc s) Freed (finals s) (entry s) (meta s) (threads s) (log s)) i t Idle)
  | Try => touch s (goto s i t (if has_metadata (rc s) then TryFind else if count_of (rc s) =? 1 then TryCas (rc s) else Idle))
  | TryCas v =>
    touch s (if rc s =? v then Ok (put_t (put_rc s (v - count_of v)) i (mkT Fin (owned t - 1) (weak t))) else goto s i t Idle)
  | TryFind => find_meta s i t TryLock TryIns
  | TryIns => insert_meta s i t TryLock
  | TryLock => lock_meta s i t TryRead
  | TryRead => touch s (goto s i t (if count_of (rc s) =? 1 then TryCasM (rc s) else TryUnlock false))
  | TryCasM v =>
    touch s (if rc s =? v then Ok (put_t (put_rc s (v - count_of v)) i (mkT TryNull (owned t - 1) (weak t))) else goto s i t (TryUnlock false))
  | TryNull => touchm s (fun m => goto (put_meta s (mkM false (locked m) (mrc m) (mfreed m))) i t (TryUnlock true))
  | TryUnlock last => unlock_meta s i t (if last then Remove else Idle)
  | WFind => find_meta s i t WRet WIns
  | WIns => insert_meta s i t WRet
  | WRet => touchm s (fun m => Ok (put_t (put_meta s (mkM (target m) (locked m) (mrc m + 1) (mfreed m))) i (mkT Idle (owned t) (weak t + 1))))
  | SLock => lock_meta s i t SRead
  | SRead => touchm s (fun m => if target m then goto s i t SInc else goto (put_log s (ToNull (refs s))) i t (SUnlock false))
  | SInc => touch s (Ok (put_t (put_rc s (rc s + 1)) i (mkT (SUnlock true) (owned t + 1) (weak t))))
  | SUnlock got => do s <- unlock_meta s i t Idle; Ok (if got then put_log s (ToObject (alive s)) else s)
  end.
(** Thread [fst l] takes its next step; if it is between calls it makes the call
    [snd l]. *)
Definition step (s : state) (l : nat * call) : outcome state :=
  match nth_error (threads s) (fst l) with
  | Some t => step_thread s (fst l) t (snd l)
  | None => Ok s
  end.
Fixpoint run (s : state) (ls : list (nat * call)) : outcome state :=
  match ls with
  | [] => Ok s
  | l :: ls' => do s' <- step s l; run s' ls'
  end.
(** DKAllocObject, DKRuntime.c 511-547: the first of [n]+1 threads has the one
    reference to a new object. *)
Definition init (n : nat) : state := mkS 1 Alive 0 false None (mkT Idle 1 0 :: repeat (mkT Idle 0 0) n) [].
