(** Model of thread contexts: the dictionary, the thread object and the autorelease pools that belong to a
    thread, Source/DKThread.c 68-236, 324-367, 420-461, 467-492 and 560-606 (POSIX branches).

    Any number of threads take turns; what one label stands for is one call.  The pools of a context are
    those of Pool_Model.  Contexts are numbered; [Freed] are those that have been freed or whose stack frame
    is gone.  The dictionary of a thread is the list of its entries (it is a hash table, C01); nobody else
    keeps it.  [fin x] are the objects that are autoreleased while [x] is released.  Thread objects are
    numbered as they are made; what their finalizer releases is left out.
    [taken] has a reference for every DKRetain by a dictionary and every DKAutorelease, [released] one for
    every DKRelease by a dictionary or a pool. *)
Require Import Coq.Lists.List Coq.Bool.Bool Coq.Arith.Arith.
Require Import Verif.Base Verif.Pool_Model.
Import ListNotations.

Section Contexts.
  Variables key obj : Type.
  Variable keq : key -> key -> bool.
  (** The same reference. *)
  Variable same : obj -> obj -> bool.
  Variable fin : obj -> list obj.
  Definition rel (c : unit) (x : obj) : unit * list (act obj) := (c, map Auto (fin x)).
  Definition entries : Type := list (key * obj).

  (** struct DKThreadContext, DKThread.h 109-122; the option DKThreadContextAllocated makes no difference
      between memory that is freed and a stack frame that is gone. *)
  Record ctx : Type := mkC { thr : option nat; dict : option entries; pool : pools unit obj }.
  Inductive cell : Type := Live (c : ctx) | Freed.
  (** The main thread, one made by DKDetachNewThread with its thread object, or one made by the platform. *)
  Inductive maker : Type := Main | Duck (o : nat) | Other.
  Inductive phase : Type := Waits | Runs | Gone.
  (** [tls] is the value of DKThreadContextKey in the thread. *)
  Record thread : Type := mkT { tls : option nat; made : maker; phase_of : phase }.
  (** [refs] are the reference counts of the thread objects. *)
  Record state : Type := mkS { ctxs : list cell; threads : list thread; refs : list nat; taken : list obj; released : list obj }.

  (** DKThreadContextInit, DKThread.c 68-83. *)
  Definition fresh (o : option nat) : ctx := mkC o None (start tt).
  (** DKMainThreadContextInit 196-211, and the object of the main thread, DKRuntime.c 421. *)
  Definition init : state := mkS [Live (fresh (Some 0))] [mkT (Some 0) Main Runs] [1] [] [].

  Definition set_ctx (s : state) (i : nat) (c : cell) : state := mkS (upd (ctxs s) i c) (threads s) (refs s) (taken s) (released s).
  Definition add_ctx (s : state) (c : ctx) : state := mkS (ctxs s ++ [Live c]) (threads s) (refs s) (taken s) (released s).
  Definition set_thread (s : state) (t : nat) (x : thread) : state := mkS (ctxs s) (upd (threads s) t x) (refs s) (taken s) (released s).
  Definition set_refs (s : state) (r : list nat) : state := mkS (ctxs s) (threads s) r (taken s) (released s).
  Definition log (s : state) (tk re : list obj) : state := mkS (ctxs s) (threads s) (refs s) (taken s ++ tk) (released s ++ re).

  (** DKGetCurrentThreadContext, 177-190, and a use of the result: NULL and freed contexts must not be
      used. *)
  Definition current (s : state) (t : nat) : outcome (nat * ctx) :=
    match nth_error (threads s) t with
    | Some (mkT (Some i) _ _) => match nth_error (ctxs s) i with Some (Live c) => Ok (i, c) | _ => UB end
    | _ => UB
    end.
  (** DKSetCurrentThreadContext, 144-154. *)
  Definition set_current (s : state) (t : nat) (i : option nat) : state :=
    match nth_error (threads s) t with Some x => set_thread s t (mkT i (made x) (phase_of x)) | None => s end.

  (** The pool calls of a thread: the releases are moved to the log of all threads. *)
  Definition forget (p : pools unit obj) : pools unit obj := mkP (objs p) (cap p) (gen p) (marks p) (user p) [].
  Definition pool_call (fuel : nat) (s : state) (t : nat) (a : act obj) : outcome state :=
    do ic <- current s t;
    do p <- call rel fuel (pool (snd ic)) a;
    let gone := Pool_Model.released p in
    Ok (log (set_ctx s (fst ic) (Live (mkC (thr (snd ic)) (dict (snd ic)) (forget p))))
            (match a with Auto x => [x] | _ => [] end ++ concat (map fin gone)) gone).

  (** DKRelease of an object by a dictionary: what its finalizer autoreleases goes to the pool of the
      current context. *)
  Fixpoint autoreleases (s : state) (t : nat) (l : list obj) : outcome state :=
    match l with [] => Ok s | x :: l' => do s' <- pool_call 1 s t (Auto x); autoreleases s' t l' end.
  Definition release (s : state) (t : nat) (x : obj) : outcome state := autoreleases (log s [] [x]) t (fin x).
  Fixpoint release_all (s : state) (t : nat) (l : list obj) : outcome state :=
    match l with [] => Ok s | x :: l' => do s' <- release s t x; release_all s' t l' end.

  (** Release of a thread object; one without references must not be released. *)
  Definition release_thread (s : state) (o : nat) : outcome state :=
    match nth_error (refs s) o with Some (S n) => Ok (set_refs s (upd (refs s) o n)) | _ => UB end.
  Definition retain_thread (s : state) (o : nat) : outcome state :=
    match nth_error (refs s) o with Some (S n) => Ok (set_refs s (upd (refs s) o (S (S n)))) | _ => UB end.

  (** DKThreadContextFinalize, 89-97, of context [i] by thread [t], and the end of the memory of the
      context (DKFreeThreadContext, 116-125, or the end of the stack frame). *)
  Definition finalize (s : state) (t i : nat) : outcome state :=
    match nth_error (ctxs s) i with
    | Some (Live c) =>
      do s <- match thr c with Some o => release_thread s o | None => Ok s end;
      do s <- release_all s t (match dict c with Some m => map snd m | None => [] end);
      match nth_error (ctxs s) i with
      | Some (Live c') => match marks (pool c') with [] => Ok (set_ctx s i Freed) | _ :: _ => Fatal end
      | _ => UB
      end
    | _ => UB
    end.

  (** pthread_exit or the return of a thread's function: the value of the key is set to NULL and, if it was
      not NULL, given to DKThreadContextDestructor, 132-137. *)
  Definition thread_ends (s : state) (t : nat) : outcome state :=
    match nth_error (threads s) t with
    | Some x =>
      let s := set_thread s t (mkT None (made x) Gone) in
      match tls x with Some i => finalize s t i | None => Ok s end
    | None => Ok s
    end.

  Fixpoint lookup (m : entries) (k : key) : option obj := match m with [] => None | (k', x) :: m' => if keq k' k then Some x else lookup m' k end.
  Fixpoint replace (m : entries) (k : key) (v : obj) : entries := match m with [] => [] | (k', x) :: m' => if keq k' k then (k', v) :: m' else (k', x) :: replace m' k v end.
  Fixpoint remove (m : entries) (k : key) : entries := match m with [] => [] | (k', x) :: m' => if keq k' k then m' else (k', x) :: remove m' k end.
  Definition entries_of (c : ctx) : entries := match dict c with Some m => m | None => [] end.

  Inductive op : Type :=
  | New                                (* DKDetachNewThread *)
  | Spawn                              (* a thread made by the platform *)
  | Begin                              (* the new thread enters DKThreadExec *)
  | Alloc                              (* DKSetCurrentThreadContext( DKAllocThreadContext() ) *)
  | Free (unset : bool)                (* DKFreeThreadContext of the current context, after setting it to NULL or not *)
  | Current | IsMain
  | Put (k : key) (v : obj) | Get (k : key) | Remove (k : key)    (* on DKGetCurrentThreadDictionary() *)
  | Pool (a : act obj)
  | Return                             (* the thread's function returns *)
  | Exit.                              (* DKThreadExit *)
  Inductive answer : Type := Nothing | AThread (o : nat) | ABool (b : bool) | AObject (x : option obj).

  (** DKThreadGetCurrentThread, 324-342. *)
  Definition current_thread (s : state) (t : nat) : outcome (state * nat) :=
    do ic <- current s t;
    match thr (snd ic) with
    | Some o => Ok (s, o)
    | None => let o := length (refs s) in
              Ok (set_refs (set_ctx s (fst ic) (Live (mkC (Some o) (dict (snd ic)) (pool (snd ic))))) (refs s ++ [1]), o)
    end.

  Definition act_of (fuel : nat) (s : state) (t : nat) (x : thread) (o : op) : outcome (state * answer) :=
    match o with
    (** DKDetachNewThread, 362-367: initialised with a reference, one more for the thread, 481, and one less
        for the creator.  The thread waits to be scheduled. *)
    | New => Ok (mkS (ctxs s) (threads s ++ [mkT None (Duck (length (refs s))) Waits]) (refs s ++ [1]) (taken s) (released s), Nothing)
    | Spawn => Ok (mkS (ctxs s) (threads s ++ [mkT None Other Runs]) (refs s) (taken s) (released s), Nothing)
    | Begin => Ok (s, Nothing)
    (** DKAllocThreadContext 103-110. *)
    | Alloc => Ok (set_current (add_ctx s (fresh None)) t (Some (length (ctxs s))), Nothing)
    (** DKFreeThreadContext 116-125. *)
    | Free unset =>
      match tls x with
      | None => Ok (s, Nothing)
      | Some i => do s' <- finalize (if unset then set_current s t None else s) t i; Ok (s', Nothing)
      end
    | Current => do r <- current_thread s t; Ok (fst r, AThread (snd r))
    (** DKThreadIsMainThread, 597-605, of NULL. *)
    | IsMain =>
      do r <- current_thread s t;
      match nth_error (ctxs (fst r)) 0 with
      | Some (Live c) => Ok (fst r, ABool match thr c with Some o => snd r =? o | None => false end)
      | _ => UB
      end
    (** DKGetCurrentThreadDictionary, 228-236; DKDictionarySetObject: RowInit and RowUpdate,
        DKHashTable.c 261-284.  There the object replaced is released just before the row is
        written. *)
    | Put k v =>
      do ic <- current s t;
      let m := entries_of (snd ic) in
      match lookup m k with
      | None => Ok (log (set_ctx s (fst ic) (Live (mkC (thr (snd ic)) (Some (m ++ [(k, v)])) (pool (snd ic))))) [v] [], Nothing)
      | Some w =>
        if same w v then Ok (s, Nothing)
        else do s' <- release (log (set_ctx s (fst ic) (Live (mkC (thr (snd ic)) (Some (replace m k v)) (pool (snd ic))))) [v] []) t w; Ok (s', Nothing)
      end
    | Get k => do ic <- current s t; let m := entries_of (snd ic) in Ok (set_ctx s (fst ic) (Live (mkC (thr (snd ic)) (Some m) (pool (snd ic)))), AObject (lookup m k))
    (** DKDictionaryRemoveObject: RowDelete, DKHashTable.c 286-295. *)
    | Remove k =>
      do ic <- current s t;
      let m := entries_of (snd ic) in
      do s' <- match lookup m k with
               | None => Ok s
               | Some w => release (set_ctx s (fst ic) (Live (mkC (thr (snd ic)) (Some (remove m k)) (pool (snd ic))))) t w
               end; Ok (s', Nothing)
    | Pool a => do s' <- pool_call fuel s t a; Ok (s', Nothing)
    (** DKThreadExec, 445-454; the process ends with the main thread. *)
    | Return =>
      match made x with
      | Main => Ok (s, Nothing)
      | Duck o =>
        do s <- pool_call fuel s t Pop;
        do s <- match tls x with Some i => finalize (set_current s t None) t i | None => UB end;
        do s <- release_thread s o;
        do s <- thread_ends s t; Ok (s, Nothing)
      | Other => do s <- thread_ends s t; Ok (s, Nothing)
      end
    (** DKThreadExit 560-573. *)
    | Exit =>
      match made x with
      | Main => Ok (s, Nothing)
      | _ => do r <- current_thread s t; do s <- thread_ends (fst r) t; Ok (s, Nothing)
      end
    end.

  (** DKThreadExec, 424-437: retains the thread object for its context, which is made on the stack, and
      pushes a pool. *)
  Definition begins (fuel : nat) (s : state) (t o : nat) : outcome state :=
    do s <- retain_thread s o;
    let i := length (ctxs s) in
    let s := add_ctx s (fresh (Some o)) in
    pool_call fuel (set_thread s t (mkT (Some i) (Duck o) Runs)) t Push.

  (** Threads that are not running make no calls. *)
  Definition step (fuel : nat) (s : state) (l : nat * op) : outcome (state * answer) :=
    match nth_error (threads s) (fst l) with
    | Some x =>
      match phase_of x, made x, snd l with
      | Runs, _, o => act_of fuel s (fst l) x o
      | Waits, Duck o, Begin => do s <- begins fuel s (fst l) o; Ok (s, Nothing)
      | _, _, _ => Ok (s, Nothing)
      end
    | None => Ok (s, Nothing)
    end.
  Fixpoint run (fuel : nat) (s : state) (ls : list (nat * op)) : outcome (state * list (nat * answer)) :=
    match ls with
    | [] => Ok (s, [])
    | l :: ls' => do r <- step fuel s l; do r' <- run fuel (fst r) ls'; Ok (fst r', (fst l, snd r) :: snd r')
    end.
End Contexts.
Arguments Live {key obj}. Arguments Freed {key obj}. Arguments mkC {key obj}. Arguments thr {key obj}. Arguments dict {key obj}. Arguments pool {key obj}.
Arguments mkS {key obj}. Arguments ctxs {key obj}. Arguments threads {key obj}. Arguments refs {key obj}. Arguments taken {key obj}. Arguments released {key obj}.
Arguments New {key obj}. Arguments Spawn {key obj}. Arguments Begin {key obj}. Arguments Alloc {key obj}. Arguments Free {key obj}. Arguments Current {key obj}. Arguments IsMain {key obj}.
Arguments Put {key obj}. Arguments Get {key obj}. Arguments Remove {key obj}. Arguments Pool {key obj}. Arguments Return {key obj}. Arguments Exit {key obj}.
Arguments Nothing {obj}. Arguments AThread {obj}. Arguments ABool {obj}. Arguments AObject {obj}.
Arguments set_ctx {key obj}. Arguments add_ctx {key obj}. Arguments set_thread {key obj}. Arguments set_refs {key obj}. Arguments log {key obj}. Arguments current {key obj}. Arguments set_current {key obj}.
Arguments forget {obj}. Arguments entries_of {key obj}. Arguments fresh {key obj}. Arguments init {key obj}. Arguments release_thread {key obj}. Arguments retain_thread {key obj}. Arguments current_thread {key obj}.
