(** Model of classes, selectors and interfaces: Source/DKRuntime.c 436-470 and 615-690,
    Source/DKRuntime+Interfaces.c 137-697.

    Selectors, interfaces and classes are numbered in the order they are created and are
    never freed.  The table of a class is a list of interfaces with different selectors;
    in the code it is the hash table of HashTable_Model, which is a finite map (C01).
    The pointer constants for missing methods are [None].  Execution is sequential.
    Names, the name database, properties and reference counts are left out. *)
Require Import Coq.Lists.List Coq.Arith.Arith Coq.Bool.Bool.
Require Import Verif.Base.
Import ListNotations.

(** DKInterface, Source/DKRuntime.h 419-426. *)
Record iface : Type := mkI { sel : nat; methods : list (option nat) }.
(** struct DKInterfaceTable, Source/DKRuntime.h 820-826. *)
Record table : Type := mkTab { cache : list (option nat); rows : list nat }.
(** struct DKClass, Source/DKRuntime.h 832-853.  [init] and [finalize] say whether the class
    has such a method. *)
Record class : Type := mkC { super : option nat; structSize : nat; preventSub : bool; noImplicit : bool; has_init : bool; has_finalize : bool; instT : table; classT : table }.
(** [lines]: the cache lines of the selectors; [next_line] is NextCacheLine. *)
Record rt : Type := mkR { lines : list nat; next_line : nat; ifaces : list iface; classes : list class }.

Definition sel_of (is : list iface) (i : nat) : option nat := option_map sel (nth_error is i).
Definition sel_eq (is : list iface) (s i : nat) : bool := match sel_of is i with Some s' => s =? s' | None => false end.
(** DKGenericHashTableFind and DKGenericHashTableInsert with the callbacks 84-128. *)
Definition row_find (is : list iface) (rs : list nat) (s : nat) : option nat := find (sel_eq is s) rs.
Definition row_insert (is : list iface) (rs : list nat) (s i : nat) : list nat :=
  match row_find is rs s with
  | Some _ => map (fun r => if sel_eq is s r then i else r) rs
  | None => rs ++ [i]
  end.
(** DKInterfaceTableInit 141-167: 16 of 32 cache lines are copied, and all rows. *)
Definition table_init (inherited : option table) : table :=
  match inherited with
  | None => mkTab (repeat None 32) []
  | Some t => mkTab (firstn 16 (cache t) ++ repeat None 16) (rows t)
  end.
(** DKInterfaceTableInsert 182-205. *)
Definition table_insert (r : rt) (t : table) (i : nat) : outcome table :=
  match nth_error (ifaces r) i with
  | Some f =>
    match nth_error (lines r) (sel f) with
    | Some l => if l <? length (cache t) then Ok (mkTab (upd (cache t) l (Some i)) (row_insert (ifaces r) (rows t) (sel f) i)) else UB
    | None => UB
    end
  | None => UB
  end.
(** DKInterfaceTableFind 211-252: the table, with its cache, and what was found. *)
Definition table_find (r : rt) (t : table) (s : nat) : outcome (table * option nat) :=
  match nth_error (lines r) s with
  | Some l =>
    match nth_error (cache t) l with
    | Some c =>
      let hit := match c with Some i => if sel_eq (ifaces r) s i then Some i else None | None => None end in
      match hit with
      | Some i => Ok (t, Some i)
      | None =>
        match row_find (ifaces r) (rows t) s with
        | Some i => Ok (mkTab (upd (cache t) l (Some i)) (rows t), Some i)
        | None => Ok (t, None)
        end
      end
    | None => UB
    end
  | None => UB
  end.

Definition put_class (r : rt) (c : nat) (k : class) : rt := mkR (lines r) (next_line r) (ifaces r) (upd (classes r) c k).
(** Which of the tables of a class is meant. *)
Definition get_table (k : class) (inst : bool) : table := if inst then instT k else classT k.
Definition set_table (k : class) (inst : bool) (t : table) : class :=
  if inst then mkC (super k) (structSize k) (preventSub k) (noImplicit k) (has_init k) (has_finalize k) t (classT k)
  else mkC (super k) (structSize k) (preventSub k) (noImplicit k) (has_init k) (has_finalize k) (instT k) t.
(** A lookup in one of the tables of class [c]. *)
Definition lookup (r : rt) (c : nat) (inst : bool) (s : nat) : outcome (rt * option nat) :=
  match nth_error (classes r) c with
  | Some k => do p <- table_find r (get_table k inst) s; Ok (put_class r c (set_table k inst (fst p)), snd p)
  | None => UB
  end.
Definition insert (r : rt) (c : nat) (inst : bool) (i : nat) : outcome rt :=
  match nth_error (classes r) c with
  | Some k => do t <- table_insert r (get_table k inst) i; Ok (put_class r c (set_table k inst t))
  | None => UB
  end.
(** The loop of DKInterfaceInheritMethods 350-354. *)
Fixpoint fill (dst src : list (option nat)) : list (option nat) :=
  match dst, src with
  | d :: dst', s :: src' => (match d with Some m => Some m | None => s end) :: fill dst' src'
  | _, _ => dst
  end.
(** DKInterfaceInheritMethods 337-357; a class without superclass makes it read from NULL. *)
Definition inherit (r : rt) (i : nat) (c : option nat) : outcome rt :=
  match c, nth_error (ifaces r) i with
  | Some c, Some f =>
    do p <- lookup r c true (sel f);
    match snd p with
    | None => Ok (fst p)
    | Some j =>
      match nth_error (ifaces r) j with
      | Some g => if length (methods f) =? length (methods g)
                  then Ok (mkR (lines (fst p)) (next_line (fst p)) (upd (ifaces (fst p)) i (mkI (sel f) (fill (methods f) (methods g)))) (classes (fst p)))
                  else Fatal
      | None => UB
      end
    end
  | _, _ => UB
  end.

Inductive op : Type :=
| NewSelector                                             (* DKAllocSelector 266-283 *)
| NewFastSelector (line : nat)                            (* DKThreadSafeFastSelectorInit, Source/DKRuntime.h 375-381 *)
| NewInterface (s : nat) (ms : list (option nat))         (* DKNewInterface 305-326, and storing methods *)
| NewRootClass (size : nat) (prev fin : bool) (ci ii : list nat)  (* InitRootClass, Source/DKRuntime.c 316-341, and 388-393, for a class without superclass
                                                             (DKMsgHandlerClass, which has one, is left out) *)
| NewClass (sup : nat) (size : nat) (prev noimp ini fin : bool)  (* DKNewClass, Source/DKRuntime.c 439-470 *)
| Install (c i : nat)                                     (* DKInstallInterface 363-367 *)
| InstallOnClass (c i : nat)                              (* DKInstallClassInterface 383-386 *)
| InstallMsg (c : nat) (inst : bool) (s m : nat)          (* DKInstallMsgHandler, DKInstallClassMsgHandler 479-508 *)
| Get (c : nat) (inst : bool) (s : nat)                   (* DKGetInterface, DKGetClassInterface 398-433 *)
| Query (c : nat) (inst : bool) (s : nat)                 (* DKQueryInterface, DKQueryClassInterface 439-469 *)
| GetMsg (c : nat) (inst : bool) (s dyn resp : nat) (answer : nat -> bool)   (* DKGetMsgHandler, DKGetClassMsgHandler 578-613 *)
| QueryMsg (c : nat) (inst : bool) (s dyn resp : nat) (answer : nat -> bool)  (* DKQueryMsgHandler, DKQueryClassMsgHandler 643-697 *)
| Methods (i : nat).                                      (* reading the methods of an interface *)
(** What a call returns. *)
Inductive result : Type := Nothing | Found (i : option nat) | Handler (i : option nat) | The (ms : list (option nat)).
(** Rows of the tables of root classes are inserted directly (294-309 of Source/DKRuntime.c). *)
Definition add_row (is : list iface) (rs : list nat) (i : nat) : list nat := match sel_of is i with Some s => row_insert is rs s i | None => rs end.
Definition valid_iface (r : rt) (i : nat) : bool := i <? length (ifaces r).
(** DKObjectRespondsToDynamicMsg 516-538, DKGetDynamicInstanceMsgHandler and the like 544-568
    and 621-641, for objects and classes that are not NULL: [dyn] and [resp] are the
    selectors DKDynamicMsgHandler and DKRespondsToDynamicMsg; [answer] is what the handler
    for the latter says. *)
Definition find_msg (r : rt) (c : nat) (inst : bool) (s dyn resp : nat) (answer : nat -> bool) : outcome (rt * option nat) :=
  do p <- lookup r c inst s;
  match snd p with
  | Some i => Ok p
  | None =>
    do q <- lookup (fst p) c inst resp;
    match snd q with
    | Some h => if answer h then lookup (fst q) c inst dyn else Ok (fst q, None)
    | None => Ok (fst q, None)
    end
  end.
Definition exec (r : rt) (o : op) : outcome (rt * result) :=
  match o with
  | NewSelector => Ok (mkR (lines r ++ [16 + next_line r mod 16]) (S (next_line r)) (ifaces r) (classes r), Nothing)
  | NewFastSelector l => if l <? 16 then Ok (mkR (lines r ++ [l]) (S (next_line r)) (ifaces r) (classes r), Nothing) else UB
  | NewInterface s ms => if s <? length (lines r) then Ok (mkR (lines r) (next_line r) (ifaces r ++ [mkI s ms]) (classes r), Nothing) else UB
  | NewRootClass size prev fin ci ii =>
    if forallb (valid_iface r) (ci ++ ii) then
      let tab := fun is => mkTab (cache (table_init None)) (fold_left (add_row (ifaces r)) is []) in
      Ok (mkR (lines r) (next_line r) (ifaces r) (classes r ++ [mkC None size prev false false fin (tab ii) (tab ci)]), Nothing)
    else UB
  | NewClass sup size prev noimp ini fin =>
    match nth_error (classes r) sup with
    | Some k =>
      if preventSub k then Fatal
      else Ok (mkR (lines r) (next_line r) (ifaces r)
                   (classes r ++ [mkC (Some sup) (if size =? 0 then structSize k else size) prev noimp ini fin (table_init (Some (instT k))) (table_init (Some (classT k)))]), Nothing)
    | None => UB
    end
  | Install c i =>
    match nth_error (classes r) c with
    | Some k => do r1 <- inherit r i (super k); do r2 <- insert r1 c true i; Ok (r2, Nothing)
    | None => UB
    end
  | InstallOnClass c i => do r' <- insert r c false i; Ok (r', Nothing)
  | InstallMsg c inst s m =>
    if s <? length (lines r) then
      do r' <- insert (mkR (lines r) (next_line r) (ifaces r ++ [mkI s [Some m]]) (classes r)) c inst (length (ifaces r)); Ok (r', Nothing)
    else UB
  | Get c inst s => do p <- lookup r c inst s; match snd p with Some i => Ok (fst p, Found (Some i)) | None => Fatal end
  | Query c inst s => do p <- lookup r c inst s; Ok (fst p, Found (snd p))
  | GetMsg c inst s dyn resp answer => do p <- find_msg r c inst s dyn resp answer; Ok (fst p, Handler (snd p))
  | QueryMsg c inst s dyn resp answer => do p <- find_msg r c inst s dyn resp answer; Ok (fst p, Handler (snd p))
  | Methods i => match nth_error (ifaces r) i with Some f => Ok (r, The (methods f)) | None => UB end
  end.
Fixpoint execs (r : rt) (os : list op) : outcome (rt * list result) :=
  match os with
  | [] => Ok (r, [])
  | o :: os' => do p <- exec r o; do q <- execs (fst p) os'; Ok (fst q, snd p :: snd q)
  end.
Definition start : rt := mkR [] 0 [] [].
(** DKGetStaticInterfaceFastUnsafe, Source/DKRuntime.h 469-479. *)
Definition fast (r : rt) (c : nat) (line : nat) : outcome (option nat) :=
  match nth_error (classes r) c with
  | Some k => match nth_error (cache (instT k)) line with Some x => Ok x | None => UB end
  | None => UB
  end.

(** ** Initialisation and finalization, Source/DKRuntime.c 615-690 *)
(** What happens to an object: the initialiser or the finalizer of a class is executed. *)
Inductive event : Type := Inited (c : nat) | Finalized (c : nat).
(** DKInit 622-644 and DKSuperInit 650-672 from class [c] on.  The initialisers follow the
    convention of the library (for instance Source/DKPair.c 75-86): they first call
    DKSuperInit with the superclass, and do their own work, which may fail, only if that
    has succeeded.  [ok] says for which classes it succeeds.  Superclasses have smaller
    numbers; [fuel] bounds the number of classes that are looked at. *)
Fixpoint init_from (fuel : nat) (ks : list class) (ok : nat -> bool) (c : option nat) (log : list event) : outcome (list event * bool) :=
  match fuel, c with
  | _, None => Ok (log, true)
  | O, Some _ => NoFuel
  | S fuel', Some c =>
    match nth_error ks c with
    | None => UB
    | Some k =>
      if has_init k then
        do p <- init_from fuel' ks ok (super k) log;
        if snd p then Ok (fst p ++ [Inited c], ok c) else Ok p
      else if noImplicit k then Fatal
      else init_from fuel' ks ok (super k) log
    end
  end.
(** DKFinalize 678-690. *)
Fixpoint finalize_from (fuel : nat) (ks : list class) (c : option nat) (log : list event) : outcome (list event) :=
  match fuel, c with
  | _, None => Ok log
  | O, Some _ => NoFuel
  | S fuel', Some c =>
    match nth_error ks c with
    | None => UB
    | Some k => finalize_from fuel' ks (super k) (if has_finalize k then log ++ [Finalized c] else log)
    end
  end.
Definition init_object (r : rt) (ok : nat -> bool) (c : nat) : outcome (list event * bool) := init_from (length (classes r)) (classes r) ok (Some c) [].
Definition finalize_object (r : rt) (c : nat) : outcome (list event) := finalize_from (length (classes r)) (classes r) (Some c) [].
