(** Model of classes as objects: making, finding and releasing classes and their instances,
    Source/DKRuntime.c 367-620, DKRuntime+Reflection.c and DKRuntime+RefCount.c 50-119.  The
    names of classes are kept in the hash table of HashTable_Model.  Names have no NULs, so
    that two names are equal if their bytes are.  Interfaces, properties, selectors and weak
    references are left out here, and execution is sequential: the sections under the locks
    of the tables are not interleaved. *)
Require Import Coq.NArith.NArith Coq.Lists.List Coq.Arith.Arith Coq.Bool.Bool.
Require Import Verif.Base.
Require Verif.HashTable_Model.
Import ListNotations.

Definition text : Type := list N.
Definition text_eqb (a b : text) : bool := if list_eq_dec N.eq_dec a b then true else false.
Definition table : Type := HashTable_Model.table text nat.

(** struct DKClass, DKRuntime.h 832-853: the name, the superclass, and the options
    DKPreventSubclassing, DKAbstractBaseClass, DKDisableReferenceCounting and
    DKImmutableInstances, DKRuntime.h. *)
Record cls : Type := mkCls { cname : option text; csuper : option nat; prevent : bool; abstract : bool; uncounted : bool; immutable : bool }.
(** An object: its class, its count of references, whether they are counted, and for a class
    what is above.  An object whose count is zero has been freed. *)
Record cell : Type := mkCell { isa : nat; refs : nat; counted : bool; what : option cls }.
Record world : Type := mkW { heap : list cell; names : table }.

Definition live (o : cell) : bool := negb (counted o) || (0 <? refs o).
(** Reading an object. *)
Definition get (w : world) (i : nat) : outcome cell :=
  match nth_error (heap w) i with Some o => if live o then Ok o else UB | None => UB end.
Definition get_class (w : world) (i : nat) : outcome cls :=
  do o <- get w i; match what o with Some k => Ok k | None => UB end.
Definition put (w : world) (i : nat) (o : cell) : world := mkW (upd (heap w) i o) (names w).
Definition with_refs (o : cell) (n : nat) : cell := mkCell (isa o) n (counted o) (what o).

Section Names.
(** DKStringHash, DKString.c 815-827, of a string with these bytes. *)
Variable hash : text -> N.
Definition ht_insert := HashTable_Model.insert text nat hash text_eqb.
Definition ht_lookup := HashTable_Model.lookup text nat hash text_eqb.
Definition ht_remove := HashTable_Model.remove text nat hash text_eqb.

(** DKNameDatabaseInsertClass 118-132, of a class that is complete. *)
Definition insert_name (w : world) (n : option text) (i : nat) : outcome world :=
  match n with
  | None => Ok w
  | Some n => do r <- ht_insert (names w) n i HashTable_Model.InsertIfNotFound;
              if snd r then Ok (mkW (heap w) (fst r)) else Fatal
  end.
(** The search for a class without a name, DKGenericHashTable.c 268-330: the hash code of NULL
    is 0, and comparing a name with NULL reads the hash code of NULL, DKString.c 289. *)
Fixpoint null_loop (fuel : nat) (rs : list (HashTable_Model.row text nat)) (rc : N) (xi : N * N) : outcome unit :=
  match fuel with
  | O => NoFuel
  | S fuel' =>
    match HashTable_Model.row_at text nat rs (fst xi) with
    | None => UB
    | Some HashTable_Model.Empty => Ok tt
    | Some (HashTable_Model.Active _ _) => UB
    | Some HashTable_Model.Deleted => null_loop fuel' rs rc (HashTable_Model.probe_next rc xi)
    end
  end.
(** DKNameDatabaseRemoveClass 138-143, with DKGenericHashTableRemove 430-444. *)
Definition remove_name (w : world) (n : option text) : outcome world :=
  match n with
  | Some n => do t <- ht_remove (names w) n; Ok (mkW (heap w) t)
  | None =>
    if (0 <? HashTable_Model.activeCount (names w))%N then
      match HashTable_Model.rows (names w) with
      | None => UB
      | Some rs =>
        let rc := HashTable_Model.rowCount (names w) in
        if (rc =? 0)%N then UB else do _ <- null_loop (N.to_nat rc + 2) rs rc (0%N, 0%N); Ok w
      end
    else Ok w
  end.

(** The classes an object is an instance of: the loops of DKFinalize 678-690 and
    DKIsKindOfClass 296-311. *)
Fixpoint chain (fuel : nat) (w : world) (i : option nat) : outcome (list nat) :=
  match i with
  | None => Ok []
  | Some i =>
    match fuel with
    | O => NoFuel
    | S fuel' => do k <- get_class w i; do r <- chain fuel' w (csuper k); Ok (i :: r)
    end
  end.
Definition classes_of (w : world) (i : nat) : outcome (list nat) := chain (S (length (heap w))) w (Some i).

(** DKRetain, DKRuntime+RefCount.c 50-64. *)
Definition retain (w : world) (i : nat) : outcome world :=
  do o <- get w i; Ok (if counted o then put w i (with_refs o (S (refs o))) else w).
Definition retain_opt (w : world) (i : option nat) : outcome world := match i with None => Ok w | Some i => retain w i end.

(** DKRelease, DKRuntime+RefCount.c 72-119.  The last one finalizes the object, which for a
    class is DKClassFinalize, DKRuntime.c 476-503, and deallocates it, DKDeallocObject 553-585,
    which releases its class.  [fuel] bounds the depth. *)
Fixpoint release (fuel : nat) (w : world) (i : nat) : outcome world :=
  match fuel with
  | O => NoFuel
  | S fuel' =>
    do o <- get w i;
    if negb (counted o) then Ok w
    else if 1 <? refs o then Ok (put w i (with_refs o (refs o - 1)))
    else
      do _ <- classes_of w (isa o);
      let w := put w i (with_refs o 0) in
      do w <- match what o with
              | None => Ok w
              | Some k =>
                do w <- remove_name w (cname k);
                match csuper k with None => Ok w | Some s => release fuel' w s end
              end;
      release fuel' w (isa o)
  end.

(** DKAllocObject, DKRuntime.c 511-547, with DKInit 622-644, which goes through the same
    classes.  The size of the structure is left out. *)
Definition alloc (w : world) (c : nat) (k : option cls) : outcome (world * nat) :=
  do kc <- get_class w c;
  if abstract kc then Fatal
  else
    do w <- retain w c;
    do _ <- classes_of w c;
    Ok (mkW (heap w ++ [mkCell c 1 (negb (uncounted kc)) k]) (names w), length (heap w)).

(** The class DKClass is the second object: see [statics]. *)
Definition class_class : nat := 1.
(** DKNewClass, DKRuntime.c 439-470. *)
Definition new_class (w : world) (n : option text) (s : option nat) (pre abs unc imm : bool) : outcome (world * nat) :=
  do p <- match s with None => Ok false | Some s => do k <- get_class w s; Ok (prevent k) end;
  if p then Fatal
  else
    do w <- retain_opt w s;
    do r <- alloc w class_class (Some (mkCls n s pre abs unc imm));
    do w <- insert_name (fst r) n (snd r);
    Ok (w, snd r).

(** DKClassFromString 330-352. *)
Definition class_from_string (w : world) (n : text) : outcome (option nat) :=
  do r <- ht_lookup (names w) n; Ok (option_map snd r).
(** DKGetClassName 224-239; DKRootClass is the first object. *)
Definition class_name (w : world) (i : nat) : outcome (option text) :=
  do o <- get w i;
  do k <- get_class w (if (isa o =? class_class) || (isa o =? 0) then i else isa o);
  Ok (cname k).
(** DKGetClass 209-218, DKGetSuperclass 245-254. *)
Definition class_of (w : world) (i : nat) : outcome nat := do o <- get w i; Ok (isa o).
Definition superclass_of (w : world) (i : nat) : outcome (option nat) := do o <- get w i; do k <- get_class w (isa o); Ok (csuper k).
(** DKIsMemberOfClass 260-269, DKIsKindOfClass 275-289, DKIsSubclass 295-307: whether the loop
    meets the class. *)
Definition is_member (w : world) (i c : nat) : outcome bool := do o <- get w i; Ok (isa o =? c).
Fixpoint meets (fuel : nat) (w : world) (i : option nat) (c : nat) : outcome bool :=
  match i with
  | None => Ok false
  | Some i =>
    if i =? c then Ok true
    else match fuel with O => NoFuel | S fuel' => do k <- get_class w i; meets fuel' w (csuper k) c end
  end.
Definition is_kind (w : world) (i c : nat) : outcome bool := do o <- get w i; meets (length (heap w)) w (Some (isa o)) c.
Definition is_subclass (w : world) (i c : nat) : outcome bool := do _ <- get_class w i; meets (length (heap w)) w (Some i) c.
(** DKIsMutable 193-203. *)
Definition is_mutable (w : world) (i : nat) : outcome bool := do o <- get w i; do k <- get_class w (isa o); Ok (negb (immutable k)).

(** DKRuntimeInit, DKRuntime.c 367-430: the classes initialized with InitRootClass 316-341, then
    DKString and DKConstantString, DKString.c 103 and 192, which are made without names and are
    held by their accessors. *)
Definition static (s : option nat) (pre abs unc : bool) : cell := mkCell 0 1 false (Some (mkCls None s pre abs unc false)).
Definition statics : list cell :=
  [ static None true true true;
    static None true false false;
    static None true false false;
    static None false false false;
    static (Some 3) true false false;
    static None true false false;
    static None false false false;
    static None false false false;
    mkCell 1 2 true (Some (mkCls None (Some 6) false false false true));
    mkCell 1 1 true (Some (mkCls None (Some 8) true false true true)) ].
(** SetRootClassName 347-351. *)
Definition set_name (w : world) (i : nat) (n : text) : outcome world :=
  do o <- get w i;
  do k <- get_class w i;
  insert_name (put w i (mkCell (isa o) (refs o) (counted o) (Some (mkCls (Some n) (csuper k) (prevent k) (abstract k) (uncounted k) (immutable k))))) (Some n) i.
Fixpoint set_names (w : world) (l : list (nat * text)) : outcome world :=
  match l with [] => Ok w | (i, n) :: l' => do w <- set_name w i n; set_names w l' end.
Local Open Scope N_scope.
(** The names, DKRuntime.c 401-408 and 419-420. *)
Definition static_names : list (nat * text) :=
  [ (0%nat, [68; 75; 82; 111; 111; 116; 67; 108; 97; 115; 115]);
    (1%nat, [68; 75; 67; 108; 97; 115; 115]);
    (2%nat, [68; 75; 83; 101; 108; 101; 99; 116; 111; 114]);
    (3%nat, [68; 75; 73; 110; 116; 101; 114; 102; 97; 99; 101]);
    (4%nat, [68; 75; 77; 115; 103; 72; 97; 110; 100; 108; 101; 114]);
    (6%nat, [68; 75; 79; 98; 106; 101; 99; 116]);
    (5%nat, [68; 75; 77; 101; 116; 97; 100; 97; 116; 97]);
    (7%nat, [68; 75; 90; 111; 109; 98; 105; 101]);
    (8%nat, [68; 75; 83; 116; 114; 105; 110; 103]);
    (9%nat, [68; 75; 67; 111; 110; 115; 116; 97; 110; 116; 83; 116; 114; 105; 110; 103]) ].
Local Close Scope N_scope.
Definition runtime_init : outcome world := set_names (mkW statics HashTable_Model.table_init) static_names.

(** The calls of a client. *)
Inductive op : Type :=
| NewClass (n : option text) (s : option nat) (pre abs unc imm : bool)
| Alloc (c : nat)
| Retain (i : nat)
| Release (i : nat).
Definition step (w : world) (o : op) : outcome (world * option nat) :=
  match o with
  | NewClass n s pre abs unc imm => do r <- new_class w n s pre abs unc imm; Ok (fst r, Some (snd r))
  | Alloc c => do r <- alloc w c None; Ok (fst r, Some (snd r))
  | Retain i => do w <- retain w i; Ok (w, None)
  | Release i => do w <- release (S (length (heap w))) w i; Ok (w, None)
  end.
End Names.
