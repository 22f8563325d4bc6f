(** Model of string objects with their cached hash codes, DKString.c, and of the
    table of constant strings.

    The world is a list of objects; an object's address is its position.  Address
    0 is the constant string "" that initialisers of immutable strings return for
    empty contents. *)
Require Import Coq.NArith.NArith Coq.Lists.List Coq.Bool.Bool Coq.Arith.Arith.
Require Import Verif.Base Verif.String_Model.
Require Verif.HashTable_Model.
Import ListNotations.
Local Open Scope N_scope.

(** struct DKString, DKString.c 52-60: the bytes, the cached hash code and
    whether the class is DKMutableString.  The stream cursor plays no part. *)
Record sobj : Type := mkS { chars : bytes; hcode : N; mutable : bool }.
Definition world : Type := list sobj.
(** The program start: only the constant string "". *)
Definition start : world := [mkS [] 0 false].
Definition get (w : world) (a : nat) : outcome sobj :=
  match nth_error w a with Some o => Ok o | None => UB end.

(** UpdateHash, DKString.c 270-277. *)
Definition update_hash (w : world) (a : nat) : outcome world :=
  do o <- get w a;
  if hcode o =? 0 then
    if (0 <? length (chars o))%nat then do h <- strhash (sto (chars o)); Ok (upd w a (mkS (chars o) h (mutable o)))
    else Ok w
  else Ok w.

(** DKStringHash, DKString.c 815-827. *)
Definition hash_op (w : world) (a : nat) : outcome (world * N) :=
  do w' <- update_hash w a; do o <- get w' a; Ok (w', hcode o).

(** TestEquality, DKString.c 283-295, called by DKStringEqual and
    DKStringEqualToString, 715-724 and 753-764. *)
Definition equal_op (w : world) (a b : nat) : outcome (world * bool) :=
  if (a =? b)%nat then Ok (w, true)
  else
    do w1 <- update_hash w a;
    do w2 <- update_hash w1 b;
    do x <- get w2 a;
    do y <- get w2 b;
    if negb (hcode x =? hcode y) then Ok (w2, false)
    else do e <- strcmp_eq (sto (chars x)) (sto (chars y)); Ok (w2, e).

(** InitString, DKString.c 344-373, with CopySubstring, 321-338: the address of
    the initialised string. *)
Definition init_string (w : world) (m : bool) (bs : bytes) : world * nat :=
  if m then (w ++ [mkS bs 0 true], length w)
  else if (length bs =? 0)%nat then (w, 0%nat)
  else (w ++ [mkS bs 0 false], length w).

(** DKStringInitWithString, DKString.c 449-469, hence DKStringCopy and
    DKStringMutableCopy, 697-709: the cached hash code is copied. *)
Definition copy_op (w : world) (m : bool) (a : nat) : outcome (world * nat) :=
  do o <- get w a;
  let '(w', c) := init_string w m (chars o) in
  do n <- get w' c;
  Ok (upd w' c (mkS (chars n) (hcode o) (mutable n)), c).

(** ReplaceBytes, DKString.c 311-315, as called by the setters, appenders,
    DKStringReplaceSubstring, DKStringDeleteSubstring, the path functions and
    DKStringWrite (1472-2397), all of which check the class and the range. *)
Definition edit_op (w : world) (a loc len : nat) (bs : bytes) : outcome world :=
  do o <- get w a;
  if mutable o && (loc + len <=? length (chars o))%nat
  then Ok (upd w a (mkS (firstn loc (chars o) ++ bs ++ skipn (loc + len) (chars o)) 0 true))
  else Ok w.

(** DKStringSetByteLength, DKString.c 919-938: the byte array is changed without
    going through ReplaceBytes.  [fill] are the bytes found in the grown part. *)
Definition set_length_op (w : world) (a n : nat) (fill : bytes) : outcome world :=
  do o <- get w a;
  if mutable o then Ok (upd w a (mkS (firstn n (chars o ++ fill)) (hcode o) true)) else Ok w.

Inductive sop : Type :=
| ONew (m : bool) (bs : bytes) | OCopy (m : bool) (a : nat) | OEdit (a loc len : nat) (bs : bytes)
| OHash (a : nat) | OEqual (a b : nat) | OSetLength (a n : nat) (fill : bytes).
Inductive sres : Type := RAddr (a : nat) | RNone | RHash (h : N) | REqual (b : bool).
Definition sstep (w : world) (o : sop) : outcome (world * sres) :=
  match o with
  | ONew m bs => let '(w', a) := init_string w m bs in Ok (w', RAddr a)
  | OCopy m a => do r <- copy_op w m a; Ok (fst r, RAddr (snd r))
  | OEdit a loc len bs => do w' <- edit_op w a loc len bs; Ok (w', RNone)
  | OHash a => do r <- hash_op w a; Ok (fst r, RHash (snd r))
  | OEqual a b => do r <- equal_op w a b; Ok (fst r, REqual (snd r))
  | OSetLength a n fill => do w' <- set_length_op w a n fill; Ok (w', RNone)
  end.
Fixpoint srun (w : world) (os : list sop) : outcome (world * list sres) :=
  match os with
  | [] => Ok (w, [])
  | o :: os' => do r <- sstep w o; do q <- srun (fst r) os'; Ok (fst q, snd r :: snd q)
  end.

(** ** __DKStringGetConstantString, DKString.c 2638-2736

    The table of constant strings is the hash table of HashTable_Model with the
    contents as keys (rows are compared by DKStringEqualToString and hashed by
    the cached code, 2601-2613).  Objects are their contents and whether they
    have been freed.  A thread's step is one section under the lock, or the code
    between two such sections. *)
Definition ctable := HashTable_Model.table bytes nat.
Record shared : Type := mkSh { global : option ctable; objects : list (bytes * bool) }.
Inductive ipc : Type :=
| IStart                  (* 2640: reads the table pointer *)
| ITable                  (* 2642-2655: made a table, about to lock *)
| ILookup                 (* 2694-2708: lookup under the lock *)
| IAlloc                  (* 2711-2713: creates a string object *)
| IInsert (a : nat)       (* 2716-2729: insert under the lock *)
| IFree (a r : nat)       (* 2732-2733: discards its own object *)
| IDone (r : option nat).
Record ithread : Type := mkT { req : bytes; ins : bool; pc : ipc }.
Definition at_pc (t : ithread) (p : ipc) : ithread := mkT (req t) (ins t) p.
Definition tfind (t : ctable) (k : bytes) : outcome (option (bytes * nat)) := HashTable_Model.lookup bytes nat key_hash bytes_eqb t k.
Definition istep (g : shared) (t : ithread) : outcome (shared * ithread) :=
  match pc t with
  | IStart => Ok (g, at_pc t (match global g with None => ITable | Some _ => ILookup end))
  | ITable => Ok (mkSh (match global g with None => Some HashTable_Model.table_init | Some x => Some x end) (objects g), at_pc t ILookup)
  | ILookup =>
    match global g with
    | None => UB
    | Some tb =>
      do e <- tfind tb (req t);
      match e with
      | Some (_, a) => Ok (g, at_pc t (IDone (Some a)))
      | None => Ok (g, at_pc t (if ins t then IAlloc else IDone None))
      end
    end
  | IAlloc => Ok (mkSh (global g) (objects g ++ [(req t, true)]), at_pc t (IInsert (length (objects g))))
  | IInsert a =>
    match global g with
    | None => UB
    | Some tb =>
      do r <- HashTable_Model.insert bytes nat key_hash bytes_eqb tb (req t) a HashTable_Model.InsertIfNotFound;
      if snd r then Ok (mkSh (Some (fst r)) (objects g), at_pc t (IDone (Some a)))
      else
        do e <- tfind (fst r) (req t);
        match e with
        | Some (_, b) => Ok (mkSh (Some (fst r)) (objects g), at_pc t (if (b =? a)%nat then IDone (Some b) else IFree a b))
        | None => UB
        end
    end
  | IFree a r =>
    Ok (mkSh (global g) (upd (objects g) a (match nth_error (objects g) a with Some (k, _) => (k, false) | None => ([], false) end)), at_pc t (IDone (Some r)))
  | IDone r => Ok (g, t)
  end.
(** An interleaving: the order in which the threads take steps. *)
Fixpoint iruns (g : shared) (ts : list ithread) (sched : list nat) : outcome (shared * list ithread) :=
  match sched with
  | [] => Ok (g, ts)
  | i :: sched' =>
    match nth_error ts i with
    | None => iruns g ts sched'
    | Some t => do r <- istep g t; iruns (fst r) (upd ts i (snd r)) sched'
    end
  end.
Definition initially (rs : list (bytes * bool)) : list ithread := map (fun r => mkT (fst r) (snd r) IStart) rs.
