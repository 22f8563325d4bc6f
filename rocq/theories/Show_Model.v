(** Model of arrays that show a C array of the caller, with the lifetimes of objects:
    DKArrayInitWithCArrayNoCopy, Source/DKArray.c 314-328, with DKGenericArrayInitWithExternalStorage,
    DKGenericArray.c 51-60, DKArrayFinalize 238-256, DKArrayGetObjectAtIndex 408-428, and the copies of
    arrays, DKArray.c 85-90, 166-170 and 373-384.  Objects, references and the other calls are those of
    Own_Model: an array that shows memory of the caller holds no references, so its body is that of an
    object that is no collection, and where its objects are found is kept in [shows].  The memory of the
    caller is blocks of references, which the caller fills and frees as it likes; reading a block that was
    freed is UB.  Not modelled: mutable arrays with memory of the caller, which DKArray.c 323 asserts
    against in debug builds. *)
Require Import Coq.Lists.List Coq.Bool.Bool Coq.Arith.Arith.
Require Import Verif.Base Verif.Own_Model.
Import ListNotations.

Record world : Type := mkW { own : state; blocks : list (option (list ref)); shows : list (nat * (nat * nat)) }.
Definition start : world := mkW init [] [].
Definition shown (w : world) (a : nat) : option (nat * nat) :=
  match find (fun e => fst e =? a) (shows w) with Some (_, p) => Some p | None => None end.
(** The elements of a list: those of the block, DKGenericArray.c 54-60, or its own. *)
Definition objects (w : world) (a : nat) : outcome (list ref) :=
  match shown w a with
  | Some (b, n) =>
    do _ <- body_of (own w) a;
    match nth_error (blocks w) b with
    | Some (Some l) => if length l <? n then UB else Ok (firstn n l)
    | _ => UB
    end
  | None => list_of (own w) a
  end.
(** DKArrayGetObjectAtIndex 408-428: an index outside is reported and gives NULL. *)
Definition get (w : world) (a i : nat) : outcome ref :=
  do l <- objects w a; Ok (if i <? length l then nth i l None else None).
(** DKArrayInitWithCArrayNoCopy 317-328. *)
Definition lend (w : world) (b n : nat) : world :=
  mkW (add (own w) Leaf) (blocks w) ((length (cells (own w)), (b, n)) :: shows w).
(** DKCopy of an immutable array is DKRetain, DKArray.c 87; of a mutable one DKArrayCopy 373-376.  Which
    of the arrays that hold their elements are mutable is not known here: this is only for arrays that
    show a C array.  The result is the array itself. *)
Definition copy (w : world) (a : nat) : outcome world :=
  match shown w a with
  | Some _ => do s <- retain (own w) (Some a); Ok (mkW (mkS (cells s) (hands s ++ [a])) (blocks w) (shows w))
  | None => Fatal
  end.
(** DKArrayMutableCopy 381-384: a new array, filled as in Own_Model.splice_all; it is the last object. *)
Definition mutable_copy (w : world) (a : nat) : outcome world :=
  do l <- objects w a;
  let x := length (cells (own w)) in
  do s <- list_insert (add (own w) (Arr [])) x 0 l;
  Ok (mkW s (blocks w) (shows w)).

Section Calls.
  Variable keq : nat -> nat -> bool.
  (** Programs: the calls of Own_Model, what the caller does with its memory, and those above. *)
  Inductive call : Type :=
  | Other (o : op) | Block (l : list ref) | Write (b i : nat) (r : ref) | Free (b : nat)
  | Lend (b n : nat) | Copy (a : nat) | MutableCopy (a : nat).
  Definition do_call (w : world) (c : call) : outcome world :=
    match c with
    | Other o => do s <- step keq (own w) o; Ok (mkW s (blocks w) (shows w))
    | Block l => Ok (mkW (own w) (blocks w ++ [Some l]) (shows w))
    | Write b i r => match nth_error (blocks w) b with
                     | Some (Some l) => if i <? length l then Ok (mkW (own w) (upd (blocks w) b (Some (upd l i r))) (shows w)) else UB
                     | _ => UB
                     end
    | Free b => match nth_error (blocks w) b with
                | Some (Some _) => Ok (mkW (own w) (upd (blocks w) b None) (shows w))
                | _ => UB
                end
    | Lend b n => Ok (lend w b n)
    | Copy a => copy w a
    | MutableCopy a => mutable_copy w a
    end.
  Fixpoint calls (w : world) (cs : list call) : outcome world :=
    match cs with [] => Ok w | c :: cs' => do w <- do_call w c; calls w cs' end.
End Calls.
