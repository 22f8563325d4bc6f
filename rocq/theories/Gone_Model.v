(** Model of removing an object from a list by value, with the lifetimes of objects: DKListRemoveObject,
    Source/DKList.c 498-522, which is also DKSetRemoveObject of mutable arrays and linked lists (DKArray.c
    205, DKLinkedList.c 225), and DKEqual, Source/DKComparison.c 75-89.  Objects, references and the other
    calls are those of Own_Model. *)
Require Import Coq.Lists.List Coq.Bool.Bool Coq.Arith.Arith.
Require Import Verif.Base Verif.Own_Model.
Import ListNotations.

Section Values.
  (** The [equal] method of the class of the first object. *)
  Variable keq : nat -> nat -> bool.
  (** DKEqual, DKComparison.c 75-89: two references to one object are equal without a look at it; for
      others DKGetInterface and the method use both objects. *)
  Definition equal (s : state) (r r' : ref) : outcome bool :=
    match r, r' with
    | Some x, Some y => if x =? y then Ok true else do _ <- body_of s x; do _ <- body_of s y; Ok (keq x y)
    | None, None => Ok true
    | _, _ => Ok false
    end.
  (** The loop, DKList.c 506-520; [n] is count - i. *)
  Fixpoint remove_loop (n : nat) (s : state) (a : nat) (r : ref) (i : nat) : outcome state :=
    match n with
    | O => Ok s
    | S n' =>
      do l <- list_of s a;
      do q <- equal s r (nth i l None);
      if (q : bool) then do s <- splice s a i 1 []; remove_loop n' s a r i
      else remove_loop n' s a r (S i)
    end.
  (** DKListRemoveObject, DKList.c 498-522. *)
  Definition remove_object (s : state) (a : nat) (r : ref) : outcome state :=
    do l <- list_of s a; remove_loop (length l) s a r 0.

  (** Programs: the calls of Own_Model and this one. *)
  Inductive call : Type := Other (o : op) | RemoveObject (a : nat) (r : ref).
  Definition do_call (s : state) (c : call) : outcome state :=
    match c with Other o => step keq s o | RemoveObject a r => remove_object s a r end.
  Fixpoint calls (s : state) (cs : list call) : outcome state :=
    match cs with [] => Ok s | c :: cs' => do s <- do_call s c; calls s cs' end.
End Values.
