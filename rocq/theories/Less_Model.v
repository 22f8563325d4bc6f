(** Model of DKSetUnion and DKSetMinus, Source/DKSet.c 294-318, for a list used as a set (the Set interface of
    DKArray.c 203-207 and DKLinkedList.c 223-227), with the lifetimes of objects.  Objects, references and
    collections are those of Own_Model. *)
Require Import Coq.Lists.List Coq.Bool.Bool Coq.Arith.Arith.
Require Import Verif.Base Verif.Own_Model Verif.Gone_Model.
Import ListNotations.

(** DKForeachObject, Source/DKCollection.c 122-131, with a callback that may change the collection.
    DKArrayApplyFunction, DKArray.c 659-677, reads the length again in every round.  For hash tables and
    trees (DKHashTable.c 671-693, DKBinaryTree.c 926-973), which are not changed here, the rounds are over
    the entries in their order. *)
Fixpoint each (fuel : nat) (f : state -> ref -> outcome state) (s : state) (c i : nat) : outcome state :=
  do os <- objects_of s c;
  match nth_error os i with
  | None => Ok s
  | Some r => match fuel with O => NoFuel | S fuel' => do s <- f s r; each fuel' f s c (S i) end
  end.
(** DKLinkedListApplyFunction, DKLinkedList.c 950-968: a node that is removed goes back to the pool with its
    link to the next (DKNodePoolFree, DKNodePool.c 136-141, writes to the first word, the link to the
    previous), so the nodes of the beginning are visited.  Simplification: a node that was removed before the
    one in front of it is visited too; its object was looked for in vain then. *)
Fixpoint over (f : state -> ref -> outcome state) (s : state) (l : list ref) : outcome state :=
  match l with [] => Ok s | r :: l' => do s <- f s r; over f s l' end.
Definition foreach (f : state -> ref -> outcome state) (s : state) (c : nat) : outcome state :=
  do b <- body_of s c;
  match b with
  | Lnk l => over f s l
  | Arr l => each (length l) f s c 0
  | Hash es | Tree es => each (length es) f s c 0
  | _ => Fatal
  end.

Section Values.
  Variable keq : nat -> nat -> bool.
  (** DKListGetFirstIndexOfObject, Source/DKList.c 269-287: is it found? [n] is what is left of the list. *)
  Fixpoint found (n : nat) (s : state) (a : nat) (r : ref) (i : nat) : outcome bool :=
    match n with
    | O => Ok false
    | S n' =>
      do l <- list_of s a;
      do q <- equal keq s r (nth i l None);
      if (q : bool) then Ok true else found n' s a r (S i)
    end.
  (** DKListAddObjectToSet, DKList.c 474-478, with DKListAppendObject 385-392. *)
  Definition add_to_set (s : state) (a : nat) (r : ref) : outcome state :=
    do l <- list_of s a;
    do q <- found (length l) s a r 0;
    if (q : bool) then Ok s else splice s a (length l) 0 [r].
  (** DKSetUnion, DKSet.c 294-303, and DKSetMinus, 309-318. *)
  Definition unite (s : state) (a c : nat) : outcome state := foreach (fun s r => add_to_set s a r) s c.
  Definition subtract (s : state) (a c : nat) : outcome state := foreach (fun s r => remove_object keq s a r) s c.
End Values.
