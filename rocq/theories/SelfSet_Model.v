(** Model of DKSetUnion and DKSetMinus of a set with itself, DKSet.c 294-318: here the callback changes
    the collection that is being enumerated, so the enumeration reads the changed collection. *)
Require Import Coq.ZArith.ZArith Coq.NArith.NArith Coq.Lists.List Coq.Bool.Bool Coq.Arith.Arith.
Require Import Verif.Base Verif.HashTable_Model Verif.SetDict_Model Verif.Array_Model Verif.List_Model.
Require Verif.Tree_Model.
Import ListNotations.

Section Tables.
  Variable K : Type.
  Variable hash : K -> N.
  Variable keq : K -> K -> bool.
  (** DKHashTableApplyFunctionToObjects, DKHashTable.c 671-693: the number of rows and the row are read
      again in every round. *)
  Fixpoint each_row (fuel : nat) (f : table K K -> K -> outcome (table K K)) (t : table K K) (i : N) : outcome (table K K) :=
    if (rowCount t <=? i)%N then Ok t
    else match fuel with
         | O => NoFuel
         | S fuel' =>
           match rows t with
           | None => UB
           | Some rs =>
             match row_at K K rs i with
             | None => UB
             | Some (Active _ x) => do t' <- f t x; each_row fuel' f t' (i + 1)%N
             | Some _ => each_row fuel' f t (i + 1)%N
             end
           end
         end.
  Definition self_union (fuel : nat) (t : table K K) : outcome (table K K) := each_row fuel (set_add K hash keq) t 0.
  Definition self_minus (fuel : nat) (t : table K K) : outcome (table K K) := each_row fuel (set_remove K hash keq) t 0.
End Tables.

Section Arrays.
  Variable A : Type.
  Variable null : A.
  Variable oeq : A -> A -> bool.
  (** DKArrayApplyFunction, DKArray.c 659-677: the length is read again in every round. *)
  Fixpoint each_element (fuel : nat) (f : garray A -> A -> outcome (garray A)) (a : garray A) (i : nat) : outcome (garray A) :=
    if glen a <=? i then Ok a
    else match fuel with
         | O => NoFuel
         | S fuel' => do x <- read_element A a i; do a' <- f a x; each_element fuel' f a' (S i)
         end.
  (** The Set interface of arrays: DKListAddObjectToSet, DKList.c 474-478, and DKListRemoveObject,
      DKList.c 498-522. *)
  Definition array_self_union (fuel : nat) (a : garray A) : outcome (garray A) := each_element fuel (list_add_to_set A null oeq _ (array_interface A null)) a 0.
  Definition array_self_minus (fuel : nat) (a : garray A) : outcome (garray A) := each_element fuel (list_remove_object A null oeq _ (array_interface A null)) a 0.
End Arrays.

Section Trees.
  Variable K : Type.
  Variable cmp : K -> K -> Z.
  (** DKBinaryTreeTraverseInOrderInternal, DKBinaryTree.c 926-943, with INTERNAL_DKBinaryTreeRemoveObject,
      1025-1033, as the callback: the node is read again after each call.  The loop over right children
      is a second recursion.  FreeNode has set the links of a removed node to NULL. *)
  Fixpoint tree_self_minus (fuel : nat) (t : Tree_Model.tree K K) (p : nat) : outcome (Tree_Model.tree K K) :=
    match fuel with
    | O => NoFuel
    | S fuel' =>
      if (p =? Tree_Model.null_node)%nat then Ok t
      else
        do n <- Tree_Model.ld K K (Tree_Model.mem K K t) p;
        do t <- tree_self_minus fuel' t (Tree_Model.left K K n);
        do n <- Tree_Model.ld K K (Tree_Model.mem K K t) p;
        match Tree_Model.kv K K n with
        | None => UB
        | Some e =>
          do t <- Tree_Model.remove K K cmp fuel t (snd e);
          do n <- Tree_Model.ld K K (Tree_Model.mem K K t) p;
          tree_self_minus fuel' t (Tree_Model.right K K n)
        end
    end.
End Trees.
