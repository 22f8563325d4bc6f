(** Model of the generic list functions of Source/DKList.c, over any class that
    implements the List interface (DKList.h: getCount, getObjectAtIndex,
    replaceRangeWithCArray).

    Simplifications: the receiver is not NULL and implements List; objects are
    abstract values of type [A] with [null] the NULL reference, DKEqual an
    arbitrary function [oeq] and DKCompare an arbitrary function [ocmp]. *)
Require Import Coq.ZArith.ZArith Coq.Lists.List Coq.Bool.Bool Coq.Arith.Arith.
Require Import Verif.Base Verif.Array_Model.
Import ListNotations.

(** The part of struct DKListInterface (DKList.h) used by DKList.c.  Reading an
    element may change the list's private state (a linked list moves its
    cursor), so it returns the list.  [None] is the checked-error return, which
    is NULL in C. *)
Record list_interface (A L : Type) := mkListInterface {
  getCount : L -> nat;
  getObjectAtIndex : L -> Z -> outcome (L * option A);
  replaceRangeWithCArray : L -> Z -> Z -> list A -> outcome L
}.
Arguments mkListInterface {A L}.
Arguments getCount {A L}.
Arguments getObjectAtIndex {A L}.
Arguments replaceRangeWithCArray {A L}.

Section ListFunctions.
  Variable A : Type.
  Variable null : A.
  Variable oeq : A -> A -> bool.
  Variable ocmp : A -> A -> Z.

  Section OneList.
    Variable L : Type.
    Variable list_i : list_interface A L.

    Definition get_object (l : L) (i : Z) : outcome (L * A) :=
      do r <- getObjectAtIndex list_i l i;
      Ok (fst r, match snd r with Some x => x | None => null end).

    (** DKListGetCountOfObject, DKList.c 243-263: [k] iterations left, at index [i]. *)
    Fixpoint count_loop (k : nat) (l : L) (i : Z) (x : A) (count : nat) : outcome (L * nat) :=
      match k with
      | O => Ok (l, count)
      | S k' =>
        do r <- get_object l i;
        count_loop k' (fst r) (i + 1) x (if oeq x (snd r) then S count else count)
      end.
    Definition list_count_of_object (l : L) (x : A) : outcome (L * nat) :=
      count_loop (getCount list_i l) l 0 x 0.

    (** DKListGetFirstIndexOfObject, DKList.c 269-287: [None] is DKNotFound. *)
    Fixpoint first_loop (k : nat) (l : L) (i : Z) (x : A) : outcome (L * option Z) :=
      match k with
      | O => Ok (l, None)
      | S k' =>
        do r <- get_object l i;
        if oeq x (snd r) then Ok (fst r, Some i) else first_loop k' (fst r) (i + 1) x
      end.
    Definition list_first_index (l : L) (x : A) : outcome (L * option Z) :=
      first_loop (getCount list_i l) l 0 x.

    (** DKListGetLastIndexOfObject, DKList.c 293-311: counts down from [n - 1];
        [k] is the index plus one. *)
    Fixpoint last_loop (k : nat) (l : L) (x : A) : outcome (L * option Z) :=
      match k with
      | O => Ok (l, None)
      | S k' =>
        do r <- get_object l (Z.of_nat k');
        if oeq x (snd r) then Ok (fst r, Some (Z.of_nat k')) else last_loop k' (fst r) x
      end.
    Definition list_last_index (l : L) (x : A) : outcome (L * option Z) :=
      last_loop (getCount list_i l) l x.

    (** DKListContainsObject, DKList.c 465-468. *)
    Definition list_contains (l : L) (x : A) : outcome (L * bool) :=
      do r <- list_first_index l x;
      Ok (fst r, match snd r with Some _ => true | None => false end).

    (** DKListAppendObject (DKList.c 348-358): replace the empty range at the
        end. *)
    Definition list_append_object (l : L) (x : A) : outcome L :=
      replaceRangeWithCArray list_i l (Z.of_nat (getCount list_i l)) 0 [x].

    (** DKListAddObjectToSet, DKList.c 474-478. *)
    Definition list_add_to_set (l : L) (x : A) : outcome L :=
      do r <- list_first_index l x;
      match snd r with None => list_append_object (fst r) x | Some _ => Ok (fst r) end.

    (** DKListGetMemberOfSet, DKList.c 484-492. *)
    Definition list_get_member (l : L) (x : A) : outcome (L * A) :=
      do r <- list_first_index l x;
      match snd r with None => Ok (fst r, null) | Some i => get_object (fst r) i end.

    (** DKListRemoveObject, DKList.c 498-522: [k] is count - i. *)
    Fixpoint remove_loop (k : nat) (l : L) (i : Z) (x : A) : outcome L :=
      match k with
      | O => Ok l
      | S k' =>
        do r <- get_object l i;
        if oeq x (snd r) then
          do l' <- replaceRangeWithCArray list_i (fst r) i 1 [];
          remove_loop k' l' i x
        else remove_loop k' (fst r) (i + 1) x
      end.
    Definition list_remove_object (l : L) (x : A) : outcome L :=
      remove_loop (getCount list_i l) l 0 x.

    (** DKListRemoveFirstObject, DKList.c 567-580, and DKListRemoveLastObject,
        DKList.c 586-601. *)
    Definition list_remove_first (l : L) : outcome L :=
      if 0 <? getCount list_i l then replaceRangeWithCArray list_i l 0 1 [] else Ok l.
    Definition list_remove_last (l : L) : outcome L :=
      if 0 <? getCount list_i l
      then replaceRangeWithCArray list_i l (Z.of_nat (getCount list_i l) - 1) 1 [] else Ok l.

    (** DKListCompare, DKList.c 642-679, for two lists of the same class.  The
        second count is read from the first list (line 653), so both counts are
        the first list's; the final comparisons of the counts are dead code and
        omitted. *)
    Fixpoint compare_loop (k : nat) (l1 l2 : L) (i : Z) : outcome Z :=
      match k with
      | O => Ok 0%Z
      | S k' =>
        do r1 <- get_object l1 i;
        do r2 <- get_object l2 i;
        let c := ocmp (snd r1) (snd r2) in
        if (c =? 0)%Z then compare_loop k' (fst r1) (fst r2) (i + 1) else Ok c
      end.
    Definition list_compare (l1 l2 : L) : outcome Z :=
      compare_loop (getCount list_i l1) l1 l2 0.
  End OneList.

  (** DKListEqual, DKList.c 607-636; the two lists may be of different classes. *)
  Fixpoint equal_loop {L1 L2} (i1 : list_interface A L1) (i2 : list_interface A L2)
    (k : nat) (l1 : L1) (l2 : L2) (i : Z) : outcome bool :=
    match k with
    | O => Ok true
    | S k' =>
      do r1 <- get_object L1 i1 l1 i;
      do r2 <- get_object L2 i2 l2 i;
      if oeq (snd r1) (snd r2) then equal_loop i1 i2 k' (fst r1) (fst r2) (i + 1) else Ok false
    end.
  Definition list_equal {L1 L2} (i1 : list_interface A L1) (i2 : list_interface A L2) (l1 : L1) (l2 : L2) : outcome bool :=
    if getCount i2 l2 =? getCount i1 l1
    then equal_loop i1 i2 (getCount i1 l1) l1 l2 0 else Ok false.

  (** The List interface of DKArray (DKArray.c 60-90). *)
  Definition array_interface : list_interface A (garray A) :=
    mkListInterface glen
      (fun a i => do x <- array_get A a i; Ok (a, x))
      (array_replace_range A null).
End ListFunctions.
