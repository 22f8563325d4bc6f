(** Model of Source/DKGenericArray.c (arrays of object references) and of the
    list operations of Source/DKArray.c.

    Simplifications: elements are abstract values of type [A] occupying one
    slot each; a DKIndex that is a length is a [nat] (lengths never reach
    2^63); reference counting of the elements is not modelled here; arrays with
    external (constant) storage are not modelled; allocation never fails. *)
Require Import Coq.ZArith.ZArith Coq.Lists.List Coq.Bool.Bool Coq.Arith.Arith.
Require Import Verif.Base.
Import ListNotations.

Definition INT64_MAX : Z := 9223372036854775807.

(** DKPlatform.h 606-615 DKCheckIndex: None is the error return. *)
Definition check_index (i : Z) (len : nat) : option nat :=
  if ((0 <=? i) && (i <? Z.of_nat len))%Z then Some (Z.to_nat i) else None.

(** DKPlatform.h 298-301, 617-626 DKRangeInsideOrEnd / DKCheckRange.  The end of
    the range is computed in signed 64-bit arithmetic, so it can overflow.
    [Ok None] is the error return. *)
Definition check_range (loc len : Z) (n : nat) : outcome (option (nat * nat)) :=
  if ((0 <=? loc) && (0 <=? len))%Z then
    if (INT64_MAX <? loc + len)%Z then UB
    else if (loc + len <=? Z.of_nat n)%Z then Ok (Some (Z.to_nat loc, Z.to_nat len))
    else Ok None
  else Ok None.

Section GenericArray.
  Variable A : Type.
  Variable zero : A.      (* the value of a slot cleared with memset: NULL *)

  (** DKGenericArray.h struct DKGenericArray.  [elements = None] is NULL; a slot
      is [None] until it is first written. *)
  Record garray := mkArray {
    elements : option (list (option A));
    glen : nat;
    gmax : nat
  }.

  (** DKGenericArrayInit, DKGenericArray.c 40-48. *)
  Definition array_init : garray := mkArray None 0 0.

  (** memcpy / memmove of [n] slots between buffers; leaving either buffer is
      undefined. *)
  Definition mem_copy (dst : list (option A)) (dpos : nat) (src : list (option A)) (spos n : nat)
    : outcome (list (option A)) :=
    if (dpos + n <=? length dst) && (spos + n <=? length src)
    then Ok (firstn dpos dst ++ firstn n (skipn spos src) ++ skipn (dpos + n) dst)
    else UB.

  (** ResizeArray, DKGenericArray.c 118-137: the new capacity, and whether a new
      block is allocated. *)
  Definition resize_array (oldLength requestedLength : nat) : nat * bool :=
    if requestedLength <=? oldLength then (oldLength, false)
    else (Nat.max 32 (Nat.max requestedLength (oldLength + oldLength / 4)), true).

  (** DKGenericArrayReserve, DKGenericArray.c 80-103. *)
  Definition reserve (a : garray) (n : nat) : outcome garray :=
    if gmax a <? n then
      let n := Nat.max 32 n in
      let fresh := repeat None n in
      match elements a with
      | None => Ok (mkArray (Some fresh) (glen a) n)
      | Some m => do m' <- mem_copy fresh 0 m 0 (glen a); Ok (mkArray (Some m') (glen a) n)
      end
    else Ok a.

  (** DKGenericArrayReplaceElements, DKGenericArray.c 153-233.  [src = None] is
      a NULL source (slots are cleared); otherwise [count] elements are read
      from [src].  A range outside the array (a disabled DKAssert) is undefined. *)
  Definition replace_elements (a : garray) (loc len : nat) (src : option (list A)) (count : nat)
    : outcome garray :=
    if (glen a <? loc + len) then UB
    else if (len =? 0) && (count =? 0) then Ok a
    else
      let range_end := loc + len in
      let suffix := glen a - range_end in
      let newLength := glen a + count - len in
      let '(newMax, fresh) := resize_array (gmax a) newLength in
      do m <- (match elements a with
               | None => if fresh then Ok (repeat None newMax) else UB
               | Some old =>
                 if fresh then
                   let new := repeat None newMax in
                   do new1 <- mem_copy new 0 old 0 loc;
                   mem_copy new1 (loc + count) old range_end suffix
                 else mem_copy old (loc + count) old range_end suffix
               end);
      do m' <- (match src with
                | Some l => mem_copy m loc (map Some l) 0 count
                | None => mem_copy m loc (repeat (Some zero) count) 0 count
                end);
      Ok (mkArray (Some m') newLength newMax).

  (** DKGenericArrayAppendElements, DKGenericArray.c 239-243. *)
  Definition append_elements (a : garray) (src : list A) : outcome garray :=
    replace_elements a (glen a) 0 (Some src) (length src).

  (** DKGenericArrayGetPointerToElementAtIndex and a read through the result,
      DKGenericArray.c 249-253: an index outside the array gives NULL, whose
      dereference is undefined, as is using an unwritten slot. *)
  Definition read_element (a : garray) (i : nat) : outcome A :=
    if i <? glen a then
      match elements a with
      | Some m => match nth_error m i with Some (Some x) => Ok x | _ => UB end
      | None => UB
      end
    else UB.

  (** A write through the result of DKGenericArrayGetPointerToElementAtIndex. *)
  Definition write_element (a : garray) (i : nat) (x : A) : outcome garray :=
    if i <? glen a then
      match elements a with
      | Some m => if i <? length m then Ok (mkArray (Some (upd m i (Some x))) (glen a) (gmax a)) else UB
      | None => UB
      end
    else UB.

  (** The loop reading [n] elements from index [i]. *)
  Fixpoint read_elements (a : garray) (i n : nat) : outcome (list A) :=
    match n with
    | O => Ok []
    | S n' => do x <- read_element a i; do r <- read_elements a (S i) n'; Ok (x :: r)
    end.

  (** The loop writing a list of elements from index [i]. *)
  Fixpoint write_elements (a : garray) (i : nat) (l : list A) : outcome garray :=
    match l with
    | [] => Ok a
    | x :: l' => do a' <- write_element a i x; write_elements a' (S i) l'
    end.

  (** ** DKArray.c *)

  (** INTERNAL_DKArrayGetObjectAtIndex, DKArray.c 423-428: [None] is the error
      return. *)
  Definition array_get (a : garray) (i : Z) : outcome (option A) :=
    match check_index i (glen a) with
    | None => Ok None
    | Some i => do x <- read_element a i; Ok (Some x)
    end.

  (** INTERNAL_DKArrayGetObjectsInRange, DKArray.c 456-466. *)
  Definition array_get_range (a : garray) (loc len : Z) : outcome (option (list A)) :=
    do r <- check_range loc len (glen a);
    match r with
    | None => Ok None
    | Some (loc, len) => do l <- read_elements a loc len; Ok (Some l)
    end.

  (** INTERNAL_DKArrayReplaceRangeWithCArray, DKArray.c 519-554.  The releases
      of the overwritten objects read them, so an unwritten slot would be
      undefined. *)
  Definition array_replace_range (a : garray) (loc len : Z) (objects : list A) : outcome garray :=
    do r <- check_range loc len (glen a);
    match r with
    | None => Ok a
    | Some (loc, len) =>
      let count := length objects in
      let overlap := if len <=? count then len else count in
      do _ <- read_elements a loc overlap;
      do a1 <- write_elements a loc (firstn overlap objects);
      if len <? count then
        replace_elements a1 (loc + overlap) 0 (Some (skipn overlap objects)) (count - overlap)
      else if count <? len then
        do _ <- read_elements a1 (loc + overlap) (len - overlap);
        replace_elements a1 (loc + overlap) (len - overlap) None 0
      else Ok a1
    end.

  (** INTERNAL_DKArrayReplaceRangeWithCollection, DKArray.c 585-614, for a
      collection other than the array itself enumerating [src]. *)
  Definition array_replace_range_with_collection (a : garray) (loc len : Z) (src : list A) : outcome garray :=
    do r <- check_range loc len (glen a);
    match r with
    | None => Ok a
    | Some (loc, len) =>
      do _ <- read_elements a loc len;
      do a1 <- replace_elements a loc len None (length src);
      write_elements a1 loc src
    end.

  (** The same function when the collection is the array itself: the source
      count is read before the resize (DKArray.c 601-602) and the enumeration
      of the source (DKArray.c 659-679) re-reads the length and the slots of
      the array being written. *)
  Fixpoint copy_from_self (fuel : nat) (a : garray) (i dst : nat) : outcome garray :=
    match fuel with
    | O => NoFuel
    | S fuel' =>
      if i <? glen a then
        do x <- read_element a i;
        do a' <- write_element a dst x;
        copy_from_self fuel' a' (S i) (S dst)
      else Ok a
    end.

  Definition array_replace_range_with_self (a : garray) (loc len : Z) : outcome garray :=
    do r <- check_range loc len (glen a);
    match r with
    | None => Ok a
    | Some (loc, len) =>
      do _ <- read_elements a loc len;
      do a1 <- replace_elements a loc len None (glen a);
      copy_from_self (S (glen a1)) a1 0 loc
    end.

  (** DKArrayApplyFunction, DKArray.c 659-679, with a callback folding a state
      and asking to stop. *)
  Fixpoint array_apply_loop {S} (cb : S -> A -> S * bool) (s : S) (a : garray) (i n : nat) : outcome (S * bool) :=
    match n with
    | O => Ok (s, false)
    | Datatypes.S n' =>
      do x <- read_element a i;
      let '(s', stop) := cb s x in
      if stop then Ok (s', true) else array_apply_loop cb s' a (Datatypes.S i) n'
    end.

  Definition array_apply {S} (cb : S -> A -> S * bool) (s : S) (a : garray) : outcome (S * bool) :=
    array_apply_loop cb s a 0 (glen a).

  (** The list operations of DKList.c 390-600 on an array. *)
  Inductive aop :=
  | AAppend (objects : list A)                       (* appendCArray *)
  | AReplaceRange (loc len : Z) (objects : list A)   (* replaceRangeWithCArray *)
  | AReplaceRangeC (loc len : Z) (src : list A)      (* replaceRangeWithCollection *)
  | ASet (i : Z) (x : A)                             (* DKListSetObjectAtIndex *)
  | AInsert (i : Z) (x : A)                          (* DKListInsertObjectAtIndex *)
  | ARemoveAt (i : Z)                                (* DKListRemoveObjectAtIndex *)
  | ARemoveRange (loc len : Z)                       (* DKListRemoveObjectsInRange *)
  | ARemoveAll                                       (* DKListRemoveAllObjects *)
  | AGet (i : Z)
  | AGetRange (loc len : Z)
  | ACount.

  Inductive ares :=
  | ANone                    (* no result *)
  | AObj (x : option A)
  | AObjs (l : option (list A))
  | ANum (n : nat).

  Definition array_step (a : garray) (o : aop) : outcome (garray * ares) :=
    match o with
    | AAppend l => do a' <- array_replace_range a (Z.of_nat (glen a)) 0 l; Ok (a', ANone)
    | AReplaceRange loc len l => do a' <- array_replace_range a loc len l; Ok (a', ANone)
    | AReplaceRangeC loc len l => do a' <- array_replace_range_with_collection a loc len l; Ok (a', ANone)
    | ASet i x => do a' <- array_replace_range a i 1 [x]; Ok (a', ANone)
    | AInsert i x => do a' <- array_replace_range a i 0 [x]; Ok (a', ANone)
    | ARemoveAt i => do a' <- array_replace_range a i 1 []; Ok (a', ANone)
    | ARemoveRange loc len => do a' <- array_replace_range a loc len []; Ok (a', ANone)
    | ARemoveAll => do a' <- array_replace_range a 0 (Z.of_nat (glen a)) []; Ok (a', ANone)
    | AGet i => do x <- array_get a i; Ok (a, AObj x)
    | AGetRange loc len => do l <- array_get_range a loc len; Ok (a, AObjs l)
    | ACount => Ok (a, ANum (glen a))
    end.

  Fixpoint array_run (a : garray) (os : list aop) : outcome (garray * list ares) :=
    match os with
    | [] => Ok (a, [])
    | o :: os' =>
      do ar <- array_step a o;
      do ar' <- array_run (fst ar) os';
      Ok (fst ar', snd ar :: snd ar')
    end.
End GenericArray.

Arguments mkArray {A} elements glen gmax.
Arguments elements {A} g.
Arguments glen {A} g.
Arguments gmax {A} g.
Arguments array_init {A}.
Arguments AAppend {A}.
Arguments AReplaceRange {A}.
Arguments AReplaceRangeC {A}.
Arguments ASet {A}.
Arguments AInsert {A}.
Arguments ARemoveAt {A}.
Arguments ARemoveRange {A}.
Arguments ARemoveAll {A}.
Arguments AGet {A}.
Arguments AGetRange {A}.
Arguments ACount {A}.
Arguments ANone {A}.
Arguments AObj {A}.
Arguments AObjs {A}.
Arguments ANum {A}.
