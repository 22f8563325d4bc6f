(** Model of equality, comparison and hashing of objects of any class, Source/DKComparison.c,
    and of the methods of the classes that are called by them.  An object is given by its
    address and its contents; objects inside it are shown in full, so that an object that
    contains itself is not covered. *)
Require Import Coq.ZArith.ZArith Coq.NArith.NArith Coq.Lists.List Coq.Bool.Bool.
Require Import Verif.Base Verif.String_Model Verif.Utf8_Model Verif.Bytes_Model Verif.Number_Model.
Import ListNotations.
Local Open Scope N_scope.

(** Strings, data, numbers of integer types, structures, pairs, lists (linked lists or arrays),
    dictionaries in hash tables, here with strings as keys, and objects of classes that keep
    the methods of DKObject, DKRuntime.c 174-180. *)
Inductive obj : Type :=
| OString (a : N) (s : list N)
| OData (a : N) (s : list N)
| ONumber (a : N) (n : num)
| OStruct (a : N) (semantic : option (list N)) (s : list N)
| OPair (a : N) (x y : option obj)
| OList (a : N) (linked : bool) (l : list (option obj))
| ODict (a : N) (es : list (list N * obj))
| OOther (a : N).
Definition addr (o : obj) : N :=
  match o with
  | OString a _ | OData a _ | ONumber a _ | OStruct a _ _ | OPair a _ _ | OList a _ _ | ODict a _ | OOther a => a
  end.

(** UpdateHash, DKString.c 270-277, for a hash code that is not stale (C27). *)
Definition string_hash (s : list N) : outcome N := if (0 <? length s)%nat then strhash (sto s) else Ok 0.
(** TestEquality, DKString.c 283-295, of strings at different addresses. *)
Definition string_equal (s t : list N) : outcome bool :=
  do h <- string_hash s; do k <- string_hash t;
  if negb (h =? k) then Ok false else strcmp_eq (sto s) (sto t).
(** DKStringEqualToString, DKString.c 753-764, on the semantics of structures, given by their
    texts. *)
Definition semantic_equal (x y : option (list N)) : outcome bool :=
  match x, y with
  | Some s, Some t => string_equal s t
  | Some _, None => UB
  | None, _ => Ok false
  end.
(** DKPointerCompare, DKComparison.c 51-60. *)
Definition pointer_compare (p q : N) : Z := if p <? q then 1%Z else if q <? p then (-1)%Z else 0%Z.
(** DKPointerHash, DKComparison.c 65-68 and DKRuntime.h 111; addresses are below 2^64 - 15. *)
Definition pointer_hash (p : N) : N := (p + 15) / 16.
(** DKDictionaryGetObject with a string, a finite map (C01). *)
Fixpoint get (es : list (list N * obj)) (k : list N) : option obj :=
  match es with [] => None | (k', v) :: es' => if bytes_eqb k' k then Some v else get es' k end.

(** DKEqual, DKComparison.c 75-89, of objects that are not NULL, with DKStringEqual, DKString.c
    715-724, DKDataEqual, DKData.c 426-434, DKNumberEqual, DKNumber.c 877-883, DKStructEqual,
    DKStruct.c 209-229, DKPairEqual, DKPair.c 151-162, DKListEqual, DKList.c 607-636, and
    DKDictionaryEqual, DKDictionary.c 323-352. *)
Fixpoint equal (a b : obj) {struct a} : outcome bool :=
  if addr a =? addr b then Ok true
  else
    match a with
    | OString _ s => match b with OString _ t => string_equal s t | _ => Ok false end
    | OData _ s => match b with OData _ t => Ok (data_compare s t =? 0)%Z | _ => Ok (pointer_compare (addr a) (addr b) =? 0)%Z end
    | ONumber _ m => match b with ONumber _ n => Number_Model.equal m n | _ => Ok false end
    | OStruct _ x s =>
      match b with
      | OStruct _ y t =>
        do e <- semantic_equal x y;
        if e && (length s =? length t)%nat then Ok (Bytes_Model.memcmp s t (length s) =? 0)%Z else Ok false
      | _ => Ok false
      end
    | OPair _ x y =>
      match b with
      | OPair _ x' y' =>
        do e <- match x, x' with None, None => Ok true | Some o, Some o' => equal o o' | _, _ => Ok false end;
        if e then match y, y' with None, None => Ok true | Some o, Some o' => equal o o' | _, _ => Ok false end else Ok false
      | _ => Ok false
      end
    | OList _ _ l =>
      match b with
      | OList _ _ m =>
        if (length l =? length m)%nat then
          (fix go (l m : list (option obj)) : outcome bool :=
             match l, m with
             | x :: l', x' :: m' =>
               do e <- match x, x' with None, None => Ok true | Some o, Some o' => equal o o' | _, _ => Ok false end;
               if e then go l' m' else Ok false
             | _, _ => Ok true
             end) l m
        else Ok false
      | _ => Ok false
      end
    | ODict _ es =>
      match b with
      | ODict _ fs =>
        if (length es =? length fs)%nat then
          (fix go (es : list (list N * obj)) : outcome bool :=
             match es with
             | [] => Ok true
             | (k, v) :: es' =>
               do e <- match get fs k with Some w => equal v w | None => Ok false end;
               if e then go es' else Ok false
             end) es
        else Ok false
      | _ => Ok false
      end
    | OOther _ => Ok false
    end.
(** DKEqual of two references. *)
Definition dk_equal (a b : option obj) : outcome bool :=
  match a, b with None, None => Ok true | Some o, Some o' => equal o o' | _, _ => Ok false end.

(** DKStringCompare, DKString.c 730-747, of two strings, and of the semantics of structures. *)
Definition string_compare (s t : list N) : outcome Z := ustrcmp (sto s) (sto t).
Definition semantic_compare (x y : option (list N)) : outcome Z :=
  match x, y with
  | Some s, Some t => string_compare s t
  | Some _, None => Ok (-1)%Z
  | None, Some _ => Ok 1%Z
  | None, None => Ok 0%Z
  end.

(** DKCompare, DKComparison.c 95-109, of objects that are not NULL, with DKStringCompare,
    DKDataCompare, DKData.c 440-474, DKNumberCompare, DKNumber.c 889-924, which does not look at
    the class of its second argument, DKStructCompare, DKStruct.c 235-268, DKPairCompare,
    DKPair.c 168-183, DKListCompare, DKList.c 642-677, where the count of the second list is
    taken from the first, with the function of the second, and DKPointerCompare for hash
    tables and others. *)
Fixpoint compare (a b : obj) {struct a} : outcome Z :=
  if addr a =? addr b then Ok 0%Z
  else
    match a with
    | OString p s => match b with OString _ t => string_compare s t | _ => Ok (pointer_compare p (addr b)) end
    | OData p s => match b with OData _ t => Ok (data_compare s t) | _ => Ok (pointer_compare p (addr b)) end
    | ONumber _ m => match b with ONumber _ n => Number_Model.compare m n | _ => UB end
    | OStruct p x s =>
      match b with
      | OStruct _ y t =>
        do c <- semantic_compare x y;
        if negb (c =? 0)%Z then Ok c
        else if (length s <? length t)%nat then Ok 1%Z
        else if (length t <? length s)%nat then Ok (-1)%Z
        else if (length s =? 0)%nat then Ok 0%Z
        else Ok (Bytes_Model.memcmp s t (length s))
      | _ => Ok (pointer_compare p (addr b))
      end
    | OPair p x y =>
      match b with
      | OPair _ x' y' =>
        do c <- match x, x' with None, None => Ok 0%Z | Some o, Some o' => compare o o' | None, Some _ => Ok (-1)%Z | Some _, None => Ok 1%Z end;
        if (c =? 0)%Z then
          match y, y' with None, None => Ok 0%Z | Some o, Some o' => compare o o' | None, Some _ => Ok (-1)%Z | Some _, None => Ok 1%Z end
        else Ok c
      | _ => Ok (pointer_compare p (addr b))
      end
    | OList p k l =>
      match b with
      | OList _ k' m =>
        if eqb k k' then
          (fix go (l m : list (option obj)) : outcome Z :=
             match l with
             | [] => Ok 0%Z
             | x :: l' =>
               let '(x', m') := match m with [] => (None, []) | x' :: m' => (x', m') end in
               do c <- match x, x' with None, None => Ok 0%Z | Some o, Some o' => compare o o' | None, Some _ => Ok (-1)%Z | Some _, None => Ok 1%Z end;
               if (c =? 0)%Z then go l' m' else Ok c
             end) l m
        else UB
      | _ => Ok (pointer_compare p (addr b))
      end
    | ODict p _ | OOther p => Ok (pointer_compare p (addr b))
    end.
(** DKCompare of two references. *)
Definition dk_compare (a b : option obj) : outcome Z :=
  match a, b with None, None => Ok 0%Z | Some o, Some o' => compare o o' | None, Some _ => Ok (-1)%Z | Some _, None => Ok 1%Z end.

(** DKHash, DKComparison.c 124-133, of an object that is not NULL, with DKStringHash, DKDataHash,
    DKData.c 480-491, DKNumberHash, DKStructHash, DKStruct.c 274-286, DKPairHash, DKPair.c 189-197,
    and DKPointerHash for lists, hash tables and others. *)
Fixpoint hash (o : obj) : outcome N :=
  match o with
  | OString _ s => string_hash s
  | OData _ s => if (0 <? length s)%nat then Ok (Z.to_N (memhash 0 (map Z.of_N s))) else Ok 0
  | ONumber _ n => do h <- Number_Model.hash n; Ok (Z.to_N h)
  | OStruct _ _ s => Ok (Z.to_N (memhash 0 (map Z.of_N s)))
  | OPair _ x y =>
    do h <- match x with Some o => hash o | None => Ok 0 end;
    do k <- match y with Some o => hash o | None => Ok 0 end;
    Ok (N.lxor h k)
  | OList a _ _ | ODict a _ | OOther a => Ok (pointer_hash a)
  end.
(** DKHash of a reference. *)
Definition dk_hash (o : option obj) : outcome N := match o with Some o => hash o | None => Ok 0 end.
