(** What a collection made of another is to have. *)
Require Import Coq.ZArith.ZArith Coq.NArith.NArith Coq.Lists.List Coq.Bool.Bool.
Require Import Verif.Base Verif.Array_Model Verif.Array_Spec Verif.LinkedList_Model Verif.LinkedList_Spec Verif.HashTable_Spec Verif.Convert_Model.
Require Verif.Tree_Spec.
Import ListNotations.

Section Spec.
  Variable A : Type.
  (** No two of the objects are equal. *)
  Definition distinct (eq : A -> A -> bool) (l : list A) : Prop := ForallOrdPairs (fun a b => eq a b = false) l.
  (** [l'] has the objects of [l], one for all that are equal. *)
  Definition set_of (eq : A -> A -> bool) (l l' : list A) : Prop :=
    distinct eq l' /\ (forall x, In x l' -> In x l) /\ forall x, In x l -> exists y, In y l' /\ eq y x = true.

  Variable null : A.
  Variable is_null : A -> bool.
  Variable keq : A -> A -> bool.
  Variable P : Type.
  Variable pzero : P.
  (** The objects of a list by their indices. *)
  Definition lists (x : coll A P) (l : list A) : Prop :=
    match x with
    | CArr a => glen a = length l /\ forall i, array_get A a i = Ok (if (0 <=? i)%Z then nth_error l (Z.to_nat i) else None)
    | CLnk s => llist_shows A P s (plain A P pzero l)
    | _ => False
    end.
  Variable hash : A -> N.
  (** An object equal to [o] is among [l]. *)
  Definition member (l : list A) (o : A) : bool := existsb (keq o) l.
  (** [y] enumerates the objects of [l], one for all that are equal, counts them, and says of every
      object other than NULL whether it is among them. *)
  Definition is_set_of (y : coll A P) (l : list A) : Prop :=
    exists l', objects_of A P y = Ok l' /\ set_of keq l l' /\ count_of A P y = Z.of_nat (length l') /\
      forall o b, is_null o = false -> contains A null is_null hash keq P pzero y o = Ok b -> b = member l o.
  (** The compare function orders keys and finds those equal that are. *)
  Definition compares (c : A -> A -> Z) : Prop := Tree_Spec.ordering A c /\ forall a b, keq a b = (c a b =? 0)%Z.
  (** The requirements of the four classes on their callers, and sizes below 2^63. *)
  Fixpoint proper (e : expr A P) : Prop :=
    match e with
    | Array_of os => fits A [] os
    | List_of os => Forall (lop_ok A P) os /\ (all_inserted A P os <= INT64_MAX)%Z
    | Table_of _ => True
    | Tree_of c _ => compares c
    | Of _ _ => True
    | Arguments_ _ l => (Z.of_nat (length l) <= INT64_MAX)%Z
    | From _ e | List_set _ e | Dict _ e | Copy e => proper e
    end.
End Spec.
