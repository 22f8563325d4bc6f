(** Specification of sets: the mathematical set a client expression denotes. *)
Require Import Coq.Lists.List Coq.Bool.Bool Coq.NArith.NArith.
Require Import Verif.HashTable_Model Verif.SetDict_Model Verif.HashTable_Spec.
Import ListNotations.

Section Spec.
  Variable K : Type.
  Variable keq : K -> K -> bool.

  (** Is (something equal to) [x] a member of the set denoted by [e]? *)
  Fixpoint denote (e : sexp K) (x : K) : bool :=
    match e with
    | SEmpty => false
    | SInit e y => keq y x || denote e x
    | SAdd e y => keq y x || denote e x
    | SRemove e y => denote e x && negb (keq y x)
    | SRemoveAll _ => false
    | SUnion e1 e2 => denote e1 x || denote e2 x
    | SMinus e1 e2 => denote e1 x && negb (denote e2 x)
    end.
End Spec.

Section DictSpec.
  Variables K O : Type.
  Variable keq : K -> K -> bool.
  Variable oeq : O -> O -> bool.

  (** The two finite maps have the same keys, with equal objects. *)
  Definition extensionally_equal (m1 m2 : list (K * option O)) : Prop :=
    forall k,
      match amap_get K (option O) keq m1 k, amap_get K (option O) keq m2 k with
      | Some (_, Some a), Some (_, Some b) => oeq a b = true
      | Some (_, None), Some (_, None) => True
      | None, None => True
      | _, _ => False
      end.
End DictSpec.
