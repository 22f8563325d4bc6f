(** Specification of sorting. *)
Require Import Coq.ZArith.ZArith Coq.Lists.List Coq.Sorting.Permutation Coq.Sorting.Sorted.
Import ListNotations.
Local Open Scope Z_scope.

Section Spec.
  Variable A : Type.
  Variable cmp : A -> A -> Z.

  (** [cmp] is a consistent comparison: a total preorder in which a positive
      result means that the first argument comes first, a negative one that it
      comes last, and zero that the two are equivalent. *)
  Definition consistent : Prop :=
    (forall a b, Z.sgn (cmp b a) = - Z.sgn (cmp a b)) /\
    (forall a b c, 0 <= cmp a b -> 0 <= cmp b c -> 0 <= cmp a c).

  (** Every element comes before, or is equivalent to, all later ones. *)
  Definition ordered (l : list A) : Prop := StronglySorted (fun a b => 0 <= cmp a b) l.
End Spec.
