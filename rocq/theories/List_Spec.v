(** Specification of list searching, removal, equality and ordering, on plain
    sequences. *)
Require Import Coq.ZArith.ZArith Coq.Lists.List Coq.Bool.Bool.
Import ListNotations.

Section Spec.
  Variable A : Type.
  Variable oeq : A -> A -> bool.
  Variable ocmp : A -> A -> Z.

  (** [i] is the first / last position holding an object equal to [x]. *)
  Definition is_first_index (l : list A) (x : A) (i : Z) : Prop :=
    (exists y, (0 <= i)%Z /\ nth_error l (Z.to_nat i) = Some y /\ oeq x y = true) /\
    (forall j y, (0 <= j < i)%Z -> nth_error l (Z.to_nat j) = Some y -> oeq x y = false).
  Definition is_last_index (l : list A) (x : A) (i : Z) : Prop :=
    (exists y, (0 <= i)%Z /\ nth_error l (Z.to_nat i) = Some y /\ oeq x y = true) /\
    (forall j y, (i < j)%Z -> nth_error l (Z.to_nat j) = Some y -> oeq x y = false).
  Definition occurs (l : list A) (x : A) : Prop := exists y, In y l /\ oeq x y = true.

  (** The number of positions holding an object equal to [x]. *)
  Definition occurrences (l : list A) (x : A) : nat := length (filter (oeq x) l).
  (** The sequence without the objects equal to [x]. *)
  Definition without (l : list A) (x : A) : list A := filter (fun y => negb (oeq x y)) l.

  (** Same length and pairwise equal elements. *)
  Definition pairwise_equal (l1 l2 : list A) : Prop :=
    length l1 = length l2 /\
    forall i x y, nth_error l1 i = Some x -> nth_error l2 i = Some y -> oeq x y = true.
End Spec.
