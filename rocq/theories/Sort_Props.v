(** Properties C13, C14 and C15: sorting, shuffling and reversing. *)
Require Import Coq.ZArith.ZArith Coq.NArith.NArith Coq.Lists.List Coq.Sorting.Permutation Coq.Sorting.Sorted.
Require Import Verif.Base Verif.Sort_Model Verif.Sort_Spec.
Require Verif.Sort_Proofs.
Import ListNotations.
Local Open Scope Z_scope.

(** C13: sorting with any consistent comparison terminates inside the array
    and leaves an ordered permutation. *)
Theorem C13_sort :
  forall (A : Type) (cmp : A -> A -> Z), consistent A cmp ->
    forall l, exists l', sort_objects A cmp l = Ok l' /\ Permutation l l' /\ ordered A cmp l'.
Proof. exact Sort_Proofs.sort_objects_ok. Qed.
Print Assumptions C13_sort.

(** C14: shuffling permutes, for every random stream; and every position but
    the last can receive the element of every position but the last.  Missing:
    the last position, which never changes (below). *)
Theorem C14_shuffle_partial :
  forall (A : Type) (l : list A),
    (forall rand, exists l', shuffle A l rand = Ok l' /\ Permutation l l') /\
    (forall p q, 0 <= p < Z.of_nat (length l) - 1 -> 0 <= q < Z.of_nat (length l) - 1 ->
       exists rand l', shuffle A l rand = Ok l' /\
         nth_error l' (Z.to_nat p) = nth_error l (Z.to_nat q)).
Proof. exact Sort_Proofs.shuffle_partial. Qed.
Print Assumptions C14_shuffle_partial.

(** C14 is false of the code: no random stream moves the last element. *)
Theorem C14_shuffle_refuted :
  exists (l : list N), NoDup l /\ length l = 3%nat /\
    forall rand l', shuffle N l rand = Ok l' -> nth_error l' 2 = nth_error l 2.
Proof. exact Sort_Proofs.shuffle_refuted. Qed.
Print Assumptions C14_shuffle_refuted.

(** C14, the same for every list: the last element stays where it is. *)
Theorem C14_shuffle_last_fixed :
  forall (A : Type) (l : list A) (x : A) rand,
    exists l', shuffle A (l ++ [x]) rand = Ok (l' ++ [x]) /\ Permutation l l'.
Proof. exact Sort_Proofs.shuffle_last_fixed. Qed.
Print Assumptions C14_shuffle_last_fixed.

(** C15: reversing gives the elements in opposite order; twice restores. *)
Theorem C15_reverse :
  forall (A : Type) (l : list A),
    (exists l', reverse A l = Ok l' /\ length l' = length l /\
       (forall i, (i < length l)%nat -> nth_error l' i = nth_error l (length l - 1 - i)) /\
       reverse A l' = Ok l).
Proof. exact Sort_Proofs.reverse_spec. Qed.
Print Assumptions C15_reverse.

(** A comparison meeting the hypothesis of C13 that identifies distinct
    elements, on an array long enough for the quicksort phase. *)
Example C13_case :
  let cmp := fun a b : Z => (if a / 2 <? b / 2 then 1 else if b / 2 <? a / 2 then -1 else 0) in
  consistent Z cmp /\
  exists l', sort_objects Z cmp [9; 3; 14; 1; 12; 7; 0; 5; 11; 2; 8; 13; 6; 10; 4; 3; 2; 9] = Ok l' /\
    map (fun z => z / 2) l' = [0; 0; 1; 1; 1; 1; 2; 2; 3; 3; 4; 4; 4; 5; 5; 6; 6; 7].
Proof. exact Sort_Proofs.sort_case. Qed.
