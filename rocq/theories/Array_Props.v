(** Properties C12, C18, C19 and C64: arrays as sequences. *)
Require Import Coq.ZArith.ZArith Coq.Lists.List Coq.Bool.Bool.
Require Import Verif.Base Verif.Array_Model Verif.Array_Spec Verif.List_Model Verif.List_Spec.
Require Verif.List_Proofs.
Import ListNotations.

(** C12: over every history of edits and reads the array returns what a plain
    sequence returns, and ends up showing that sequence.  The hypothesis says
    that the lengths and the ends of the ranges passed in are 64-bit integers. *)
Theorem C12_array_is_sequence :
  forall (A : Type) (null : A) (os : list (aop A)), fits A [] os ->
    exists a, array_run A null array_init os = Ok (a, snd (seq_run A [] os)) /\
      shows a (fst (seq_run A [] os)).
Proof. exact List_Proofs.array_sequence. Qed.
Print Assumptions C12_array_is_sequence.

(** C12, enumeration: applying a callback, which may stop the enumeration,
    visits the elements of the sequence in order. *)
Theorem C12_array_enumeration :
  forall (A : Type) (null : A) (os : list (aop A)) a rs, fits A [] os ->
    array_run A null array_init os = Ok (a, rs) ->
    forall S (cb : S -> A -> S * bool) (visit : S -> list A -> S * bool),
      (forall s, visit s [] = (s, false)) ->
      (forall s x l, visit s (x :: l) = let (s', stop) := cb s x in if stop then (s', true) else visit s' l) ->
      forall s, array_apply A cb s a = Ok (visit s (fst (seq_run A [] os))).
Proof. exact List_Proofs.array_enumeration. Qed.
Print Assumptions C12_array_enumeration.

(** C18: searching an array with any history and removing by value, for any
    equality function. *)
Theorem C18_array_search_and_remove :
  forall (A : Type) (null : A) (oeq : A -> A -> bool) (os : list (aop A)) a rs x, fits A [] os ->
    array_run A null array_init os = Ok (a, rs) ->
    let I := array_interface A null in
    let l := fst (seq_run A [] os) in
    (exists r, list_first_index A null oeq _ I a x = Ok (a, r) /\
       match r with Some i => is_first_index A oeq l x i | None => ~ occurs A oeq l x end) /\
    (exists r, list_last_index A null oeq _ I a x = Ok (a, r) /\
       match r with Some i => is_last_index A oeq l x i | None => ~ occurs A oeq l x end) /\
    list_count_of_object A null oeq _ I a x = Ok (a, occurrences A oeq l x) /\
    (exists b, list_contains A null oeq _ I a x = Ok (a, b) /\ (b = true <-> occurs A oeq l x)) /\
    (exists a', list_remove_object A null oeq _ I a x = Ok a' /\ shows a' (without A oeq l x)) /\
    (exists a' l', list_add_to_set A null oeq _ I a x = Ok a' /\ shows a' l' /\
       ((occurs A oeq l x /\ l' = l) \/ (~ occurs A oeq l x /\ l' = l ++ [x]))).
Proof. exact List_Proofs.array_search. Qed.
Print Assumptions C18_array_search_and_remove.

(** C18: removing the first and the last object and looking up a member. *)
Theorem C18_array_ends_and_member :
  forall (A : Type) (null : A) (oeq : A -> A -> bool) (os : list (aop A)) a rs x, fits A [] os ->
    array_run A null array_init os = Ok (a, rs) ->
    let I := array_interface A null in
    let l := fst (seq_run A [] os) in
    (exists a', list_remove_first A _ I a = Ok a' /\ shows a' (tl l)) /\
    (exists a', list_remove_last A _ I a = Ok a' /\ shows a' (removelast l)) /\
    (exists a' y, list_get_member A null oeq _ I a x = Ok (a', y) /\ shows a' l /\
       ((exists i, is_first_index A oeq l x i /\ nth_error l (Z.to_nat i) = Some y) \/ (~ occurs A oeq l x /\ y = null))).
Proof. exact List_Proofs.array_ends. Qed.
Print Assumptions C18_array_ends_and_member.

(** C19 for arrays: equality is pairwise equality; comparing lists of the same
    length is lexicographic.  Missing: the ordering of lists of different
    lengths, which is incoherent (below). *)
Theorem C19_array_equality_partial :
  forall (A : Type) (null : A) (oeq : A -> A -> bool) (ocmp : A -> A -> Z)
    (os1 os2 : list (aop A)) a1 a2 rs1 rs2, fits A [] os1 -> fits A [] os2 ->
    array_run A null array_init os1 = Ok (a1, rs1) -> array_run A null array_init os2 = Ok (a2, rs2) ->
    let I := array_interface A null in
    let l1 := fst (seq_run A [] os1) in
    let l2 := fst (seq_run A [] os2) in
    (exists b, list_equal A null oeq I I a1 a2 = Ok b /\ (b = true <-> pairwise_equal A oeq l1 l2)) /\
    (length l1 = length l2 ->
       exists c, list_compare A null ocmp _ I a1 a2 = Ok c /\
        (c = 0%Z <-> Forall2 (fun x y => ocmp x y = 0%Z) l1 l2) /\
        (c <> 0%Z -> exists q1 q2 x y r1 r2, l1 = q1 ++ x :: r1 /\ l2 = q2 ++ y :: r2 /\
           Forall2 (fun x y => ocmp x y = 0%Z) q1 q2 /\ c = ocmp x y)).
Proof. exact List_Proofs.array_equality. Qed.
Print Assumptions C19_array_equality_partial.

(** C19 is false of the code: a list compares as equal to a longer one that it
    is a prefix of, and the longer one does not compare as equal to it. *)
Theorem C19_list_compare_refuted :
  exists (os1 os2 : list (aop (option Z))) a1 a2 rs1 rs2,
    (* DKCompare on integers: NULL sorts last *)
    let ocmp := fun x y : option Z =>
      match x, y with
      | Some x, Some y => if (x <? y)%Z then 1%Z else if (y <? x)%Z then (-1)%Z else 0%Z
      | None, None => 0%Z | None, Some _ => (-1)%Z | Some _, None => 1%Z
      end in
    let I := array_interface (option Z) None in
    fits _ [] os1 /\ fits _ [] os2 /\
    array_run _ None array_init os1 = Ok (a1, rs1) /\ array_run _ None array_init os2 = Ok (a2, rs2) /\
    list_compare _ None ocmp _ I a1 a2 = Ok 0%Z /\
    list_compare _ None ocmp _ I a2 a1 = Ok 1%Z /\
    fst (seq_run _ [] os1) <> fst (seq_run _ [] os2).
Proof. exact List_Proofs.list_compare_refuted. Qed.
Print Assumptions C19_list_compare_refuted.

(** C64 is false of the code: appending a one-element array to itself leaves
    the allocation, and inserting a two-element array at its own start
    overwrites the inserted objects with NULL. *)
Theorem C64_self_insertion_refuted :
  exists (os : list (aop nat)) a rs,
    let null := 0 in
    fits _ [] os /\ array_run _ null array_init os = Ok (a, rs) /\
    fst (seq_run _ [] os) = [7; 8] /\
    array_replace_range_with_self _ null a 2 0 = UB /\
    exists a', array_replace_range_with_self _ null a 0 0 = Ok a' /\
      array_get_range _ a' 0 4 = Ok (Some [0; 0; 7; 8]).
Proof. exact List_Proofs.self_insertion_refuted. Qed.
Print Assumptions C64_self_insertion_refuted.

(** C64, what the code does for every non-empty array: the edit is undefined
    unless the range starts the array, and then inserts NULL references.
    Missing: the intended result, which the code only gives for an empty array. *)
Theorem C64_self_insertion_partial :
  forall (A : Type) (null : A) (os : list (aop A)) a rs, fits A [] os ->
    array_run A null array_init os = Ok (a, rs) ->
    let l := fst (seq_run A [] os) in
    forall loc len, valid_range A loc len l = true ->
      (l = [] -> exists a', array_replace_range_with_self A null a loc len = Ok a' /\ shows a' []) /\
      (l <> [] -> loc <> 0%Z -> array_replace_range_with_self A null a loc len = UB) /\
      (loc = 0%Z -> exists a', array_replace_range_with_self A null a loc len = Ok a' /\
         shows a' (repeat null (length l) ++ skipn (Z.to_nat len) l)).
Proof. exact List_Proofs.self_insertion_partial. Qed.
Print Assumptions C64_self_insertion_partial.

(** A history meeting the hypotheses: it grows past the first allocation, cuts
    and reads. *)
Example C12_history :
  let os := [AAppend [1; 2; 3]; AInsert 1 9; AReplaceRangeC 4 0 (repeat 5 40); ARemoveRange 2 30; ASet 0 4;
             AReplaceRange 90 2 [1]; AGet 3; AGet (-1); AGetRange 1 3; ACount] in
  fits nat [] os /\
  exists a, array_run nat 0 array_init os =
    Ok (a, [ANone; ANone; ANone; ANone; ANone; ANone; AObj (Some 5); AObj None; AObjs (Some [9; 5; 5]); ANum 14]).
Proof.
  split; [vm_compute; repeat split; try discriminate|]. eexists. vm_compute. reflexivity.
Qed.

Example C18_C19_case :
  let os := [AAppend [1; 2; 1; 3]] in
  fits nat [] os /\
  exists a rs, array_run nat 0 array_init os = Ok (a, rs) /\
    list_first_index nat 0 Nat.eqb _ (array_interface nat 0) a 1 = Ok (a, Some 0%Z) /\
    list_last_index nat 0 Nat.eqb _ (array_interface nat 0) a 1 = Ok (a, Some 2%Z) /\
    (exists a', list_remove_object nat 0 Nat.eqb _ (array_interface nat 0) a 1 = Ok a' /\ shows a' [2; 3]) /\
    list_equal nat 0 Nat.eqb (array_interface nat 0) (array_interface nat 0) a a = Ok true.
Proof. exact List_Proofs.search_case. Qed.
