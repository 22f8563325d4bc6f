(** Properties C16, C17 and C65, and C18, C19 and C64 for linked lists. *)
Require Import Coq.ZArith.ZArith Coq.Lists.List Coq.Bool.Bool Coq.Sorting.Permutation.
Require Import Verif.Base Verif.Array_Model Verif.Array_Spec Verif.Sort_Spec Verif.List_Model Verif.List_Spec.
Require Import Verif.LinkedList_Model Verif.LinkedList_Spec.
Require Verif.LinkedList_Lists.
Import ListNotations.

(** C16: over every history of edits, reads, reversals, sorts and prioritised
    insertions a linked list returns what a plain sequence of objects with
    priorities returns, and ends up showing that sequence.  The hypotheses say
    that lengths and the ends of the ranges passed in are 64-bit integers and
    that comparison functions are consistent. *)
Theorem C16_linked_list_is_sequence :
  forall (A : Type) (oid : A -> A -> bool) (P : Type) (gt : P -> P -> bool) (pzero : P) (os : list (lop A P)),
    Forall (lop_ok A P) os -> (all_inserted A P os <= INT64_MAX)%Z ->
    exists s l rs, llist_run A oid P gt pzero (llist_init A P) os = Ok (s, rs) /\
      lsteps A oid P gt pzero [] os l rs /\ llist_shows A P s l.
Proof. exact LinkedList_Lists.history. Qed.
Print Assumptions C16_linked_list_is_sequence.

(** C16, enumeration: a callback, which may stop, visits the objects in order. *)
Theorem C16_linked_list_enumeration :
  forall (A : Type) (oid : A -> A -> bool) (P : Type) (gt : P -> P -> bool) (pzero : P) os s vs,
    made_by A oid P gt pzero os s vs ->
    forall S (cb : S -> A -> S * bool) (visit : S -> list A -> S * bool),
      (forall s, visit s [] = (s, false)) ->
      (forall s x l, visit s (x :: l) = let (s', stop) := cb s x in if stop then (s', true) else visit s' l) ->
      forall st, llist_apply A P cb st s = Ok (visit st (map fst vs)).
Proof. exact LinkedList_Lists.llist_enumeration. Qed.
Print Assumptions C16_linked_list_enumeration.

(** C17: after any history of prioritised insertions each object occurs once,
    no entry is followed by one of greater priority, the entries are those of
    the accepted insertions still in force, and those of one priority are in
    the order they were inserted.  Object identity decides equality and the
    priorities are strictly weakly ordered (no NaN). *)
Theorem C17_priority_insertion :
  forall (A : Type) (oid : A -> A -> bool) (P : Type) (gt : P -> P -> bool) (pzero : P),
    (forall x y, oid x y = true <-> x = y) -> priority_order P gt ->
    forall os, (Z.of_nat (length os) <= INT64_MAX)%Z ->
    exists s l, llist_run A oid P gt pzero (llist_init A P) (map (as_op A P) os) =
        Ok (s, map (RBool A P) (accepted oid [] os)) /\ llist_shows A P s l /\
      NoDup (map fst l) /\ by_priority A P gt l /\ Permutation l (in_force A oid P [] os) /\
      forall p, filter (same_priority A P gt p) l = filter (same_priority A P gt p) (in_force A oid P [] os).
Proof. exact LinkedList_Lists.priority_history. Qed.
Print Assumptions C17_priority_insertion.

(** C18 for linked lists: a search may move the list's cursor but shows the
    same objects afterwards. *)
Theorem C18_linked_list_search_and_remove :
  forall (A : Type) (null : A) (oid : A -> A -> bool) (P : Type) (gt : P -> P -> bool) (pzero : P)
    (oeq : A -> A -> bool) os s vs x, made_by A oid P gt pzero os s vs ->
    let LI := llist_interface A P pzero in
    let objects_shown := objects_shown A P in
    let l := map fst vs in
    (exists s' r, list_first_index A null oeq _ LI s x = Ok (s', r) /\ objects_shown s' l /\
       match r with Some i => is_first_index A oeq l x i | None => ~ occurs A oeq l x end) /\
    (exists s' r, list_last_index A null oeq _ LI s x = Ok (s', r) /\ objects_shown s' l /\
       match r with Some i => is_last_index A oeq l x i | None => ~ occurs A oeq l x end) /\
    (exists s', list_count_of_object A null oeq _ LI s x = Ok (s', occurrences A oeq l x) /\ objects_shown s' l) /\
    (exists s' b, list_contains A null oeq _ LI s x = Ok (s', b) /\ objects_shown s' l /\ (b = true <-> occurs A oeq l x)) /\
    (exists s', list_remove_object A null oeq _ LI s x = Ok s' /\ objects_shown s' (without A oeq l x)) /\
    (exists s' l', list_add_to_set A null oeq _ LI s x = Ok s' /\ objects_shown s' l' /\
       ((occurs A oeq l x /\ l' = l) \/ (~ occurs A oeq l x /\ l' = l ++ [x]))).
Proof. exact LinkedList_Lists.llist_search. Qed.
Print Assumptions C18_linked_list_search_and_remove.

(** C18 for linked lists: removing the first and the last object and looking up
    a member. *)
Theorem C18_linked_list_ends_and_member :
  forall (A : Type) (null : A) (oid : A -> A -> bool) (P : Type) (gt : P -> P -> bool) (pzero : P)
    (oeq : A -> A -> bool) os s vs x, made_by A oid P gt pzero os s vs ->
    let LI := llist_interface A P pzero in
    let objects_shown := objects_shown A P in
    let l := map fst vs in
    (exists s', list_remove_first A _ LI s = Ok s' /\ objects_shown s' (tl l)) /\
    (exists s', list_remove_last A _ LI s = Ok s' /\ objects_shown s' (removelast l)) /\
    (exists s' y, list_get_member A null oeq _ LI s x = Ok (s', y) /\ objects_shown s' l /\
       ((exists i, is_first_index A oeq l x i /\ nth_error l (Z.to_nat i) = Some y) \/ (~ occurs A oeq l x /\ y = null))).
Proof. exact LinkedList_Lists.llist_ends. Qed.
Print Assumptions C18_linked_list_ends_and_member.

(** C19 for linked lists; the ordering of lists of different lengths is
    missing (C19_list_compare_refuted). *)
Theorem C19_linked_list_equality_partial :
  forall (A : Type) (null : A) (oid : A -> A -> bool) (P : Type) (gt : P -> P -> bool) (pzero : P)
    (oeq : A -> A -> bool) (ocmp : A -> A -> Z) os1 os2 s1 s2 vs1 vs2,
    made_by A oid P gt pzero os1 s1 vs1 -> made_by A oid P gt pzero os2 s2 vs2 ->
    let LI := llist_interface A P pzero in
    let l1 := map fst vs1 in let l2 := map fst vs2 in
    (exists b, list_equal A null oeq LI LI s1 s2 = Ok b /\ (b = true <-> pairwise_equal A oeq l1 l2)) /\
    (length l1 = length l2 ->
       exists c, list_compare A null ocmp _ LI s1 s2 = Ok c /\
        (c = 0%Z <-> Forall2 (fun x y => ocmp x y = 0%Z) l1 l2) /\
        (c <> 0%Z -> exists q1 q2 x y r1 r2, l1 = q1 ++ x :: r1 /\ l2 = q2 ++ y :: r2 /\
           Forall2 (fun x y => ocmp x y = 0%Z) q1 q2 /\ c = ocmp x y)).
Proof. exact LinkedList_Lists.llist_equality. Qed.
Print Assumptions C19_linked_list_equality_partial.

(** C19 for an array and a linked list. *)
Theorem C19_mixed_equality :
  forall (A : Type) (null : A) (oid : A -> A -> bool) (P : Type) (gt : P -> P -> bool) (pzero : P)
    (oeq : A -> A -> bool) os1 a rs os2 s vs, fits A [] os1 -> array_run A null array_init os1 = Ok (a, rs) ->
    made_by A oid P gt pzero os2 s vs ->
    let LI := llist_interface A P pzero in
    let l1 := fst (seq_run A [] os1) in let l2 := map fst vs in
    (exists b, list_equal A null oeq (array_interface A null) LI a s = Ok b /\ (b = true <-> pairwise_equal A oeq l1 l2)) /\
    (exists b, list_equal A null oeq LI (array_interface A null) s a = Ok b /\ (b = true <-> pairwise_equal A oeq l2 l1)).
Proof. exact (fun A null oid P gt pzero oeq => LinkedList_Lists.mixed_equality A null oid P gt pzero oeq (fun _ _ => 0%Z)). Qed.
Print Assumptions C19_mixed_equality.

(** C64 for linked lists: inserting a list into itself anywhere but at the
    start never ends; at the start it works. *)
Theorem C64_linked_list_self_insertion_partial :
  forall (A : Type) (oid : A -> A -> bool) (P : Type) (gt : P -> P -> bool) (pzero : P) os s vs,
    made_by A oid P gt pzero os s vs ->
    (forall loc len, valid_range (entry A P) loc len vs = true -> (0 < loc)%Z ->
       forall fuel, llist_replace_range_with_self A P pzero fuel s loc len = NoFuel) /\
    (exists s', llist_replace_range_with_self A P pzero (S (length vs)) s 0 0 = Ok s' /\
       objects_shown A P s' (map fst vs ++ map fst vs)).
Proof. exact LinkedList_Lists.llist_self_insertion. Qed.
Print Assumptions C64_linked_list_self_insertion_partial.

(** C65 is false of the code: shuffling any linked list of two or more objects
    dereferences NULL. *)
Theorem C65_linked_list_shuffle_refuted :
  forall (A : Type) (oid : A -> A -> bool) (P : Type) (gt : P -> P -> bool) (pzero : P) os s vs,
    made_by A oid P gt pzero os s vs -> 1 < length vs -> llist_shuffle A P s = UB.
Proof. exact LinkedList_Lists.llist_shuffle_undefined. Qed.
Print Assumptions C65_linked_list_shuffle_refuted.

(** A history meeting the hypotheses of C16: the cursor moves both ways,
    nodes are reused, and a prioritised insertion moves an object. *)
Example C16_history :
  let os := [LAppend nat Z [1; 2; 3; 4; 5]; LGet nat Z 3; LGet nat Z 1; LReplace nat Z 1 2 [9]; LReplace nat Z 7 1 [8];
             LReverse nat Z; LPriority nat Z 9 6%Z InsertIfFound; LPriority nat Z 9 2%Z InsertIfNotFound;
             LSort nat Z (fun a b => (Z.of_nat b - Z.of_nat a)%Z); LGetPriority nat Z 0; LGetRange nat Z 0 4] in
  Forall (lop_ok nat Z) os /\ (all_inserted nat Z os <= INT64_MAX)%Z /\
  exists s, llist_run nat Nat.eqb Z Z.gtb 0%Z (llist_init nat Z) os =
    Ok (s, [RNone _ _; RObj _ _ (Some 4); RObj _ _ (Some 2); RNone _ _; RNone _ _; RNone _ _; RBool _ _ true; RBool _ _ false;
            RNone _ _; RPrio _ _ (Some 6%Z); RObjs _ _ (Some [1; 4; 5; 9])]).
Proof.
  split; [|split; [vm_compute; discriminate|eexists; vm_compute; reflexivity]].
  repeat constructor; cbn; try (vm_compute; discriminate); intros; Lia.lia.
Qed.

(** C17 on a history with a tie and a moved object; integers with > are a
    priority order. *)
Example C17_case :
  priority_order Z Z.gtb /\
  in_force nat Nat.eqb Z [] [(1, 5%Z, InsertAlways); (2, 7%Z, InsertAlways); (3, 5%Z, InsertIfNotFound); (1, 5%Z, InsertIfFound)]
    = [(2, 7%Z); (3, 5%Z); (1, 5%Z)].
Proof.
  split; [|reflexivity]. unfold priority_order. split; [|split]; intros.
  - rewrite Z.gtb_ltb. apply Z.ltb_irrefl.
  - rewrite Z.gtb_ltb, Z.ltb_lt in *. Lia.lia.
  - rewrite Z.gtb_ltb, Z.ltb_ge in *. Lia.lia.
Qed.

(** A list meeting the hypotheses of C18, C19, C64 and C65. *)
Example C18_C19_C64_C65_case :
  exists s, made_by nat Nat.eqb Z Z.gtb 0%Z [LAppend nat Z [4; 6; 4]] s [(4, 0%Z); (6, 0%Z); (4, 0%Z)].
Proof. exact LinkedList_Lists.made_case. Qed.
