(** Properties C154-C157 and C159: collections made of collections. *)
Require Import Coq.ZArith.ZArith Coq.NArith.NArith Coq.Lists.List Coq.Bool.Bool Coq.Sorting.Permutation Coq.Sorting.Sorted.
Require Import Verif.Base Verif.HashTable_Model Verif.HashTable_Spec Verif.Array_Model Verif.LinkedList_Model Verif.Convert_Model Verif.Convert_Spec.
Require Verif.Convert_Results Verif.Tree_Model.
Import ListNotations.

(** C154: an array or linked list made of any collection has the objects that enumerating the
    collection shows, in that order, and as many as the collection counts; one made of a C array has
    the objects of the array; one made of arguments those before the first NULL. *)
Theorem C154_lists_made :
  forall (A : Type) (null : A) (is_null : A -> bool) (oid : A -> A -> bool) (hash : A -> N) (keq : A -> A -> bool) (kcmp : A -> A -> Z) (P : Type) (gt : P -> P -> bool) (pzero : P),
    equivalence A keq -> hash_respects A keq hash -> compares A keq kcmp ->
    forall e x, proper A keq P e -> build A null is_null oid hash keq kcmp P gt pzero e = Ok x ->
    exists l, objects_of A P x = Ok l /\ count_of A P x = Z.of_nat (length l) /\
      forall k, k = KArray \/ k = KLinked ->
        exists y, make A null is_null hash keq kcmp P pzero k x = Ok y /\ lists A P pzero y l /\ objects_of A P y = Ok l /\ count_of A P y = Z.of_nat (length l).
Proof. exact Convert_Results.lists_made. Qed.
Print Assumptions C154_lists_made.

Theorem C154_lists_given :
  forall (A : Type) (null : A) (is_null : A -> bool) (hash : A -> N) (keq : A -> A -> bool) (kcmp : A -> A -> Z) (P : Type) (gt : P -> P -> bool) (pzero : P) k l,
    k = KArray \/ k = KLinked ->
    (exists y, of_c_array A null is_null hash keq kcmp P pzero k l = Ok y /\ lists A P pzero y l) /\
    ((Z.of_nat (length l) <= INT64_MAX)%Z -> exists y, of_arguments A null is_null hash keq kcmp P pzero k l = Ok y /\ lists A P pzero y (given A is_null l)).
Proof. exact Convert_Results.lists_given. Qed.
Print Assumptions C154_lists_given.

(** C155, what holds: a set made of a collection has its members, one for all that are equal; a tree
    has those other than NULL, in order; lists made as sets have the same.  Missing: NULL members, and
    lists made as sets when the default class of sets is a class of lists (see below). *)
Theorem C155_sets_made_partial :
  forall (A : Type) (null : A) (is_null : A -> bool) (oid : A -> A -> bool) (hash : A -> N) (keq : A -> A -> bool) (kcmp : A -> A -> Z) (P : Type) (gt : P -> P -> bool) (pzero : P),
    equivalence A keq -> hash_respects A keq hash -> compares A keq kcmp -> is_null null = true -> (forall a b, keq a b = true -> is_null a = is_null b) ->
    forall e x l, proper A keq P e -> build A null is_null oid hash keq kcmp P gt pzero e = Ok x -> objects_of A P x = Ok l ->
    let set_of_list y l := is_set_of A null is_null keq P pzero hash y l in
    let objects := filter (fun o => negb (is_null o)) l in
    let in_order y := exists l', objects_of A P y = Ok l' /\ StronglySorted (fun a b => (kcmp a b > 0)%Z) l' in
    (forall y, make A null is_null hash keq kcmp P pzero KHash x = Ok y -> set_of_list y l) /\
    (exists y, make A null is_null hash keq kcmp P pzero KTree x = Ok y /\ set_of_list y objects /\
       (forall o, is_null o = false -> contains A null is_null hash keq P pzero y o = Ok (member A keq l o)) /\ in_order y) /\
    (forall k, k = KArray \/ k = KLinked ->
       (forall y, list_set A null is_null hash keq kcmp P pzero 1 KHash k x = Ok y -> set_of_list y l /\ exists l', objects_of A P y = Ok l' /\ lists A P pzero y l') /\
       exists y, list_set A null is_null hash keq kcmp P pzero 1 KTree k x = Ok y /\ set_of_list y objects /\
         exists l', objects_of A P y = Ok l' /\ lists A P pzero y l' /\ StronglySorted (fun a b => (kcmp a b > 0)%Z) l').
Proof. exact Convert_Results.sets_made. Qed.
Print Assumptions C155_sets_made_partial.

Theorem C155_sets_given :
  forall (A : Type) (null : A) (is_null : A -> bool) (hash : A -> N) (keq : A -> A -> bool) (kcmp : A -> A -> Z) (P : Type) (gt : P -> P -> bool) (pzero : P),
    equivalence A keq -> hash_respects A keq hash -> compares A keq kcmp -> is_null null = true -> (forall a b, keq a b = true -> is_null a = is_null b) ->
    forall l,
    let set_of_list y l := is_set_of A null is_null keq P pzero hash y l in
    (forall y, of_c_array A null is_null hash keq kcmp P pzero KHash l = Ok y -> set_of_list y l) /\
    (exists y, of_c_array A null is_null hash keq kcmp P pzero KTree l = Ok y /\ set_of_list y (filter (fun o => negb (is_null o)) l)) /\
    (forall y, of_arguments A null is_null hash keq kcmp P pzero KHash l = Ok y -> set_of_list y (given A is_null l)) /\
    (exists y, of_arguments A null is_null hash keq kcmp P pzero KTree l = Ok y /\ set_of_list y (given A is_null l)).
Proof. exact Convert_Results.sets_given. Qed.
Print Assumptions C155_sets_given.

(** C155 is false of the code: a hash set made of a list with NULL counts and enumerates NULL, and
    says that it does not contain it; a tree made of the same list leaves it out. *)
Theorem C155_null_members_refuted :
  exists (e : expr N Z) x y, proper N N.eqb Z e /\
    build N 0%N Convert_Results.no_null N.eqb Convert_Results.nhash N.eqb Convert_Results.ncmp Z Convert_Results.ngt 0%Z (From KHash e) = Ok x /\
    build N 0%N Convert_Results.no_null N.eqb Convert_Results.nhash N.eqb Convert_Results.ncmp Z Convert_Results.ngt 0%Z (From KTree e) = Ok y /\
    objects_of N Z x = Ok [0%N; 1%N] /\ count_of N Z x = 2%Z /\ contains N 0%N Convert_Results.no_null Convert_Results.nhash N.eqb Z 0%Z x 0%N = Ok false /\ objects_of N Z y = Ok [1%N].
Proof. exact Convert_Results.null_members. Qed.
Print Assumptions C155_null_members_refuted.

(** With a class of lists as the default class of sets, making a list of the set of any collection
    never ends: no number of nested calls is enough. *)
Theorem C155_default_class_refuted :
  forall (A : Type) (null : A) (is_null : A -> bool) (hash : A -> N) (keq : A -> A -> bool) (kcmp : A -> A -> Z) (P : Type) (pzero : P) (x : coll A P) k d fuel,
    d = KArray \/ d = KLinked -> list_set A null is_null hash keq kcmp P pzero fuel d k x = NoFuel.
Proof. exact Convert_Results.default_list_set_diverges. Qed.
Print Assumptions C155_default_class_refuted.

(** C156: a table made of a dictionary, and a copy of a dictionary, have the same pairs, count the same
    and answer every key alike; a tree made of it has the pairs whose key is not NULL and answers every
    such key alike. *)
Theorem C156_dictionaries_made :
  forall (A : Type) (null : A) (is_null : A -> bool) (oid : A -> A -> bool) (hash : A -> N) (keq : A -> A -> bool) (kcmp : A -> A -> Z) (P : Type) (gt : P -> P -> bool) (pzero : P),
    equivalence A keq -> hash_respects A keq hash -> compares A keq kcmp -> (forall a b, keq a b = true -> is_null a = is_null b) ->
    forall e x m, proper A keq P e -> build A null is_null oid hash keq kcmp P gt pzero e = Ok x -> pairs_of A P x = Ok m ->
    (forall y, make_dict A is_null hash keq kcmp P KHash x = Ok y \/ copy A null is_null hash keq kcmp P pzero x = Ok y ->
      (exists m', pairs_of A P y = Ok m' /\ Permutation m' m) /\ count_of A P y = count_of A P x /\
      forall k a b, get A null hash keq P x k = Ok a -> get A null hash keq P y k = Ok b -> a = b) /\
    exists y, make_dict A is_null hash keq kcmp P KTree x = Ok y /\
      (exists m', pairs_of A P y = Ok m' /\ Permutation m' (filter (fun e => negb (is_null (fst e))) m)) /\
      ((forall k v, In (k, v) m -> is_null k = false) -> count_of A P y = count_of A P x) /\
      forall k a, is_null k = false -> get A null hash keq P x k = Ok a -> get A null hash keq P y k = Ok a.
Proof. exact Convert_Results.dictionaries_made. Qed.
Print Assumptions C156_dictionaries_made.

(** C157: the lists of all keys and of all objects of a dictionary show its pairs side by side, the keys
    are all different, each of them is answered with the object beside it and every other key with NULL;
    the dictionary contains an object if and only if that very object is in the list. *)
Theorem C157_keys_and_objects :
  forall (A : Type) (null : A) (is_null : A -> bool) (oid : A -> A -> bool) (hash : A -> N) (keq : A -> A -> bool) (kcmp : A -> A -> Z) (P : Type) (gt : P -> P -> bool) (pzero : P),
    equivalence A keq -> hash_respects A keq hash -> compares A keq kcmp ->
    forall e x m, proper A keq P e -> build A null is_null oid hash keq kcmp P gt pzero e = Ok x -> pairs_of A P x = Ok m -> (Z.of_nat (length m) <= INT64_MAX)%Z ->
    (exists a, all_keys A null P x = Ok a /\ lists A P pzero (CArr a) (map fst m)) /\ (exists a, all_objects A null P x = Ok a /\ lists A P pzero (CArr a) (map snd m)) /\
    count_of A P x = Z.of_nat (length m) /\ distinct A keq (map fst m) /\
    (forall k r, get A null hash keq P x k = Ok r -> (forall v, In (k, v) m -> r = v) /\ ((forall k', In k' (map fst m) -> keq k' k = false) -> r = null)) /\
    forall o, exists b, contains_object A oid P x o = Ok b /\ (b = true <-> exists v, In v (map snd m) /\ oid v o = true).
Proof. exact Convert_Results.keys_and_objects. Qed.
Print Assumptions C157_keys_and_objects.

(** C159 is false of the code: the copy of a linked list has priority 0 where the list had 5.  (By
    C154_lists_made every priority of a linked list made of a collection is 0.) *)
Theorem C159_copies_keep_priorities_refuted :
  exists (e : expr N Z) x y, proper N N.eqb Z e /\
    build N 0%N Convert_Results.no_null N.eqb Convert_Results.nhash N.eqb Convert_Results.ncmp Z Convert_Results.ngt 0%Z e = Ok (CLnk x) /\
    build N 0%N Convert_Results.no_null N.eqb Convert_Results.nhash N.eqb Convert_Results.ncmp Z Convert_Results.ngt 0%Z (Copy e) = Ok (CLnk y) /\
    (do r <- llist_get_priority N Z x 0; Ok (snd r)) = Ok (Some 5%Z) /\ (do r <- llist_get_priority N Z y 0; Ok (snd r)) = Ok (Some 0%Z).
Proof. exact Convert_Results.copies_lose_priorities. Qed.
Print Assumptions C159_copies_keep_priorities_refuted.

(** Numbers meet the hypotheses, and such collections exist. *)
Example C154_references : equivalence N N.eqb /\ hash_respects N N.eqb Convert_Results.nhash /\ compares N N.eqb Convert_Results.ncmp /\ Convert_Results.no_null 0 = true /\
  forall a b, N.eqb a b = true -> Convert_Results.no_null a = Convert_Results.no_null b.
Proof. exact Convert_Results.numbers_ok. Qed.
Example C154_collections :
  let build := build N 0%N Convert_Results.no_null N.eqb Convert_Results.nhash N.eqb Convert_Results.ncmp Z Convert_Results.ngt 0%Z in
  let table := Table_of [OpSet 3%N 30%N; OpSet 1%N 10%N; OpSet 3%N 31%N] in
  let tree := Tree_of Convert_Results.ncmp [Tree_Model.TInsert _ _ 3%N 30%N HashTable_Model.InsertAlways; Tree_Model.TInsert _ _ 1%N 10%N HashTable_Model.InsertAlways] in
  let items := Arguments_ KLinked [5; 2; 5; 0; 9]%N in
  (do x <- build table; pairs_of N Z x) = Ok [(1, 10); (3, 31)]%N /\ (do x <- build (Dict KTree table); pairs_of N Z x) = Ok [(1, 10); (3, 31)]%N /\
  (do x <- build (Copy tree); objects_of N Z x) = Ok [10; 30]%N /\ (do x <- build items; objects_of N Z x) = Ok [5; 2; 5]%N /\
  (do x <- build (From KTree items); objects_of N Z x) = Ok [2; 5]%N /\ (do x <- build (List_set KArray items); Ok (count_of N Z x)) = Ok 2%Z /\
  (do x <- build (From KArray table); objects_of N Z x) = Ok [10; 31]%N /\ (do x <- build tree; contains_object N N.eqb Z x 30%N) = Ok true.
Proof. repeat split; vm_compute; reflexivity. Qed.
