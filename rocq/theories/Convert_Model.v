(** Model of making collections of other collections and of copying them: the initialisers of
    Source/DKArray.c, DKLinkedList.c, DKHashTable.c, DKBinaryTree.c, DKList.c, DKSet.c and
    DKDictionary.c, on the models of the four collections.

    Keys and objects are references of the same type [A], among them NULL.  A callback that fills the
    new collection does not change the old one, so the objects passed to it are collected first.  The
    depth of the recursion in a tree of n pairs is at most n + 1 (see C10). *)
Require Import Coq.ZArith.ZArith Coq.NArith.NArith Coq.Lists.List Coq.Bool.Bool Coq.Arith.Arith.
Require Import Verif.Base Verif.HashTable_Model Verif.SetDict_Model Verif.Array_Model Verif.LinkedList_Model Verif.List_Model.
Require Verif.Tree_Model.
Import ListNotations.

Section Convert.
  Variable A : Type.
  Variable null : A.
  Variable is_null : A -> bool.
  Variable oid : A -> A -> bool.          (* the same reference *)
  Variable hash : A -> N.                 (* DKHash *)
  Variable keq : A -> A -> bool.          (* DKEqual *)
  Variable kcmp : A -> A -> Z.            (* DKCompare *)
  Variable P : Type.
  Variable gt : P -> P -> bool.
  Variable pzero : P.

  Notation tree := (Tree_Model.tree A A).
  (** The four classes; a tree has its compare function, DKBinaryTree.c 54-66. *)
  Inductive coll :=
  | CArr (a : garray A) | CLnk (s : llist A P) | CHash (t : table A A) | CTree (c : A -> A -> Z) (t : tree).
  Inductive kind := KArray | KLinked | KHash | KTree.

  Definition deep (t : tree) : nat := S (Z.to_nat (Tree_Model.count A A t)).
  (** foreachKeyAndObject: DKHashTableApplyFunction, DKHashTable.c 615-637, and
      DKBinaryTreeApplyFunction, DKBinaryTree.c 879-958: the keys and objects passed to a callback.
      Lists have no such interface: DKGetInterface stops the program. *)
  Definition pairs_of (x : coll) : outcome (list (A * A)) :=
    match x with
    | CHash t => Ok (enumerate t)
    | CTree _ t => do r <- Tree_Model.traverse A A _ (fun st k v => (st ++ [(k, v)], 0%Z)) (deep t) t []; Ok (fst r)
    | _ => Fatal
    end.
  (** foreachObject, DKCollection.c 121-130 (DKArray.c 659-677, DKLinkedList.c 950-968, DKHashTable.c
      671-693, DKBinaryTree.c 888-905): the objects passed to a callback. *)
  Definition objects_of (x : coll) : outcome (list A) :=
    match x with
    | CArr a => do r <- array_apply A (fun st o => (st ++ [o], false)) [] a; Ok (fst r)
    | CLnk s => do r <- llist_apply A P (fun st o => (st ++ [o], false)) [] s; Ok (fst r)
    | CHash t => Ok (map snd (enumerate t))
    | CTree _ t => do r <- Tree_Model.traverse A A _ (fun st k v => (st ++ [v], 0%Z)) (deep t) t []; Ok (fst r)
    end.
  (** getCount. *)
  Definition count_of (x : coll) : Z :=
    match x with
    | CArr a => Z.of_nat (glen a)
    | CLnk s => Z.of_nat (lcount A P s)
    | CHash t => Z.of_N (count t)
    | CTree _ t => Tree_Model.count A A t
    end.

  (** INTERNAL_DKArrayReplaceRangeWithCollection for the range (0,0) of a new array, DKArray.c
      300-312, 585-614: as many slots as the collection counts, then one write for each object. *)
  Definition new_array (n : Z) (l : list A) : outcome (garray A) :=
    do a <- replace_elements A null array_init 0 0 None (Z.to_nat n); write_elements A a 0 l.
  (** Insert, DKBinaryTree.c 449-458, into a tree with compare function [c]: a NULL key is reported and
      left out. *)
  Definition tree_put (c : A -> A -> Z) (t : tree) (e : A * A) : outcome tree :=
    if is_null (fst e) then Ok t else Tree_Model.insert A A c (deep t) t (fst e) (snd e) HashTable_Model.InsertAlways.
  (** DKGenericHashTableInsert; the initialisers of tables do not look for NULL. *)
  Definition hash_put (t : table A A) (e : A * A) : outcome (table A A) := do r <- insert A A hash keq t (fst e) (snd e) HashTable_Model.InsertAlways; Ok (fst r).
  Definition twice (x : A) : A * A := (x, x).
  (** The objects [l] as a set: InsertObject, DKHashTable.c 324-335, and DKBinaryTree.c 576-583. *)
  Definition hash_of (l : list A) : outcome coll := do t <- foreach_state hash_put table_init (map twice l); Ok (CHash t).
  Definition tree_of (l : list A) : outcome coll := do t <- foreach_state (tree_put kcmp) (Tree_Model.init A A) (map twice l); Ok (CTree kcmp t).

  (** DKListInitWithCollection (DKArray.c 300-312, DKLinkedList.c 584-595) and
      DKSetInitWithCollection (DKHashTable.c 479-490, DKBinaryTree.c 743-754). *)
  Definition make (k : kind) (x : coll) : outcome coll :=
    do l <- objects_of x;
    match k with
    | KArray => do a <- new_array (count_of x) l; Ok (CArr a)
    | KLinked => do s <- llist_replace_range A P pzero (llist_init A P) 0 0 l; Ok (CLnk s)
    | KHash => hash_of l
    | KTree => tree_of l
    end.
  (** DKListInitWithCArray (DKArray.c 283-294, DKLinkedList.c 567-578) and DKSetInitWithCArray
      (DKHashTable.c 452-473, DKBinaryTree.c 721-737). *)
  Definition of_c_array (k : kind) (l : list A) : outcome coll :=
    match k with
    | KArray => do a <- array_replace_range A null array_init 0 0 l; Ok (CArr a)
    | KLinked => do s <- llist_replace_range A P pzero (llist_init A P) 0 0 l; Ok (CLnk s)
    | KHash => hash_of l
    | KTree => tree_of l
    end.
  (** Arguments are read up to the first NULL. *)
  Fixpoint given (l : list A) : list A := match l with [] => [] | x :: l' => if is_null x then [] else x :: given l' end.
  Definition append (a : garray A) (x : A) : outcome (garray A) := array_replace_range A null a (Z.of_nat (glen a)) 0 [x].
  (** DKListInitWithVAObjects (DKArray.c 260-277, DKLinkedList.c 544-561) and DKSetInitWithVAObjects
      (DKHashTable.c 428-446, DKBinaryTree.c 698-715). *)
  Definition of_arguments (k : kind) (l : list A) : outcome coll :=
    match k with
    | KArray => do a <- foreach_state append array_init (given l); Ok (CArr a)
    | KLinked => do s <- foreach_state (fun s x => insert_object A P pzero s (lcount A P s) x) (llist_init A P) (given l); Ok (CLnk s)
    | KHash => hash_of (given l)
    | KTree => tree_of (given l)
    end.
  (** DKListInitSetWithCollection, DKList.c 209-222: a set of the default class of sets, DKSet.c 46-58,
      then a list of it.  If that class is a list class, its initialiser is this function again. *)
  Fixpoint list_set (fuel : nat) (default k : kind) (x : coll) : outcome coll :=
    match fuel with
    | O => NoFuel
    | S fuel' =>
      do s <- (match default with
               | KArray | KLinked => list_set fuel' default default x
               | _ => make default x
               end);
      make k s
    end.
  (** DKDictionaryInitWithDictionary: DKHashTable.c 407-421 and DKBinaryTree.c 681-692. *)
  Definition make_dict (k : kind) (x : coll) : outcome coll :=
    do l <- pairs_of x;
    match k with
    | KHash => do t <- foreach_state hash_put table_init l; Ok (CHash t)
    | KTree => do t <- foreach_state (tree_put kcmp) (Tree_Model.init A A) l; Ok (CTree kcmp t)
    | _ => Fatal
    end.
  (** DKArrayCopy, DKArray.c 374-377; DKLinkedListCopy, DKLinkedList.c 640-643; DKHashTableCopy,
      DKHashTable.c 526-541; DKBinaryTreeCopy, DKBinaryTree.c 790-806; and the mutable copies. *)
  Definition copy (x : coll) : outcome coll :=
    match x with
    | CArr _ => make KArray x
    | CLnk _ => make KLinked x
    | CHash _ => make_dict KHash x
    | CTree c _ => do l <- pairs_of x; do t <- foreach_state (tree_put c) (Tree_Model.init A A) l; Ok (CTree c t)
    end.

  (** DKDictionaryGetObject, DKDictionary.c 137-146 (DKHashTable.c 597-609, DKBinaryTree.c 865-873):
      NULL if there is none. *)
  Definition get (x : coll) (k : A) : outcome A :=
    match x with
    | CHash t => do r <- lookup A A hash keq t k; Ok (match r with Some e => snd e | None => null end)
    | CTree c t => do r <- Tree_Model.get_object A A c (deep t) t k; Ok (match r with Some v => v | None => null end)
    | _ => Fatal
    end.
  (** DKSetContainsObject, DKSet.c 185-188: getMember != NULL; DKListGetMemberOfSet, DKList.c 484-492,
      for lists. *)
  Definition contains (x : coll) (o : A) : outcome bool :=
    match x with
    | CArr a => do r <- list_get_member A null keq _ (array_interface A null) a o; Ok (negb (is_null (snd r)))
    | CLnk s => do r <- list_get_member A null keq _ (llist_interface A P pzero) s o; Ok (negb (is_null (snd r)))
    | _ => do r <- get x o; Ok (negb (is_null r))
    end.
  (** DKDictionaryGetAllKeys and DKDictionaryGetAllObjects, DKDictionary.c 174-206: an array with one
      object appended for each pair. *)
  Definition all_keys (x : coll) : outcome (garray A) := do l <- pairs_of x; foreach_state append array_init (map fst l).
  Definition all_objects (x : coll) : outcome (garray A) := do l <- pairs_of x; foreach_state append array_init (map snd l).
  (** DKDictionaryContainsObject, DKDictionary.c 160-168: the same reference. *)
  Definition contains_object (x : coll) (o : A) : outcome bool :=
    do l <- pairs_of x; foreach (fun e => Ok (oid (snd e) o)) l.

  (** DKRequire( key != NULL ), DKHashTable.c 719, 785, DKBinaryTree.c 1001, 1088. *)
  Definition null_key (o : op A A) : bool := match o with OpSet k _ | OpAdd k _ | OpReplace k _ => is_null k | _ => false end.
  Definition null_tree_key (o : Tree_Model.top A A) : bool := match o with Tree_Model.TInsert _ _ k _ _ => is_null k | _ => false end.
  (** Collections: the result of any history of calls on one of the four classes, or made of other
      collections. *)
  Inductive expr :=
  | Array_of (os : list (aop A)) | List_of (os : list (lop A P)) | Table_of (os : list (op A A)) | Tree_of (c : A -> A -> Z) (os : list (Tree_Model.top A A))
  | Of (k : kind) (l : list A) | Arguments_ (k : kind) (l : list A)
  | From (k : kind) (e : expr) | List_set (k : kind) (e : expr) | Dict (k : kind) (e : expr) | Copy (e : expr).
  Fixpoint build (e : expr) : outcome coll :=
    match e with
    | Array_of os => do r <- array_run A null array_init os; Ok (CArr (fst r))
    | List_of os => do r <- llist_run A oid P gt pzero (llist_init A P) os; Ok (CLnk (fst r))
    | Table_of os => if existsb null_key os then Fatal else do r <- run A A hash keq table_init os; Ok (CHash (fst r))
    | Tree_of c os => if existsb null_tree_key os then Fatal else do r <- Tree_Model.trun A A c (S (length os)) (Tree_Model.init A A) os; Ok (CTree c (fst r))
    | Of k l => of_c_array k l
    | Arguments_ k l => of_arguments k l
    | From k e => do x <- build e; make k x
    | List_set k e => do x <- build e; list_set 1 KHash k x
    | Dict k e => do x <- build e; make_dict k x
    | Copy e => do x <- build e; copy x
    end.
End Convert.
Arguments CArr {A P} a.
Arguments CLnk {A P} s.
Arguments CHash {A P} t.
Arguments CTree {A P} c t.
Arguments Array_of {A P} os.
Arguments List_of {A P} os.
Arguments Table_of {A P} os.
Arguments Tree_of {A P} c os.
Arguments Of {A P} k l.
Arguments Arguments_ {A P} k l.
Arguments From {A P} k e.
Arguments List_set {A P} k e.
Arguments Dict {A P} k e.
Arguments Copy {A P} e.
