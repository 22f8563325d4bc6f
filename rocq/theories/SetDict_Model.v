(** Model of the set and dictionary algorithms of Source/DKSet.c and
    Source/DKDictionary.c on top of hash tables.

    Simplifications: interface dispatch (DKGetInterface) always reaches the
    DKHashTable implementation; objects put in a set are not NULL
    (INTERNAL_DKHashTableAddObjectToSet DKRequires it); DKGetInterface /
    NULL-receiver branches are not modelled; a binary operation is applied to
    two different objects. *)
Require Import Coq.NArith.NArith Coq.Lists.List Coq.Bool.Bool.
Require Import Verif.Base Verif.HashTable_Model.
Import ListNotations.
Local Open Scope N_scope.

(** DKForeachObject with a stopping callback that may itself fail
    (DKCollection.c 121-130, DKHashTable.c 671-693): call [cb] on the elements
    in order and stop at the first true. *)
Fixpoint foreach {A} (cb : A -> outcome bool) (l : list A) : outcome bool :=
  match l with
  | [] => Ok false
  | a :: l' => do b <- cb a; if b then Ok true else foreach cb l'
  end.

(** DKForeachObject with a callback that updates a state and never stops. *)
Fixpoint foreach_state {A S} (cb : S -> A -> outcome S) (s : S) (l : list A) : outcome S :=
  match l with
  | [] => Ok s
  | a :: l' => do s' <- cb s a; foreach_state cb s' l'
  end.

Section Sets.
  Variable K : Type.
  Variable hash : K -> N.
  Variable keq : K -> K -> bool.

  Notation tset := (table K K).

  (** INTERNAL_DKHashTableAddObjectToSet, DKHashTable.c 783-792. *)
  Definition set_add (t : tset) (x : K) : outcome tset :=
    do tb <- insert K K hash keq t x x InsertIfNotFound; Ok (fst tb).

  (** Insertion used by the set initialisers: DKHashTableInitSetWithVAObjects,
      ..CArray, InsertObject (DKHashTable.c 324-335, 428-473): DKInsertAlways. *)
  Definition set_init_add (t : tset) (x : K) : outcome tset :=
    do tb <- insert K K hash keq t x x InsertAlways; Ok (fst tb).

  (** INTERNAL_DKHashTableRemoveObject, DKHashTable.c 743-750. *)
  Definition set_remove (t : tset) (x : K) : outcome tset := remove K K hash keq t x.

  (** DKHashTableApplyFunctionToObjects, DKHashTable.c 671-693: the objects a
      callback sees, in order. *)
  Definition set_objects (t : tset) : list K := map snd (enumerate t).

  (** DKSetContainsObject, DKSet.c 185-188: getMember( .. ) != NULL. *)
  Definition set_contains (t : tset) (x : K) : outcome bool :=
    do r <- lookup K K hash keq t x;
    Ok (match r with Some _ => true | None => false end).

  (** DKSetIsSubsetOfSet, DKSet.c 262-272. *)
  Definition set_is_subset (t other : tset) : outcome bool :=
    do b <- foreach (fun x => do c <- set_contains other x; Ok (negb c)) (set_objects t);
    Ok (negb b).

  (** DKSetEqualToSet, DKSet.c 252-256. *)
  Definition set_equal (t other : tset) : outcome bool :=
    if count t =? count other then set_is_subset t other else Ok false.

  (** DKSetIntersectsSet, DKSet.c 278-288 (note the negation). *)
  Definition set_intersects (t other : tset) : outcome bool :=
    do b <- foreach (fun x => set_contains other x) (set_objects t);
    Ok (negb b).

  (** DKSetUnion, DKSet.c 294-303. *)
  Definition set_union (t other : tset) : outcome tset :=
    foreach_state set_add t (set_objects other).

  (** DKSetMinus, DKSet.c 309-318. *)
  Definition set_minus (t other : tset) : outcome tset :=
    foreach_state set_remove t (set_objects other).

  (** DKSetIntersect, DKSet.c 324-347: copies the receiver's objects to an
      array, then adds (!) those found in the other set. *)
  Definition set_intersect (t other : tset) : outcome tset :=
    foreach_state (fun s x => do c <- set_contains other x;
                              if c then set_add s x else Ok s) t (set_objects t).

  (** The ways a client can build sets. *)
  Inductive sexp :=
  | SEmpty
  | SInit (e : sexp) (x : K)          (* one more object given to an initialiser *)
  | SAdd (e : sexp) (x : K)
  | SRemove (e : sexp) (x : K)
  | SRemoveAll (e : sexp)
  | SUnion (e1 e2 : sexp)
  | SMinus (e1 e2 : sexp).

  Fixpoint build (e : sexp) : outcome tset :=
    match e with
    | SEmpty => Ok table_init
    | SInit e x => do t <- build e; set_init_add t x
    | SAdd e x => do t <- build e; set_add t x
    | SRemove e x => do t <- build e; set_remove t x
    | SRemoveAll e => do t <- build e; Ok (remove_all t)
    | SUnion e1 e2 => do t1 <- build e1; do t2 <- build e2; set_union t1 t2
    | SMinus e1 e2 => do t1 <- build e1; do t2 <- build e2; set_minus t1 t2
    end.
End Sets.

Section Dicts.
  Variables K O : Type.
  Variable hash : K -> N.
  Variable keq : K -> K -> bool.
  Variable oeq : O -> O -> bool.      (* the equal method of the stored objects *)

  (** A dictionary stores DKObjectRefs, possibly NULL ([None]). *)
  Notation tdict := (table K (option O)).

  (** DKEqual, DKComparison.c 75-89 (pointer-equal objects are equal). *)
  Definition dk_equal (a b : option O) : bool :=
    match a, b with
    | None, None => true
    | Some x, Some y => oeq x y
    | _, _ => false
    end.

  (** INTERNAL_DKHashTableGetObject, DKHashTable.c 597-609: NULL when absent. *)
  Definition dict_get (t : tdict) (k : K) : outcome (option O) :=
    do r <- lookup K (option O) hash keq t k;
    Ok (match r with Some (_, v) => v | None => None end).

  (** DKDictionaryContainsKey, DKDictionary.c 151-154. *)
  Definition dict_contains_key (t : tdict) (k : K) : outcome bool :=
    do v <- dict_get t k;
    Ok (match v with Some _ => true | None => false end).

  (** DKDictionaryIsSubsetOfDictionary, DKDictionary.c 323-374. *)
  Definition dict_is_subset (t other : tdict) : outcome bool :=
    do b <- foreach (fun e => do v <- dict_get other (fst e); Ok (negb (dk_equal (snd e) v)))
                    (enumerate t);
    Ok (negb b).

  (** DKDictionaryEqual, DKDictionary.c 333-352. *)
  Definition dict_equal (t other : tdict) : outcome bool :=
    if count t =? count other then dict_is_subset t other else Ok false.
End Dicts.

Arguments SEmpty {K}.
Arguments SInit {K} e x.
Arguments SAdd {K} e x.
Arguments SRemove {K} e x.
Arguments SRemoveAll {K} e.
Arguments SUnion {K} e1 e2.
Arguments SMinus {K} e1 e2.
Arguments set_objects {K} t.
