(** Property C158: a set united with itself and a set less itself. *)
Require Import Coq.ZArith.ZArith Coq.NArith.NArith Coq.Lists.List Coq.Bool.Bool Coq.Sorting.Permutation.
Require Import Verif.Base Verif.HashTable_Model Verif.HashTable_Spec Verif.SetDict_Model Verif.Array_Model Verif.SelfSet_Model.
Require Verif.SelfSet_Proofs Verif.Tree_Model.
Import ListNotations.

(** C158, hash sets: although the table is changed while it is enumerated, uniting a set with itself
    leaves the members as they are, and a set less itself is empty.  Missing: the other classes, see
    below. *)
Theorem C158_self_partial :
  forall (K : Type) (hash : K -> N) (keq : K -> K -> bool), equivalence K keq -> hash_respects K keq hash ->
  forall e t fuel t', build K hash keq e = Ok t ->
    (self_union K hash keq fuel t = Ok t' -> Permutation (set_objects t') (set_objects t) /\ count t' = count t) /\
    (self_minus K hash keq fuel t = Ok t' -> set_objects t' = [] /\ count t' = 0%N).
Proof. exact SelfSet_Proofs.self. Qed.
Print Assumptions C158_self_partial.

Example C158_hash_set :
  let e := SAdd (SRemove (SAdd (SAdd (SAdd SEmpty 5%N) 7%N) 20%N) 7%N) 31%N in
  exists t t1 t2, build N (fun k => k) N.eqb e = Ok t /\ count t = 3%N /\ self_union N (fun k => k) N.eqb 100 t = Ok t1 /\ count t1 = 3%N /\ self_minus N (fun k => k) N.eqb 100 t = Ok t2 /\ count t2 = 0%N.
Proof. exact SelfSet_Proofs.hash_set. Qed.

(** C158 is false of the code for arrays used as sets: 1, 2 and 3 less themselves leave 2. *)
Theorem C158_array_refuted :
  exists a a', array_run N 0%N array_init [AAppend [1; 2; 3]%N] = Ok (a, [ANone]) /\ array_self_minus N 0%N N.eqb 10 a = Ok a' /\ glen a' = 1%nat /\ array_get N a' 0 = Ok (Some 2%N).
Proof. exact SelfSet_Proofs.array_refuted. Qed.
Print Assumptions C158_array_refuted.

(** For trees the enumeration follows the links of the node that was just removed, which are NULL. *)
Theorem C158_tree_refuted :
  exists t, Tree_Model.trun N N SelfSet_Proofs.ncmp 10 (Tree_Model.init N N) [Tree_Model.TInsert N N 1%N 1%N HashTable_Model.InsertIfNotFound] = Ok (t, [Tree_Model.TUnit N N]) /\
    tree_self_minus N SelfSet_Proofs.ncmp 10 t (Tree_Model.root N N t) = UB.
Proof. exact SelfSet_Proofs.tree_refuted. Qed.
Print Assumptions C158_tree_refuted.
