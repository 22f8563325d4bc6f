(** Properties C04-C07: set algebra and dictionary equality. *)
Require Import Coq.NArith.NArith Coq.Lists.List Coq.Bool.Bool.
Require Import Verif.Base Verif.HashTable_Model Verif.HashTable_Spec.
Require Import Verif.SetDict_Model Verif.SetDict_Spec.
Require Verif.SetDict_Proofs.
Import ListNotations.
Local Open Scope N_scope.

(** C04: contains, is-subset-of and equal-to of sets built in any way are the
    membership, inclusion and extensional equality of the sets denoted. *)
Theorem C04_set_relations :
  forall (K : Type) (hash : K -> N) (keq : K -> K -> bool),
    equivalence K keq -> hash_respects K keq hash ->
    forall e1 e2 t1 t2,
      build K hash keq e1 = Ok t1 -> build K hash keq e2 = Ok t2 ->
      (forall x b, set_contains K hash keq t1 x = Ok b -> b = denote K keq e1 x) /\
      (forall b, set_is_subset K hash keq t1 t2 = Ok b ->
         (b = true <-> forall x, denote K keq e1 x = true -> denote K keq e2 x = true)) /\
      (forall b, set_equal K hash keq t1 t2 = Ok b ->
         (b = true <-> forall x, denote K keq e1 x = denote K keq e2 x)).
Proof. exact SetDict_Proofs.set_relations. Qed.
Print Assumptions C04_set_relations.

(** C05: the objects of a union are those of both sets, the objects of a
    difference those of the first that are not in the second. *)
Theorem C05_union_minus :
  forall (K : Type) (hash : K -> N) (keq : K -> K -> bool),
    equivalence K keq -> hash_respects K keq hash ->
    forall e1 e2 t1 t2,
      build K hash keq e1 = Ok t1 -> build K hash keq e2 = Ok t2 ->
      (forall t, set_union K hash keq t1 t2 = Ok t ->
         forall x, existsb (fun o => keq o x) (set_objects t) = denote K keq e1 x || denote K keq e2 x) /\
      (forall t, set_minus K hash keq t1 t2 = Ok t ->
         forall x, existsb (fun o => keq o x) (set_objects t) = denote K keq e1 x && negb (denote K keq e2 x)).
Proof. exact SetDict_Proofs.union_minus. Qed.
Print Assumptions C05_union_minus.

(** C06 is false of the code: DKSetIntersectsSet answers the opposite, and
    DKSetIntersect removes nothing. *)
Theorem C06_intersection_refuted :
  exists (e1 e2 e3 : sexp N) t1 t2 t3,
    let hash := fun k : N => k in
    build N hash N.eqb e1 = Ok t1 /\ build N hash N.eqb e2 = Ok t2 /\ build N hash N.eqb e3 = Ok t3 /\
    (* e1 and e2 have a common member, yet "intersects" is false *)
    (exists x, denote N N.eqb e1 x = true /\ denote N N.eqb e2 x = true) /\
    set_intersects N hash N.eqb t1 t2 = Ok false /\
    (* e1 and e3 have none, yet "intersects" is true *)
    (forall x, denote N N.eqb e1 x && denote N N.eqb e3 x = false) /\
    set_intersects N hash N.eqb t1 t3 = Ok true /\
    (* intersecting e1 with e3 keeps a member of e1 *)
    (exists t x, set_intersect N hash N.eqb t1 t3 = Ok t /\ In x (set_objects t)).
Proof. exact SetDict_Proofs.intersection_refuted. Qed.
Print Assumptions C06_intersection_refuted.

(** C06, what the two functions do compute, for all sets: the negation of
    "intersects", and no change of the receiver's members.  Missing: the
    intersection itself, which the code does not compute. *)
Theorem C06_intersection_partial :
  forall (K : Type) (hash : K -> N) (keq : K -> K -> bool),
    equivalence K keq -> hash_respects K keq hash ->
    forall e1 e2 t1 t2,
      build K hash keq e1 = Ok t1 -> build K hash keq e2 = Ok t2 ->
      (forall b, set_intersects K hash keq t1 t2 = Ok b ->
         (b = true <-> ~ exists x, denote K keq e1 x = true /\ denote K keq e2 x = true)) /\
      (forall t, set_intersect K hash keq t1 t2 = Ok t ->
         forall x, existsb (fun o => keq o x) (set_objects t) = denote K keq e1 x).
Proof. exact SetDict_Proofs.intersection_partial. Qed.
Print Assumptions C06_intersection_partial.

(** C07 for dictionaries holding no NULL object: equality is extensional and
    contains-key is presence.  Missing: dictionaries with NULL objects, for
    which both are false (below). *)
Theorem C07_dictionary_equality_partial :
  forall (K O : Type) (hash : K -> N) (keq : K -> K -> bool) (oeq : O -> O -> bool),
    equivalence K keq -> hash_respects K keq hash ->
    forall (os1 os2 : list (op K (option O))) t1 t2 rs1 rs2,
      run K (option O) hash keq table_init os1 = Ok (t1, rs1) ->
      run K (option O) hash keq table_init os2 = Ok (t2, rs2) ->
      (forall e, In e (enumerate t1) -> snd e <> None) ->
      (forall e, In e (enumerate t2) -> snd e <> None) ->
      let m1 := fst (amap_run K (option O) keq [] os1) in
      let m2 := fst (amap_run K (option O) keq [] os2) in
      (forall b, dict_equal K O hash keq oeq t1 t2 = Ok b ->
         (b = true <-> extensionally_equal K O keq oeq m1 m2)) /\
      (forall k b, dict_contains_key K O hash keq t1 k = Ok b ->
         (b = true <-> amap_get K (option O) keq m1 k <> None)).
Proof. exact SetDict_Proofs.dictionary_equality. Qed.
Print Assumptions C07_dictionary_equality_partial.

(** C07 is false with NULL objects: {1 : NULL} equals {2 : NULL}, and does not
    contain the key 1. *)
Theorem C07_dictionary_equality_refuted :
  exists (os1 os2 : list (op N (option N))) t1 t2 rs1 rs2,
    let hash := fun k : N => k in
    run N (option N) hash N.eqb table_init os1 = Ok (t1, rs1) /\
    run N (option N) hash N.eqb table_init os2 = Ok (t2, rs2) /\
    dict_equal N N hash N.eqb N.eqb t1 t2 = Ok true /\
    ~ extensionally_equal N N N.eqb N.eqb
        (fst (amap_run N (option N) N.eqb [] os1)) (fst (amap_run N (option N) N.eqb [] os2)) /\
    exists k, amap_get N (option N) N.eqb (fst (amap_run N (option N) N.eqb [] os1)) k <> None /\
              dict_contains_key N N hash N.eqb t1 k = Ok false.
Proof. exact SetDict_Proofs.dictionary_refuted. Qed.
Print Assumptions C07_dictionary_equality_refuted.

(** The hypotheses are met by sets with colliding members, and the functions
    return on them. *)
Example C04_C05_C06_sets :
  let hash := fun k => k mod 3 in
  let e1 := SAdd (SAdd (SRemove (SAdd (SAdd (SAdd (SAdd (SInit SEmpty 1) 4) 7) 10) 2) 4) 13) 5 in
  let e2 := SUnion (SMinus e1 (SAdd (SAdd SEmpty 1) 13)) (SAdd (SAdd SEmpty 1) 20) in
  exists t1 t2, build N hash N.eqb e1 = Ok t1 /\ build N hash N.eqb e2 = Ok t2 /\
    set_contains N hash N.eqb t2 20 = Ok true /\ set_contains N hash N.eqb t2 13 = Ok false /\
    set_is_subset N hash N.eqb t1 t2 = Ok false /\ set_equal N hash N.eqb t1 t1 = Ok true /\
    set_intersects N hash N.eqb t1 t2 = Ok false /\
    (exists t, set_union N hash N.eqb t1 t2 = Ok t /\ length (set_objects t) = 7%nat) /\
    (exists t, set_minus N hash N.eqb t1 t2 = Ok t /\ set_objects t = [13]).
Proof.
  eexists _, _. split; [vm_compute; reflexivity|]. split; [vm_compute; reflexivity|].
  repeat split; try (vm_compute; reflexivity); eexists; split; vm_compute; reflexivity.
Qed.

Example C07_dictionaries :
  let hash := fun k => k mod 3 in
  let os1 := [OpSet 1 (Some 10); OpSet 4 (Some 20); OpSet 7 (Some 30); OpRemove 4] in
  let os2 := [OpSet 7 (Some 30); OpAdd 1 (Some 10)] in
  exists t1 t2 rs1 rs2,
    run N (option N) hash N.eqb table_init os1 = Ok (t1, rs1) /\
    run N (option N) hash N.eqb table_init os2 = Ok (t2, rs2) /\
    (forall e, In e (enumerate t1) -> snd e <> None) /\
    (forall e, In e (enumerate t2) -> snd e <> None) /\
    dict_equal N N hash N.eqb N.eqb t1 t2 = Ok true /\
    dict_contains_key N N hash N.eqb t1 7 = Ok true.
Proof.
  eexists _, _, _, _. split; [vm_compute; reflexivity|]. split; [vm_compute; reflexivity|].
  split; [|split; [|split; vm_compute; reflexivity]];
    intros e He; vm_compute in He; repeat (destruct He as [<-|He]; [discriminate|]); contradiction.
Qed.
