(** Properties C01-C03: hash-based dictionaries. *)
Require Import Coq.NArith.NArith Coq.Lists.List Coq.Bool.Bool.
Require Import Coq.Sorting.Permutation.
Require Import Verif.Base Verif.HashTable_Model Verif.HashTable_Spec.
Require Verif.HashTable_Proofs Verif.HashTable_Probe.
Import ListNotations.
Local Open Scope N_scope.

(** C01: every history of calls that returns gives the results a finite map
    gives, and leaves the entries of that map. *)
Theorem C01_dictionary_is_finite_map :
  forall (K V : Type) (hash : K -> N) (keq : K -> K -> bool),
    equivalence K keq -> hash_respects K keq hash ->
    forall (os : list (op K V)) (t : table K V) (rs : list (result K V)),
      run K V hash keq table_init os = Ok (t, rs) ->
      rs = snd (amap_run K V keq [] os) /\
      Permutation (enumerate t) (fst (amap_run K V keq [] os)).
Proof. exact HashTable_Probe.dict_map. Qed.
Print Assumptions C01_dictionary_is_finite_map.

(** C03: a full or stopped enumeration of any reachable dictionary calls back
    on the entries of the finite map, each exactly once, and their number is
    the reported count. *)
Theorem C03_enumeration_exactly_once :
  forall (K V : Type) (hash : K -> N) (keq : K -> K -> bool),
    equivalence K keq -> hash_respects K keq hash ->
    forall (os : list (op K V)) (t : table K V) (rs : list (result K V)),
      run K V hash keq table_init os = Ok (t, rs) ->
      exists es, Permutation es (fst (amap_run K V keq [] os)) /\
        amap_nodup K V keq es /\
        count t = N.of_nat (length es) /\
        (forall S (cb : S -> K -> V -> S * bool) s,
            apply_function K V cb s t = visit K V cb s es).
Proof. exact HashTable_Probe.dict_enumeration. Qed.
Print Assumptions C03_enumeration_exactly_once.

(** C02, the part that holds.  Missing: memory safety of tables of 25 rows
    with 11 rows in use, where it is false (below).  Every history terminates;
    a history that never meets such a table never leaves its rows; one with at
    most ten insertions always returns; after the table has grown past 25 rows
    every further history is safe. *)
Theorem C02_probes_stay_inside_partial :
  forall (K V : Type) (hash : K -> N) (keq : K -> K -> bool),
    equivalence K keq -> hash_respects K keq hash ->
    (* termination *)
    (forall os : list (op K V), run K V hash keq table_init os <> NoFuel) /\
    (* safety away from the 25-row table with 11 used rows *)
    (forall (os : list (op K V)) t rs o,
        run K V hash keq table_init os = Ok (t, rs) ->
        ~ (rowCount t = 25 /\ activeCount t + deletedCount t = 11) ->
        step K V hash keq t o <> UB) /\
    (* the only fatal error is that of a table of the maximum size *)
    (forall (os : list (op K V)) t rs o,
        run K V hash keq table_init os = Ok (t, rs) ->
        step K V hash keq t o = Fatal -> 1675364863 <= rowCount t) /\
    (* few insertions *)
    (forall os : list (op K V),
        (length (filter (fun o => match o with OpSet _ _ | OpAdd _ _ | OpReplace _ _ => true | _ => false end) os) <= 10)%nat ->
        exists r, run K V hash keq table_init os = Ok r) /\
    (* large tables *)
    (forall (os1 os2 : list (op K V)) t rs,
        run K V hash keq table_init os1 = Ok (t, rs) -> 25 < rowCount t ->
        run K V hash keq t os2 <> UB).
Proof. exact HashTable_Probe.probe_partial. Qed.
Print Assumptions C02_probes_stay_inside_partial.

(** C02 is false of the code: eleven insertions of integers with the identity
    hash, then a lookup (or an insertion) that probes past the end of the
    25-row table. *)
Theorem C02_probes_stay_inside_refuted :
  exists (os : list (op N N)) (k : N),
    equivalence N N.eqb /\ hash_respects N N.eqb (fun k => k) /\
    run N N (fun k => k) N.eqb table_init (os ++ [OpGet k]) = UB /\
    run N N (fun k => k) N.eqb table_init (os ++ [OpSet k 0]) = UB.
Proof. exact HashTable_Probe.probe_refuted. Qed.
Print Assumptions C02_probes_stay_inside_refuted.

(** The hypotheses are met: a history with colliding keys (the hash is the key
    modulo 4), growth over three table sizes, removals, reinsertions and
    replacements. *)
Example C01_C03_history : 
  let hash := fun k => k mod 4 in
  let os := map (fun k => OpSet k (k + 100)) [1;2;3;4;5;6;7]
            ++ [OpRemove 3; OpRemove 4; OpSet 11 1; OpAdd 5 0; OpReplace 6 0; OpReplace 77 0;
                OpGet 5; OpGet 6; OpGet 3; OpGet 77; OpCount] in
  equivalence N N.eqb /\ hash_respects N N.eqb hash /\
  exists t rs, run N N hash N.eqb table_init os = Ok (t, rs) /\
    rowCount t = 17 /\ deletedCount t = 1 /\
    skipn 13 rs = [RGet (Some (5, 105)); RGet (Some (6, 0)); RGet None; RGet None; RCount 6].
Proof.
  split; [|split].
  - repeat split; intros; try apply N.eqb_refl; try apply N.eqb_sym.
    apply N.eqb_eq in H, H0. subst. apply N.eqb_refl.
  - intros a b H. apply N.eqb_eq in H. subst. reflexivity.
  - eexists _, _. split; [vm_compute; reflexivity|]. vm_compute. auto.
Qed.
