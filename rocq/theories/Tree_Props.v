(** Properties C08 to C11: binary trees. *)
Require Import Coq.ZArith.ZArith Coq.Lists.List Coq.micromega.Lia.
Require Import Verif.Base Verif.HashTable_Model Verif.Tree_Model Verif.Tree_Spec Verif.Tree_Runs.
Import ListNotations.
Local Open Scope Z_scope.

Section Props.
  Variables K V : Type.
  Variable cmp : K -> K -> Z.
  (** C08: for every history of calls the results are those of a map with one pair
      per key. *)
  Theorem C08_tree_is_a_map : ordering K cmp -> forall os fuel, (length os < fuel)%nat ->
    exists t, trun K V cmp fuel (init K V) os = Ok (t, snd (mrun K V cmp [] os)) /\ reachable K V cmp t (fst (mrun K V cmp [] os)).
  Proof. exact (run_map K V cmp). Qed.
  (** C09: a traversal calls back once for each pair, in order, until the callback
      stops it. *)
  Theorem C09_in_order : ordering K cmp -> forall t m, reachable K V cmp t m -> ordered K V cmp m /\
    forall St (f : St -> K -> V -> St * Z) st fuel, 2 * Z.log2 (count K V t + 1) < Z.of_nat fuel -> traverse K V St f fuel t st = Ok (visited K V f st m).
  Proof. exact (in_order K V cmp). Qed.
  (** C10: a call recurses at most 2 log2(n+1)+1 deep in a tree of n pairs. *)
  Theorem C10_balanced : ordering K cmp -> forall t m fuel o, reachable K V cmp t m -> 2 * Z.log2 (Z.of_nat (length m) + 1) < Z.of_nat fuel ->
    exists t', tstep K V cmp fuel t o = Ok (t', snd (mstep K V cmp m o)).
  Proof. exact (balanced K V cmp). Qed.
  Theorem C10_sentinel_kept : ordering K cmp -> forall t m, reachable K V cmp t m -> mem K V t null_node = Some (mkN null_node null_node 0 None).
  Proof. exact (sentinel_kept K V cmp). Qed.
  (** C11: the function for the first object does not return, whatever the tree. *)
  Theorem C11_first_never_returns_refuted : ordering K cmp -> forall t m fuel, reachable K V cmp t m -> get_first K V fuel t = NoFuel.
  Proof. exact (first_diverges K V cmp). Qed.
End Props.
Print Assumptions C08_tree_is_a_map.
Print Assumptions C09_in_order.
Print Assumptions C10_balanced.
Print Assumptions C10_sentinel_kept.
Print Assumptions C11_first_never_returns_refuted.

(** Numbers in increasing order, with seven calls. *)
Definition up (a b : Z) : Z := b - a.
Example up_ordering : ordering Z up.
Proof. unfold ordering, up. repeat split; intros; lia. Qed.
Definition calls : list (top Z Z) :=
  [TInsert _ _ 5 50 InsertAlways; TInsert _ _ 2 20 InsertAlways; TInsert _ _ 9 90 InsertAlways; TInsert _ _ 2 21 InsertIfNotFound; TInsert _ _ 7 70 InsertIfFound;
   TInsert _ _ 3 30 InsertAlways; TInsert _ _ 4 40 InsertAlways; TInsert _ _ 9 91 InsertIfFound; TAll _ _; TRemove _ _ 5; TRemove _ _ 6; TGet _ _ 2; TGet _ _ 5; TCount _ _; TAll _ _; TRemoveAll _ _; TCount _ _].
Example C08_case : exists t, trun Z Z up 20 (init Z Z) calls =
  Ok (t, [TUnit _ _; TUnit _ _; TUnit _ _; TUnit _ _; TUnit _ _; TUnit _ _; TUnit _ _; TUnit _ _; TList _ _ [(2, 20); (3, 30); (4, 40); (5, 50); (9, 91)];
    TUnit _ _; TUnit _ _; TObject _ _ (Some 20); TObject _ _ None; TNumber _ _ 4; TList _ _ [(2, 20); (3, 30); (4, 40); (9, 91)]; TUnit _ _; TNumber _ _ 0]).
Proof. eexists. vm_compute. reflexivity. Qed.
(** A tree of a thousand pairs inserted in increasing order: a call recurses at most
    19 deep. *)
Definition many : list (top Z Z) := map (fun i => TInsert _ _ (Z.of_nat i) 0 InsertAlways) (seq 0 1000).
Example C10_case : exists t m, reachable Z Z up t m /\ length m = 1000%nat /\ 2 * Z.log2 (Z.of_nat (length m) + 1) < Z.of_nat 19.
Proof.
  destruct (C08_tree_is_a_map Z Z up up_ordering many 1001) as (t & _ & R).
  - unfold many. rewrite map_length, seq_length. lia.
  - exists t, (fst (mrun Z Z up [] many)). split; auto. split; vm_compute; reflexivity.
Qed.
Example C11_case : exists t m, reachable Z Z up t m /\ m = [(2, 20); (5, 50)] /\ forall fuel, get_first Z Z fuel t = NoFuel.
Proof.
  destruct (C08_tree_is_a_map Z Z up up_ordering (firstn 2 calls) 3) as (t & _ & R); [cbn; lia|].
  exists t, (fst (mrun Z Z up [] (firstn 2 calls))). split; auto. split; [reflexivity|]. intros fuel. exact (C11_first_never_returns_refuted Z Z up up_ordering t _ fuel R).
Qed.
