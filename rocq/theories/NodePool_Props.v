(** Node pools. *)
Require Import Coq.Lists.List Coq.ZArith.ZArith Coq.Arith.Arith.
Require Import Verif.Base Verif.NodePool_Model Verif.NodePool_Spec Verif.NodePool_Proofs.
Import ListNotations.

(** C60: whatever a program allocates, frees, writes and reads, its nodes are distinct,
    zeroed when they are allocated, and contain what the program wrote. *)
Theorem C60_nodes : forall size, 0 < size -> forall count os v, meaning size ([], []) os = Some v ->
  exists s0 s, start size count = Ok s0 /\ execs s0 os = Ok s /\ seen s = snd v /\ NoDup (nodes s) /\ length (nodes s) = length (fst v) /\
  (forall k cs, nth_error (fst v) k = Some cs -> exists a, nth_error (nodes s) k = Some a /\ forall o c, nth_error cs o = Some c -> load (mem (the_pool s)) (plus a o) = Ok c).
Proof. exact pool_program. Qed.
Print Assumptions C60_nodes.
(** Finalizing frees every block, once. *)
Theorem C60_finalize : forall size, 0 < size -> forall count os v s0 s, meaning size ([], []) os = Some v -> start size count = Ok s0 -> execs s0 os = Ok s ->
  exists p, finalize (the_pool s) = Ok p /\ length (mem p) = length (mem (the_pool s)) /\ forall b, b < length (mem p) -> nth_error (mem p) b = Some None.
Proof. exact finalize_ok. Qed.
Print Assumptions C60_finalize.
Example C60_case : meaning 2 ([], []) [Alloc; Alloc; Write 0 1 (Data 7); Write 1 0 (Data 8); Free 0; Alloc; Read 1 0; Read 1 1; Read 0 0] =
  Some ([[Data 8; Data 0]; [Data 0; Data 0]], [Data 0; Data 0; Data 8]).
Proof. reflexivity. Qed.
(** The second block is needed. *)
Example C60_case_blocks : exists v s0 s, meaning 1 ([], []) (repeat Alloc 40) = Some v /\ start 1 5 = Ok s0 /\ execs s0 (repeat Alloc 40) = Ok s /\ blockList (the_pool s) = [1; 0] /\ nodeCount (the_pool s) = 64.
Proof. do 3 eexists. split; [vm_compute; reflexivity|]. split; [vm_compute; reflexivity|]. split; [vm_compute; reflexivity|]. split; reflexivity. Qed.
