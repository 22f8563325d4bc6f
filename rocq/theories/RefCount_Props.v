(** C43, C44: strong and weak references under any interleaving. *)
Require Import Coq.ZArith.ZArith Coq.Lists.List.
Require Import Verif.Base Verif.RefCount_Model Verif.RefCount_Spec Verif.RefCount_Runs.
Import ListNotations.
Local Open Scope Z_scope.

(** C43.  [n]+1 threads retain, release, try to release and hand over references in
    any order.  No freed memory is used, the object is finalized at most once, never
    while a reference is outstanding, and it has been finalized and freed when every
    call has returned and no reference is left. *)
Theorem C43_counting : forall n ls, no_weak ls -> counted (init n) ls -> exists s, run (init n) ls = Ok s /\
  (finals s <= 1)%nat /\ (0 < refs s -> alive s = Alive /\ finals s = 0%nat) /\
  (quiet s -> held s = 0 -> alive s = Freed /\ finals s = 1%nat) /\ (quiet s -> 0 < held s -> count_of (rc s) = held s).
Proof. exact counting. Qed.
Print Assumptions C43_counting.
(** The same for runs with weak references in which the first of them is not made
    between the two steps of a release. *)
Theorem C43_counting_with_weak : forall n ls, admissible (init n) ls -> exists s, run (init n) ls = Ok s /\
  (finals s <= 1)%nat /\ (0 < refs s -> alive s = Alive /\ finals s = 0%nat) /\
  (quiet s -> held s = 0 -> alive s = Freed /\ finals s = 1%nat) /\ (quiet s -> 0 < held s -> count_of (rc s) = held s).
Proof. exact counting_weak. Qed.
Print Assumptions C43_counting_with_weak.
(** No call can be stuck: from any state reached, the threads inside calls can be
    scheduled so that every call returns. *)
Theorem C43_calls_can_return : forall n ls s, admissible (init n) ls -> run (init n) ls = Ok s -> refs s + Z.of_nat (length (threads s)) < 268435456 ->
  exists ls' s', admissible s ls' /\ only_busy s ls' /\ run s ls' = Ok s' /\ quiet s'.
Proof. exact returns. Qed.
Print Assumptions C43_calls_can_return.

(** C44.  Missing: runs in which the first weak reference is made while another
    thread is between reading the count and decrementing it; see below. *)
Theorem C44_weak_partial : forall n ls, admissible (init n) ls -> exists s, run (init n) ls = Ok s /\
  (forall k, In (ToNull k) (log s) -> k = 0) /\ (forall l, In (ToObject l) (log s) -> l = Alive) /\
  (quiet s -> held s = 0 -> entry s = false /\ forall m, meta s = Some m -> target m = false /\ (mfreed m = true <-> weakly_held s = 0)) /\
  (forall m, meta s = Some m -> 0 < weakly_held s -> mfreed m = false).
Proof. exact weak_sound. Qed.
Print Assumptions C44_weak_partial.

(** Two threads with a reference each.  Thread 0 is in DKRelease and has found no
    metadata; thread 1 makes a weak reference and releases; thread 0 goes on. *)
Definition race : list (nat * call) :=
  [(0, CRetain); (0, CGive 1); (0, CRelease); (0, CRetain); (1, CWeak)]%nat ++ steps 1 3 ++ [(1, CRelease)]%nat ++ steps 1 5 ++ steps 0 2.
Theorem C44_weak_refuted : exists n ls s, run (init n) ls = Ok s /\ In (ToObject Finalized) (log s).
Proof. exists 1%nat, (race ++ [(1%nat, CResolve)] ++ steps 1 4). eexists. split; [vm_compute; reflexivity|left; reflexivity]. Qed.
Print Assumptions C44_weak_refuted.
Theorem C44_finalized_twice_refuted : exists n ls s, run (init n) ls = Ok s /\ finals s = 2%nat.
Proof. exists 1%nat, (race ++ [(1%nat, CResolve)] ++ steps 1 4 ++ [(1%nat, CRelease)] ++ steps 1 9). eexists. split; vm_compute; reflexivity. Qed.
Print Assumptions C44_finalized_twice_refuted.
Theorem C44_freed_refuted : exists n ls, run (init n) ls = UB.
Proof. exists 1%nat, (race ++ steps 0 1 ++ [(1%nat, CResolve)] ++ steps 1 4). vm_compute. reflexivity. Qed.
Print Assumptions C44_freed_refuted.

(** Cases that meet the hypotheses. *)
Definition strong_run : list (nat * call) :=
  [(0, CRetain); (0, CRetain); (0, CGive 1); (0, CGive 2); (1, CRelease); (2, CTry); (0, CRelease)]%nat ++ steps 1 1 ++ steps 0 1 ++ steps 2 1 ++ steps 1 1 ++ steps 0 1 ++ [(2%nat, CTry)] ++ steps 2 4.
Example C43_case : no_weak strong_run /\ counted (init 2) strong_run /\ exists s, run (init 2) strong_run = Ok s /\ quiet s /\ held s = 0 /\ finals s = 1%nat.
Proof.
  split; [|split].
  - unfold no_weak. apply Forall_forall. intros l Hl. vm_compute in Hl. repeat (destruct Hl as [<-|Hl]; [discriminate|]). destruct Hl.
  - apply admissible_counted. apply admissibleb_ok. vm_compute. reflexivity.
  - eexists. split; [vm_compute; reflexivity|]. split; [repeat constructor|split; reflexivity].
Qed.
(** The weak reference is resolved to the object, the last release runs against a
    second resolve, which gets NULL, and the last weak reference is dropped. *)
Definition weak_run : list (nat * call) :=
  [(0, CWeak)]%nat ++ steps 0 3 ++ [(0, CGiveWeak 1); (1, CResolve)]%nat ++ steps 1 4 ++ [(1, CRelease)]%nat ++ steps 1 5 ++
  [(0, CRelease); (1, CResolve)]%nat ++ steps 0 3 ++ steps 1 1 ++ steps 0 3 ++ steps 1 3 ++ steps 0 9 ++ [(1, CDropWeak)]%nat.
Example C44_case : admissible (init 1) weak_run /\ exists s, run (init 1) weak_run = Ok s /\ quiet s /\ log s = [ToObject Alive; ToNull 0] /\ finals s = 1%nat /\ weakly_held s = 0 /\ alive s = Freed.
Proof.
  split; [apply admissibleb_ok; vm_compute; reflexivity|]. eexists. split; [vm_compute; reflexivity|]. split; [repeat constructor|repeat split; reflexivity].
Qed.
Example C43_return_case : exists s, run (init 1) race = Ok s /\ ~ quiet s.
Proof. eexists. split; [vm_compute; reflexivity|]. intros Q. inversion Q as [|? ? H]. discriminate H. Qed.
