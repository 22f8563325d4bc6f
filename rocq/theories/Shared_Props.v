(** Properties of shared objects, object locks and concurrent lookups. *)
Require Import Coq.Lists.List Coq.Arith.Arith.
Require Import Verif.Base Verif.Shared_Model Verif.Shared_Spec Verif.Shared_Proofs.
Import ListNotations.

(** C62: at most one object is created, and all calls return it when it is complete. *)
Theorem C62_once : forall ls, let s := run init ls in
  length (objects s) <= 1 /\ forall t r, returned s t r -> r = Some 0 /\ nth_error (objects s) 0 = Some true.
Proof. exact created_once. Qed.
Print Assumptions C62_once.
(** At any time the calls can be completed. *)
Theorem C62_returns : forall ls, exists ts, all_returned (run (run init ls) (map Step ts)).
Proof. exact calls_return. Qed.
Print Assumptions C62_returns.
(** Some step always brings the calls nearer to their end, and none takes them away from it. *)
Theorem C62_progress : forall ls, let s := run init ls in ~ all_returned s -> (exists t, total (step s (Step t)) < total s) /\ forall t, total (step s (Step t)) <= total s.
Proof. exact calls_progress. Qed.
Print Assumptions C62_progress.
(** Two calls see no object; one creates it, the other one waits. *)
Example C62_case : let s := run init ([Begin; Begin; Step 0; Step 1; Step 0; Step 1; Step 0; Step 1; Step 0; Step 0; Step 1; Step 0; Step 1; Step 1; Step 1; Step 1; Step 0; Begin; Step 2]) in
  returned s 0 (Some 0) /\ returned s 1 (Some 0) /\ returned s 2 (Some 0) /\ objects s = [true].
Proof. vm_compute. auto. Qed.

(** C79: however many threads lock and unlock an object, at most one has the lock, and no
    mutex is used that is NULL or not held. *)
Theorem C79_exclusion : forall n ls, exists s, lrun (linit n) ls = Ok s /\ forall t t', holds s t -> holds s t' -> t = t'.
Proof. exact exclusion. Qed.
Print Assumptions C79_exclusion.
(** If a thread waits, a thread has the lock, or some thread can take a step towards it. *)
Theorem C79_progress : forall n ls s, lrun (linit n) ls = Ok s -> (exists t, waiting s t) ->
  (exists t', holds s t') \/ exists t' s', lstep s (LStep t') = Ok s' /\ ltotal s' < ltotal s.
Proof. exact lprogress. Qed.
Print Assumptions C79_progress.
Theorem C79_no_way_back : forall n ls s t, lrun (linit n) ls = Ok s -> exists s', lstep s (LStep t) = Ok s' /\ ltotal s' <= ltotal s.
Proof. exact lprogress_bound. Qed.
Print Assumptions C79_no_way_back.
(** Two threads make metadata and a mutex at the same time. *)
Example C79_case : exists s,
  lrun (linit 2) ([LLock 0; LLock 1; LStep 0; LStep 1; LStep 0; LStep 1; LStep 0; LStep 1; LStep 0; LStep 1; LStep 1; LStep 0; LStep 0; LStep 1; LStep 1; LStep 0]) = Ok s /\
  holds s 1 /\ waiting s 0 /\ length (owners s) = 2 /\ length (metas s) = 2.
Proof. eexists. split; [vm_compute; reflexivity|]. split; [reflexivity|]. split; [eexists; split; [reflexivity|]; split; discriminate|split; reflexivity]. Qed.

(** C80 is false: after the installation of another interface has returned, a lookup finds the
    old interface, which is freed, and this does not change any more. *)
Theorem C80_race_refuted : exists ls1 ls2,
  let s1 := irun (iinit (Some 0)) ls1 in let s2 := irun s1 ls2 in
  nth_error (installs s1) 0 = Some (IDone 1) /\ nth_error (finds s1) 1 = None /\
  nth_error (finds s2) 1 = Some (FDone (Some 0)) /\ In 0 (freed s1) /\ line s2 = Some 0 /\ row s2 = Some 1 /\ no_find s2 /\ no_install s2.
Proof. exact stale. Qed.
Print Assumptions C80_race_refuted.
(** The part that holds: if nothing overlaps with an installation, lookups, which may overlap
    with each other, return the interface installed last. *)
Theorem C80_separate_partial : forall r ls s t x, separate (iinit r) ls s ->
  nth_error (finds s) t <> Some (FDone x) -> nth_error (finds (istep s (StepFind t))) t = Some (FDone x) -> x = latest r ls.
Proof. exact separate_latest. Qed.
Print Assumptions C80_separate_partial.
Example C80_case : exists s, separate (iinit (Some 0)) [BeginFind; StepFind 0; StepFind 0; StepFind 0; StepFind 0; BeginInstall 1; BeginFind] s /\
  nth_error (finds s) 1 = Some F0 /\ nth_error (finds (istep s (StepFind 1))) 1 = Some (FDone (Some 1)).
Proof.
  eexists. split.
  - do 5 constructor. apply sep_install.
    + intros [|[|t]] p E; cbn in E; inversion E; eauto.
    + apply sep_begin. apply sep_nil.
  - split; reflexivity.
Qed.
