(** Properties C135 to C138: byte swaps, spin locks, universal identifiers and deadlines. *)
Require Import Coq.NArith.NArith Coq.ZArith.ZArith Coq.Lists.List.
Require Import Verif.Base Verif.Platform_Model Verif.Platform_Spec.
Require Verif.Platform_Proofs.
Import ListNotations.
Local Open Scope N_scope.

(** C135, the part that holds: swapping reverses the bytes of numbers of 16 and 32 bits, and
    swapping twice changes nothing. *)
Theorem C135_swap16_partial : forall x, x < 2 ^ 16 -> reversed 2 x (swap16 x).
Proof. exact Platform_Proofs.reversed16. Qed.
Print Assumptions C135_swap16_partial.
Theorem C135_swap32_partial : forall x, x < 2 ^ 32 -> reversed 4 x (swap32 x).
Proof. exact Platform_Proofs.reversed32. Qed.
Print Assumptions C135_swap32_partial.
Theorem C135_twice_partial : (forall x, x < 2 ^ 16 -> swap16 (swap16 x) = x) /\ (forall x, x < 2 ^ 32 -> swap32 (swap32 x) = x).
Proof. exact (conj Platform_Proofs.twice16 Platform_Proofs.twice32). Qed.
Print Assumptions C135_twice_partial.
(** C135 is false for 64 bits: the upper half of the result is always zero, so 1 is not reversed and
    different numbers have the same swap. *)
Theorem C135_swap64_refuted : (forall x, swap64 x < 2 ^ 32) /\ ~ reversed 8 1 (swap64 1) /\ swap64 1 = swap64 (2 ^ 32).
Proof.
  split; [exact Platform_Proofs.lost64|]. split; [|vm_compute; reflexivity].
  intros [_ H]. specialize (H 7 ltac:(reflexivity)). vm_compute in H. discriminate.
Qed.
Print Assumptions C135_swap64_refuted.
Example C135_case : swap16 0x0102 = 0x0201 /\ swap32 0x01020304 = 0x04030201.
Proof. split; vm_compute; reflexivity. Qed.

(** C136: at most one thread is in the section, and one that spins gets in when there is none. *)
Theorem C136_exclusion : forall ls i j, within (srun sinit ls) i -> within (srun sinit ls) j -> i = j.
Proof. exact Platform_Proofs.spin_exclusion. Qed.
Print Assumptions C136_exclusion.
Theorem C136_enters : forall ls i, nth_error (places (srun sinit ls)) i = Some Spinning -> (forall j, ~ within (srun sinit ls) j) ->
  within (sstep (srun sinit ls) (SStep i)) i.
Proof. exact Platform_Proofs.spin_progress. Qed.
Print Assumptions C136_enters.
(** The second thread gets in after the first has left. *)
Example C136_case : let ls := [SNew; SNew; SLock 0; SStep 0; SLock 1; SStep 1] in
  within (srun sinit ls) 0 /\ within (srun sinit (ls ++ [SUnlock 0; SStep 1])) 1.
Proof. split; reflexivity. Qed.

(** C137: the identifier has the bytes that the text shows, whatever follows it. *)
Theorem C137_read_partial : forall l bytes rest, uuid_text l bytes -> uuid_generate (Some (l ++ rest)) = Ok bytes.
Proof. exact Platform_Proofs.uuid_read. Qed.
Print Assumptions C137_read_partial.
(** C137 is false when the file is missing or too short: nothing is checked. *)
Theorem C137_missing_refuted : uuid_generate None = UB /\ forall l, (length l < 36)%nat -> uuid_generate (Some l) = UB.
Proof. split; [reflexivity|]. intros l H. unfold uuid_generate. destruct (Nat.leb_spec 36 (length l)); [exfalso; exact (Nat.lt_irrefl _ (Nat.lt_le_trans _ _ _ H H0))|reflexivity]. Qed.
Print Assumptions C137_missing_refuted.
(** 00010203-0405-0607-0809-0a0B0c0D0e0f *)
Example C137_case : let l := [48;48;48;49;48;50;48;51;45;48;52;48;53;45;48;54;48;55;45;48;56;48;57;45;48;97;48;66;48;99;48;68;48;101;48;102] in
  let bytes := [0; 1; 2; 3; 4; 5; 6; 7; 8; 9; 10; 11; 12; 13; 14; 15] in
  uuid_text l bytes /\ uuid_generate (Some (l ++ [10])) = Ok bytes.
Proof. split; [exact Platform_Proofs.uuid_case|vm_compute; reflexivity]. Qed.

(** C138, the part that holds: for timeouts that are not negative the deadline is a valid time, less
    than a nanosecond away from the exact one. *)
Theorem C138_deadline_partial : forall fuel now_sec now_nsec ipart k num nanos, (2 <= fuel)%nat ->
  (0 <= now_sec)%Z -> (0 <= now_nsec < 1000000000)%Z -> (0 <= ipart)%Z -> (0 <= k)%Z -> (0 <= num < 2 ^ k)%Z -> next_to k num nanos ->
  (now_sec + ipart + 1 < 2 ^ 63)%Z ->
  exists t, deadline fuel now_sec now_nsec ipart nanos = Ok t /\ valid_time t /\ close_to t now_sec now_nsec ipart k num.
Proof. exact Platform_Proofs.deadline_ok. Qed.
Print Assumptions C138_deadline_partial.
(** C138 is false for half a second ago at the start of a second, which gives a negative number of
    nanoseconds, and for timeouts of 2^63 seconds and more. *)
Theorem C138_negative_refuted : next_to 1 (-1) (-500000000) /\
  deadline 2 1000 0 0 (-500000000) = Ok (1000, -500000000)%Z /\ ~ valid_time (1000, -500000000)%Z /\
  forall fuel, deadline fuel 1000 0 (2 ^ 63) 0 = UB.
Proof.
  split; [vm_compute; split; discriminate|]. split; [vm_compute; reflexivity|]. split; [intros [H _]; vm_compute in H; exact (H eq_refl)|].
  intros fuel. reflexivity.
Qed.
Print Assumptions C138_negative_refuted.
(** Three quarters of a second later than 1000.5 seconds. *)
Example C138_case : next_to 2 3 750000000 /\ deadline 2 1000 500000000 0 750000000 = Ok (1001, 250000000)%Z.
Proof. split; [vm_compute; split; discriminate|vm_compute; reflexivity]. Qed.
