(** Property C179: union and difference of lists used as sets, whoever holds their members. *)
Require Import Coq.Lists.List Coq.Bool.Bool Coq.Arith.Arith.
Require Import Verif.Base Verif.Own_Model Verif.Own_Spec Verif.Gone_Model Verif.Gone_Spec Verif.Less_Model Verif.Less_Spec.
Require Verif.Gone_Proofs Verif.Less_Proofs.
Import ListNotations.

(** C179, what holds, of another collection that the program has: the members that were not there are
    added in order, and those that are equal to one of the other collection are taken out; nothing that
    was freed is used, even if only the two collections hold their members. *)
Theorem C179_others_partial :
  forall keq cs s a c l os, follows (careful_call keq) keq init cs -> calls keq init cs = Ok s ->
    In a (hands s) -> In c (hands s) -> a <> c -> elements s a l -> has_objects s c os ->
    (exists s', unite keq s a c = Ok s' /\ sound s' /\ unchanged_but a s s' /\ elements s' a (with_all keq os l)) /\
    (exists s', subtract keq s a c = Ok s' /\ sound s' /\ unchanged_but a s s' /\ elements s' a (without keq os l)).
Proof. exact Less_Proofs.others. Qed.
Print Assumptions C179_others_partial.

(** Of the list itself: the union changes nothing, and a linked list less itself is empty if the program
    has references to its members.  Missing: see below. *)
Theorem C179_itself_partial :
  forall keq cs s a l, follows (careful_call keq) keq init cs -> calls keq init cs = Ok s -> In a (hands s) -> elements s a l ->
    unite keq s a a = Ok s /\
    ((exists n, nth_error (cells s) a = Some (Live n (Lnk l))) -> Forall (ref_in (own s)) l ->
     exists s', subtract keq s a a = Ok s' /\ sound s' /\ unchanged_but a s s' /\ elements s' a []).
Proof. exact Less_Proofs.selves. Qed.
Print Assumptions C179_itself_partial.

(** C179 is false of the code for a linked list less itself when only the list holds its members: each is
    compared with the next after it was freed. *)
Theorem C179_itself_refuted :
  exists cs s, follows (careful_call Nat.eqb) Nat.eqb init cs /\ calls Nat.eqb init cs = Ok s /\ In 0 (hands s) /\
    elements s 0 [Some 1; Some 2] /\ subtract Nat.eqb s 0 0 = UB.
Proof.
  exists [Other (New (Lnk [])); Other (New Leaf); Other (New Leaf); Other (Splice 0 0 0 [Some 1; Some 2]); Other (Release 1); Other (Release 2)].
  eexists. split; [apply Gone_Proofs.careful_calls; vm_compute; reflexivity|]. split; [vm_compute; reflexivity|]. split; [left; reflexivity|].
  split; [exists 1; right; reflexivity|vm_compute; reflexivity].
Qed.
Print Assumptions C179_itself_refuted.

(** And for an array less itself, even if the program holds the members: every second stays. *)
Theorem C179_array_refuted :
  exists cs s s', follows (careful_call Nat.eqb) Nat.eqb init cs /\ calls Nat.eqb init cs = Ok s /\ hands s = [0; 1; 2] /\
    elements s 0 [Some 1; Some 2] /\ subtract Nat.eqb s 0 0 = Ok s' /\ elements s' 0 [Some 2].
Proof.
  exists [Other (New (Arr [])); Other (New Leaf); Other (New Leaf); Other (Splice 0 0 0 [Some 1; Some 2])].
  eexists. eexists. split; [apply Gone_Proofs.careful_calls; vm_compute; reflexivity|]. split; [vm_compute; reflexivity|]. split; [reflexivity|].
  split; [exists 1; left; reflexivity|]. split; [vm_compute; reflexivity|exists 1; left; reflexivity].
Qed.
Print Assumptions C179_array_refuted.

(** The hypotheses are met: an array and a linked list that alone hold two of their members, 1 and 2, of
    which they share one. *)
Example C179_met :
  exists cs s, follows (careful_call Nat.eqb) Nat.eqb init cs /\ calls Nat.eqb init cs = Ok s /\ hands s = [0; 3; 4] /\
    elements s 0 [Some 1; Some 2; Some 4] /\ has_objects s 3 [Some 2; None; Some 1; Some 4] /\
    without Nat.eqb [Some 2; None; Some 1; Some 4] [Some 1; Some 2; Some 4] = [] /\
    with_all Nat.eqb [Some 2; None; Some 1; Some 4] [Some 1; Some 2; Some 4] = [Some 1; Some 2; Some 4; None].
Proof.
  exists [Other (New (Arr [])); Other (New Leaf); Other (New Leaf); Other (New (Lnk [])); Other (New Leaf); Other (Splice 0 0 0 [Some 1; Some 2; Some 4]);
          Other (Splice 3 0 0 [Some 2; None; Some 1; Some 4]); Other (Release 1); Other (Release 2)].
  eexists. split; [apply Gone_Proofs.careful_calls; vm_compute; reflexivity|]. split; [vm_compute; reflexivity|]. split; [reflexivity|].
  split; [exists 1; left; reflexivity|]. split; [left; exists 1; right; reflexivity|]. split; reflexivity.
Qed.
