(** Property C178: an object can be removed from a list that alone holds it. *)
Require Import Coq.Lists.List Coq.Bool.Bool Coq.Arith.Arith.
Require Import Verif.Base Verif.Own_Model Verif.Own_Spec Verif.Gone_Model Verif.Gone_Spec.
Require Verif.Gone_Proofs.
Import ListNotations.

(** C178, what holds: no call of any program uses an object that was freed if an object to be removed from
    a list is kept alive by something else than the list or is equal to the last element at most.
    Missing: see below. *)
Theorem C178_safe_partial :
  forall keq cs, follows (careful_call keq) keq init cs -> calls keq init cs = Fatal \/ exists s, calls keq init cs = Ok s /\ sound s.
Proof. exact Gone_Proofs.program_ok. Qed.
Print Assumptions C178_safe_partial.

(** And then the elements that are equal to the object are gone, the others are left in their order, and
    nothing else that the program has is changed. *)
Theorem C178_removed_partial :
  forall keq cs s a l r, follows (careful_call keq) keq init cs -> calls keq init cs = Ok s ->
    In a (hands s) -> elements s a l -> ref_in (live s) r -> ref_in (kept s a) r \/ only_last keq l r ->
    exists s', remove_object keq s a r = Ok s' /\ sound s' /\
      elements s' a (filter (fun r' => negb (alike keq r r')) l) /\
      forall y n b, y <> a -> In y (hands s) -> nth_error (cells s) y = Some (Live n b) -> exists n', nth_error (cells s') y = Some (Live n' b).
Proof. exact Gone_Proofs.removed. Qed.
Print Assumptions C178_removed_partial.

(** C178 is false of the code: the object is compared with what is left of the list after the list has
    released it. *)
Theorem C178_only_holder_refuted :
  exists cs, follows may_call Nat.eqb init cs /\ calls Nat.eqb init cs = UB.
Proof.
  exists [Other (New (Arr [])); Other (New Leaf); Other (New Leaf); Other (Splice 0 0 0 [Some 1; Some 2]); Other (Release 1);
          RemoveObject 0 (Some 1)].
  split; [apply Gone_Proofs.may_run|]; vm_compute; reflexivity.
Qed.
Print Assumptions C178_only_holder_refuted.

(** The hypotheses are met: an object twice in a list of four, of which the program keeps a reference;
    and one that only the list holds, at its end. *)
Example C178_met :
  let made := [Other (New (Lnk [])); Other (New Leaf); Other (New Leaf); Other (Splice 0 0 0 [Some 1; Some 2; None; Some 1])] in
  follows (careful_call Nat.eqb) Nat.eqb init (made ++ [RemoveObject 0 (Some 1); RemoveObject 0 None]) /\
  exists s, calls Nat.eqb init (made ++ [RemoveObject 0 (Some 1); RemoveObject 0 None]) = Ok s /\ elements s 0 [Some 2].
Proof.
  cbv zeta. split; [apply Gone_Proofs.careful_calls; vm_compute; reflexivity|]. eexists. split; [vm_compute; reflexivity|]. exists 1. right. reflexivity.
Qed.
Example C178_last :
  exists s s', calls Nat.eqb init [Other (New (Arr [])); Other (New Leaf); Other (New Leaf); Other (Splice 0 0 0 [Some 1; Some 2]); Other (Release 2)] = Ok s /\
    only_last Nat.eqb [Some 1; Some 2] (Some 2) /\ remove_object Nat.eqb s 0 (Some 2) = Ok s' /\ elements s' 0 [Some 1] /\ freed s' 2.
Proof.
  eexists. eexists. split; [vm_compute; reflexivity|]. split; [repeat constructor|]. split; [vm_compute; reflexivity|]. split; [|reflexivity]. exists 1. left. reflexivity.
Qed.
