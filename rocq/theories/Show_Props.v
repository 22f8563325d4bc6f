(** Property C182: arrays that show a C array of the caller. *)
Require Import Coq.Lists.List Coq.Bool.Bool Coq.Arith.Arith Coq.micromega.Lia.
Require Import Verif.Base Verif.Own_Model Verif.Own_Spec Verif.Show_Model Verif.Show_Spec.
Require Verif.Own_Ends Verif.Show_Proofs.
Import ListNotations.

(** C182, what holds: an array made of a C array without copying has the objects that are in the C array at
    the moment, whatever is done as long as the program keeps the array; an index past its end gives nothing ... *)
Theorem C182_shows_partial :
  forall keq cs w b n cs' w' l, plays keq start cs -> calls keq start cs = Ok w -> plays keq (lend w b n) cs' -> calls keq (lend w b n) cs' = Ok w' ->
    Forall (leaves (length (cells (own w)))) cs' -> memory w' b l -> n <= length l ->
    forall i, get w' (length (cells (own w))) i = Ok (if i <? n then nth i l None else None).
Proof. exact Show_Proofs.shows_memory. Qed.
Print Assumptions C182_shows_partial.
(** ... it does not keep the objects alive: every reference that is counted is one of the program or of a
    collection that holds its elements, and no call uses an object that was freed ... *)
Theorem C182_safe_partial :
  forall keq cs, plays keq start cs -> calls keq start cs = Fatal \/ exists w, calls keq start cs = Ok w /\ sound (own w).
Proof. exact Show_Proofs.safe. Qed.
Print Assumptions C182_safe_partial.
(** ... nor does it release them: giving it up changes no other object ... *)
Theorem C182_release_partial :
  forall keq cs w b n cs' w', plays keq start cs -> calls keq start cs = Ok w -> plays keq (lend w b n) cs' -> calls keq (lend w b n) cs' = Ok w' ->
    Forall (leaves (length (cells (own w)))) cs' ->
    exists s', step keq (own w') (Release (length (cells (own w)))) = Ok s' /\
      forall y, y <> length (cells (own w)) -> nth_error (cells s') y = nth_error (cells (own w')) y.
Proof. exact Show_Proofs.release_only. Qed.
Print Assumptions C182_release_partial.
(** ... and a mutable copy has the objects of the moment it was made, and keeps them, whatever becomes of
    the C array.  Missing: copies that are not mutable, see below. *)
Theorem C182_copy_partial :
  forall keq cs w a l cs' w1 w', plays keq start cs -> calls keq start cs = Ok w -> readable w a -> objects w a = Ok l -> mutable_copy w a = Ok w1 ->
    plays keq w1 cs' -> calls keq w1 cs' = Ok w' -> Forall (leaves (length (cells (own w)))) cs' ->
    objects w' (length (cells (own w))) = Ok l /\ In (length (cells (own w))) (hands (own w')) /\ Forall (ref_in (live (own w'))) l.
Proof. exact Show_Proofs.copy_keeps. Qed.
Print Assumptions C182_copy_partial.

Ltac play := repeat (cbn [plays]; split; [cbn [fair]; first [exact Logic.I
    |match goal with |- careful ?k ?s ?o => exact (proj1 (Own_Ends.careful_run k [o] s eq_refl)) end
    |eexists; split; [reflexivity|cbn; lia] |eexists; reflexivity |eexists; eexists; reflexivity
    |split; [eexists; eexists; reflexivity|intros ? ? H; vm_compute in H; try discriminate H; injection H as <- <-; eexists; split; [reflexivity|]; split; [cbn; lia|]; cbn; repeat constructor; eexists; eexists; reflexivity]]
    |let w := fresh "w" in let H := fresh "H" in intros w H; vm_compute in H; injection H as <-]); exact Logic.I.
(** C182 is false of DKCopy: the copy is the array itself, so that it changes with the C array, and its
    objects are not kept. *)
Theorem C182_same_refuted :
  exists cs w w1 w2, plays Nat.eqb start cs /\ calls Nat.eqb start cs = Ok w /\ shown w 2 = Some (0, 2) /\ get w 2 0 = Ok (Some 0) /\
    copy w 2 = Ok w1 /\ plays Nat.eqb w1 [Write 0 0 (Some 1); Other (Release 0)] /\ calls Nat.eqb w1 [Write 0 0 (Some 1); Other (Release 0)] = Ok w2 /\
    get w2 2 0 = Ok (Some 1) /\ freed (own w2) 0 /\ count_of (own w2) 2 = 2.
Proof.
  exists [Other (New Leaf); Other (New Leaf); Block [Some 0; Some 1]; Lend 0 2]. eexists. eexists. eexists. split; [play|]. split; [vm_compute; reflexivity|]. split; [reflexivity|]. split; [reflexivity|].
  split; [vm_compute; reflexivity|]. split; [play|]. split; [vm_compute; reflexivity|]. repeat split.
Qed.
Print Assumptions C182_same_refuted.
(** The hypotheses are met: a copy of an array that shows two of three objects, of which the program then
    gives up one and frees the C array. *)
Definition made : list call := [Other (New Leaf); Other (New Leaf); Block [Some 0; None; Some 1]; Lend 0 2; Write 0 1 (Some 1)].
Definition after : list call := [Other (Release 0); Write 0 0 None; Free 0; Other (Release 1)].
Example C182_case :
  exists w w1 w', plays Nat.eqb start made /\ calls Nat.eqb start made = Ok w /\ readable w 2 /\ objects w 2 = Ok [Some 0; Some 1] /\ mutable_copy w 2 = Ok w1 /\
    plays Nat.eqb w1 after /\ calls Nat.eqb w1 after = Ok w' /\ Forall (leaves 3) after /\ hands (own w') = [2; 3].
Proof.
  eexists. eexists. eexists. split; [unfold made; play|]. split; [vm_compute; reflexivity|]. split.
  { split; [eexists; eexists; reflexivity|]. intros b n H. vm_compute in H. injection H as <- <-. eexists. split; [reflexivity|]. split; [cbn; lia|]. cbn. repeat constructor; eexists; eexists; reflexivity. }
  split; [vm_compute; reflexivity|]. split; [vm_compute; reflexivity|]. split; [unfold after; play|]. split; [vm_compute; reflexivity|]. split; [|reflexivity]. repeat constructor; discriminate.
Qed.
Example C182_lent :
  exists w w', plays Nat.eqb start [Other (New Leaf); Block [Some 0; None]] /\ calls Nat.eqb start [Other (New Leaf); Block [Some 0; None]] = Ok w /\
    plays Nat.eqb (lend w 0 2) [Write 0 1 (Some 0); Copy 1; MutableCopy 1] /\ calls Nat.eqb (lend w 0 2) [Write 0 1 (Some 0); Copy 1; MutableCopy 1] = Ok w' /\
    memory w' 0 [Some 0; Some 0] /\ get w' 1 1 = Ok (Some 0) /\ count_of (own w') 0 = 3.
Proof. eexists. eexists. split; [play|]. split; [vm_compute; reflexivity|]. split; [play|]. split; [vm_compute; reflexivity|]. repeat split. Qed.
