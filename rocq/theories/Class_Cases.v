(** Concrete cases about classes. *)
Require Import Coq.NArith.NArith Coq.Lists.List Coq.micromega.Lia.
Require Import Verif.Base Verif.Class_Model Verif.Class_Spec.
Require Verif.HashTable_Model Verif.Compare_Model.
Import ListNotations.

(** The hash code of a string with these bytes. *)
Definition real_hash (n : text) : N := match Compare_Model.string_hash n with Ok h => h | _ => 0%N end.
Definition name_object : text := [68; 75; 79; 98; 106; 101; 99; 116]%N.
Definition after (w : outcome world) (o : op) : outcome world := do w <- w; do r <- step real_hash w o; Ok (fst r).
Definition val (w : outcome world) : world := match w with Ok w => w | _ => mkW [] HashTable_Model.table_init end.

Definition w0 : outcome world := runtime_init real_hash.
Definition w1 : outcome world := after w0 (NewClass (Some [65%N]) (Some 6) false false false false).
Definition w2 : outcome world := after w1 (Alloc 10).
Definition w3 : outcome world := after w2 (Release 10).
Definition w4 : outcome world := after w3 (Release 11).
Ltac ok := vm_compute; reflexivity.
Lemma r0 : reach real_hash (val w0) [].
Proof. apply at_start. ok. Qed.
Lemma r1 : reach real_hash (val w1) [10].
Proof. eapply by_new; [exact r0|]. instantiate (1 := false). instantiate (1 := false). instantiate (1 := false). instantiate (1 := false). instantiate (1 := Some 6). instantiate (1 := Some [65%N]). ok. Qed.
Lemma r2 : reach real_hash (val w2) [11; 10].
Proof. eapply (by_alloc _ _ _ 10); [exact r1|]. ok. Qed.
Lemma r3 : reach real_hash (val w3) [11].
Proof. change [11] with (drop 10 [11; 10]). eapply (by_release _ _ _ 10); [exact r2|cbn; auto|]. instantiate (1 := None). ok. Qed.
Lemma r4 : reach real_hash (val w4) [].
Proof. change (@nil nat) with (drop 11 [11]). eapply (by_release _ _ _ 11); [exact r3|cbn; auto|]. instantiate (1 := None). ok. Qed.
Lemma kept_case : exists w c, reach real_hash w c /\ c = [11] /\ instance_of w 11 10 /\ subclass_of w 10 6 /\ held w c 10.
Proof.
  exists (val w3), [11]. split; [exact r3|]. split; [reflexivity|]. assert (A : instance_of (val w3) 11 10) by (eexists; split; [ok|split; ok]).
  split; [exact A|]. split; [eexists; eexists; split; [ok|]; split; [ok|]; split; ok|]. apply (by_instance _ _ 10 11); [apply by_client; now left|exact A].
Qed.
Lemma gone_case : exists w c, reach real_hash w c /\ c = [] /\ length (heap w) = 12 /\ ~ exists_ w 10 /\ ~ exists_ w 11.
Proof.
  exists (val w4), []. split; [exact r4|]. split; [reflexivity|]. split; [ok|]. split; intros (o & Ho & Hl); vm_compute in Ho; injection Ho as <-; discriminate Hl.
Qed.
Lemma kind_case : exists w c, reach real_hash w c /\ is_kind w 11 6 = Ok true /\ is_kind w 11 8 = Ok false /\ is_subclass w 10 6 = Ok true /\ is_subclass w 6 10 = Ok false.
Proof. exists (val w3), [11]. split; [exact r3|]. repeat split; ok. Qed.
Lemma names_case : exists w, runtime_init real_hash = Ok w /\ ~ tight w /\ named w 6 name_object /\ class_from_string real_hash w name_object = Ok (Some 6) /\ class_from_string real_hash w [75%N] = Ok None /\
  step real_hash w (NewClass (Some name_object) None false false false false) = Fatal.
Proof.
  exists (val w0). split; [ok|]. split; [intros [_ X]; vm_compute in X; discriminate X|]. split; [eexists; eexists; split; [ok|]; split; [ok|]; split; ok|]. repeat split; ok.
Qed.

(** Classes named A, B and z, and one without a name. *)
Definition nc (n : option text) : op := NewClass n None false false false false.
Definition v1 : outcome world := after w0 (nc (Some [65%N])).
Definition v2 : outcome world := after v1 (nc (Some [66%N])).
Definition v3 : outcome world := after v2 (nc (Some [122%N])).
Definition v4 : outcome world := after v3 (nc None).
Lemma new_reach : forall w c n w' i, reach real_hash w c -> step real_hash w (nc n) = Ok (w', Some i) -> reach real_hash w' (i :: c).
Proof. intros w c n w' i H E. exact (by_new _ _ _ n None false false false false w' i H E). Qed.
Lemma nameless_case : exists w c i, reach real_hash w c /\ In i c /\ ~ tight w /\ step real_hash w (Release i) = UB.
Proof.
  exists (val v4), [13; 12; 11; 10], 13. split.
  - apply (new_reach (val v3) _ None); [|ok]. apply (new_reach (val v2) _ (Some [122%N])); [|ok]. apply (new_reach (val v1) _ (Some [66%N])); [|ok]. apply (new_reach (val w0) _ (Some [65%N])); [exact r0|ok].
  - split; [now left|]. split; [intros [X _]; vm_compute in X; discriminate X|ok].
Qed.
Lemma alloc_case : exists w, reach real_hash w [] /\ is_class w 0 /\ step real_hash w (Alloc 0) = Fatal /\ is_class w 6 /\ exists w', step real_hash w (Alloc 6) = Ok (w', Some 10) /\ class_name w' 10 = Ok (Some name_object) /\ class_name w' 6 = Ok (Some name_object) /\ is_mutable w' 10 = Ok true.
Proof. exists (val w0). split; [exact r0|]. split; [eexists; eexists; vm_compute; repeat split; reflexivity|]. split; [vm_compute; reflexivity|]. split; [eexists; eexists; vm_compute; repeat split; reflexivity|]. eexists. split; [vm_compute; reflexivity|]. repeat split; vm_compute; reflexivity. Qed.
