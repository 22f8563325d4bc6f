(** Property C183: messages. *)
Require Import Coq.Strings.String Coq.NArith.NArith Coq.Lists.List Coq.Bool.Bool Coq.Arith.Arith.
Require Import Verif.Base Verif.Report_Model Verif.Report_Spec.
Require Verif.Describe_Model Verif.Report_Proofs.
Import ListNotations.

(** C183: whatever a program sets and says, every message up to the first that stops the program is given
    once and in order to the callback last set for its kind, or to the file of its kind if there is none,
    between the prefix and suffix last set; nothing is printed after that.  Texts have no zero in them.
    Missing: texts with a zero, of which the rest is lost. *)
Theorem C183_messages_partial : forall cs, Forall proper cs -> exists s, run start cs = Ok s /\ printed s = expected [] cs.
Proof. exact Report_Proofs.history. Qed.
Print Assumptions C183_messages_partial.
(** A text with a zero is cut off there. *)
Theorem C183_zero_refuted : exists t s, run start [Say KPrint t] = Ok s /\ printed s <> expected [] [Say KPrint t].
Proof. exists [97; 0; 98]%N. eexists. split; [vm_compute; reflexivity|]. vm_compute. discriminate. Qed.
Print Assumptions C183_zero_refuted.

Definition said : list call :=
  [Say KLog [97%N]; SetCallback KWarning (Some 1); Say KWarning [98%N]; Say KError [99%N]; SetFormat KError (Some [60%N]) (Some [62%N]); SetAbort true; SetCallback KError (Some 2); SetCallback KError None;
   SetAbort false; Say KError [100%N]; SetAbort true; SetCallback KWarning None; Say KPrint []; Say KError [101%N]; Say KFatal [102%N]].
Example C183_case : Forall proper said /\ expected [] said =
  [(Stdout, [97; 10]%N); (Callback 1, Describe_Model.ascii "WARNING: b"%string ++ [10%N]); (Stderr, Describe_Model.ascii "ERROR: c"%string ++ [10%N]); (Stderr, [60; 100; 62]%N); (Stdout, []); (Stderr, [60; 101; 62]%N)].
Proof. split; [|vm_compute; reflexivity]. repeat constructor; try (exists [60%N], [62%N]; repeat split; repeat constructor); discriminate. Qed.
