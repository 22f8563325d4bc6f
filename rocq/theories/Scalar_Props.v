(** Properties C170, C171: strings read as integers and truth values. *)
Require Import Coq.Strings.String Coq.ZArith.ZArith Coq.NArith.NArith Coq.Lists.List Coq.Bool.Bool.
Require Import Verif.Base Verif.Scalar_Model Verif.Scalar_Spec.
Require Verif.Strtonum_Model Verif.Describe_Model Verif.Scalar_Proofs.
Import ListNotations.

(** C170, what holds: a string that begins with a number, after any white space and a sign, is read as the
    nearest 64 bit integer, one that does not, as zero, and there is no other string. *)
Theorem C170_int64_partial :
  forall t, (exists z, stands_for t z /\ nearest (- 2 ^ 63) (2 ^ 63 - 1) z (get_int64 (Some t))) \/ (no_number t /\ get_int64 (Some t) = 0%Z).
Proof.
  intros t. destruct (Scalar_Proofs.total t) as [(z & H)|H]; [left; exists z; split; [exact H|exact (Scalar_Proofs.int64_ok t z H)]|right; split; [exact H|exact (proj1 (Scalar_Proofs.none_ok t H))]].
Qed.
Print Assumptions C170_int64_partial.
Theorem C170_any_partial :
  forall t z, stands_for t z -> nearest (- 2 ^ 63) (2 ^ 63 - 1) z (get_int64 (Some t)).
Proof. exact Scalar_Proofs.int64_ok. Qed.
Print Assumptions C170_any_partial.
(** Read as a 32 bit integer it is exact where it fits. *)
Theorem C170_int32_partial :
  forall t z, stands_for t z -> (- 2 ^ 31 <= z < 2 ^ 31)%Z -> get_int32 (Some t) = z.
Proof. exact Scalar_Proofs.int32_ok. Qed.
Print Assumptions C170_int32_partial.
(** The text of an integer is read as that integer. *)
Theorem C170_printed_partial :
  forall z, (- (2 ^ 63 - 1) <= z <= 2 ^ 63 - 1)%Z -> get_int64 (Some (Strtonum_Model.print_int z)) = z.
Proof. exact Scalar_Proofs.print_back. Qed.
Print Assumptions C170_printed_partial.

(** C170 is false of the code: a number that does not fit into 32 bits is read as another one, of the
    other sign. *)
Theorem C170_int32_refuted :
  exists t z, stands_for t z /\ ~ nearest (- 2 ^ 31) (2 ^ 31 - 1) z (get_int32 (Some t)) /\ (z > 0)%Z /\ (get_int32 (Some t) < 0)%Z.
Proof.
  exists (Describe_Model.ascii "2147483648"), 2147483648%Z. split; [|split; [|split; vm_compute; reflexivity]].
  - exists [], Absent, (Describe_Model.ascii "2147483648"), []. split; [reflexivity|]. split; [constructor|]. split; [repeat constructor; discriminate|]. split; [discriminate|]. split; [exact I|]. vm_compute. reflexivity.
  - intros (_ & H). specialize (H 2147483647%Z). vm_compute in H. destruct H; [split; discriminate|reflexivity].
Qed.
Print Assumptions C170_int32_refuted.

(** C171, what holds: the texts of the boolean objects and of integers that are not negative have the truth
    value of the object. *)
Theorem C171_boolean_partial :
  forall b : bool, get_bool (Some (Describe_Model.ascii (if b then "true" else "false"))) = b.
Proof. intros []; reflexivity. Qed.
Print Assumptions C171_boolean_partial.
Theorem C171_number_partial :
  forall z, (0 <= z <= 2 ^ 63 - 1)%Z -> get_bool (Some (Strtonum_Model.print_int z)) = negb (z =? 0)%Z.
Proof.
  intros z R. rewrite Scalar_Proofs.bool_printed by (split; [apply Z.le_trans with 0%Z; [discriminate|]|]; apply R).
  destruct (Z.ltb_spec 0 z), (Z.eqb_spec z 0); try reflexivity; exfalso; [subst; discriminate|]. apply n. apply Z.le_antisymm; [exact H|apply R].
Qed.
Print Assumptions C171_number_partial.

(** C171 is false of the code: of every negative number. *)
Theorem C171_negative_refuted :
  forall z, (- (2 ^ 63 - 1) <= z < 0)%Z -> get_bool (Some (Strtonum_Model.print_int z)) = false.
Proof.
  intros z R. rewrite Scalar_Proofs.bool_printed; [apply Z.ltb_ge, Z.lt_le_incl, R|]. split; [apply R|]. apply Z.le_trans with 0%Z; [apply Z.lt_le_incl, R|discriminate].
Qed.
Print Assumptions C171_negative_refuted.

(** " +0042px" is 42. *)
Example C170_case : stands_for (Describe_Model.ascii " +0042px") 42 /\ get_int64 (Some (Describe_Model.ascii " +0042px")) = 42%Z /\ no_number (Describe_Model.ascii "-x").
Proof.
  split; [|split; [vm_compute; reflexivity|]].
  - exists [32%N], Plus, (Describe_Model.ascii "0042"), (Describe_Model.ascii "px"). split; [reflexivity|]. split; [repeat constructor|]. split; [repeat constructor; discriminate|]. split; [discriminate|].
    split; [intros (_ & H); vm_compute in H; apply H; reflexivity|]. vm_compute. reflexivity.
  - exists [], Minus, (Describe_Model.ascii "x"). split; [reflexivity|]. split; [constructor|]. split; [intros (_ & H); vm_compute in H; apply H; reflexivity|discriminate].
Qed.
