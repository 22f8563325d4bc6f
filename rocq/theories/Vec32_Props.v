(** Property C172: JSON with vectors of 32 bit numbers. *)
Require Import Coq.Strings.String Coq.ZArith.ZArith Coq.QArith.QArith Coq.NArith.NArith Coq.Lists.List Coq.Bool.Bool.
Require Import Verif.Base Verif.Strtonum_Model Verif.Strtonum_Spec Verif.JSON_Model Verif.JSON_Spec Verif.Vec32_Model Verif.Vec32_Spec.
Require Verif.Number_Model Verif.Real_Model Verif.Real_Spec Verif.Describe_Model Verif.JSON_Parse Verif.Vec32_Proofs.
Import ListNotations.

(** C172, what holds: with the option the same texts are read, as the same values, but that the vectors
    are of 32 bit numbers; an integer that fits into 32 bits and a number with a fraction or an exponent
    is the integer or the nearest float. *)
Theorem C172_text_partial :
  forall pow10 v s w w', text true v s -> Forall white w -> Forall white w' -> exists v', json_parse32 pow10 (w ++ s ++ w') = Ok v' /\ as32 pow10 fits v v'.
Proof. exact (fun pow10 v s w w' H W W' => Vec32_Proofs.json_ok pow10 _ v (JSON_Parse.parse_json true v s w w' H W W')). Qed.
Print Assumptions C172_text_partial.
Theorem C172_any_partial :
  forall pow10 t v, json_parse true t = Ok v -> exists v', json_parse32 pow10 t = Ok v' /\ as32 pow10 fits v v'.
Proof. exact Vec32_Proofs.json_ok. Qed.
Print Assumptions C172_any_partial.
Theorem C172_only_partial :
  forall pow10 t v', json_parse32 pow10 t = Ok v' -> exists v, json_parse true t = Ok v /\ as32 pow10 fits v v'.
Proof. exact Vec32_Proofs.json_back. Qed.
Print Assumptions C172_only_partial.

(** C172 is false of integers that do not fit: 4294967297 becomes 1. *)
Theorem C172_big_refuted :
  forall pow10, exists t v v', json_parse true t = Ok v /\ json_parse32 pow10 t = Ok v' /\ ~ as32 pow10 (fun _ => True) v v'.
Proof.
  intros pow10. exists (Describe_Model.ascii "#[4294967297, 1]"), (JVec false [NInt 4294967297; NInt 1]), (VVec (Real_Model.mkR (Real_Model.TI Number_Model.int32) [1; 1]%Z)).
  split; [vm_compute; reflexivity|]. split; [vm_compute; reflexivity|].
  intros H. inversion H as [| | | |fl l ws F Y1 Y2| | |]; subst. inversion F as [|n w l1 l2 E R]; subst. specialize (E I). cbn [element32] in E. discriminate E.
Qed.
Print Assumptions C172_big_refuted.
(** And it depends on the order of the numbers: 4294967297 is read as 1 if a fraction comes after it, and
    as 4294967296 if it comes before. *)
Theorem C172_order_refuted :
  forall pow10, exists a b half,
    json_parse32 pow10 (Describe_Model.ascii "#[4294967297, 0.5]") = Ok (VVec (Real_Model.mkR (Real_Model.TF Real_Model.Single) [a; half])) /\
    json_parse32 pow10 (Describe_Model.ascii "#[0.5, 4294967297]") = Ok (VVec (Real_Model.mkR (Real_Model.TF Real_Model.Single) [half; b])) /\
    Real_Spec.same (Real_Spec.meaning Real_Spec.float half) (Real_Spec.Real (1 # 2)) /\
    Real_Spec.same (Real_Spec.meaning Real_Spec.float a) (Real_Spec.Real 1) /\ Real_Spec.same (Real_Spec.meaning Real_Spec.float b) (Real_Spec.Real 4294967296).
Proof.
  intros pow10. exists 1065353216%Z, 1333788672%Z, 1056964608%Z. split; [vm_compute; reflexivity|]. split; [vm_compute; reflexivity|]. split; [vm_compute; reflexivity|]. split; vm_compute; reflexivity.
Qed.
Print Assumptions C172_order_refuted.

(** The text of a list with a vector. *)
Example C172_case : forall pow10,
  json_parse true (Describe_Model.ascii "[#[-1, 2], 3]") = Ok (JArr [JVec false [NInt (-1); NInt 2]; JNum (NInt 3)]) /\
  json_parse32 pow10 (Describe_Model.ascii "[#[-1, 2], 3]") =
    Ok (VArr [VVec (Real_Model.mkR (Real_Model.TI Number_Model.int32) [-1; 2]%Z); VNum (NInt 3)]) /\
  text true (JVec false [NInt (-1); NInt 2]) (Describe_Model.ascii "#[-1, 2]").
Proof.
  intros pow10. split; [vm_compute; reflexivity|]. split; [vm_compute; reflexivity|].
  apply (t_vec true [NInt (-1); NInt 2] (Describe_Model.ascii "-1, 2")); [reflexivity|apply le_n|reflexivity|].
  apply (ns_cons (NInt (-1)) [NInt 2] [] (Describe_Model.ascii "-1") [] (Describe_Model.ascii " 2")); [constructor| |constructor|].
  - apply (n_int true [49%N]); [repeat constructor; discriminate|discriminate|vm_compute; discriminate].
  - apply (ns_one (NInt 2) [32%N] [50%N] []); [repeat constructor| |constructor]. apply (n_int false [50%N]); [repeat constructor; discriminate|discriminate|vm_compute; discriminate].
Qed.
