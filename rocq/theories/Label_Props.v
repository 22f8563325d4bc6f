(** Property C184: the description of an encoding identifies it. *)
Require Import Coq.NArith.NArith Coq.Lists.List Coq.Bool.Bool.
Require Import Verif.Encoding_Model Verif.Label_Model Verif.Label_Spec.
Require Verif.Describe_Model Verif.Label_Proofs.
Require Import Coq.Strings.String.
Import ListNotations.
Local Open Scope N_scope.

(** C184: two encodings (words of 32 bits) of types a program can name have the same description only if
    they are the same encoding: type, count, and whether it is a matrix, with its rows and columns.
    Missing: types that are reserved, invalid or out of range. *)
Theorem C184_tells_apart_partial : forall a b, a < 2 ^ 32 -> b < 2 ^ 32 -> In (get_type a) public_types -> In (get_type b) public_types -> description a = description b -> a = b.
Proof. exact Label_Proofs.tells_apart. Qed.
Print Assumptions C184_tells_apart_partial.
(** Types that are not in the table are described as void, and so are not told apart from it. *)
Theorem C184_unknown_refuted : exists a b, a < 2 ^ 32 /\ b < 2 ^ 32 /\ description a = description b /\ a <> b.
Proof. exists (encode 0 3), (encode 26 3). repeat split; vm_compute; discriminate. Qed.
Print Assumptions C184_unknown_refuted.

(** A matrix, a vector, a scalar and an empty vector. *)
Example C184_case :
  map (fun e => (e <? 2 ^ 32, existsb (N.eqb (get_type e)) public_types, description e)) [encode_matrix 24 4 3; encode 24 12; encode 24 1; encode 5 0; encode_matrix 24 1 1] =
  map (fun s => (true, true, Describe_Model.ascii s)) ["float[4][3]"; "float[12]"; "float"; "text[0]"; "float[1][1]"]%string.
Proof. vm_compute. reflexivity. Qed.
