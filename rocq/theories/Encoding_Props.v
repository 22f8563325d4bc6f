(** Property theorems about encodings. *)
Require Import Coq.NArith.NArith Coq.Lists.List Coq.Bool.Bool.
Require Import Verif.Encoding_Model Verif.Encoding_Spec Verif.Encoding_Proofs.
Import ListNotations.
Local Open Scope N_scope.

(** C34: an encoding of a type and a count is a 32 bit word that gives back the type and the
    count, and its size is the size of an element times the count. *)
Theorem C34_vector : forall t z c, element t z -> c < 2 ^ 24 ->
  is_matrix (encode t c) = false /\ get_type (encode t c) = t /\ get_count (encode t c) = c /\ get_rows (encode t c) = 1 /\ get_cols (encode t c) = c /\ get_size (encode t c) = z * c /\ encode t c < 2 ^ 32.
Proof. exact vector_unpacks. Qed.
Print Assumptions C34_vector.
(** C34 for matrices. *)
Theorem C34_matrix : forall t z r c, element t z -> r < 2 ^ 12 -> c < 2 ^ 12 -> let e := encode_matrix t r c in
  is_matrix e = true /\ get_type e = t /\ get_rows e = r /\ get_cols e = c /\ get_count e = r * c /\ get_size e = z * (r * c).
Proof. exact matrix_unpacks. Qed.
Print Assumptions C34_matrix.
(** C34: the encoding made from the size of an integer type is the encoding of a type of this size. *)
Theorem C34_integers : forall n, In n [1; 2; 4; 8] -> element (get_type (encode_integer n 1)) n.
Proof. exact integer_types. Qed.
Print Assumptions C34_integers.
Example C34_case : element 25 8 /\ get_size (encode 25 3) = 24 /\ get_type (encode_matrix 25 4 5) = 25 /\ get_size (encode_matrix 25 4 5) = 160 /\ encode 15 1 <> encode 15 2 /\ encode_integer 8 1 = encode 15 1.
Proof. repeat split; try constructor; vm_compute; discriminate. Qed.
