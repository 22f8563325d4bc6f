(** Properties C128 and C129: enumerations, and the names of the operators of predicates. *)
Require Import Coq.ZArith.ZArith Coq.NArith.NArith Coq.Lists.List.
Require Import Verif.Base Verif.Enum_Model Verif.Enum_Spec.
Require Verif.HashTable_Model Verif.Enum_Proofs.
Require Verif.Predicate_Model.
Import ListNotations.

(** C128: the value of a name is that of the last entry with the name, and 0 for other names and
    NULL; the name of a value is one with that value, and there is one unless no name has the
    value. *)
Theorem C128_values : forall hash es t, init64 hash es = Ok t ->
  (forall s v, from_string64 hash (Some t) (Some s) = Ok v -> means es s v \/ (~ In s (map fst es) /\ v = 0%Z)) /\
  (forall v, from_string64 hash (Some t) None = Ok v -> v = 0%Z) /\
  (forall v s, string_from (Some t) v = Some s -> means es s v) /\
  (forall v, string_from (Some t) v = None -> forall s, ~ means es s v).
Proof. exact Enum_Proofs.enum_values. Qed.
Print Assumptions C128_values.

(** With values that fit an int, the constructor and reader for int do as those for 64 bits. *)
Theorem C128_ints : forall hash es t, ints es -> init hash es = Ok t ->
  init64 hash es = Ok t /\ (forall s v, from_string64 hash (Some t) (Some s) = Ok v -> from_string hash (Some t) (Some s) = Ok v).
Proof. exact Enum_Proofs.enum_ints. Qed.
Print Assumptions C128_ints.

(** Reading the name of a value gives back the value, and a name has a value that has a name. *)
Theorem C128_round : forall hash es t, init64 hash es = Ok t ->
  (forall v s, string_from (Some t) v = Some s -> forall v', from_string64 hash (Some t) (Some s) = Ok v' -> v' = v) /\
  (forall s v, In s (map fst es) -> from_string64 hash (Some t) (Some s) = Ok v -> exists s', string_from (Some t) v = Some s' /\ means es s' v).
Proof. exact Enum_Proofs.enum_round. Qed.
Print Assumptions C128_round.

(** Making an enumeration and reading from it is safe except while it has exactly eleven names.
    Missing: eleven names, where it is false (below). *)
Theorem C128_safe_partial : forall hash es,
  (init64 hash es <> NoFuel) /\
  (init64 hash es = Fatal -> (837682430 <= N.of_nat (names es))%N) /\
  (init64 hash es = UB -> exists a b, es = a ++ b /\ b <> [] /\ names a = 11%nat) /\
  (forall t s, init64 hash es = Ok t -> names es <> 11%nat -> exists v, from_string64 hash (Some t) s = Ok v).
Proof. exact Enum_Proofs.enum_safe. Qed.
Print Assumptions C128_safe_partial.

(** There are eleven names of one letter, with which the enumeration cannot be asked for the
    letter d, nor be made with that letter as the twelfth name. *)
Theorem C128_refuted : exists es s, names es = 11%nat /\
  (exists t, init real_hash es = Ok t /\ from_string real_hash (Some t) (Some s) = UB) /\ init real_hash (es ++ [(s, 1%Z)]) = UB.
Proof. exists Enum_Proofs.eleven, [100%N]. exact Enum_Proofs.eleven_refuted. Qed.
Print Assumptions C128_refuted.

(** Names A, B, A again and C. *)
Example C128_case : exists t, init real_hash [([65%N], 1%Z); ([66%N], 2%Z); ([65%N], 5%Z); ([67%N], 2%Z)] = Ok t /\
  from_string real_hash (Some t) (Some [65%N]) = Ok 5%Z /\ from_string real_hash (Some t) (Some [68%N]) = Ok 0%Z /\
  string_from (Some t) 5%Z = Some [65%N] /\ string_from (Some t) 1%Z = None /\ (string_from (Some t) 2%Z = Some [66%N] \/ string_from (Some t) 2%Z = Some [67%N]).
Proof. exists (match init real_hash [([65%N], 1%Z); ([66%N], 2%Z); ([65%N], 5%Z); ([67%N], 2%Z)] with Ok t => t | _ => HashTable_Model.table_init end). split; [vm_compute; reflexivity|]. repeat split; vm_compute; auto. Qed.

(** C129: the string of an operator is its name; reading a string gives the operator it is the name
    or a symbol of, and the unspecified operator for any other string and for NULL. *)
Theorem C129_names : forall o, string_from_op o = Some (bytes (word o)).
Proof. exact Enum_Proofs.op_word. Qed.
Print Assumptions C129_names.
Theorem C129_read : forall o s, written o s -> op_from_string (Some s) = Ok o.
Proof. exact Enum_Proofs.op_written. Qed.
Print Assumptions C129_read.
Theorem C129_others : forall s, exists o, op_from_string (Some s) = Ok o /\ (written o s \/ (o = Predicate_Model.Unspecified /\ forall o', ~ written o' s)).
Proof. exact Enum_Proofs.op_from. Qed.
Print Assumptions C129_others.
Theorem C129_null : op_from_string None = Ok Predicate_Model.Unspecified.
Proof. exact Enum_Proofs.op_null. Qed.
Print Assumptions C129_null.
