(** Property theorems about numbers of integer types. *)
Require Import Coq.ZArith.ZArith Coq.Lists.List Coq.Arith.Arith Coq.Bool.Bool.
Require Import Verif.Base Verif.Number_Model Verif.Number_Spec Verif.Number_Proofs.
Import ListNotations.
Local Open Scope Z_scope.
(** Closes concrete cases. *)
Local Ltac cases := cbv zeta; repeat match goal with
  | |- is_number _ _ _ _ => split; [vm_compute; tauto|split; [repeat apply Forall_cons; try apply Forall_nil; (split; vm_compute; congruence)|split; vm_compute; reflexivity]]
  | |- _ /\ _ => split
  | |- _ <> _ => vm_compute; congruence
  | |- In _ _ => vm_compute; tauto
  | |- _ => vm_compute; reflexivity
  end.

(** Whatever the bytes of a number are, it is the number of some values: the hypotheses
    [is_number] below leave nothing out. *)
Theorem C35_numbers : forall n, well_sized n -> exists vs, is_number n (ty n) (sh n) vs.
Proof. exact every_number. Qed.
Print Assumptions C35_numbers.

(** C35 for numbers of one integer type, vectors or matrices of any size: comparison is an
    order, zero exactly for equal values, and numbers that compare equal have equal hashes. *)
Theorem C35_same_type_partial : forall t a sa vs b sb ws c sc us, is_number a t sa vs -> is_number b t sb ws -> is_number c t sc us ->
  exists x y z w, compare a b = Ok x /\ compare b a = Ok y /\ compare b c = Ok z /\ compare a c = Ok w /\
    (x = 0 <-> vs = ws) /\ (0 < x <-> less vs ws) /\ (0 < x <-> y < 0) /\ (x = 0 <-> y = 0) /\ (0 < x -> 0 < z -> 0 < w) /\ (x = 0 -> hash a = hash b /\ exists h, hash a = Ok h).
Proof. exact same_type_laws. Qed.
Print Assumptions C35_same_type_partial.
(** C35 for single values of different types if each type holds the other value. *)
Theorem C35_scalars_partial : forall a ta sa v b tb sb w, is_number a ta sa [v] -> is_number b tb sb [w] -> holds ta w -> holds tb v ->
  exists x y, compare a b = Ok x /\ compare b a = Ok y /\ (0 < x <-> v < w) /\ (x < 0 <-> w < v) /\ (0 < y <-> w < v) /\ (y < 0 <-> v < w) /\ (x = 0 -> hash a = hash b).
Proof. exact scalar_cross. Qed.
Print Assumptions C35_scalars_partial.
(** C35, comparison of equally many values of different types if the first type holds the
    values of the second number.  Missing in these theorems: values that the type of the first
    number does not hold, and different types with different counts; there the property is false. *)
Theorem C35_vectors_partial : forall a ta sa vs b tb sb ws, is_number a ta sa vs -> is_number b tb sb ws -> count sa = count sb -> Forall (holds ta) ws ->
  exists c, compare a b = Ok c /\ (0 < c <-> first_less vs ws) /\ (c < 0 <-> first_less ws vs) /\ (c = 0 <-> vs = ws).
Proof. exact compare_cross. Qed.
Print Assumptions C35_vectors_partial.
Definition scalar (t : ity) (v : Z) : num := mkNum t (Vec 1) (le (width t) v).
Example C35_case : let a := mkNum int32 (Vec 2) (flat_map (le 4) [-1; 5]) in
  is_number a int32 (Vec 2) [-1; 5] /\ compare a (mkNum int64 (Vec 2) (flat_map (le 8) [-1; 4])) = Ok (-1) /\
  is_number (scalar (mkI false 1) 200) (mkI false 1) (Vec 1) [200] /\ hash (scalar (mkI false 1) 200) = hash (scalar int64 200) /\ compare (scalar int32 (-7)) (scalar int64 3) = Ok 1.
Proof. cases. Qed.

(** C35 is false: the 8 bit 0 equals the 32 bit 256, which is not equal to it. *)
Theorem C35_compare_refuted : exists a b, is_number a (mkI true 1) (Vec 1) [0] /\ is_number b int32 (Vec 1) [256] /\ equal a b = Ok true /\ equal b a = Ok false.
Proof. exists (scalar (mkI true 1) 0), (scalar int32 256). cases. Qed.
Print Assumptions C35_compare_refuted.
(** C35 is false: equal vectors of different types have different hashes. *)
Theorem C35_hash_refuted : exists a b x y, is_number a int32 (Vec 2) [1; 2] /\ is_number b int64 (Vec 2) [1; 2] /\ equal a b = Ok true /\ hash a = Ok x /\ hash b = Ok y /\ x <> y.
Proof.
  exists (mkNum int32 (Vec 2) (flat_map (le 4) [1; 2])), (mkNum int64 (Vec 2) (flat_map (le 8) [1; 2])). eexists. eexists.
  cases.
Qed.
Print Assumptions C35_hash_refuted.
(** C35 is false: a vector of two values equals a single value with the same bytes. *)
Theorem C35_bytes_refuted : exists a b x y, is_number a (mkI true 2) (Vec 2) [0; 1] /\ is_number b int32 (Vec 1) [65536] /\ equal a b = Ok true /\ hash a = Ok x /\ hash b = Ok y /\ x <> y.
Proof.
  exists (mkNum (mkI true 2) (Vec 2) (flat_map (le 2) [0; 1])), (scalar int32 65536). eexists. eexists.
  cases.
Qed.
Print Assumptions C35_bytes_refuted.

(** C83, unless both numbers are matrices of different sizes: as many values as both have are
    replaced by their representatives in the type of the destination, the others stay. *)
Theorem C83_vector_partial : forall a ta sa vs b tb sb old, is_number a ta sa vs -> is_number b tb sb old -> is_mat sa && is_mat sb = false \/ count sa = count sb ->
  let m := Nat.min (count sa) (count sb) in
  exists b' ws, cast_value a b = Ok (m, b') /\ Forall2 (represents tb) (firstn m vs) ws /\ is_number b' tb sb (ws ++ skipn m old).
Proof. exact convert_vector. Qed.
Print Assumptions C83_vector_partial.
(** C83 for matrices of elements of the same width: the common rows and columns are replaced. *)
Theorem C83_matrix_partial : forall a ta rs cs vs b tb rd cd old, is_number a ta (Mat rs cs) vs -> is_number b tb (Mat rd cd) old -> (rs * cs <> rd * cd)%nat -> width ta = width tb ->
  exists b' ws, cast_value a b = Ok ((Nat.min rs rd * Nat.min cs cd)%nat, b') /\ is_number b' tb (Mat rd cd) ws /\
    forall r c, (r < rd)%nat -> (c < cd)%nat ->
      ((r < rs)%nat /\ (c < cs)%nat -> exists x y, at_rc cs vs r c = Some x /\ at_rc cd ws r c = Some y /\ represents tb x y) /\
      (~ ((r < rs)%nat /\ (c < cs)%nat) -> at_rc cd ws r c = at_rc cd old r c).
Proof. exact convert_matrix. Qed.
Print Assumptions C83_matrix_partial.
Example C83_case : let a := mkNum int32 (Mat 2 3) (flat_map (le 4) [1; 2; 3; 4; 5; 300]) in let b := mkNum (mkI false 4) (Mat 3 2) (flat_map (le 4) [0; 0; 0; 0; 0; 0]) in
  let v := mkNum (mkI true 1) (Vec 8) (flat_map (le 1) [9; 9; 9; 9; 9; 9; 9; 9]) in let d := mkNum (mkI false 4) (Mat 1 2) (flat_map (le 4) [0; 0]) in
  is_number a int32 (Mat 2 3) [1; 2; 3; 4; 5; 300] /\ cast_value a v = Ok (6%nat, mkNum (mkI true 1) (Vec 8) (flat_map (le 1) [1; 2; 3; 4; 5; 44; 9; 9])) /\
  cast_value a d = Ok (2%nat, mkNum (mkI false 4) (Mat 1 2) (flat_map (le 4) [1; 2])).
Proof. cases. Qed.
(** C83 is false for matrices of different element widths: memory after the destination is
    written, since its rows are located with the width of the elements of the source. *)
Theorem C83_width_refuted : exists a b, is_number a int64 (Mat 2 3) [1; 2; 3; 4; 5; 6] /\ is_number b (mkI true 1) (Mat 2 2) [0; 0; 0; 0] /\ cast_value a b = UB.
Proof.
  exists (mkNum int64 (Mat 2 3) (flat_map (le 8) [1; 2; 3; 4; 5; 6])), (mkNum (mkI true 1) (Mat 2 2) (flat_map (le 1) [0; 0; 0; 0])).
  cases.
Qed.
Print Assumptions C83_width_refuted.

(** C84: the values of a number are enumerated in order, with their indices. *)
Theorem C84_values : forall a ta sa vs td, is_number a ta sa vs -> integer_type td ->
  exists ws, enumerate a td = Ok (combine (seq 0 (length vs)) ws) /\ Forall2 (represents td) vs ws.
Proof. exact enumerate_ok. Qed.
Print Assumptions C84_values.
(** C84 for square matrices and single rows.  Missing: matrices of other shapes, for which it is false. *)
Theorem C84_matrix_partial : forall a ta sa vs td, is_number a ta sa vs -> integer_type td -> (rows sa = cols sa \/ rows sa <= 1)%nat ->
  exists l, enumerate_matrix a td = Ok l /\ map fst l = list_prod (seq 0 (rows sa)) (seq 0 (cols sa)) /\
    forall r c y, In (r, c, y) l -> exists x, at_rc (cols sa) vs r c = Some x /\ represents td x y.
Proof. exact enumerate_matrix_ok. Qed.
Print Assumptions C84_matrix_partial.
Example C84_case : let a := mkNum int32 (Mat 2 2) (flat_map (le 4) [1; 2; 3; 300]) in is_number a int32 (Mat 2 2) [1; 2; 3; 300] /\
  enumerate a (mkI false 1) = Ok [(0%nat, 1); (1%nat, 2); (2%nat, 3); (3%nat, 44)] /\
  enumerate_matrix a int64 = Ok [(0%nat, 0%nat, 1); (0%nat, 1%nat, 2); (1%nat, 0%nat, 3); (1%nat, 1%nat, 300)].
Proof. cases. Qed.
(** C84 is false: in a matrix of 2 rows and 3 columns the element in row 1 and column 0 is
    taken for the one in row 0 and column 2; with 3 rows and 2 columns memory after the
    matrix is read. *)
Theorem C84_matrix_refuted : (exists a l, is_number a int32 (Mat 2 3) [1; 2; 3; 4; 5; 6] /\ enumerate_matrix a int32 = Ok l /\ at_rc 3 [1; 2; 3; 4; 5; 6] 1 0 = Some 4 /\ In (1%nat, 0%nat, 3) l) /\
  exists a, is_number a int32 (Mat 3 2) [1; 2; 3; 4; 5; 6] /\ enumerate_matrix a int32 = UB.
Proof.
  split.
  - exists (mkNum int32 (Mat 2 3) (flat_map (le 4) [1; 2; 3; 4; 5; 6])). eexists. cases.
  - exists (mkNum int32 (Mat 3 2) (flat_map (le 4) [1; 2; 3; 4; 5; 6])). cases.
Qed.
Print Assumptions C84_matrix_refuted.

(** C85: reading a number as an integer gives the representative of its first value. *)
Theorem C85_integer : forall t junk a ta sa vs, integer_type t -> length junk = width t -> Forall (fun b => 0 <= b < 256) junk -> is_number a ta sa vs ->
  exists z, get_int t junk a = Ok z /\ match vs with [] => z = 0 | v :: _ => represents t v z end.
Proof. exact get_int_ok. Qed.
Print Assumptions C85_integer.
(** C85, the truth of numbers that 32 bits hold.  Missing: other numbers. *)
Theorem C85_truth_partial : forall junk a ta sa v vs, length junk = 4%nat -> Forall (fun b => 0 <= b < 256) junk -> is_number a ta sa (v :: vs) -> - 2 ^ 32 < v < 2 ^ 32 ->
  exists b, get_bool junk a = Ok b /\ (b = true <-> v <> 0).
Proof. exact get_bool_ok. Qed.
Print Assumptions C85_truth_partial.
Example C85_case : get_int int32 [1; 2; 3; 4] (scalar int64 (-5)) = Ok (-5) /\ get_int int32 [1; 2; 3; 4] (scalar int64 (2 ^ 32 + 5)) = Ok 5 /\ get_bool [1; 2; 3; 4] (scalar int64 77) = Ok true /\ get_bool [1; 2; 3; 4] (scalar int64 0) = Ok false /\ get_int int32 [1; 2; 3; 4] (mkNum int64 (Vec 0) []) = Ok 0.
Proof. cases. Qed.
(** C85 is false for the truth of 2^32: it is not zero, and yet false. *)
Theorem C85_truth_refuted : exists a, is_number a int64 (Vec 1) [2 ^ 32] /\ get_bool [0; 0; 0; 0] a = Ok false.
Proof. exists (scalar int64 (2 ^ 32)). cases. Qed.
Print Assumptions C85_truth_refuted.
