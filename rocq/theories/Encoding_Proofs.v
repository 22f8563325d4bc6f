(** Proofs about encodings. *)
Require Import Coq.NArith.NArith Coq.Lists.List Coq.Bool.Bool Coq.micromega.Lia.
Require Import Verif.Encoding_Model Verif.Encoding_Spec.
Import ListNotations.
Local Open Scope N_scope.

Lemma bits_high a n i : a < 2 ^ n -> n <= i -> N.testbit a i = false.
Proof.
  intros H L. destruct (N.eq_dec a 0) as [->|Z]; [apply N.bits_0|]. apply N.bits_above_log2. apply N.log2_lt_pow2 in H; lia.
Qed.
Lemma type_bits_ones : type_bits = N.shiftl (N.ones 7) 24. Proof. reflexivity. Qed.
Lemma count_ones : max_count = N.ones 24. Proof. reflexivity. Qed.
Lemma rows_ones : max_rows = N.ones 12. Proof. reflexivity. Qed.
Lemma cols_ones : max_cols = N.ones 12. Proof. reflexivity. Qed.
Lemma matrix_one : matrix_bit = N.shiftl 1 31. Proof. reflexivity. Qed.
Lemma ones_bit n i : N.testbit (N.ones n) i = (i <? n).
Proof. destruct (N.ltb_spec i n); [apply N.ones_spec_low|apply N.ones_spec_high]; auto. Qed.
Lemma one_bit i : N.testbit 1 i = (i =? 0).
Proof. destruct i as [|p]; [reflexivity|]. destruct p; reflexivity. Qed.
Lemma shiftl_bit a n i : N.testbit (N.shiftl a n) i = (n <=? i) && N.testbit a (i - n).
Proof.
  destruct (N.leb_spec n i); [rewrite N.shiftl_spec_high' by auto; reflexivity|rewrite N.shiftl_spec_low by auto; reflexivity].
Qed.
Ltac bits := repeat (progress (rewrite ?N.lor_spec, ?N.land_spec, ?N.shiftr_spec', ?shiftl_bit, ?ones_bit, ?one_bit)).
Ltac split_bits := repeat match goal with |- context [N.leb ?a ?b] => destruct (N.leb_spec a b) | |- context [N.ltb ?a ?b] => destruct (N.ltb_spec a b) | |- context [N.eqb ?a ?b] => destruct (N.eqb_spec a b) end.
Lemma land_matrix e : N.land e matrix_bit = if N.testbit e 31 then matrix_bit else 0.
Proof.
  apply N.bits_inj. intros i. rewrite matrix_one. destruct (N.testbit e 31) eqn:E; bits; rewrite ?N.bits_0.
  - split_bits; try lia; rewrite ?andb_false_r, ?andb_true_r; auto. replace i with 31 by lia. auto.
  - split_bits; try lia; rewrite ?andb_false_r, ?andb_true_r; auto. replace i with 31 by lia. auto.
Qed.
Lemma is_matrix_bit e : is_matrix e = N.testbit e 31.
Proof. unfold is_matrix. rewrite land_matrix. now destruct (N.testbit e 31). Qed.
Section Vector.
Context (t c : N) (Ht : t < 128) (Hc : c < 2 ^ 24).
Lemma vec_is : is_matrix (encode t c) = false.
Proof.
  rewrite is_matrix_bit. unfold encode. rewrite type_bits_ones, count_ones. bits. change (31 - 24) with 7. rewrite (bits_high t 7 7) by (auto; lia). change (31 <? 24) with false. now rewrite !andb_false_r.
Qed.
Lemma vec_type : get_type (encode t c) = t.
Proof.
  unfold get_type, encode. rewrite type_bits_ones, count_ones. apply N.bits_inj. intros i. bits. rewrite N.add_sub.
  split_bits; try lia; cbn; rewrite ?andb_false_r, ?orb_false_r, ?andb_true_r; auto. symmetry. apply (bits_high t 7); auto.
Qed.
Lemma vec_low : N.land (encode t c) max_count = c.
Proof.
  unfold encode. rewrite type_bits_ones, count_ones. apply N.bits_inj. intros i. bits.
  split_bits; try lia; cbn; rewrite ?andb_false_r, ?orb_false_r, ?andb_true_r; auto; symmetry; apply (bits_high c 24); auto.
Qed.
End Vector.
Section Matrix.
Context (t r c : N) (Ht : t < 128) (Hr : r < 2 ^ 12) (Hc : c < 2 ^ 12).
Lemma mat_is : is_matrix (encode_matrix t r c) = true.
Proof. rewrite is_matrix_bit. unfold encode_matrix. rewrite matrix_one. bits. reflexivity. Qed.
Lemma mat_type : get_type (encode_matrix t r c) = t.
Proof.
  unfold get_type, encode_matrix. rewrite type_bits_ones, matrix_one, rows_ones, cols_ones. apply N.bits_inj. intros i. bits. rewrite N.add_sub.
  split_bits; try lia; cbn; rewrite ?andb_false_r, ?orb_false_r, ?andb_true_r; auto; try (symmetry; apply (bits_high t 7); auto).
Qed.
Lemma mat_rows : N.land (N.shiftr (encode_matrix t r c) 12) max_rows = r.
Proof.
  unfold encode_matrix. rewrite type_bits_ones, matrix_one, rows_ones, cols_ones. apply N.bits_inj. intros i. bits. rewrite N.add_sub.
  split_bits; try lia; cbn; rewrite ?andb_false_r, ?orb_false_r, ?andb_true_r; auto; try (symmetry; apply (bits_high r 12); auto).
Qed.
Lemma mat_cols : N.land (encode_matrix t r c) max_cols = c.
Proof.
  unfold encode_matrix. rewrite type_bits_ones, matrix_one, rows_ones, cols_ones. apply N.bits_inj. intros i. bits.
  split_bits; try lia; cbn; rewrite ?andb_false_r, ?orb_false_r, ?andb_true_r; auto; try (symmetry; apply (bits_high c 12); auto).
Qed.
End Matrix.
Lemma element_size t z : element t z -> type_size t = z /\ t < 128 /\ z <= 16.
Proof. intros H. destruct H; repeat split; vm_compute; auto; discriminate. Qed.
Lemma vector_unpacks t z c : element t z -> c < 2 ^ 24 ->
  is_matrix (encode t c) = false /\ get_type (encode t c) = t /\ get_count (encode t c) = c /\ get_rows (encode t c) = 1 /\ get_cols (encode t c) = c /\ get_size (encode t c) = z * c /\ encode t c < 2 ^ 32.
Proof.
  intros E C. destruct (element_size t z E) as (S & T & Z). pose proof (vec_is t c T C) as M.
  assert (G: get_count (encode t c) = c) by (unfold get_count; rewrite M; now apply vec_low).
  repeat split; auto.
  - now apply vec_type.
  - unfold get_rows. now rewrite M.
  - unfold get_cols. rewrite M. now apply vec_low.
  - unfold get_size, get_type_size. rewrite G, vec_type, S by auto. apply N.mod_small. nia.
  - unfold encode. rewrite type_bits_ones, count_ones, !N.land_ones. rewrite N.land_comm.
    apply N.lt_pred_le || idtac. destruct (N.eq_dec (N.lor (N.land (N.shiftl (N.ones 7) 24) (N.shiftl t 24)) (c mod 2 ^ 24)) 0) as [->|Nz]; [reflexivity|].
    apply N.log2_lt_pow2; [lia|]. destruct (N.lt_ge_cases (N.log2 (N.lor (N.land (N.shiftl (N.ones 7) 24) (N.shiftl t 24)) (c mod 2 ^ 24))) 32) as [L|L]; auto.
    pose proof (N.bit_log2 _ Nz) as B. revert B. generalize dependent (N.log2 (N.lor (N.land (N.shiftl (N.ones 7) 24) (N.shiftl t 24)) (c mod 2 ^ 24))). intros i L. bits.
    rewrite (bits_high (c mod 2 ^ 24) 24 i) by (try apply N.mod_lt; lia). split_bits; try lia; cbn; discriminate.
Qed.
Lemma matrix_unpacks t z r c : element t z -> r < 2 ^ 12 -> c < 2 ^ 12 -> let e := encode_matrix t r c in
  is_matrix e = true /\ get_type e = t /\ get_rows e = r /\ get_cols e = c /\ get_count e = r * c /\ get_size e = z * (r * c).
Proof.
  intros E R C e. destruct (element_size t z E) as (S & T & Z). pose proof (mat_is t r c) as M.
  assert (G: get_count e = r * c) by (unfold get_count, e; rewrite M, mat_rows, mat_cols by auto; apply N.mod_small; nia).
  repeat split; auto.
  - now apply mat_type.
  - unfold get_rows, e. rewrite M. now apply mat_rows.
  - unfold get_cols, e. rewrite M. now apply mat_cols.
  - unfold get_size, get_type_size. rewrite G. unfold e. rewrite mat_type, S by auto. apply N.mod_small. nia.
Qed.
(** Equivalence is equality of types and counts; different values have different encodings. *)
Lemma vector_injective t z c t' z' c' : element t z -> element t' z' -> c < 2 ^ 24 -> c' < 2 ^ 24 -> encode t c = encode t' c' -> t = t' /\ c = c'.
Proof.
  intros E E' C C' H. destruct (vector_unpacks t z c E C) as (_ & A & B & _). destruct (vector_unpacks t' z' c' E' C') as (_ & A' & B' & _). rewrite H in A, B. split; congruence.
Qed.
Lemma integer_types n : In n [1; 2; 4; 8] -> element (get_type (encode_integer n 1)) n.
Proof. cbn. intros [<-|[<-|[<-|[<-|[]]]]]; vm_compute; constructor. Qed.
