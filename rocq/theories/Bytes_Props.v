(** Theorems about byte arrays and data streams. *)
Require Import Coq.ZArith.ZArith Coq.NArith.NArith Coq.Lists.List Coq.Bool.Bool Coq.micromega.Lia.
Require Import Verif.Base Verif.Array_Model Verif.Array_Spec Verif.Bytes_Model Verif.Bytes_Spec Verif.Bytes_Proofs Verif.Bytes_More.
Import ListNotations.

(** C20: every history of a byte array does to its bytes what the same edits do
    to a plain sequence, and four NULs follow the last byte. *)
Theorem C20_byte_array_is_sequence : forall os, bops_ok 0 os ->
  exists a l, barray_run barray_init os = Ok a /\ bsteps [] os l /\ bytes_shown a l.
Proof. exact byte_array_run. Qed.
Print Assumptions C20_byte_array_is_sequence.

Example C20_example : bops_ok 0
  [BAppend [1;2;3]%N; BReplace 1 1 [9;9]%N; BReserve 100; BZeros 4 0 3; BAlign 4; BSetLength 2; BSetLength 70].
Proof. cbn. lia. Qed.

(** C21 (partial): appending a byte array to itself doubles it when more than
    twice its length was reserved.  Missing: the general case, which is false. *)
Theorem C21_self_append_partial : forall os n, bops_ok 0 os ->
  exists a l, barray_run barray_init os = Ok a /\ bsteps [] os l /\
    (2 * length l < n -> exists a1 a2, barray_reserve a n = Ok a1 /\ barray_append a1 (FromSelf 0) (blen a1) = Ok a2 /\
       bytes_shown a2 (l ++ l)).
Proof. exact self_append_partial. Qed.
Print Assumptions C21_self_append_partial.

(** C21 is false: appending a 40-byte array to itself reads freed memory. *)
Theorem C21_self_append_refuted : exists os a, bops_ok 0 os /\ barray_run barray_init os = Ok a /\
  barray_append a (FromSelf 0) (blen a) = UB.
Proof. exists [BAppend (repeat 7%N 40)]. eexists. split; [cbn; auto|]. split; vm_compute; reflexivity. Qed.
Print Assumptions C21_self_append_refuted.

(** C22: a data object behaves as a file. *)
Theorem C22_data_is_file : forall os, dops_ok ([], 0%Z) os ->
  exists d, data_run data_init os = Ok (d, snd (file_run ([], 0%Z) os)) /\ data_shown d (fst (file_run ([], 0%Z) os)).
Proof. exact data_is_file. Qed.
Print Assumptions C22_data_is_file.

Theorem C22_write_read_back : forall os b size count p, dops_ok ([], 0%Z) os ->
  let l := fst (fst (file_run ([], 0%Z) os)) in
  p <= length l -> (0 < size)%N -> (size * count = N.of_nat (length b))%N -> (size * count < 2^63)%N ->
  exists d rs,
    data_run data_init (os ++ [DSeek (Z.of_nat p) SeekSet; DWrite b size count; DTell;
                               DSeek (Z.of_nat p) SeekSet; DRead size count; DTell]) =
      Ok (d, rs ++ [DDone; DNum (Z.of_N count); DNum (Z.of_nat (p + length b));
                    DDone; DReadResult (map Some b) count; DNum (Z.of_nat (p + length b))]) /\
    data_shown d (firstn p l ++ b ++ skipn (p + length b) l, Z.of_nat (p + length b)).
Proof. exact write_read_back. Qed.
Print Assumptions C22_write_read_back.

Theorem C22_tell_in_range : forall os, dops_ok ([], 0%Z) os -> forallb stream_op os = true ->
  exists d rs c, data_run data_init (os ++ [DTell]) = Ok (d, rs ++ [DNum c]) /\
    (0 <= c <= Z.of_nat (blen (dbytes d)))%Z.
Proof. exact tell_in_range. Qed.
Print Assumptions C22_tell_in_range.

Theorem C22_read_in_range : forall os size count, dops_ok ([], 0%Z) os -> (0 < size)%N -> (size * count < 2^63)%N ->
  exists d rs c out n, data_run data_init (os ++ [DTell; DRead size count]) = Ok (d, rs ++ [DNum c; DReadResult (map Some out) n]) /\
    let l := fst (fst (file_run ([], 0%Z) os)) in
    (forall i, i < length out -> nth_error out i = nth_error l (Z.to_nat c + i)) /\
    (n <= count)%N /\ (n * size <= N.of_nat (length l - Z.to_nat c))%N /\ (n * size <= N.of_nat (length out))%N /\
    ((size * count <= N.of_nat (length l - Z.to_nat c))%N -> n = count).
Proof. exact read_in_range. Qed.
Print Assumptions C22_read_in_range.

Example C22_example : let os := [DAppend [1;2;3;4;5]%N; DSeek 1 SeekSet; DWrite [8;9]%N 1 2; DSeek (-2) SeekCur; DRead 2 2; DIncrease 3; DSeek 0 SeekEnd] in
  dops_ok ([], 0%Z) os /\ forallb stream_op os = true /\
  file_run ([], 0%Z) os = (([1;8;9;4;5;0;0;0]%N, 8%Z),
    [DDone; DDone; DNum 2; DDone; DReadResult [Some 8%N; Some 9%N; Some 4%N; Some 5%N] 2; DDone; DDone]).
Proof. cbn; repeat split; try lia; try (vm_compute; congruence). Qed.

(** C66 is false: after a data object is shortened the position is past its end. *)
Theorem C66_tell_after_truncation_refuted : exists os d rs c, dops_ok ([], 0%Z) os /\
  data_run data_init (os ++ [DTell]) = Ok (d, rs ++ [DNum c]) /\ (Z.of_nat (blen (dbytes d)) < c)%Z.
Proof.
  exists [DAppend [1;2;3]%N; DSeek 3 SeekSet; DSetLength 1].
  eexists. exists [DDone; DDone; DDone], 3%Z. split; [cbn; lia|]. split; [vm_compute; reflexivity|]. vm_compute. reflexivity.
Qed.
Print Assumptions C66_tell_after_truncation_refuted.
(** After any history the next seek, read or write brings it back, and there it stays until
    bytes are removed again. *)
Theorem C66_tell_partial : forall os o os', dops_ok ([], 0%Z) (os ++ o :: os') -> forallb stream_op os' = true ->
  match o with DSeek _ _ | DRead _ _ | DWrite _ _ _ => True | _ => False end ->
  exists d rs c, data_run data_init ((os ++ o :: os') ++ [DTell]) = Ok (d, rs ++ [DNum c]) /\ (0 <= c <= Z.of_nat (blen (dbytes d)))%Z.
Proof. exact tell_again_in_range. Qed.
Print Assumptions C66_tell_partial.
Example C66_case : exists d, data_run data_init [DAppend [1;2;3]%N; DSeek 3 SeekSet; DSetLength 1; DRead 1 1; DTell] = Ok (d, [DDone; DDone; DDone; DReadResult [] 0; DNum 1]).
Proof. eexists. vm_compute. reflexivity. Qed.

(** C67 is false: a seek relative to the end ignores its offset. *)
Theorem C67_seek_end_offset_refuted : exists b off d rs c, (- Z.of_nat (length b) <= off <= 0)%Z /\
  data_run data_init [DAppend b; DSeek off SeekEnd; DTell] = Ok (d, rs ++ [DNum c]) /\ c <> (Z.of_nat (length b) + off)%Z.
Proof.
  exists [1;2;3]%N, (-1)%Z. eexists. exists [DDone; DDone], 3%Z. split; [cbn; lia|]. split; [vm_compute; reflexivity|]. cbn. lia.
Qed.
Print Assumptions C67_seek_end_offset_refuted.
Theorem C67_seek_end_partial : forall os, dops_ok ([], 0%Z) os ->
  exists d rs c, data_run data_init (os ++ [DSeek 0 SeekEnd; DTell]) = Ok (d, rs ++ [DNum c]) /\ c = Z.of_nat (blen (dbytes d)).
Proof. exact seek_end_zero. Qed.
Print Assumptions C67_seek_end_partial.

(** C63 (partial): comparison of data is the dictionary order and a three-way
    comparison, and so is that of structs when that of semantics is one.
    Missing: the sign convention, which is false. *)
Theorem C63_data_order_partial : three_way data_compare /\ (forall l1 l2, data_compare l1 l2 = (-1)%Z <-> bytes_before l1 l2).
Proof. exact (conj data_compare_three_way (fun l1 l2 => proj1 (data_compare_spec l1 l2))). Qed.
Print Assumptions C63_data_order_partial.

Theorem C63_struct_order_partial : forall S (scmp : S -> S -> Z), three_way scmp -> three_way (struct_compare scmp).
Proof. exact struct_compare_three_way. Qed.
Print Assumptions C63_struct_order_partial.

Example C63_example : three_way (fun x y => y - x)%Z /\ struct_compare (fun x y => y - x)%Z (1%Z, [1]%N) (2%Z, []) = 1%Z.
Proof. repeat split; intros; lia. Qed.

(** The sign is negative when the first data sorts first. *)
Theorem C63_convention_refuted : exists l1 l2, bytes_before l1 l2 /\ (data_compare l1 l2 < 0)%Z /\
  (struct_compare (fun x y => y - x) (0, l1) (0, l2) < 0)%Z.
Proof. exists [1]%N, [2]%N. split; [apply bb_here; lia|]. vm_compute. auto. Qed.
Print Assumptions C63_convention_refuted.
