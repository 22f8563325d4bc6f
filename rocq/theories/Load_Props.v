(** Theorems about loading files, and about strings as streams. *)
Require Import Coq.ZArith.ZArith Coq.NArith.NArith Coq.Lists.List Coq.Arith.Arith Coq.Bool.Bool.
Require Import Verif.Base Verif.Bytes_Model Verif.Bytes_Spec Verif.File_Model Verif.File_Spec Verif.Load_Model Verif.Load_Proofs.
Require Import Verif.StrStream_Model Verif.StrStream_Spec Verif.StrStream_Proofs.
Import ListNotations.

(** C147: loading a file by name gives its bytes, and leaves no file or stream open. *)
Theorem C147_load : forall drain w c d, reach drain w c ->
  exists w' a, load drain w (Named (Some d)) = Ok (w', a) /\ bytes_shown a (map Some d) /\ reach drain w' c /\
    (forall i, exists_ w' i <-> exists_ w i) /\ (forall s x, is_stream w s x -> is_stream w' s x) /\ (forall s x, is_stream w' s x -> open x = true -> is_stream w s x).
Proof. exact named. Qed.
Print Assumptions C147_load.
Theorem C147_nothing : forall drain w, load drain w (Named None) = Ok (w, barray_init) /\ load drain w From_null = Ok (w, barray_init) /\ load drain w Not_file = Ok (w, barray_init) /\ bytes_shown barray_init [].
Proof. exact missing. Qed.
Print Assumptions C147_nothing.
Example C147_case : reach (fun _ => 0) (mkW [] []) [] /\ exists w' a, load (fun _ => 0) (mkW [] []) (Named (Some [104; 105]%N)) = Ok (w', a) /\ firstn 2 (bcells a) = [Some 104; Some 105]%N.
Proof. split; [apply at_start|]. eexists. eexists. split; [vm_compute; reflexivity|reflexivity]. Qed.

(** C148: loading through an open file that is at its start gives its bytes.  Missing: other
    positions, for which it is false. *)
Theorem C148_handle_partial : forall drain w c i s x, reach drain w c -> In i c -> has w i s -> is_stream w s x -> File_Model.last x <> Wrote -> pos x = 0 ->
  exists w' a, load drain w (Handle i) = Ok (w', a) /\ bytes_shown a (map Some (disk x)) /\ reach drain w' c.
Proof. exact handle_start. Qed.
Print Assumptions C148_handle_partial.
Theorem C148_anywhere_partial : forall drain w c i s x, reach drain w c -> In i c -> has w i s -> is_stream w s x -> File_Model.last x <> Wrote ->
  exists w' a junk x', load drain w (Handle i) = Ok (w', a) /\ reach drain w' c /\ objs w' = objs w /\
    let b := skipn (pos x) (disk x) in
    bytes_shown a (map Some b ++ junk) /\ length junk = length (disk x) - length b /\
    is_stream w' s x' /\ open x' = true /\ disk x' = disk x /\ pos x' = pos x + length b /\ (forall t y, t <> s -> (is_stream w' t y <-> is_stream w t y)).
Proof. exact handle. Qed.
Print Assumptions C148_anywhere_partial.
Theorem C148_part_read_refuted : exists w1 w2 i a, let drain := fun _ => 0 in
  reach drain w1 [i] /\ (exists w0, step drain (mkW [] []) (Open [1; 2; 3; 4; 5; 6]%N) = Ok (w0, New i) /\ step drain w0 (Read i 1 1) = Ok (w1, Bytes 1 [1%N])) /\
  load drain w1 (Handle i) = Ok (w2, a) /\ blen a = 6 /\ firstn 6 (bcells a) = [Some 2; Some 3; Some 4; Some 5; Some 6; None]%N.
Proof. exact part_read. Qed.
Print Assumptions C148_part_read_refuted.
(** A file whose length the system tells wrongly is not loaded as it reads: a directory gives
    indeterminate bytes, a file made as it is read gives none. *)
Theorem C148_length_told_wrong_refuted : (exists a, contents 6 [] = Ok a /\ blen a = 6 /\ firstn 6 (bcells a) = [Some 0; Some 0; Some 0; Some 0; None; None]%N) /\ (forall b, contents 0 b = Ok barray_init).
Proof. exact (conj short_file long_file). Qed.
Print Assumptions C148_length_told_wrong_refuted.
Example C148_case : let w := fst (open_file (mkW [] []) [7; 8]%N) in reach (fun _ => 0) w [0] /\ has w 0 0 /\ is_stream w 0 (new_stream [7; 8]%N false) /\ pos (new_stream [7; 8]%N false) = 0.
Proof.
  cbv zeta. split; [change [0] with (after [] (Open [7; 8]%N) (New 0)); exact (by_step (fun _ => 0) (mkW [] []) [] (Open [7; 8]%N) _ (New 0) (at_start _) I eq_refl)|].
  split; [exists (mkF 1 (Some 0) true); repeat split; cbn; auto|]. split; reflexivity.
Qed.

(** C149: a string used as a stream is its bytes and a position: the answers and the bytes are those
    of [page_run], and the hash code is that of the bytes.  Hash codes after the byte length was
    set are the matter of C27. *)
Theorem C149_stream : forall m b os, tops_ok (mkP b 0 m) os -> hashes_ok true m os = true ->
  exists s s', text_new m b = Ok s /\ text_run s os = Ok (s', snd (page_run (mkP b 0 m) os)) /\ text_shown s' (fst (page_run (mkP b 0 m) os)).
Proof. exact stream. Qed.
Print Assumptions C149_stream.
Theorem C149_immutable : forall b os, tops_ok (mkP b 0 false) os ->
  exists s s' rs, text_new false b = Ok s /\ text_run s os = Ok (s', rs) /\ bytes_shown (dbytes (body s')) (map Some b).
Proof. exact unchanged. Qed.
Print Assumptions C149_immutable.
Example C149_case : let os := [TRead 1 2; TWrite [88; 89]%N 1 2; THash; TSeek (-1) SeekCur; TRead 1 5; TTell; TEdit 0 1 []; THash] in
  tops_ok (mkP [97; 98; 99; 100; 101]%N 0 true) os /\ hashes_ok true true os = true /\
  page_run (mkP [97; 98; 99; 100; 101]%N 0 true) os =
    (mkP [98; 88; 89; 101]%N 5 true, [TGot [Some 97; Some 98]%N 2; TNum 2; TCode 92588483; TDone; TGot [Some 89; Some 101]%N 2; TNum 5; TDone; TCode 3006946]).
Proof. split; [cbn; repeat split; try (apply Nat.leb_le; reflexivity); vm_compute; congruence|]. split; vm_compute; reflexivity. Qed.

(** C150: the position stays inside the string as long as nothing is removed.  Missing: removals and
    offsets from the end, for which it is false. *)
Theorem C150_position_partial : forall m b os, tops_ok (mkP b 0 m) os -> hashes_ok true m os = true -> forallb (fun o => negb (shortens o)) os = true ->
  exists s s' rs c, text_new m b = Ok s /\ text_run s (os ++ [TTell]) = Ok (s', rs ++ [TNum c]) /\ (0 <= c <= Z.of_nat (blen (dbytes (body s'))))%Z.
Proof. exact position. Qed.
Print Assumptions C150_position_partial.
Theorem C150_removal_refuted : exists s s' rs, text_new true [1; 2; 3]%N = Ok s /\ text_run s [TSeek 3 SeekSet; TEdit 1 2 []; TTell] = Ok (s', rs ++ [TNum 3]) /\ blen (dbytes (body s')) = 1.
Proof. eexists. eexists. exists [TDone; TDone]. split; [vm_compute; reflexivity|]. split; [vm_compute; reflexivity|]. reflexivity. Qed.
Print Assumptions C150_removal_refuted.
Theorem C150_from_end_refuted : exists s s' rs, text_new true [1; 2; 3]%N = Ok s /\ text_run s [TSeek (-1) SeekEnd; TTell] = Ok (s', rs ++ [TNum 3]).
Proof. eexists. eexists. exists [TDone]. split; vm_compute; reflexivity. Qed.
Print Assumptions C150_from_end_refuted.
(** A read of items of no bytes divides by zero. *)
Theorem C150_size_zero_refuted : exists s, text_new true [1; 2; 3]%N = Ok s /\ text_run s [TRead 0 1] = UB.
Proof. eexists. split; vm_compute; reflexivity. Qed.
Print Assumptions C150_size_zero_refuted.
Example C150_case : tops_ok (mkP [1; 2; 3]%N 0 true) [TSeek 2 SeekSet; TRead 1 7; TWrite [9]%N 1 1] /\ hashes_ok true true [TSeek 2 SeekSet; TRead 1 7; TWrite [9]%N 1 1] = true.
Proof. cbn; repeat split; try (apply Nat.leb_le; reflexivity); vm_compute; congruence. Qed.
