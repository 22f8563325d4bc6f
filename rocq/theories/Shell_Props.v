(** Theorems about shell segments. *)
Require Import Coq.ZArith.ZArith Coq.NArith.NArith Coq.Lists.List Coq.micromega.Lia.
Require Import Verif.Base Verif.Utf8_Spec Verif.Strtonum_Model Verif.Strtonum_Spec Verif.Stream_Model Verif.Shell_Model Verif.Shell_Spec Verif.Shell_Proofs.
Import ListNotations.
Local Open Scope N_scope.

(** C100 (partial): a segment with an annotation and with data is read back: the object, its
    content type and the annotation, and what follows the segment is left in the stream.
    Missing: segments without annotation or without data, and content types of more than one
    line. *)
Theorem C100_round_trip_partial : forall cprintf, prints_decimal cprintf -> forall reg auto g, segment_ok reg auto g ->
  exists w, shell_write cprintf reg auto (sobj g) (stype g) (snote g) = Ok (w, true) /\
    forall rest, shell_read reg auto (w ++ rest) = Ok (expected g, rest).
Proof. exact round_trip. Qed.
Print Assumptions C100_round_trip_partial.

(** A string of type text/x, and an object with a codec that puts a 7 before its bytes. *)
Definition a_codec : codec :=
  mkCodec (fun o => match o with Other n => Binary [7; n] | _ => o end) (fun o => match o with Binary [7; n] => Some (Other n) | _ => None end).
Definition a_registry : registry := fun ct => match ct with [98] => Some a_codec | _ => None end.
Definition a_segment : segment := mkSeg (Text [104; 10; 105]) [116; 101; 120; 116; 47; 120] [195; 169; 32] [104; 10; 105] (Text [104; 10; 105]).
Definition b_segment : segment := mkSeg (Other 5) [98] [110] [7; 5] (Other 5).
Example C100_example : prints_decimal decimal_printf /\ segment_ok a_registry true a_segment /\ segment_ok a_registry true b_segment.
Proof.
  split; [exact decimal_printf_ok|]. split.
  - split; [|split; [|split; [|split; [discriminate|reflexivity]]]].
    + split; [split; [repeat constructor|cbn; intuition lia]|]. split; [cbn; intuition lia|]. cbn. unfold white. lia.
    + split; [split; [repeat constructor|cbn; intuition lia]|]. split; [cbn; intuition lia|]. split; [cbn; intuition lia|discriminate].
    + apply dl_raw; [right; reflexivity|reflexivity|]. left. split; [exists [47; 120]; reflexivity|reflexivity].
  - split; [|split; [|split; [|split; [discriminate|reflexivity]]]].
    + split; [split; [repeat constructor|cbn; intuition lia]|]. split; [cbn; intuition lia|]. cbn. unfold white. lia.
    + split; [split; [repeat constructor|cbn; intuition lia]|]. split; [cbn; intuition lia|]. split; [cbn; intuition lia|discriminate].
    + apply (dl_codec _ _ _ a_codec _ _ (Binary [7; 5])); try reflexivity. right. split; [intros [r H]; discriminate|reflexivity].
Qed.

(** C100 is false: without an annotation the first line of the data is taken for it. *)
Theorem C100_annotation_refuted : exists o ct w r rest, type_ok ct /\ shell_write decimal_printf (fun _ => None) true o ct [] = Ok (w, true) /\
  shell_read (fun _ => None) true w = Ok (r, rest) /\ ok r = false.
Proof.
  exists (Text [104; 105]), [116; 101; 120; 116]. eexists. eexists. eexists.
  split; [split; [split; [repeat constructor|cbn; intuition lia]|split; [cbn; intuition lia|cbn; unfold white; lia]]|].
  split; [vm_compute; reflexivity|]. split; [vm_compute; reflexivity|reflexivity].
Qed.
Print Assumptions C100_annotation_refuted.

(** Also, the reader then takes data that holds an empty line for other data. *)
Theorem C100_other_data_refuted : exists o ct w r rest, type_ok ct /\ shell_write decimal_printf (fun _ => None) true (Text o) ct [] = Ok (w, true) /\
  shell_read (fun _ => None) true (w ++ w) = Ok (r, rest) /\ ok r = true /\ exists o', object r = Some (Text o') /\ o' <> o.
Proof.
  exists [104; 10; 10; 105], [116; 101; 120; 116]. eexists. eexists. eexists.
  split; [split; [split; [repeat constructor|cbn; intuition lia]|split; [cbn; intuition lia|cbn; unfold white; lia]]|].
  split; [vm_compute; reflexivity|]. split; [vm_compute; reflexivity|]. split; [reflexivity|]. eexists. split; [reflexivity|]. discriminate.
Qed.
Print Assumptions C100_other_data_refuted.

(** An empty object is read as no object. *)
Theorem C100_empty_refuted : exists ct ann w r, type_ok ct /\ note_ok ann /\ shell_write decimal_printf (fun _ => None) true (Text []) ct ann = Ok (w, true) /\
  shell_read (fun _ => None) true w = Ok (r, []) /\ ok r = true /\ object r = None.
Proof.
  exists [116; 101; 120; 116], [110]. eexists. eexists.
  split; [split; [split; [repeat constructor|cbn; intuition lia]|split; [cbn; intuition lia|cbn; unfold white; lia]]|].
  split; [split; [split; [repeat constructor|cbn; intuition lia]|]; split; [cbn; intuition lia|]; split; [cbn; intuition lia|discriminate]|].
  split; [vm_compute; reflexivity|]. split; [vm_compute; reflexivity|]. split; reflexivity.
Qed.
Print Assumptions C100_empty_refuted.

(** A content type of two lines is accepted by the writer, and read as other headers. *)
Theorem C100_type_refuted : exists ct ann o w r rest, note_ok ann /\ shell_write decimal_printf (fun _ => None) true (Text o) ct ann = Ok (w, true) /\
  shell_read (fun _ => None) true w = Ok (r, rest) /\ ok r = true /\ ctype r <> Some ct.
Proof.
  exists [116; 101; 120; 116; 10; 120], [110], [104; 105]. eexists. eexists. eexists.
  split; [split; [split; [repeat constructor|cbn; intuition lia]|]; split; [cbn; intuition lia|]; split; [cbn; intuition lia|discriminate]|].
  split; [vm_compute; reflexivity|]. split; [vm_compute; reflexivity|]. split; [reflexivity|]. cbn. discriminate.
Qed.
Print Assumptions C100_type_refuted.

(** C101 (partial): segments written one after another are read back in order, and nothing
    after them.  Missing: as for C100. *)
Theorem C101_sequence_partial : forall cprintf, prints_decimal cprintf -> forall reg auto gs, Forall (segment_ok reg auto) gs ->
  exists w, writes_all cprintf reg auto gs w /\ reads_all reg auto w (map expected gs).
Proof. exact sequences. Qed.
Print Assumptions C101_sequence_partial.

Example C101_example : Forall (segment_ok a_registry true) [a_segment; b_segment; a_segment].
Proof. destruct C100_example as (_ & H1 & H2). repeat (apply Forall_cons; [assumption|]); apply Forall_nil. Qed.

(** C102 (partial): reading a stream of ASCII text with plain content lengths always
    returns.  Missing: other streams. *)
Theorem C102_any_stream_partial : forall reg auto s, ascii s -> lengths_plain s -> exists r rest, shell_read reg auto s = Ok (r, rest).
Proof. exact read_total. Qed.
Print Assumptions C102_any_stream_partial.

Example C102_example : ascii (version ++ [10] ++ length_name ++ [32; 53; 10; 120]) /\ lengths_plain (version ++ [10] ++ length_name ++ [32; 53; 10; 120]).
Proof.
  split; [repeat constructor|]. intros a b E. apply (f_equal (skipn (length a))) in E. rewrite (Stream_Proofs.skipn_app_len _ a) in E.
  generalize dependent (length a). intros n E. symmetry in E.
  do 40 (destruct n as [|n]; [cbn in E; first [discriminate|injection E as ->; exists [32], [53], [10; 120]; split; [reflexivity|];
    split; [constructor; [left; reflexivity|constructor]|]; split; [repeat constructor; unfold digit; lia|]; split; [cbn; lia|right; eexists; reflexivity]]|]).
  cbn in E. destruct n; discriminate.
Qed.

(** C102 is false: a negative or too large content length writes outside the buffer, and a
    header value that begins with a byte above 127 is passed to isspace. *)
Theorem C102_length_refuted : exists s, ascii s /\ shell_read (fun _ => None) true s = UB.
Proof. exists (version ++ [10] ++ length_name ++ [45; 49; 10; 10; 10; 120]). split; [repeat constructor|vm_compute; reflexivity]. Qed.
Print Assumptions C102_length_refuted.

Theorem C102_bytes_refuted : exists s, bytes_ok s /\ lengths_plain s /\ shell_read (fun _ => None) true s = UB.
Proof.
  exists (version ++ [10] ++ type_name ++ [195; 169; 10; 10]). split; [repeat constructor|]. split; [|vm_compute; reflexivity].
  intros a b E. exfalso. apply (f_equal (skipn (length a))) in E. rewrite (Stream_Proofs.skipn_app_len _ a) in E.
  generalize dependent (length a). intros n E. symmetry in E. do 40 (destruct n as [|n]; [discriminate|]). cbn in E. destruct n; discriminate.
Qed.
Print Assumptions C102_bytes_refuted.
