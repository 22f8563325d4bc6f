(** Properties C23, C24, C25, C26, C28 and C68: UTF-8 and the string functions
    of DKUnicode.c.  [encode cs ++ 0 :: r] is the storage of the C string with
    the characters [cs]; [s ++ 0 :: r] that of an arbitrary C string.  What
    follows the terminator ([r]) is arbitrary and may be empty: reading past
    the end of the storage is [UB]. *)
Require Import Coq.ZArith.ZArith Coq.NArith.NArith Coq.Lists.List.
Require Import Verif.Base Verif.Utf8_Model Verif.Utf8_Spec.
Require Verif.Utf8_Strings.
Import ListNotations.
Local Open Scope N_scope.

(** C23: writing then scanning. *)
Theorem C23_write_then_scan : forall c size rest, char_ok c -> 4 < size <= 2^32 ->
  ustrwrite (Z.of_N c) size = Ok (utf8 c ++ [0], length (utf8 c)) /\
  ustrscan (utf8 c ++ rest) = Ok (Z.of_N c, length (utf8 c)).
Proof. exact Utf8_Strings.write_then_scan. Qed.
Print Assumptions C23_write_then_scan.

Theorem C23_encodings_distinct : forall a b, scalar a -> scalar b -> utf8 a = utf8 b -> a = b.
Proof. exact Utf8_Strings.utf8_inj. Qed.
Print Assumptions C23_encodings_distinct.

(** C23: any 32-bit value that is no scalar value is rejected, and no write
    overruns a buffer of at least one byte. *)
Theorem C23_writer_rejects : forall z size, (- 2^31 <= z < 2^31)%Z -> (forall c, scalar c -> z <> Z.of_N c) ->
  ustrwrite z size = Ok ([], 0%nat).
Proof. exact Utf8_Strings.write_rejects. Qed.
Print Assumptions C23_writer_rejects.
Theorem C23_writer_in_bounds : forall z size, 1 <= size -> size <= 2^32 ->
  exists bs n, ustrwrite z size = Ok (bs, n) /\ N.of_nat (length bs) <= size.
Proof. exact Utf8_Strings.write_safe. Qed.
Print Assumptions C23_writer_in_bounds.

Example C23_case : char_ok 0x1f600 /\ utf8 0x1f600 = [0xf0; 0x9f; 0x98; 0x80] /\
  ustrwrite 0x1f600 8 = Ok ([0xf0; 0x9f; 0x98; 0x80; 0], 4%nat) /\ ustrwrite 0xd83d 8 = Ok ([], 0%nat).
Proof. repeat split; try discriminate; vm_compute; intuition congruence. Qed.

(** C24: one scan of an arbitrary string. *)
Theorem C24_scan_step : forall s r, cstring s ->
  exists z n, ustrscan (s ++ 0 :: r) = Ok (z, n) /\ (n <= length s)%nat /\
    (s = [] -> z = 0%Z /\ n = 0%nat) /\
    (s <> [] -> (1 <= n)%nat /\ (z = (-1)%Z \/ exists c, char_ok c /\ z = Z.of_N c /\ firstn n s = utf8 c)).
Proof. exact Utf8_Strings.scan_step. Qed.
Print Assumptions C24_scan_step.

(** C24: every traversal of arbitrary strings terminates inside the storage; the
    characters counted are a division of the string in which well-formed
    sequences are recognised and errors never swallow the start of a character. *)
Theorem C24_traversals : forall s, cstring s -> exists zs, decodes s zs /\ forall r,
  ustrlen (s ++ 0 :: r) = Ok (length zs) /\
  (forall i, exists o, ustridx (s ++ 0 :: r) i = Ok o /\
     match o with Some k => (i <= length zs /\ k <= length s)%nat | None => (length zs < i)%nat end) /\
  (forall n, exists k, ustrnlen (s ++ 0 :: r) n = Ok k /\ (k <= length zs)%nat) /\
  (forall ch, exists o, ustrchr (s ++ 0 :: r) ch = Ok o) /\
  (forall ch, exists o, ustrrchr (s ++ 0 :: r) ch = Ok o) /\
  (forall i, exists o, ustrridx (s ++ 0 :: r) i = Ok o) /\
  (forall s2 r2, cstring s2 -> exists c, ustrcmp (s ++ 0 :: r) (s2 ++ 0 :: r2) = Ok c) /\
  (forall s2 r2, cstring s2 -> exists o, ustrstr (s ++ 0 :: r) (s2 ++ 0 :: r2) = Ok o) /\
  (forall s2 r2, cstring s2 -> exists o, ustrstr_range (s ++ 0 :: r) (s2 ++ 0 :: r2) = Ok o).
Proof. exact Utf8_Strings.traversals. Qed.
Print Assumptions C24_traversals.

(** A string cut in the middle of a four-byte sequence. *)
Example C24_case : cstring [0x61; 0xf0; 0x9f] /\ ustrlen [0x61; 0xf0; 0x9f; 0] = Ok 2%nat /\
  ustrscan [0xf0; 0x9f; 0] = Ok ((-1)%Z, 2%nat).
Proof.
  split; [|vm_compute; auto]. split; [repeat constructor|]. cbn. intuition discriminate.
Qed.

(** C25 (functions on C strings). *)
Theorem C25_length_and_index : forall cs r, Forall char_ok cs ->
  ustrlen (encode cs ++ 0 :: r) = Ok (length cs) /\
  (forall i, ustridx (encode cs ++ 0 :: r) i = Ok (if (i <=? length cs)%nat then Some (length (encode (firstn i cs))) else None)) /\
  (forall i, ustrridx (encode cs ++ 0 :: r) i = Ok (if (i <? length cs)%nat then Some (length (encode (firstn (length cs - 1 - i) cs))) else None)) /\
  (forall k, (k <= length cs)%nat -> ustrnlen (encode cs ++ 0 :: r) (length (encode (firstn k cs))) = Ok k).
Proof. exact Utf8_Strings.length_and_index. Qed.
Print Assumptions C25_length_and_index.
Theorem C25_last_character : forall cs c r, Forall char_ok cs ->
  (~ In c cs -> ustrrchr (encode cs ++ 0 :: r) (Z.of_N c) = Ok None) /\
  (forall pre post, cs = pre ++ c :: post -> ~ In c post -> ustrrchr (encode cs ++ 0 :: r) (Z.of_N c) = Ok (Some (length (encode pre)))).
Proof. exact Utf8_Strings.last_char. Qed.
Print Assumptions C25_last_character.
Example C25_case : Forall char_ok [0x61; 0x20ac; 0x1f600] /\
  ustrlen (encode [0x61; 0x20ac; 0x1f600] ++ [0]) = Ok 3%nat /\ ustridx (encode [0x61; 0x20ac; 0x1f600] ++ [0]) 2 = Ok (Some 4%nat).
Proof.
  split; [|vm_compute; auto]. repeat (constructor; [split; [split; [discriminate|intros [H1 H2]]|discriminate]; vm_compute in H1, H2; congruence|]). constructor.
Qed.

(** C68: the search for the first occurrence of a character stops at the right
    character but returns the position after it, unlike dk_ustrrchr. *)
Theorem C68_first_character_partial : forall cs c r, Forall char_ok cs ->
  (~ In c cs -> ustrchr (encode cs ++ 0 :: r) (Z.of_N c) = Ok None) /\
  (forall pre post, cs = pre ++ c :: post -> ~ In c pre -> ustrchr (encode cs ++ 0 :: r) (Z.of_N c) = Ok (Some (length (encode (pre ++ [c]))))).
Proof. exact Utf8_Strings.first_char. Qed.
Print Assumptions C68_first_character_partial.
Theorem C68_first_character_refuted : exists cs c k, Forall char_ok cs /\ ustrchr (encode cs ++ [0]) (Z.of_N c) = Ok (Some k) /\
  ~ exists post, skipn k (encode cs) = utf8 c ++ post.
Proof. exact Utf8_Strings.first_char_refuted. Qed.
Print Assumptions C68_first_character_refuted.

(** C26 for well-formed strings: positive when the first comes first. *)
Theorem C26_compare_partial : forall a b r r', Forall char_ok a -> Forall char_ok b ->
  exists c, ustrcmp (encode a ++ 0 :: r) (encode b ++ 0 :: r') = Ok c /\
    (0 < c <-> chars_before a b)%Z /\ (c < 0 <-> chars_before b a)%Z /\ (c = 0 <-> a = b)%Z.
Proof. exact Utf8_Strings.compare_wellformed. Qed.
Print Assumptions C26_compare_partial.
(** C26 for all strings: a total preorder. *)
Theorem C26_compare_laws : forall a b c, cstring a -> cstring b -> cstring c -> forall ra rb rc,
  ustrcmp (a ++ 0 :: ra) (a ++ 0 :: ra) = Ok 0%Z /\
  (exists x, ustrcmp (a ++ 0 :: ra) (b ++ 0 :: rb) = Ok x /\ ustrcmp (b ++ 0 :: rb) (a ++ 0 :: ra) = Ok (- x)%Z) /\
  (exists x y z, ustrcmp (a ++ 0 :: ra) (b ++ 0 :: rb) = Ok x /\ ustrcmp (b ++ 0 :: rb) (c ++ 0 :: rc) = Ok y /\
     ustrcmp (a ++ 0 :: ra) (c ++ 0 :: rc) = Ok z /\ (0 <= x -> 0 <= y -> 0 <= z)%Z).
Proof. exact Utf8_Strings.compare_laws. Qed.
Print Assumptions C26_compare_laws.
(** Missing, and false: zero only for equal strings when they are ill-formed. *)
Theorem C26_compare_illformed_refuted : exists a b, cstring a /\ cstring b /\ a <> b /\ ustrcmp (a ++ [0]) (b ++ [0]) = Ok 0%Z.
Proof. exact Utf8_Strings.compare_illformed_refuted. Qed.
Print Assumptions C26_compare_illformed_refuted.

(** C28 (functions on C strings). *)
Theorem C28_search_leftmost : forall cs pat r r', Forall char_ok cs -> Forall char_ok pat -> pat <> [] ->
  (exists o, ustrstr_range (encode cs ++ 0 :: r) (encode pat ++ 0 :: r') = Ok o /\
     match o with
     | Some (loc, len) => occurs_at pat cs loc /\ len = length pat /\ forall q, (q < loc)%nat -> ~ occurs_at pat cs q
     | None => forall q, ~ occurs_at pat cs q
     end) /\
  (exists o, ustrstr (encode cs ++ 0 :: r) (encode pat ++ 0 :: r') = Ok o /\
     match o with
     | Some off => exists loc, off = length (encode (firstn loc cs)) /\ occurs_at pat cs loc /\ forall q, (q < loc)%nat -> ~ occurs_at pat cs q
     | None => forall q, ~ occurs_at pat cs q
     end).
Proof. exact Utf8_Strings.search_wellformed. Qed.
Print Assumptions C28_search_leftmost.
Example C26_C28_case : Forall char_ok [0x61; 0xe9; 0x61; 0xe9; 0x62] /\ Forall char_ok [0xe9; 0x62] /\
  ustrstr_range (encode [0x61; 0xe9; 0x61; 0xe9; 0x62] ++ [0]) (encode [0xe9; 0x62] ++ [0]) = Ok (Some (3, 2)%nat) /\
  ustrcmp (encode [0x61; 0xe9] ++ [0]) (encode [0x61] ++ [0]) = Ok (-233)%Z.
Proof.
  split; [|split]; [| |vm_compute; auto];
  repeat (constructor; [split; [split; [discriminate|intros [H1 H2]]|discriminate]; vm_compute in H1, H2; congruence|]); constructor.
Qed.
