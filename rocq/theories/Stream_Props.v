(** Theorems about formatted printing, lines and characters in streams. *)
Require Import Coq.ZArith.ZArith Coq.NArith.NArith Coq.QArith.QArith Coq.Lists.List Coq.micromega.Lia.
Require Import Verif.Base Verif.Strtonum_Model Verif.Strtonum_Spec Verif.Stream_Model Verif.Stream_Spec Verif.Stream_Proofs.
Import ListNotations.
Local Open Scope N_scope.

(** C94: formatted printing writes the text of each piece of the format, in order. *)
Theorem C94_formatted_text : forall cprintf ps args t cs, prints cprintf 0 ps args t cs ->
  exists cs' r, vsprintf cprintf (render ps) args = Ok (t, cs', r).
Proof. exact print_text. Qed.
Print Assumptions C94_formatted_text.

(** The formats, number: %s %d!, ~u00e9%%%c%@%5.2lf%zu~n and the like. *)
Example C94_example : forall cprintf, length (cprintf [37; 122; 117] (ALong 5)) = 1%nat -> cprintf [37; 102] (ADouble 1) = [49; 46; 53; 48; 48] ->
  prints cprintf 0 [Literal [110; 195; 169; 58]; Str; Percent; Char; Object; Integer [122] 117; Float [] 102; Str]
    [AStr (Some [97; 98]); AInt 120; AObj [111]; ALong 5; ADouble 1; AStr None]
    ([110; 195; 169; 58] ++ [97; 98] ++ [37] ++ [120] ++ [111] ++ cprintf [37; 122; 117] (ALong 5) ++ [49; 46; 53] ++ null_text ++ []) [].
Proof.
  intros cprintf H1 H2.
  apply (prs_piece _ _ _ _ [] _ _ _ [] []); [constructor; repeat constructor; lia|].
  apply (prs_piece _ _ _ _ [_] _ _ _ [] []); [constructor; cbn; lia|].
  apply (prs_piece _ _ _ _ [] _ _ _ [] []); [constructor|].
  apply (prs_piece _ _ _ _ [_] _ [120] _ [] []); [apply (pr_char _ _ 120); lia|].
  apply (prs_piece _ _ _ _ [_] _ _ _ [] []); [constructor|].
  apply (prs_piece _ _ _ _ [_] _ _ _ [] []).
  { apply pr_long; [split; [cbn; lia|repeat constructor; cbn; intuition lia]|cbn; tauto|exists [], 122; cbn; tauto|cbn [app]; rewrite H1; lia]. }
  apply (prs_piece _ _ _ _ [_] _ [49; 46; 53] _ [] []).
  { apply pr_double; [split; [cbn; lia|constructor]|cbn; tauto|intros [[|? ?] X]; discriminate|cbn [app]; rewrite H2; cbn; lia|].
    cbn [app]. rewrite H2. cbn. right. exists [49], [53], 2%nat. split; [cbn; intuition lia|]. split; [auto|]. split; [auto|]. left. auto. }
  apply (prs_piece _ _ _ _ [_] _ _ _ [] []); [constructor|constructor].
Qed.

(** C95 (partial): without %c, the result is the number of bytes written, and %n stores the
    number of bytes written so far.  Missing: %c. *)
Theorem C95_count_partial : forall cprintf ps args t cs, prints cprintf 0 ps args t cs -> ~ In Char ps -> N.of_nat (length t) < 2^31 ->
  vsprintf cprintf (render ps) args = Ok (t, cs, Z.of_nat (length t)).
Proof. exact print_count. Qed.
Print Assumptions C95_count_partial.

Example C95_example : forall cprintf, prints cprintf 0 [Literal [104; 105]; Counter; Str; Counter] [ACounter; AStr (Some [97]); ACounter] ([104; 105] ++ [] ++ [97] ++ [] ++ []) [2; 3].
Proof.
  intros cprintf.
  apply (prs_piece _ _ _ _ [] _ _ _ [] [2; 3]); [constructor; repeat constructor; lia|].
  apply (prs_piece _ _ _ _ [_] _ [] _ [2] [3]); [constructor|].
  apply (prs_piece _ _ _ _ [_] _ _ _ [] [3]); [constructor; cbn; lia|].
  apply (prs_piece _ _ _ _ [_] _ [] _ [3] []); [constructor|constructor].
Qed.

(** C95 is false for %c: a character other than c is written but not counted. *)
Theorem C95_char_refuted : exists ps args t, (forall cprintf, prints cprintf 0 ps args t []) /\
  forall cprintf, exists r, vsprintf cprintf (render ps) args = Ok (t, [], r) /\ (r < Z.of_nat (length t))%Z.
Proof.
  exists [Char], [AInt 120], [120]. split.
  - intros cprintf. apply (prs_piece _ _ _ _ [_] _ [120] [] [] []); [apply (pr_char _ _ 120); lia|constructor].
  - intros cprintf. exists 0%Z. split; [reflexivity|]. cbn. lia.
Qed.
Print Assumptions C95_char_refuted.

(** C96 is false: a format that ends inside a conversion reads past its terminator; a
    conversion of 8 characters, and a wide field, overflow their buffers; %p takes an int
    argument. *)
Theorem C96_unfinished_refuted : exists format, ~ In 0 format /\ forall cprintf, vsprintf cprintf format [] = UB.
Proof. exists [49; 48; 48; 37]. split; [cbn; intuition lia|]. intros. vm_compute. reflexivity. Qed.
Print Assumptions C96_unfinished_refuted.

Theorem C96_overflow_refuted : exists flags z, forall cprintf, cprintf (37 :: flags ++ [100]) (ALong z) = repeat 32 9 ++ [53] ->
  vsprintf cprintf (render [Integer flags 100]) [ALong z] = UB.
Proof. exists [45; 49; 48; 46; 49; 108; 108], 5%Z. intros. vm_compute. reflexivity. Qed.
Print Assumptions C96_overflow_refuted.

Theorem C96_width_refuted : exists flags z, flags_ok flags /\ forall cprintf, cprintf (37 :: flags ++ [100]) (AInt z) = repeat 32 199 ++ [53] ->
  vsprintf cprintf (render [Integer flags 100]) [AInt z] = UB.
Proof.
  exists [50; 48; 48], 5%Z. split; [split; [cbn; lia|repeat constructor; cbn; intuition lia]|].
  intros cprintf H. unfold vsprintf. cbn -[convert]. unfold convert. cbn -[sprintf_tmp]. unfold sprintf_tmp. cbn [app] in H. rewrite H. reflexivity.
Qed.
Print Assumptions C96_width_refuted.

Theorem C96_pointer_refuted : exists p, forall cprintf, vsprintf cprintf [37; 112] [APtr p] = UB.
Proof. exists 4096. intros. vm_compute. reflexivity. Qed.
Print Assumptions C96_pointer_refuted.

(** C97: the zeros dropped from the end of a number leave its value, and at least one digit
    after the point. *)
Theorem C97_trimmed_value : forall i f, ~ In 46 i -> Forall digit f -> exists f', trim_zeroes (i ++ 46 :: f) = i ++ 46 :: f' /\ Forall digit f' /\
  (f <> [] -> f' <> []) /\ (forall g, f' = g ++ [48] -> g = []) /\ Qeq (number i f') (number i f).
Proof. exact trim_value. Qed.
Print Assumptions C97_trimmed_value.

Theorem C97_no_point : forall t, ~ In 46 t -> trim_zeroes t = t.
Proof. exact trim_no_point. Qed.
Print Assumptions C97_no_point.

Example C97_example : trim_zeroes [49; 48; 46; 53; 48; 48] = [49; 48; 46; 53] /\ trim_zeroes [49; 48; 46; 48; 48] = [49; 48; 46; 48] /\ trim_zeroes [49; 48; 48] = [49; 48; 48].
Proof. vm_compute. auto. Qed.

(** C98: lines written to a stream with DKPuts and a line feed are read back. *)
Theorem C98_lines : forall ls r, Forall line_ok ls -> read_lines (length ls) (concat (map (fun l => puts l ++ putc 10) ls) ++ r) = (ls, r).
Proof. exact lines_round_trip. Qed.
Print Assumptions C98_lines.

Theorem C98_last_line : forall ls l, Forall line_ok ls -> line_ok l -> read_lines (S (length ls)) (concat (map (fun l => puts l ++ putc 10) ls) ++ puts l) = (ls ++ [l], []).
Proof. exact last_line. Qed.
Print Assumptions C98_last_line.

Theorem C98_consumes_line_partial : forall s, exists l, fst (gets s) = filter (fun b => negb (b =? 0)) l /\ ~ In 10 l /\
  (s = l ++ 10 :: snd (gets s) \/ (s = l /\ snd (gets s) = [])).
Proof. exact gets_consumes. Qed.
Print Assumptions C98_consumes_line_partial.

Example C98_example : Forall line_ok [[97; 98]; []; [195; 169]] /\ read_lines 3 (line_stream [[97; 98]; []; [195; 169]]) = ([[97; 98]; []; [195; 169]], []).
Proof. split; [repeat constructor; cbn; intuition lia|reflexivity]. Qed.

(** A line that holds a NUL loses it. *)
Theorem C98_nul_refuted : exists l, ~ In 10 l /\ fst (gets (l ++ [10])) <> l.
Proof. exists [97; 0; 98]. split; [cbn; intuition lia|]. vm_compute. discriminate. Qed.
Print Assumptions C98_nul_refuted.

(** C99 (partial): an ASCII character written to a stream is read back.  Missing: other
    bytes. *)
Theorem C99_char_partial : forall ch r, (0 <= ch < 128)%Z -> getc (putc ch ++ r) = (ch, r).
Proof. exact char_round_trip. Qed.
Print Assumptions C99_char_partial.

(** C99 is false: byte 255 is read as the end of the stream. *)
Theorem C99_char_refuted : exists ch r, (0 <= ch < 256)%Z /\ r <> [] /\ fst (getc (putc ch ++ r)) = fst (getc []).
Proof. exists 255%Z, [65]. split; [lia|]. split; [discriminate|reflexivity]. Qed.
Print Assumptions C99_char_refuted.
