(** Property theorems about JSON. *)
Require Import Coq.ZArith.ZArith Coq.NArith.NArith Coq.Lists.List Coq.micromega.Lia.
Require Import Verif.Base Verif.Utf8_Spec Verif.Strtonum_Model Verif.Strtonum_Spec Verif.JSON_Model Verif.JSON_Spec Verif.JSON_Proofs Verif.JSON_Parse Verif.JSON_Write Verif.JSON_Safe Verif.JSON_Lax_Spec Verif.JSON_Lax.
Import ListNotations.
Local Open Scope N_scope.

(** C37: values without floating point numbers, with keys that need no escapes, are read back
    as they were written, with and without indentation, and nothing but white space is left.
    With the extension ([vec]) this includes vectors. *)
Theorem C37_round_trip : forall pretty vec v, writable vec plain_key v ->
  exists t w, json_write pretty vec v = Ok t /\ json_parse vec t = Ok v /\
    Forall white w /\ parse_object (2 * length t + 3) vec (t ++ [0]) = Ok (PVal v, w ++ [0]).
Proof. exact round_trip. Qed.
Print Assumptions C37_round_trip.
(** C37: what is written is a JSON text of the value. *)
Theorem C37_text : forall pretty vec v, writable vec plain_key v -> exists s w, json_write pretty vec v = Ok (s ++ w) /\ text vec v s /\ Forall white w.
Proof. exact write_text. Qed.
Print Assumptions C37_text.
(** A dictionary with a list, a string with quotes, an accent and an emoji, and a vector. *)
Definition sample : json :=
  JObj [([107], JArr [JNull; JBool true; JNum (NInt (-12)); JArr []]); (encode [233; 120], JStr (encode [34; 92; 10; 233; 0x1F600; 65]));
        ([], JVec false [NInt 1; NInt (-2)]); ([111], JObj [])].
Lemma sample_writable : writable true plain_key sample.
Proof.
  assert (Ok: forall c, (0 < c /\ c < 0xD800) \/ c = 0x1F600 -> char_ok c) by (intros c H; unfold char_ok, scalar; lia).
  assert (K: forall cs, Forall (fun c => c < 0xD800 /\ 92 < c) cs -> plain_key (encode cs)).
  { intros cs F. exists cs. rewrite Forall_forall in F. split; [apply Forall_forall; intros c Hc; specialize (F c Hc); apply Ok; lia|]. split; [reflexivity|]. split; intros X; specialize (F _ X); lia. }
  assert (I: forall z, (- i64max <= z <= i64max)%Z -> int_ok (NInt z)) by auto.
  apply w_obj.
  - apply Forall_cons; [apply (K [107]); constructor; [lia|constructor]|]. apply Forall_cons; [apply K; repeat (apply Forall_cons; [lia|]); constructor|]. apply Forall_cons; [apply (K []); constructor|]. apply Forall_cons; [apply (K [111]); constructor; [lia|constructor]|constructor].
  - apply Forall_cons; cbn [snd].
    + apply w_arr. repeat (apply Forall_cons; [first [apply w_null|apply w_bool|apply w_num; apply I; unfold i64max; lia|apply w_arr; constructor]|]). constructor.
    + apply Forall_cons; cbn [snd]; [apply w_str; repeat (apply Forall_cons; [apply Ok; lia|]); constructor|]. apply Forall_cons; cbn [snd].
      * apply w_vec; [reflexivity|cbn; lia|reflexivity|]. repeat (apply Forall_cons; [apply I; unfold i64max; lia|]). constructor.
      * apply Forall_cons; [apply w_obj; constructor|constructor].
  - vm_compute. repeat constructor; cbn; intuition discriminate.
Qed.
Example C37_case : writable true plain_key sample /\ (exists t, json_write true true sample = Ok t /\ (length t > 100)%nat /\ json_parse true t = Ok sample).
Proof. split; [exact sample_writable|]. eexists. split; [vm_compute; reflexivity|]. split; [vm_compute; lia|vm_compute; reflexivity]. Qed.

(** C38 for values: every string of characters, with quotes, backslashes and control
    characters, is written as a JSON string and read back. *)
Theorem C38_values_partial : forall cs, Forall char_ok cs -> exists t, write_escaped (encode cs) = Ok (34 :: t ++ [34]) /\ items cs t /\
  forall vec rest, parse_object 1 vec ((34 :: t ++ [34]) ++ rest) = Ok (PVal (JStr (encode cs)), rest).
Proof.
  exact (fun cs F => match write_string cs F with ex_intro _ t (conj E X) => ex_intro _ t (conj E (conj X (fun vec rest => parse_string vec 0 [] cs t rest (Forall_nil _) X))) end).
Qed.
Print Assumptions C38_values_partial.
(** A quote, a backslash, a line feed and a tab. *)
Example C38_case : Forall char_ok [34; 92; 10; 9] /\ write_escaped (encode [34; 92; 10; 9]) = Ok [34; 92; 34; 92; 92; 92; 110; 92; 116; 34].
Proof. split; [repeat (apply Forall_cons; [unfold char_ok, scalar; lia|]); constructor|vm_compute; reflexivity]. Qed.
(** C38 is false for keys: they are written as they are, so a key with a quote is lost with
    everything after it, and a key with a backslash becomes another key. *)
Theorem C38_keys_refuted : exists v w t u, writable false any_key v /\ writable false any_key w /\
  json_write false false v = Ok t /\ json_parse false t = Ok JNull /\ json_write false false w = Ok u /\ json_parse false u = Ok (JObj [([10], JNull)]) /\ w <> JObj [([10], JNull)].
Proof.
  exists (JObj [([34], JNull)]), (JObj [([92; 110], JNull)]). eexists _, _.
  assert (W: forall cs, Forall char_ok cs -> writable false any_key (JObj [(encode cs, JNull)])).
  { intros cs F. apply w_obj; [constructor; [exists cs; auto|constructor]|constructor; [constructor|constructor]|]. cbn [map fst]. apply NoDup_cons; [intros []|apply NoDup_nil]. }
  split; [apply (W [34])|split; [apply (W [92; 110])|]]; try (repeat (apply Forall_cons; [unfold char_ok, scalar; lia|]); apply Forall_nil). repeat (split; [vm_compute; reflexivity|]). discriminate.
Qed.
Print Assumptions C38_keys_refuted.

(** C39, the part that holds: texts of values are parsed without undefined behaviour; and so
    are all ASCII texts, well-formed or not, in which every backslash with u goes on with four
    digits that stand for a character and no 18 digits follow each other. *)
Theorem C39_tame_partial : forall vec s, tame s -> exists v, json_parse vec s = Ok v.
Proof. exact json_total. Qed.
Print Assumptions C39_tame_partial.
Theorem C39_text_partial : forall vec v s w w', text vec v s -> Forall white w -> Forall white w' -> json_parse vec (w ++ s ++ w') = Ok v.
Proof. exact parse_json. Qed.
Print Assumptions C39_text_partial.
(** Brackets that are not closed and a string that does not end. *)
Example C39_case : tame [91; 91; 123; 34; 97; 34; 58; 35; 91; 49; 44; 34; 92].
Proof.
  assert (A: Forall (fun b => 0 < b < 128) [91; 91; 123; 34; 97; 34; 58; 35; 91; 49; 44; 34; 92]) by (repeat (apply Forall_cons; [lia|]); constructor). split; [exact A|]. split.
  - intros pre ds post E F. apply (f_equal (@length N)) in E. rewrite !app_length in E. cbn in E. lia.
  - intros pre post E. exfalso. apply (f_equal (fun l => In 117 l)) in E. assert (X: In 117 (pre ++ 92 :: 117 :: post)) by (apply in_app_iff; right; right; now left). rewrite <- E in X. cbn in X. lia.
Qed.
(** C39 is false: a backslash with u at the end of the text reads past the terminator, half of
    a surrogate pair appends a buffer that was not initialised, 20 digits overflow, and
    isspace is called with U+3000. *)
Theorem C39_refuted : json_parse false [34; 92; 117] = UB /\ json_parse false [34; 92; 117; 100; 56; 51; 100; 34] = UB /\
  json_parse false (repeat 57 20) = UB /\ json_parse false (encode [0x3000]) = UB.
Proof. repeat split; vm_compute; reflexivity. Qed.
Print Assumptions C39_refuted.

(** C87, the part that holds: a JSON text is parsed as the value it stands for, with white
    space anywhere, all escapes, the last of several values of a key, and nothing but white
    space is left.  Missing: surrogate pairs, signed exponents, numbers that do not fit. *)
Theorem C87_text_partial : forall vec v s w w', text vec v s -> Forall white w -> Forall white w' ->
  json_parse vec (w ++ s ++ w') = Ok v /\ parse_object (2 * length (w ++ s ++ w') + 3) vec ((w ++ s ++ w') ++ [0]) = Ok (PVal v, w' ++ [0]).
Proof. exact (fun vec v s w w' H W W' => conj (parse_json vec v s w w' H W W') (parse_text vec v s w w' H W W')). Qed.
Print Assumptions C87_text_partial.
(** [{"A" : 1.5e2, "A":"\/"} ] stands for the object with A only, whose value is a slash. *)
Example C87_case : exists s, text false (JArr [JObj [([65], JStr [47])]]) s /\ json_parse false s = Ok (JArr [JObj [([65], JStr [47])]]).
Proof.
  exists ([91; 123; 34; 92; 117; 48; 48; 52; 49; 34; 32; 58; 32; 49; 46; 53; 101; 50; 44; 32; 34; 65; 34; 58; 34; 92; 47; 34; 125; 32; 93]). assert (W: white 32) by (left; reflexivity).
  assert (A: items [65] [92; 117; 48; 48; 52; 49]).
  { apply (is_cons 65 [] [92; 117; 48; 48; 52; 49] []); [|constructor]. apply (i_u 48 48 52 49 0 0 4 1); [apply (hex_0 0)|apply (hex_0 0)|apply (hex_0 4)|apply (hex_0 1)|unfold char_ok, scalar]; lia. }
  assert (B: items [65] [65]) by (apply (is_cons 65 [] [65] []); [apply i_plain; [unfold char_ok, scalar; lia|lia|lia]|constructor]).
  assert (C: items [47] [92; 47]) by (apply (is_cons 47 [] [92; 47] []); constructor).
  assert (D: number (NReal 1 1 [5] (Some 2%Z)) [49; 46; 53; 101; 50]).
  { apply (n_frac false [49] [53] (Some (101, [50]))); repeat (first [apply Forall_cons|apply Forall_nil|split]); unfold digit; try lia; try discriminate; try (cbn; unfold i64max; lia). }
  split.
  - apply (t_arr _ _ [123; 34; 92; 117; 48; 48; 52; 49; 34; 32; 58; 32; 49; 46; 53; 101; 50; 44; 32; 34; 65; 34; 58; 34; 92; 47; 34; 125; 32]).
    apply (e_one _ _ [] [123; 34; 92; 117; 48; 48; 52; 49; 34; 32; 58; 32; 49; 46; 53; 101; 50; 44; 32; 34; 65; 34; 58; 34; 92; 47; 34; 125] [32]); [constructor| |auto].
    apply (t_obj _ [([65], JNum (NReal 1 1 [5] (Some 2%Z))); ([65], JStr [47])] _ [34; 92; 117; 48; 48; 52; 49; 34; 32; 58; 32; 49; 46; 53; 101; 50; 44; 32; 34; 65; 34; 58; 34; 92; 47; 34]).
    + apply (m_cons _ [65] [92; 117; 48; 48; 52; 49] (JNum (NReal 1 1 [5] (Some 2%Z))) [([65], JStr [47])] [] [32] [32] [49; 46; 53; 101; 50] [] [32; 34; 65; 34; 58; 34; 92; 47; 34]); auto; [now apply t_num|]. apply (m_one _ [65] [65] (JStr [47]) [32] [] [] [34; 92; 47; 34] []); auto. now apply (t_str _ [47] [92; 47]).
    + split; [reflexivity|]. intros k v [E|[]]. injection E as <- <-. reflexivity.
  - vm_compute. reflexivity.
Qed.
(** C87 is false: 1e-5 is read as 1, and the surrogate pair of U+1F600 is undefined behaviour. *)
Theorem C87_refuted : json_parse false [49; 101; 45; 53] = Ok (JNum (NReal 1 1 [] (Some 0%Z))) /\
  json_parse false [34; 92; 117; 100; 56; 51; 100; 92; 117; 100; 101; 48; 48; 34] = UB.
Proof. split; vm_compute; reflexivity. Qed.
Print Assumptions C87_refuted.

(** C88 is false: trailing commas, unknown words that begin with true, strings that do not end,
    words that begin with digits, and anything after the value are accepted. *)
Theorem C88_refuted : json_parse false [91; 49; 44; 93] = Ok (JArr [JNum (NInt 1)]) /\ json_parse false [116; 114; 117; 101; 105; 115; 104] = Ok (JBool true) /\
  json_parse false [34; 97] = Ok (JStr [97]) /\ json_parse false [49; 120] = Ok (JNum (NInt 1)) /\ json_parse false [49; 32; 93] = Ok (JNum (NInt 1)).
Proof. repeat split; vm_compute; reflexivity. Qed.
Print Assumptions C88_refuted.
(** C88, what does hold for ASCII texts: what is accepted begins, after white space, with a text
    of a lenient grammar for the value ([lax]: words that begin like a value, any escapes, a
    comma at the end of lists), or is a string that the end of the text cuts off.  So texts that
    begin with a closing bracket, a comma or a colon and lists that are not closed are rejected. *)
Theorem C88_lax_partial : forall vec s v, ascii s -> json_parse vec s = Ok v -> v <> JNull ->
  exists w b r, s = w ++ b ++ r /\ Forall white w /\ (lax vec v b \/ (r = [] /\ exists k q, v = JStr k /\ b = 34 :: q /\ unended q)).
Proof. exact parse_lax. Qed.
Print Assumptions C88_lax_partial.
Theorem C88_rejected_partial : forall vec w c r v, ascii (w ++ c :: r) -> Forall white w -> In c [44; 58; 93; 125] \/ (c = 91 /\ ~ In 93 r) \/ (c = 123 /\ ~ In 125 r) -> json_parse vec (w ++ c :: r) = Ok v -> v = JNull.
Proof. exact rejected. Qed.
Print Assumptions C88_rejected_partial.
(** A list with a word and a comma at the end; a list in a list that is not closed. *)
Example C88_case : ascii [32; 91; 49; 120; 44; 32; 93] /\ json_parse false [32; 91; 49; 120; 44; 32; 93] = Ok (JArr [JNum (NInt 1)]) /\ lax false (JArr [JNum (NInt 1)]) [91; 49; 120; 44; 32; 93] /\
  ascii [91; 91; 49; 44] /\ json_parse false [91; 91; 49; 44] = Ok JNull.
Proof.
  assert (R : forall l, forallb (fun b => andb (0 <? b) (b <? 128)) l = true -> ascii l) by (intros l H; apply Forall_forall; intros b Hb; apply (proj1 (forallb_forall _ l) H) in Hb; apply Coq.Bool.Bool.andb_true_iff in Hb; rewrite !N.ltb_lt in Hb; exact Hb).
  split; [now apply R|]. split; [vm_compute; reflexivity|]. split; [|split; [now apply R|vm_compute; reflexivity]].
  apply (x_arr false [JNum (NInt 1)] [49; 120; 44; 32]). apply (xe_cons false (JNum (NInt 1)) [] [] [49; 120] [] [32]); try constructor; try constructor; try (left; reflexivity).
  - exists 49. split; [right; unfold digit; lia|]. split; [repeat constructor; unfold white; cbn; lia|exists [120]; reflexivity].
  - intros m M. pose proof (number_read m [49; 120] [0] M ltac:(cbn; auto)) as X. vm_compute in X. discriminate X.
Qed.
