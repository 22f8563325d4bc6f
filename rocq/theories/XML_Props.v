(** Properties C116-C123: reading and writing XML.

    [parse isspace report fuel text] is DKXMLParse of a string with the bytes [text]: [isspace]
    and [report] (DKError) are parameters and [fuel] bounds the number of attempts with larger
    buffers.  A result [Some (h, e)] is the element [e] among the elements [h]; [is_tree h e t]
    says that it is the tree [t].  [spacelike isspace] says that [isspace] has a result for each
    value of a char, as the tables of common C libraries do, and [ok text] that the members of
    [text] are bytes.  [unix_lines (before_nul text)] is the text up to its first NUL with its
    line ends made LF. *)
Require Import Coq.ZArith.ZArith Coq.NArith.NArith Coq.Lists.List Coq.Bool.Bool Coq.micromega.Lia.
Require Import Verif.Base Verif.Stream_Model Verif.String_Model Verif.XML_Model Verif.XML_Spec Verif.XML_Backward Verif.XML_Memory Verif.XML_Relation Verif.XML_Final Verif.XML_Final2 Verif.XML_Describe Verif.XML_Props_Lemmas Verif.XML_Large.
Import ListNotations.
Local Open Scope N_scope.

(** The examples: a total isspace and a report that does nothing. *)
Definition sp (ch : Z) : outcome bool := Ok (((9 <=? ch) && (ch <=? 13))%Z || (ch =? 32)%Z).
Definition ignore (m : list N) (args : list arg) : outcome unit := Ok tt.
Example sp_spacelike : spacelike sp.
Proof. exact sp_is_spacelike. Qed.

(** C116: the texts accepted are the documents, and the element returned is the tree that the
    document denotes.  The grammar differs from that of XML as the refutations below show. *)
Theorem C116_exact_partial : forall isspace report fuel text, spacelike isspace -> (forall m args, report m args = Ok tt) -> ok text -> (2 * length text < fuel)%nat ->
  (forall t, is_document (unix_lines (before_nul text)) t -> exists h e, XML_Model.parse isspace report fuel text = Ok (Some (h, e)) /\ is_tree h e t) /\
  ((forall t, ~ is_document (unix_lines (before_nul text)) t) -> XML_Model.parse isspace report fuel text = Ok None).
Proof. exact exact_parse. Qed.
Print Assumptions C116_exact_partial.
(** For every report: what is returned is right whenever something is returned. *)
Theorem C116_sound_partial : forall isspace report fuel text, spacelike isspace -> ok text ->
  (forall h e, XML_Model.parse isspace report fuel text = Ok (Some (h, e)) -> exists t, is_document (unix_lines (before_nul text)) t /\ is_tree h e t) /\
  (XML_Model.parse isspace report fuel text = Ok None -> forall t, ~ is_document (unix_lines (before_nul text)) t).
Proof. exact sound_parse. Qed.
Print Assumptions C116_sound_partial.
(** For every report: all documents of less than 8192 bytes are accepted at the first attempt. *)
Theorem C116_small_partial : forall isspace report fuel text t, spacelike isspace -> ok text -> (0 < fuel)%nat -> 2 * N.of_nat (length text) < 16384 ->
  is_document (unix_lines (before_nul text)) t -> exists h e, XML_Model.parse isspace report fuel text = Ok (Some (h, e)) /\ is_tree h e t.
Proof. exact small_document. Qed.
Print Assumptions C116_small_partial.
(** <a b='1'>x <c/>&amp;y</a> and a tail. *)
Definition sample : list N := [60; 97; 32; 98; 61; 39; 49; 39; 62; 120; 13; 32; 60; 99; 47; 62; 38; 97; 109; 112; 59; 121; 60; 47; 97; 62; 13; 10].
Definition sample_tree : tree := Elem [97] [([98], [49])] [Text [120; 32]; Sub (Elem [99] [] []); Text [38; 121]].
Example C116_case : ok sample /\ is_document (unix_lines (before_nul sample)) sample_tree /\ exists h e, XML_Model.parse sp ignore 1 sample = Ok (Some (h, e)) /\ is_tree h e sample_tree.
Proof.
  assert (O : ok sample) by (repeat (apply Forall_cons; [lia|]); apply Forall_nil). split; [exact O|].
  assert (D : is_document (unix_lines (before_nul sample)) sample_tree) by (apply result_iff; [exact O|vm_compute; reflexivity]). split; [exact D|].
  apply small_document; [exact sp_is_spacelike|exact O|lia|vm_compute; reflexivity|exact D].
Qed.
Example C116_case_not : XML_Model.parse sp ignore 1 [60; 97; 62; 60; 98; 62; 60; 47; 97; 62; 60; 47; 98; 62] = Ok None.
Proof. vm_compute. reflexivity. Qed.
(** C116 is false as said of XML: an element with a space at the end of its end tag is refused,
    a document with an end tag that has not been closed is accepted, and so is an element with
    two attributes of the same name. *)
Theorem C116_space_refuted : exists text t, is_element text t /\ XML_Model.parse sp ignore 1 text = Ok None.
Proof.
  exists [60; 97; 62; 60; 47; 97; 32; 62], (Elem [97] [] []). split; [|vm_compute; reflexivity].
  apply (el_full [97] [60; 97] [] [] [] [32]); [|constructor|repeat constructor].
  exists [], []. split; [reflexivity|]. split; [split; [left; right; lia|constructor]|]. split; constructor.
Qed.
Print Assumptions C116_space_refuted.
Theorem C116_unclosed_refuted : exists text h e, XML_Model.parse sp ignore 1 text = Ok (Some (h, e)) /\
  (forall b, In b text -> letter b \/ b = 32 \/ b = 47 \/ b = 60 \/ b = 62) /\ count_occ N.eq_dec text 60 = 2%nat /\ count_occ N.eq_dec text 62 = 1%nat.
Proof.
  exists [60; 97; 62; 60; 47; 97; 32]. eexists. eexists. split; [vm_compute; reflexivity|]. split; [|split; reflexivity].
  intros b Hb. cbn [In] in Hb. unfold letter. lia.
Qed.
Print Assumptions C116_unclosed_refuted.
Theorem C116_twice_refuted : exists n v v' s h e, attribute s n v /\ attribute s n v' /\ XML_Model.parse sp ignore 1 ([60; 97; 32] ++ s ++ [32] ++ s ++ [47; 62]) = Ok (Some (h, e)).
Proof.
  exists [98], [49], [49], ([98] ++ [] ++ [61] ++ [] ++ [34] ++ [49] ++ [34]). eexists. eexists.
  assert (A : attribute ([98] ++ [] ++ [61] ++ [] ++ [34] ++ [49] ++ [34]) [98] [49]).
  { apply attr_text; [split; [left; right; lia|constructor]|constructor|constructor|now right|]. change [49] with (as_space 49 :: []) at 2. apply val_char; [discriminate..|constructor]. }
  split; [exact A|]. split; [exact A|]. vm_compute. reflexivity.
Qed.
Print Assumptions C116_twice_refuted.

(** C117: the size of the buffer makes no difference: two attempts that come to a result come
    to the same, and an attempt comes to a result if the buffer is larger than twice the text. *)
Theorem C117_size_partial : forall isspace report text size size', spacelike isspace -> ok text -> (0 < size)%nat -> (0 < size')%nat ->
  (forall h e h' e' t, try_parse isspace report text size = Ok (Parsed h e) -> try_parse isspace report text size' = Ok (Parsed h' e') -> is_tree h e t -> is_tree h' e' t) /\
  ~ ((exists h e, try_parse isspace report text size = Ok (Parsed h e)) /\ try_parse isspace report text size' = Ok Rejected) /\
  ((2 * length text < size)%nat -> try_parse isspace report text size <> Ok Again).
Proof. exact size_free. Qed.
Print Assumptions C117_size_partial.
Example C117_case : (exists h e, try_parse sp ignore sample 8 = Ok (Parsed h e)) /\ (exists h e, try_parse sp ignore sample 64 = Ok (Parsed h e)) /\ try_parse sp ignore sample 3 = Ok Again.
Proof. split; [|split]; [eexists; eexists; vm_compute; reflexivity..|vm_compute; reflexivity]. Qed.
(** C117 is false with the message that is given when the buffer is too small: its format is
    not one of printf. *)
Theorem C117_message_refuted : exists text t, is_document (unix_lines (before_nul text)) t /\ XML_Model.parse c_isspace (dkerror (fun _ _ => [])) 1 text = UB.
Proof. eexists. eexists. split; [exact large_is_document|exact large_message]. Qed.
Print Assumptions C117_message_refuted.

(** C118: no text makes the parser read or write outside its buffer or loop for ever. *)
Theorem C118_safe_partial : forall isspace report fuel text, spacelike isspace -> (forall m args, report m args = Ok tt) -> ok text ->
  (2 * length text < fuel)%nat -> exists v, XML_Model.parse isspace report fuel text = Ok v.
Proof. exact parse_safe. Qed.
Print Assumptions C118_safe_partial.
Example C118_case : ok [255; 0; 60] /\ (exists v, XML_Model.parse sp ignore 7 [255; 0; 60] = Ok v) /\ try_parse sp ignore [60; 97; 97; 97; 97] 2 = Ok Again.
Proof. split; [repeat (apply Forall_cons; [lia|]); apply Forall_nil|]. split; [eexists|]; vm_compute; reflexivity. Qed.
(** C118 is false with isspace as C defines it, because a char is given to it, and with the
    messages, because their formats are not of the types of the arguments. *)
Theorem C118_isspace_refuted : exists text t, is_document (unix_lines (before_nul text)) t /\ XML_Model.parse c_isspace ignore 1 text = UB.
Proof.
  exists [60; 97; 62; 195; 169; 60; 47; 97; 62], (Elem [97] [] [Text [195; 169]]). split; [|vm_compute; reflexivity].
  apply result_iff; [repeat (apply Forall_cons; [lia|]); apply Forall_nil|vm_compute; reflexivity].
Qed.
Print Assumptions C118_isspace_refuted.
Theorem C118_message_refuted : exists text, XML_Model.parse sp (dkerror (fun _ _ => [])) 1 text = UB.
Proof. exists [60; 97; 62; 60; 47; 98; 62]. vm_compute. reflexivity. Qed.
Print Assumptions C118_message_refuted.

(** C119: line ends make no difference. *)
Theorem C119_lines_partial : forall isspace report text text', spacelike isspace -> (forall m args, report m args = Ok tt) -> ok text -> ok text' ->
  unix_lines (before_nul text) = unix_lines (before_nul text') ->
  forall fuel fuel', (2 * length text < fuel)%nat -> (2 * length text' < fuel')%nat ->
  (XML_Model.parse isspace report fuel text = Ok None <-> XML_Model.parse isspace report fuel' text' = Ok None) /\
  forall t, (exists h e, XML_Model.parse isspace report fuel text = Ok (Some (h, e)) /\ is_tree h e t) <-> (exists h e, XML_Model.parse isspace report fuel' text' = Ok (Some (h, e)) /\ is_tree h e t).
Proof. exact lines_free. Qed.
Print Assumptions C119_lines_partial.
Example C119_case : let text e := [60; 97; 62; 120] ++ e ++ [121; 60; 47; 97; 62] ++ e in
  unix_lines (before_nul (text [13; 10])) = text [10] /\ unix_lines (before_nul (text [13])) = text [10] /\
  (exists h, XML_Model.parse sp ignore 1 (text [13; 10]) = Ok (Some (h, 0%nat)) /\ XML_Model.parse sp ignore 1 (text [13]) = Ok (Some (h, 0%nat)) /\ XML_Model.parse sp ignore 1 (text [10]) = Ok (Some (h, 0%nat))).
Proof. cbv zeta. split; [reflexivity|]. split; [reflexivity|]. eexists. split; [|split]; vm_compute; reflexivity. Qed.

(** C120: in a value and in a text a reference is replaced by the character it names, and what
    is not a reference is refused. *)
Theorem C120_value_partial : forall isspace report fuel r, spacelike isspace -> ok r -> ~ In 59 r -> ~ In 0 r -> ~ In 13 r ->
  (forall h e, XML_Model.parse isspace report fuel ([60; 97; 32; 98; 61; 34; 38] ++ r ++ [59; 34; 47; 62]) = Ok (Some (h, e)) ->
    exists c, reference r c /\ is_tree h e (Elem [97] [([98], utf8 c)] [])) /\
  (XML_Model.parse isspace report fuel ([60; 97; 32; 98; 61; 34; 38] ++ r ++ [59; 34; 47; 62]) = Ok None -> forall c, ~ reference r c).
Proof. exact value_reference. Qed.
Print Assumptions C120_value_partial.
Theorem C120_text_partial : forall isspace report fuel r, spacelike isspace -> ok r -> ~ In 59 r -> ~ In 0 r -> ~ In 13 r ->
  (forall h e, XML_Model.parse isspace report fuel ([60; 97; 62; 38] ++ r ++ [59; 60; 47; 97; 62]) = Ok (Some (h, e)) ->
    exists c, reference r c /\ is_tree h e (Elem [97] [] (if (c <? 128) && blank c then [] else [Text (utf8 c)]))) /\
  (XML_Model.parse isspace report fuel ([60; 97; 62; 38] ++ r ++ [59; 60; 47; 97; 62]) = Ok None -> forall c, ~ reference r c).
Proof. exact text_reference. Qed.
Print Assumptions C120_text_partial.
(** A reference is accepted at the first attempt, whatever the reports do. *)
Theorem C120_accepted_partial : forall isspace report fuel r c, spacelike isspace -> reference r c -> (0 < fuel)%nat ->
  (exists h e, XML_Model.parse isspace report fuel ([60; 97; 32; 98; 61; 34; 38] ++ r ++ [59; 34; 47; 62]) = Ok (Some (h, e)) /\ is_tree h e (Elem [97] [([98], utf8 c)] [])) /\
  (exists h e, XML_Model.parse isspace report fuel ([60; 97; 62; 38] ++ r ++ [59; 60; 47; 97; 62]) = Ok (Some (h, e)) /\
    is_tree h e (Elem [97] [] (if (c <? 128) && blank c then [] else [Text (utf8 c)]))).
Proof. exact references_accepted. Qed.
Print Assumptions C120_accepted_partial.
Example C120_case : reference [35; 120; 49; 70; 54; 48; 48] 128512 /\ utf8 128512 = [240; 159; 152; 128] /\ XML_Model.parse sp ignore 1 [60; 97; 62; 38; 35; 120; 59; 60; 47; 97; 62] = Ok None.
Proof.
  split; [|split; vm_compute; reflexivity]. split; [|split].
  - change 128512 with (number 16 [49; 70; 54; 48; 48]). apply ref_hex; [discriminate|]. repeat (apply Forall_cons; [unfold hexdigit, digit; lia|]). apply Forall_nil.
  - cbn. lia.
  - unfold accepted_char. lia.
Qed.
(** C120 is false for some characters: XML has 0xE000 and does not have 0xD800, and the length
    of a reference is not limited. *)
Theorem C120_surrogate_refuted : exists r h e, names_char r 0xD800 /\ XML_Model.parse sp ignore 1 ([60; 97; 62; 38] ++ r ++ [59; 60; 47; 97; 62]) = Ok (Some (h, e)) /\
  is_tree h e (Elem [97] [] [Text [237; 160; 128]]).
Proof.
  exists [35; 120; 68; 56; 48; 48]. eexists. eexists. split; [change 0xD800 with (number 16 [68; 56; 48; 48]); apply ref_hex; [discriminate|]; repeat (apply Forall_cons; [unfold hexdigit, digit; lia|]); apply Forall_nil|].
  split; [vm_compute; reflexivity|]. econstructor; [reflexivity|repeat constructor].
Qed.
Print Assumptions C120_surrogate_refuted.
Theorem C120_private_refuted : exists r, names_char r 0xE000 /\ XML_Model.parse sp ignore 1 ([60; 97; 62; 38] ++ r ++ [59; 60; 47; 97; 62]) = Ok None.
Proof.
  exists [35; 120; 69; 48; 48; 48]. split; [change 0xE000 with (number 16 [69; 48; 48; 48]); apply ref_hex; [discriminate|]; repeat (apply Forall_cons; [unfold hexdigit, digit; lia|]); apply Forall_nil|].
  vm_compute. reflexivity.
Qed.
Print Assumptions C120_private_refuted.
Theorem C120_long_refuted : exists r, names_char r 65 /\ XML_Model.parse sp ignore 1 ([60; 97; 62; 38] ++ r ++ [59; 60; 47; 97; 62]) = Ok None.
Proof.
  exists [35; 120; 48; 48; 48; 48; 52; 49]. split; [change 65 with (number 16 [48; 48; 48; 48; 52; 49]); apply ref_hex; [discriminate|]; repeat (apply Forall_cons; [unfold hexdigit, digit; lia|]); apply Forall_nil|].
  vm_compute. reflexivity.
Qed.
Print Assumptions C120_long_refuted.

(** C121: in every element returned the name and the names of the attributes are names, each
    attribute occurs once, no text is empty or starts with a blank and no text follows a text. *)
Theorem C121_shape : forall isspace report fuel text h e, spacelike isspace -> ok text -> XML_Model.parse isspace report fuel text = Ok (Some (h, e)) -> exists t, is_tree h e t /\
  everywhere (fun n a k => is_a_name n /\ NoDup (map fst a) /\ Forall (fun kv => is_a_name (fst kv)) a /\ texts_apart k /\ forall s, In (Text s) k -> s <> [] /\ blank (hd 0 s) = false) t.
Proof. exact parse_shaped. Qed.
Print Assumptions C121_shape.
Example C121_case : exists h, XML_Model.parse sp ignore 1 [60; 97; 32; 98; 61; 34; 34; 32; 98; 61; 34; 49; 34; 62; 32; 120; 60; 33; 45; 45; 45; 45; 62; 121; 60; 47; 97; 62] = Ok (Some (h, 0%nat)) /\
  is_tree h 0 (Elem [97] [([98], [49])] [Text [120; 121]]).
Proof. eexists. split; [vm_compute; reflexivity|]. econstructor; [reflexivity|repeat constructor]. Qed.

(** C122: runs of blanks in texts are made single spaces, if no closing bracket is followed by
    a blank. *)
Theorem C122_collapsed_partial : forall isspace report fuel text h e, spacelike isspace -> ok text -> no_bracket_blank (unix_lines (before_nul text)) ->
  XML_Model.parse isspace report fuel text = Ok (Some (h, e)) -> exists t, is_tree h e t /\ everywhere (fun n a k => forall s, In (Text s) k -> collapsed s) t.
Proof. exact parse_tight. Qed.
Print Assumptions C122_collapsed_partial.
Example C122_case : no_bracket_blank (unix_lines (before_nul [60; 97; 62; 120; 9; 10; 32; 121; 60; 47; 97; 62])) /\ exists h, XML_Model.parse sp ignore 1 [60; 97; 62; 120; 9; 10; 32; 121; 60; 47; 97; 62] = Ok (Some (h, 0%nat)) /\
  is_tree h 0 (Elem [97] [] [Text [120; 32; 121]]).
Proof.
  split.
  - intros a b c _ E. assert (H : In 93 (a ++ [93; b] ++ c)) by (rewrite in_app_iff; right; now left). rewrite <- E in H. vm_compute in H. intuition discriminate.
  - eexists. split; [vm_compute; reflexivity|]. econstructor; [reflexivity|repeat constructor].
Qed.
(** C122 is false in CDATA sections: blanks that follow a closing bracket are kept. *)
Theorem C122_bracket_refuted : exists text h t, XML_Model.parse sp ignore 1 text = Ok (Some (h, 0%nat)) /\ is_tree h 0 (Elem [97] [] [Text t]) /\ ~ collapsed t.
Proof.
  exists ([60; 97; 62; 60; 33; 91; 67; 68; 65; 84; 65; 91] ++ [93; 9] ++ [93; 93; 62; 60; 47; 97; 62]). eexists. exists [93; 9].
  split; [vm_compute; reflexivity|]. split; [econstructor; [reflexivity|repeat constructor]|]. intros [_ H]. specialize (H 9 ltac:(cbn; auto) eq_refl). discriminate H.
Qed.
Print Assumptions C122_bracket_refuted.

(** C123: the description of an element is a document for the same tree, but with a space at
    the end of each text, if names are names and values and texts are plain. *)
Theorem C123_described_partial : forall h e t, everywhere sayable t -> is_tree h e t -> exists m d, (forall fuel, (m <= fuel)%nat -> describe fuel h e 0 = Ok d) /\
  forall isspace report fuel, spacelike isspace -> (forall m args, report m args = Ok tt) -> (2 * length d < fuel)%nat ->
    exists h' e', XML_Model.parse isspace report fuel d = Ok (Some (h', e')) /\ is_tree h' e' (respaced t).
Proof. exact described_parsed. Qed.
Print Assumptions C123_described_partial.
(** Writing what was read from a description gives the same tree. *)
Theorem C123_again_partial : forall h e t, everywhere sayable t -> is_tree h e (respaced t) -> exists m d, (forall fuel, (m <= fuel)%nat -> describe fuel h e 0 = Ok d) /\
  forall isspace report fuel, spacelike isspace -> (forall m args, report m args = Ok tt) -> (2 * length d < fuel)%nat ->
    exists h' e', XML_Model.parse isspace report fuel d = Ok (Some (h', e')) /\ is_tree h' e' (respaced t).
Proof. exact described_again. Qed.
Print Assumptions C123_again_partial.
Example C123_case : let t := Elem [97] [([98], [39; 62])] [Text [120; 32; 121]; Sub (Elem [99] [] []); Text [195; 169; 32]] in everywhere sayable t /\ exists h, is_tree h 0 t /\
  describe 3 h 0 0 = Ok ([60; 97; 32; 98; 61; 34; 39; 62; 34; 62; 10; 32; 32; 120; 32; 121; 10; 32; 32; 60; 99; 62; 10; 32; 32; 60; 47; 99; 62; 10; 32; 32; 195; 169; 32; 10; 60; 47; 97; 62; 10]).
Proof. exact describe_case. Qed.
(** C123 is false otherwise: the texts are changed, and markup is not escaped. *)
Theorem C123_text_refuted : exists h t d h', is_tree h 0 t /\ everywhere sayable t /\ describe 2 h 0 0 = Ok d /\ XML_Model.parse sp ignore 1 d = Ok (Some (h', 0%nat)) /\ ~ is_tree h' 0 t.
Proof. exact describe_text. Qed.
Print Assumptions C123_text_refuted.
Theorem C123_escape_refuted : exists text h d, XML_Model.parse sp ignore 1 text = Ok (Some (h, 0%nat)) /\ describe 2 h 0 0 = Ok d /\ XML_Model.parse sp ignore 1 d = Ok None.
Proof.
  exists [60; 97; 62; 38; 97; 109; 112; 59; 60; 47; 97; 62]. eexists. eexists. split; [vm_compute; reflexivity|]. split; vm_compute; reflexivity.
Qed.
Print Assumptions C123_escape_refuted.
