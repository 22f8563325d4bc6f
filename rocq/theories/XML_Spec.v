(** Specification of XML documents as sequences of bytes and of the trees they denote. *)
Require Import Coq.NArith.NArith Coq.ZArith.ZArith Coq.Lists.List Coq.Bool.Bool.
Require Import Verif.Base Verif.XML_Model.
Import ListNotations.
Local Open Scope N_scope.

Notation bytes := (list N).

(** An element has a name, attributes and content; its content is texts and elements. *)
Inductive tree : Type := Elem (name : bytes) (attributes : list (bytes * bytes)) (content : list item)
with item : Type := Text (s : bytes) | Sub (t : tree).

(** What an element made by the parser denotes. *)
Inductive is_tree (h : list element) : nat -> tree -> Prop :=
| is_elem e n a ks k : nth_error h e = Some (mkE n a ks) -> are_items h ks k -> is_tree h e (Elem n a k)
with are_items (h : list element) : list child -> list item -> Prop :=
| no_items : are_items h [] []
| text_item s ks k : are_items h ks k -> are_items h (CText s :: ks) (Text s :: k)
| elem_item e t ks k : is_tree h e t -> are_items h ks k -> are_items h (CElement e :: ks) (Sub t :: k).

(** Classes of bytes. *)
Definition space (b : N) : Prop := b = 32 \/ b = 9 \/ b = 10.
Definition letter (b : N) : Prop := 65 <= b <= 90 \/ 97 <= b <= 122.
Definition digit (b : N) : Prop := 48 <= b <= 57.
Definition hexdigit (b : N) : Prop := digit b \/ 65 <= b <= 70 \/ 97 <= b <= 102.
Definition name_start (b : N) : Prop := letter b \/ b = 58 \/ b = 95 \/ 128 <= b.
Definition name_char (b : N) : Prop := name_start b \/ digit b \/ b = 45 \/ b = 46.
Definition quote_mark (b : N) : Prop := b = 39 \/ b = 34.
Definition white (s : bytes) : Prop := Forall space s.
Definition is_a_name (n : bytes) : Prop := match n with [] => False | b :: n' => name_start b /\ Forall name_char n' end.

(** Line ends: CR LF and CR become LF. *)
Fixpoint unix_lines (s : bytes) : bytes :=
  match s with
  | [] => []
  | b :: s' =>
    if b =? 13 then 10 :: match s' with c :: s'' => if c =? 10 then unix_lines s'' else unix_lines s' | [] => [] end
    else b :: unix_lines s'
  end.
(** A C string ends at its first NUL. *)
Fixpoint before_nul (s : bytes) : bytes :=
  match s with [] => [] | b :: s' => if b =? 0 then [] else b :: before_nul s' end.

(** The encoding of a character in UTF-8. *)
Definition utf8 (c : N) : bytes :=
  if c <? 128 then [c]
  else if c <? 2048 then [192 + c / 64; 128 + c mod 64]
  else if c <? 65536 then [224 + c / 4096; 128 + c / 64 mod 64; 128 + c mod 64]
  else [240 + c / 262144; 128 + c / 4096 mod 64; 128 + c / 64 mod 64; 128 + c mod 64].

(** References: what is between the ampersand and the semicolon, and the character. *)
Definition digit_value (d : N) : N := if d <=? 57 then d - 48 else if d <=? 70 then d - 55 else d - 87.
Definition number (base : N) (ds : bytes) : N := fold_left (fun n d => base * n + digit_value d) ds 0.
Inductive names_char : bytes -> N -> Prop :=
| ref_lt : names_char [108; 116] 60
| ref_gt : names_char [103; 116] 62
| ref_amp : names_char [97; 109; 112] 38
| ref_apos : names_char [97; 112; 111; 115] 39
| ref_quot : names_char [113; 117; 111; 116] 34
| ref_dec ds : ds <> [] -> Forall digit ds -> names_char (35 :: ds) (number 10 ds)
| ref_hex ds : ds <> [] -> Forall hexdigit ds -> names_char (35 :: 120 :: ds) (number 16 ds).
(** The characters that the parser accepts, and the length of the references that it
    accepts.  XML excludes 0xD800-0xDFFF instead of 0xDFFF-0xE7FD and has no bound. *)
Definition accepted_char (c : N) : Prop :=
  1 <= c <= 0x10FFFF /\ c <> 0xFFFE /\ c <> 0xFFFF /\ ~ (0xDFFF <= c <= 0xE7FD).
Definition reference (r : bytes) (c : N) : Prop := names_char r c /\ (length r <= 7)%nat /\ accepted_char c.

(** Attribute values between quotes [q]. *)
Definition as_space (b : N) : N := if (b =? 9) || (b =? 10) then 32 else b.
Inductive value (q : N) : bytes -> bytes -> Prop :=
| val_nil : value q [] []
| val_char b s v : b <> q -> b <> 60 -> b <> 38 -> value q s v -> value q (b :: s) (as_space b :: v)
| val_ref r c s v : reference r c -> value q s v -> value q (38 :: r ++ 59 :: s) (utf8 c ++ v).
Inductive attribute : bytes -> bytes -> bytes -> Prop :=
| attr_text n w1 w2 q s v : is_a_name n -> white w1 -> white w2 -> quote_mark q -> value q s v ->
  attribute (n ++ w1 ++ [61] ++ w2 ++ [q] ++ s ++ [q]) n v.
(** The last value given for a name counts. *)
Fixpoint assign (a : list (bytes * bytes)) (n v : bytes) : list (bytes * bytes) :=
  match a with
  | [] => [(n, v)]
  | kv :: a' => if list_eq_dec N.eq_dec n (fst kv) then (n, v) :: a' else kv :: assign a' n v
  end.
Inductive attributes : list (bytes * bytes) -> bytes -> list (bytes * bytes) -> Prop :=
| atts_nil a : attributes a [] a
| atts_cons a w s n v s' a' : white w -> w <> [] -> attribute s n v -> attributes (assign a n v) s' a' ->
  attributes a (w ++ s ++ s') a'.

(** Comments. *)
Definition comment_text (c : bytes) : Prop := forall a b, c ++ [45] <> a ++ [45; 45] ++ b.
Definition comment (s : bytes) : Prop := exists c, s = [60; 33; 45; 45] ++ c ++ [45; 45; 62] /\ comment_text c.
(** Processing instructions.  In their text a question mark and the byte that follows it are
    taken together, so that two question marks and a greater-than sign do not end it. *)
Inductive instruction_text : bytes -> Prop :=
| ins_nil : instruction_text []
| ins_char b s : b <> 63 -> instruction_text s -> instruction_text (b :: s)
| ins_pair b s : b <> 62 -> instruction_text s -> instruction_text (63 :: b :: s).
Definition named_xml (n : bytes) : Prop :=
  exists x m l, n = [x; m; l] /\ (x = 120 \/ x = 88) /\ (m = 109 \/ m = 77) /\ (l = 108 \/ l = 76).
Definition target (n : bytes) : Prop := is_a_name n /\ ~ named_xml n.
Inductive instruction : bytes -> Prop :=
| ins_short n : target n -> instruction ([60; 63] ++ n ++ [63; 62])
| ins_long n b s : target n -> space b -> instruction_text s -> instruction ([60; 63] ++ n ++ [b] ++ s ++ [63; 62]).

(** Text content.  A blank is not added to a text that is empty or ends with a blank, and a
    space is added for it to other texts.  In a CDATA section the byte after a closing
    bracket is kept as it is. *)
Definition blank (b : N) : bool := ((9 <=? b) && (b <=? 13)) || (b =? 32).
Definition add_to (kept : bool) (t : bytes) (b : N) : bytes :=
  if blank b && negb kept then if blank (last t 32) then t else t ++ [32] else t ++ [b].
Definition add_byte (kept : bool) (k : list item) (b : N) : list item :=
  match rev k with
  | Text t :: r => rev r ++ [Text (add_to kept t b)]
  | _ => match add_to kept [] b with [] => k | t => k ++ [Text t] end
  end.
Definition add_bytes (k : list item) (s : bytes) : list item := fold_left (add_byte false) s k.
Fixpoint add_cdata (k : list item) (before : N) (s : bytes) : list item :=
  match s with [] => k | b :: s' => add_cdata (add_byte (before =? 93) k b) b s' end.
Definition cdata_text (s : bytes) : Prop := forall a b, s ++ [93; 93] <> a ++ [93; 93; 62] ++ b.

(** Elements and their content: the content before, the text and the content after. *)
Definition start_tag (n s : bytes) (a : list (bytes * bytes)) : Prop :=
  exists as_ w, s = [60] ++ n ++ as_ ++ w /\ is_a_name n /\ attributes [] as_ a /\ white w.
Inductive is_element : bytes -> tree -> Prop :=
| el_empty n s a : start_tag n s a -> is_element (s ++ [47; 62]) (Elem n a [])
| el_full n s a c k w : start_tag n s a -> is_content [] c k -> white w ->
  is_element (s ++ [62] ++ c ++ [60; 47] ++ n ++ w ++ [62]) (Elem n a k)
with is_content : list item -> bytes -> list item -> Prop :=
| con_nil k : is_content k [] k
| con_char k b s k' : b <> 60 -> b <> 38 -> is_content (add_byte false k b) s k' -> is_content k (b :: s) k'
| con_ref k r c s k' : reference r c -> is_content (add_bytes k (utf8 c)) s k' -> is_content k ([38] ++ r ++ [59] ++ s) k'
| con_cdata k c s k' : cdata_text c -> is_content (add_cdata k 0 c) s k' ->
  is_content k ([60; 33; 91; 67; 68; 65; 84; 65; 91] ++ c ++ [93; 93; 62] ++ s) k'
| con_comment k c s k' : comment c -> is_content k s k' -> is_content k (c ++ s) k'
| con_instruction k p s k' : instruction p -> is_content k s k' -> is_content k (p ++ s) k'
| con_element k e t s k' : is_element e t -> is_content (k ++ [Sub t]) s k' -> is_content k (e ++ s) k'.
(** The end tag of the outermost element is different: it has no space before its
    greater-than sign, or it has a space in the place of that sign. *)
Definition end_mark (s : bytes) : Prop := s = [62] \/ exists b, s = [b] /\ space b.
Inductive is_root : bytes -> tree -> Prop :=
| root_empty n s a : start_tag n s a -> is_root (s ++ [47; 62]) (Elem n a [])
| root_full n s a c k m : start_tag n s a -> is_content [] c k -> end_mark m ->
  is_root (s ++ [62] ++ c ++ [60; 47] ++ n ++ m) (Elem n a k).

(** Document types: quoted strings, comments, instructions and declarations are skipped. *)
Inductive declaration : bytes -> Prop :=
| dec_nil : declaration []
| dec_char b s : b <> 62 -> b <> 39 -> b <> 34 -> declaration s -> declaration (b :: s)
| dec_quoted q t s : quote_mark q -> ~ In q t -> declaration s -> declaration ([q] ++ t ++ [q] ++ s).
Inductive type_text : bytes -> Prop :=
| typ_nil : type_text []
| typ_char b s : b <> 62 -> b <> 39 -> b <> 34 -> b <> 60 -> type_text s -> type_text (b :: s)
| typ_quoted q t s : quote_mark q -> ~ In q t -> type_text s -> type_text ([q] ++ t ++ [q] ++ s)
| typ_comment c s : comment c -> type_text s -> type_text (c ++ s)
| typ_instruction p s : instruction p -> type_text s -> type_text (p ++ s)
| typ_declaration b d s : b <> 45 -> declaration d -> type_text s -> type_text ([60; 33; b] ++ d ++ [62] ++ s).
Definition doctype (s : bytes) : Prop := exists t, s = [60; 33; 68; 79; 67; 84; 89; 80; 69] ++ t ++ [62] /\ type_text t.

(** What may be around the outermost element; document types only before it. *)
Inductive misc (types : bool) : bytes -> Prop :=
| misc_nil : misc types []
| misc_space b s : space b -> misc types s -> misc types (b :: s)
| misc_comment c s : comment c -> misc types s -> misc types (c ++ s)
| misc_instruction p s : instruction p -> misc types s -> misc types (p ++ s)
| misc_doctype d s : types = true -> doctype d -> misc types s -> misc types (d ++ s).

(** The XML declaration. *)
Definition equals (s : bytes) : Prop := exists w1 w2, s = w1 ++ [61] ++ w2 /\ white w1 /\ white w2.
Definition encoding_char (b : N) : Prop := letter b \/ digit b \/ b = 46 \/ b = 95 \/ b = 45.
Definition encoding_decl (s : bytes) : Prop :=
  exists w eq q b e, s = w ++ [101; 110; 99; 111; 100; 105; 110; 103] ++ eq ++ [q; b] ++ e ++ [q] /\
    white w /\ w <> [] /\ equals eq /\ quote_mark q /\ letter b /\ Forall encoding_char e.
Definition standalone_decl (s : bytes) : Prop :=
  exists w eq q v, s = w ++ [115; 116; 97; 110; 100; 97; 108; 111; 110; 101] ++ eq ++ [q] ++ v ++ [q] /\
    white w /\ w <> [] /\ equals eq /\ quote_mark q /\ (v = [121; 101; 115] \/ v = [110; 111]).
Definition xml_declaration (s : bytes) : Prop :=
  exists w eq q ds enc alone w',
    s = [60; 63; 120; 109; 108] ++ w ++ [118; 101; 114; 115; 105; 111; 110] ++ eq ++ [q; 49; 46] ++ ds ++ [q]
        ++ enc ++ alone ++ w' ++ [63; 62] /\
    white w /\ w <> [] /\ equals eq /\ quote_mark q /\ Forall digit ds /\ ds <> [] /\
    (enc = [] \/ encoding_decl enc) /\ (alone = [] \/ standalone_decl alone) /\ white w'.

(** Documents. *)
Definition is_document (s : bytes) (t : tree) : Prop :=
  exists bom w decl m r m', s = bom ++ w ++ decl ++ m ++ r ++ m' /\
    (bom = [] \/ bom = [239; 187; 191]) /\ white w /\ (decl = [] \/ xml_declaration decl) /\
    misc true m /\ is_root r t /\ misc false m'.

(** A property of the name, the attributes and the content of all elements of a tree. *)
Inductive everywhere (P : bytes -> list (bytes * bytes) -> list item -> Prop) : tree -> Prop :=
| every n a k : P n a k -> (forall t, In (Sub t) k -> everywhere P t) -> everywhere P (Elem n a k).
(** No two texts follow each other. *)
Definition texts_apart (k : list item) : Prop := forall a s s' b, k <> a ++ [Text s; Text s'] ++ b.
(** No blank follows a blank, and all blanks are spaces. *)
Definition collapsed (s : bytes) : Prop :=
  (forall a x y b, s = a ++ [x; y] ++ b -> blank x = true -> blank y = false) /\ (forall b, In b s -> blank b = true -> b = 32).

(** No closing bracket is followed by a blank. *)
Definition no_bracket_blank (s : bytes) : Prop := forall a b c, blank b = true -> s <> a ++ [93; b] ++ c.

(** Elements that are written as they are read: plain names, different attributes, values
    without quotes, markup and line ends, and collapsed texts without markup. *)
Definition plain_byte (b : N) : Prop := b <> 0 /\ b < 256 /\ b <> 60 /\ b <> 38 /\ b <> 13.
Definition sayable (n : bytes) (a : list (bytes * bytes)) (k : list item) : Prop :=
  (is_a_name n /\ Forall (fun b => b < 256) n) /\ NoDup (map fst a) /\
  Forall (fun kv => (is_a_name (fst kv) /\ Forall (fun b => b < 256) (fst kv)) /\ Forall (fun b => plain_byte b /\ b <> 34 /\ b <> 9 /\ b <> 10) (snd kv)) a /\
  texts_apart k /\ (forall s, In (Text s) k -> s <> [] /\ blank (hd 0 s) = false /\ collapsed s /\ Forall plain_byte s).
(** A tree with a space after each text that does not end with one. *)
Definition respace (s : bytes) : bytes := if blank (last s 32) then s else s ++ [32].
Fixpoint respaced (t : tree) : tree :=
  match t with
  | Elem n a k => Elem n a (map (fun i => match i with Text s => Text (respace s) | Sub t => Sub (respaced t) end) k)
  end.
