(** Properties C25, C27-C33, C61 and C69-C71: string objects. *)
Require Import Coq.ZArith.ZArith Coq.NArith.NArith Coq.Lists.List Coq.Bool.Bool Coq.Arith.Arith.
Require Import Verif.Base Verif.Array_Model Verif.Utf8_Spec.
Require Import Verif.String_Model Verif.String_Spec Verif.String_Proofs Verif.String_Lists Verif.String_Wrap Verif.String_Path Verif.String_Escape Verif.String_Cases.
Require Import Verif.StrObj_Model Verif.StrObj_Spec Verif.StrObj_Proofs.
Import ListNotations.
Local Open Scope N_scope.

(** C25: string objects. *)
Theorem C25_string_length : forall cs, text cs -> str_length (encode cs) = Ok (length cs).
Proof. exact length_ok. Qed.
Print Assumptions C25_string_length.
Theorem C25_string_character : forall cs index, text cs ->
  char_at (encode cs) index =
  Ok (match (if (0 <=? index)%Z then nth_error cs (Z.to_nat index) else None) with
      | Some c => (Z.of_N c, utf8 c)
      | None => (0%Z, [])
      end).
Proof. exact char_at_ok. Qed.
Print Assumptions C25_string_character.
Theorem C25_string_substring : forall cs loc len, text cs -> fits (length (encode cs)) ->
  (- INT64_MAX - 1 <= loc <= INT64_MAX)%Z -> (len <= INT64_MAX)%Z ->
  substring (encode cs) loc len =
  Ok (if ((0 <=? loc) && (0 <? len) && (loc + len <=? Z.of_nat (length cs)))%Z
      then Some (encode (firstn (Z.to_nat len) (skipn (Z.to_nat loc) cs))) else None).
Proof. exact substring_ok. Qed.
Print Assumptions C25_string_substring.
Theorem C25_string_substring_from : forall cs index, text cs -> cs <> [] -> fits (length (encode cs)) -> (index <= INT64_MAX)%Z ->
  substring_from (encode cs) index =
  Ok (if ((0 <=? index) && (index <=? Z.of_nat (length cs)))%Z then Some (encode (skipn (Z.to_nat index) cs)) else None).
Proof. exact substring_from_ok. Qed.
Print Assumptions C25_string_substring_from.
Theorem C25_string_substring_to : forall cs index, text cs -> cs <> [] -> fits (length (encode cs)) -> (index <= INT64_MAX)%Z ->
  substring_to (encode cs) index =
  Ok (if ((0 <=? index) && (index <=? Z.of_nat (length cs)))%Z then Some (encode (firstn (Z.to_nat index) cs)) else None).
Proof. exact substring_to_ok. Qed.
Print Assumptions C25_string_substring_to.
Example C25_string_case : text [104; 233; 8364] /\ fits (length (encode [104; 233; 8364])) /\
  substring (encode [104; 233; 8364]) 1 2 = Ok (Some (encode [233; 8364])) /\ substring_from (encode [104; 233; 8364]) 2 = Ok (Some (encode [8364])).
Proof. exact substring_case. Qed.

(** C27: after any history of creations, copies, edits, hashes and comparisons
    that does not set the byte length, equality is equality of contents and
    equal strings have equal hashes.  Missing: DKStringSetByteLength, for which
    it is false. *)
Theorem C27_hash_and_equality_partial : forall os w rs a b c d m n, Forall safe_op os -> arun astart os = Some (w, rs) ->
  nth_error w a = Some (c, m) -> nth_error w b = Some (d, n) -> ~ In 0 c -> ~ In 0 d ->
  exists v e ha hb, srun start (os ++ [OEqual a b; OHash a; OHash b]) = Ok (v, rs ++ [REqual e; RHash ha; RHash hb]) /\
    (e = true <-> c = d) /\ (e = true -> ha = hb).
Proof. exact equal_and_hash. Qed.
Print Assumptions C27_hash_and_equality_partial.
Theorem C27_history_partial : forall os w rs, Forall safe_op os -> arun astart os = Some (w, rs) ->
  exists v, srun start os = Ok (v, rs) /\ map abs1 v = w.
Proof. exact histories. Qed.
Print Assumptions C27_history_partial.
(** False in general: after setting the byte length, strings with the same
    contents compare unequal; and the shared empty string can be spoiled. *)
Theorem C27_set_length_refuted : exists os v rs, srun start os = Ok (v, rs ++ [REqual false]) /\
  exists a b c m n, last os (ONew true []) = OEqual a b /\ nth_error (map abs1 v) a = Some (c, m) /\ nth_error (map abs1 v) b = Some (c, n).
Proof. exact stale_hash. Qed.
Print Assumptions C27_set_length_refuted.
Theorem C27_shared_empty_refuted : exists os v rs, srun start os = Ok (v, rs ++ [RAddr 0; REqual false]) /\
  exists b c, last os (ONew true []) = OEqual 0 b /\ nth_error (map abs1 v) 0 = Some (c, false) /\ nth_error (map abs1 v) b = Some (c, true).
Proof. exact stale_empty. Qed.
Print Assumptions C27_shared_empty_refuted.
Example C27_case : Forall safe_op [ONew true [97; 98]; OHash 1; OEdit 1 1 1 []; ONew false [97]; OCopy true 2] /\
  arun astart [ONew true [97; 98]; OHash 1; OEdit 1 1 1 []; ONew false [97]; OCopy true 2] =
    Some ([([], false); ([97], true); ([97], false); ([97], true)], [RAddr 1; RHash 3105; RNone; RAddr 2; RAddr 3]).
Proof. exact history_case. Qed.

(** C28: string objects. *)
Theorem C28_string_range : forall cs pat start, text cs -> text pat -> pat <> [] -> fits (length (encode cs)) -> (start <= length cs)%nat ->
  exists o, range_of_string (encode cs) (encode pat) (Z.of_nat start) = Ok o /\
  match o with
  | Some (l, n) => exists i, l = Z.of_nat i /\ n = length pat /\ first_from pat cs start i
  | None => forall i, (start <= i)%nat -> ~ occurs_at pat cs i
  end.
Proof. exact range_ok. Qed.
Print Assumptions C28_string_range.
Theorem C28_string_prefix : forall cs pat, text cs -> text pat -> pat <> [] -> fits (length (encode cs)) ->
  exists b, has_prefix (encode cs) (encode pat) = Ok b /\ (b = true <-> exists post, cs = pat ++ post).
Proof. exact has_prefix_ok. Qed.
Print Assumptions C28_string_prefix.
Theorem C28_string_substring : forall cs pat, text cs -> text pat -> pat <> [] -> fits (length (encode cs)) ->
  exists b, has_substring (encode cs) (encode pat) = Ok b /\ (b = true <-> exists pre post, cs = pre ++ pat ++ post).
Proof. exact has_substring_ok. Qed.
Print Assumptions C28_string_substring.
Theorem C28_string_suffix : forall cs pat, text cs -> text pat -> pat <> [] -> fits (length (encode cs)) ->
  exists b, has_suffix (encode cs) (encode pat) = Ok b /\ (b = true <-> exists pre, cs = pre ++ pat).
Proof. exact has_suffix_ok. Qed.
Print Assumptions C28_string_suffix.
(** A start position beyond the end is undefined behaviour. *)
Theorem C28_start_beyond_end_refuted : exists cs pat start, text cs /\ text pat /\ pat <> [] /\ range_of_string (encode cs) (encode pat) start = UB.
Proof. exact range_beyond. Qed.
Print Assumptions C28_start_beyond_end_refuted.
(** The empty string is not a prefix or suffix of anything. *)
Theorem C28_empty_prefix_refuted : exists cs, text cs /\ has_prefix (encode cs) [] = Ok false /\ has_suffix (encode cs) [] = Ok false.
Proof. exact empty_prefix. Qed.
Print Assumptions C28_empty_prefix_refuted.
Example C28_string_case : text [233; 97; 98; 97; 98] /\ text [97; 98] /\
  range_of_string (encode [233; 97; 98; 97; 98]) (encode [97; 98]) 0 = Ok (Some (1%Z, 2%nat)) /\
  range_of_string (encode [233; 97; 98; 97; 98]) (encode [97; 98]) 2 = Ok (Some (3%Z, 2%nat)).
Proof. exact range_case. Qed.

(** C29 for ASCII.  Missing: other text, where it is false because character
    positions are used as byte positions. *)
Theorem C29_replace_partial : forall cs pat rep, ascii cs -> ascii pat -> ascii rep -> pat <> [] -> fits (length cs * S (length rep)) ->
  exists out, (forall fuel, (length cs < fuel)%nat -> replace_occurrences fuel cs pat rep = Ok out) /\ replaced pat rep cs out.
Proof. exact replace_ok. Qed.
Print Assumptions C29_replace_partial.
Theorem C29_replaced_unique : forall pat rep cs o1, replaced pat rep cs o1 -> forall o2, replaced pat rep cs o2 -> o1 = o2.
Proof. exact replaced_fun. Qed.
Print Assumptions C29_replaced_unique.
Theorem C29_misses_refuted : exists cs pat rep, text cs /\ text pat /\ text rep /\ pat <> [] /\ (exists i, occurs_at pat cs i) /\ pat <> rep /\
  replace_occurrences 10 (encode cs) (encode pat) (encode rep) = Ok (encode cs).
Proof. exact replace_misses. Qed.
Print Assumptions C29_misses_refuted.
Theorem C29_damages_refuted : exists cs pat rep out, text cs /\ text pat /\ text rep /\ pat <> [] /\
  replace_occurrences 10 (encode cs) (encode pat) (encode rep) = Ok out /\ forall cs', text cs' -> out <> encode cs'.
Proof. exact replace_damages. Qed.
Print Assumptions C29_damages_refuted.
Theorem C29_nonterminating_refuted : forall fuel, (Z.of_nat fuel < 2^62)%Z ->
  replace_occurrences fuel (encode [233; 97]) (encode [97]) (encode [233]) = NoFuel.
Proof. exact replace_nonterminating. Qed.
Print Assumptions C29_nonterminating_refuted.
Example C29_case : ascii [97; 97; 97; 98] /\ ascii [97; 97] /\ ascii [120] /\ fits (4 * 2) /\
  replace_occurrences 5 [97; 97; 97; 98] [97; 97] [120] = Ok [120; 97; 98].
Proof. exact replace_case. Qed.

(** C30 *)
Theorem C30_split_of_join : forall sep comps, text sep -> sep <> [] -> Forall text comps -> Forall (separable sep) comps ->
  String_Model.split (String_Model.combine (map encode comps) (encode sep)) (encode sep) = Ok (map encode comps).
Proof. exact split_join. Qed.
Print Assumptions C30_split_of_join.
Theorem C30_separable : forall ch c, c <> [] -> ~ In ch c -> separable [ch] c.
Proof. exact separable_char. Qed.
Print Assumptions C30_separable.
(** The join of the split is the text, except that a separator at the end can
    be lost. *)
Theorem C30_join_of_split_partial : forall cs sep, text cs -> text sep -> sep <> [] ->
  exists l, String_Model.split (encode cs) (encode sep) = Ok l /\
    (String_Model.combine l (encode sep) = encode cs \/ String_Model.combine l (encode sep) ++ encode sep = encode cs).
Proof. exact join_split. Qed.
Print Assumptions C30_join_of_split_partial.
Theorem C30_last_separator_refuted : exists cs sep l, text cs /\ text sep /\ sep <> [] /\ String_Model.split (encode cs) (encode sep) = Ok l /\
  String_Model.combine l (encode sep) <> encode cs.
Proof. exact split_last. Qed.
Print Assumptions C30_last_separator_refuted.
(** A component can contain the separator. *)
Theorem C30_adjacent_separators_refuted : exists cs sep l, text cs /\ text sep /\ sep <> [] /\ String_Model.split (encode cs) (encode sep) = Ok (map encode l) /\
  Exists (fun c => exists i, occurs_at sep c i) l.
Proof. exact split_adjacent. Qed.
Print Assumptions C30_adjacent_separators_refuted.
Example C30_case : text [44; 32] /\ Forall text [[97]; [233; 98]] /\ Forall (separable [44; 32]) [[97]; [233; 98]] /\
  String_Model.split (encode [97; 44; 32; 233; 98]) (encode [44; 32]) = Ok [encode [97]; encode [233; 98]].
Proof. exact split_case. Qed.

(** C31: every path has one reading as components, and the standardised path is
    the standard form of the same components. *)
Theorem C31_standardize : forall s abs comps, cstring s -> path_of s abs comps -> standardize s = Ok (render abs comps).
Proof. exact standardize_path. Qed.
Print Assumptions C31_standardize.
Theorem C31_reading : forall s, exists abs comps, path_of s abs comps /\ Forall component comps /\
  forall abs' comps', path_of s abs' comps' -> abs' = abs /\ comps' = comps.
Proof. exact path_reading. Qed.
Print Assumptions C31_reading.
Theorem C31_idempotent : forall s t, cstring s -> standardize s = Ok t -> standardize t = Ok t.
Proof. exact standardize_idempotent. Qed.
Print Assumptions C31_idempotent.
Theorem C31_same_path : forall s t abs comps, cstring s -> standardize s = Ok t -> path_of s abs comps -> path_of t abs comps.
Proof. exact standardize_same. Qed.
Print Assumptions C31_same_path.
Example C31_case : cstring [47; 47; 97; 47; 47; 98; 47] /\ path_of [47; 47; 97; 47; 47; 98; 47] true [[97]; [98]] /\
  standardize [47; 47; 97; 47; 47; 98; 47] = Ok [47; 97; 47; 98].
Proof. exact path_case. Qed.

(** C32 for texts on which isspace is defined. *)
Theorem C32_trim_partial : forall isspace space cs, text cs -> (forall c, In c cs -> isspace (Z.of_N c) = Ok (space c)) ->
  exists mid, trim isspace (encode cs) = Ok (encode mid) /\ trimmed space cs mid /\ trim isspace (encode mid) = Ok (encode mid).
Proof. exact trim_idem. Qed.
Print Assumptions C32_trim_partial.
(** Characters above 255 are passed to isspace, which is undefined for them. *)
Theorem C32_trim_undefined_refuted : exists cs, text cs /\ trim c_isspace (encode cs) = UB.
Proof. exact trim_undefined. Qed.
Print Assumptions C32_trim_undefined_refuted.
Theorem C32_latin : forall c, 0 < c < 256 -> c_isspace (Z.of_N c) = Ok (blank c).
Proof. exact isspace_latin. Qed.
Print Assumptions C32_latin.
Example C32_case : text [32; 233; 9; 97; 10] /\ trimmed blank [32; 233; 9; 97; 10] [233; 9; 97] /\
  trim c_isspace (encode [32; 233; 9; 97; 10]) = Ok (encode [233; 9; 97]).
Proof. exact trim_case. Qed.

(** C33 for ASCII without the characters listed in [plainly]. *)
Theorem C33_percent_partial : forall cs, Forall plainly cs -> fits (length cs * 12) ->
  exists esc, (forall fuel, (3 * length cs < fuel)%nat -> add_escapes fuel cs = Ok esc) /\
    (forall fuel, (3 * length cs < fuel)%nat -> remove_escapes fuel esc = Ok cs).
Proof. exact percent_round_trip. Qed.
Print Assumptions C33_percent_partial.
(** "@" comes back as "%40". *)
Theorem C33_percent_refuted : forall fuel, (10 <= fuel)%nat -> exists esc, add_escapes fuel [64] = Ok esc /\ remove_escapes fuel esc = Ok [37; 52; 48].
Proof. exact percent_refuted. Qed.
Print Assumptions C33_percent_refuted.
Example C33_case : Forall plainly [97; 38; 47; 98] /\ fits (4 * 12) /\ add_escapes 20 [97; 38; 47; 98] = Ok [97; 37; 50; 54; 37; 50; 70; 98].
Proof. exact percent_case. Qed.

(** C61: whatever requests threads make, in any interleaving, a finished request
    has a live object with the requested contents (unless it asked not to insert),
    and two finished requests have the same object iff they asked for the same
    contents. *)
Theorem C61_constant_strings : forall rs sched g ts, iruns (mkSh None []) (initially rs) sched = Ok (g, ts) ->
  forall i t r, nth_error ts i = Some t -> pc t = IDone r ->
    exists want, nth_error rs i = Some (req t, want) /\
    (want = true -> r <> None) /\
    (forall a, r = Some a -> nth_error (objects g) a = Some (req t, true)) /\
    (forall j u a b, nth_error ts j = Some u -> pc u = IDone (Some b) -> r = Some a -> (a = b <-> req t = req u)).
Proof. exact interning. Qed.
Print Assumptions C61_constant_strings.
Example C61_case : exists g ts, iruns (mkSh None []) (initially [([97], true); ([97], true); ([98], true); ([97], false)])
    [0; 1; 0; 1; 2; 0; 1; 0; 1; 3; 3; 1; 0; 0; 1; 1; 2; 2; 2; 2]%nat = Ok (g, ts) /\
  map pc ts = [IDone (Some 1%nat); IDone (Some 1%nat); IDone (Some 2%nat); IDone None] /\ nth_error (objects g) 0 = Some ([97], false).
Proof. exact interning_case. Qed.

(** C69 *)
Theorem C69_filter : forall (St : Type) f g cs (st : St),
  (forall st i j c, In c cs -> g st i j (utf8 c) (Z.of_N c) = f st i j c) -> text cs ->
  filter_string St g st (encode cs) = Ok (fst (filtered f st 0 0 cs), encode (snd (filtered f st 0 0 cs))).
Proof. exact filter_string_ok. Qed.
Print Assumptions C69_filter.
Example C69_case : text [97; 233; 98; 99] /\
  filter_string nat (fun st i j u ch => (S st, (Z.leb 98 ch, Z.eqb ch 98))) 0%nat (encode [97; 233; 98; 99]) = Ok (3%nat, encode [233; 98]).
Proof. exact filter_case. Qed.

(** C70 *)
Theorem C70_append_component : forall s abs comps q aq cq, cstring s -> cstring q -> path_of s abs comps -> path_of q aq cq ->
  append_path_component s q = Ok (if (0 <? length s)%nat then render abs (comps ++ cq) else render aq cq).
Proof. exact append_component_ok. Qed.
Print Assumptions C70_append_component.
Theorem C70_last_component : forall cs abs l c, text cs -> path_of cs abs (l ++ [c]) -> last_path_component (encode cs) = Ok (encode c).
Proof. exact last_component_ok. Qed.
Print Assumptions C70_last_component.
Theorem C70_delete_last_component : forall cs abs l c, text cs -> path_of cs abs (l ++ [c]) -> delete_last_path_component (encode cs) = Ok (encode (render abs l)).
Proof. exact delete_last_ok. Qed.
Print Assumptions C70_delete_last_component.
Theorem C70_delete_root : forall cs abs, text cs -> path_of cs abs [] -> delete_last_path_component (encode cs) = Ok (encode (render abs [])).
Proof. exact delete_last_root. Qed.
Print Assumptions C70_delete_root.
Theorem C70_extension : forall cs abs l c e, text cs -> path_of cs abs (l ++ [c]) -> text e -> ~ In slash e -> ~ In dot e ->
  append_path_extension (encode cs) (encode e) = Ok (encode (render abs (l ++ [c ++ dot :: e]))) /\
  path_extension (encode (render abs (l ++ [c ++ dot :: e]))) = Ok (encode e) /\
  delete_path_extension (encode (render abs (l ++ [c ++ dot :: e]))) = Ok (encode (render abs (l ++ [c]))).
Proof. exact extension_ok. Qed.
Print Assumptions C70_extension.
(** A root written with more than one separator is its own last component,
    though the root has none. *)
Theorem C70_root_component_refuted : exists cs, text cs /\ path_of cs true [] /\ last_path_component (encode cs) = Ok (encode cs) /\ cs <> [] /\ last_path_component (encode [slash]) = Ok [].
Proof. exact root_component. Qed.
Print Assumptions C70_root_component_refuted.
Example C70_case : text [47; 97; 47; 47; 98; 47] /\ path_of [47; 97; 47; 47; 98; 47] true ([[97]] ++ [[98]]) /\
  last_path_component (encode [47; 97; 47; 47; 98; 47]) = Ok (encode [98]).
Proof. exact component_case. Qed.

(** C71 for ASCII without carriage returns. *)
Theorem C71_wrap_partial : forall cs g, ascii cs -> ~ In 13 cs ->
  exists lines, wrap cs g = Ok lines /\ flat_map words lines = words cs /\
    Forall (fun l => (length l <= g)%nat \/ (~ In 32 l /\ ~ In 9 l /\ ~ In 10 l)) lines.
Proof. exact wrap_ok. Qed.
Print Assumptions C71_wrap_partial.
Theorem C71_return_refuted : exists cs g lines, ascii cs /\ wrap cs g = Ok lines /\ flat_map words lines <> words cs.
Proof. exact wrap_return_refuted. Qed.
Print Assumptions C71_return_refuted.
Theorem C71_multibyte_refuted : exists cs g lines, text cs /\ wrap (encode cs) g = Ok lines /\ exists l, In l lines /\ forall t, text t -> encode t <> l.
Proof. exact wrap_multibyte_refuted. Qed.
Print Assumptions C71_multibyte_refuted.
Example C71_case : ascii [97; 98; 32; 99; 32; 100; 101] /\ wrap [97; 98; 32; 99; 32; 100; 101] 4 = Ok [[97; 98; 32; 99]; [100; 101]].
Proof. exact wrap_case. Qed.
