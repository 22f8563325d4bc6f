(** Properties C132 and C133: query parameters and CSS styles. *)
Require Import Coq.ZArith.ZArith Coq.NArith.NArith Coq.Lists.List.
Require Import Verif.Base Verif.Utf8_Spec Verif.Utf8_Proofs Verif.String_Model Verif.String_Spec Verif.String_Proofs Verif.Query_Model Verif.Query_Spec.
Require Verif.Query_Proofs.
Import ListNotations.
Local Open Scope N_scope.

(** C132, the part that holds: a dictionary of non-empty strings without the characters listed in
    [escapable] comes back from its query text. *)
Theorem C132_round_trip_partial : forall es B, es <> [] -> fits (B * 12) ->
  Forall (fun e => Forall (fun s => escapable s /\ (length s <= B)%nat) (strings e)) es ->
  exists s, forall fuel, (3 * B < fuel)%nat -> combine_query fuel (Some es) = Ok s /\ split_query fuel s = Ok (Some es).
Proof. exact Query_Proofs.round_trip. Qed.
Print Assumptions C132_round_trip_partial.
(** A query text of simple keys and values is read as these. *)
Theorem C132_read_partial : forall fuel es, (0 < fuel)%nat -> es <> [] ->
  Forall (fun e => Forall (fun s => simple s /\ fits (length s)) (strings e)) es ->
  split_query fuel (query es) = Ok (Some es).
Proof. exact Query_Proofs.read_query. Qed.
Print Assumptions C132_read_partial.
(** C132 is false for an empty value, an empty key, no entries, and an at sign. *)
Theorem C132_round_trip_refuted :
  (exists s, combine_query 20 (Some [([107], Some [])]) = Ok s /\ split_query 20 s = Ok (Some [([107], None)])) /\
  (exists s, combine_query 20 (Some [([], Some [118])]) = Ok s /\ split_query 20 s = Ok (Some [([61; 118], None)])) /\
  (exists s, combine_query 20 (Some []) = Ok s /\ split_query 20 s = Ok None) /\
  (exists s, combine_query 20 (Some [([109], Some [97; 64; 98])]) = Ok s /\ split_query 20 s = Ok (Some [([109], Some [97; 37; 52; 48; 98])])).
Proof.
  split; [|split; [|split]].
  - exists [107; 61]. split; vm_compute; reflexivity.
  - exists [61; 118]. split; vm_compute; reflexivity.
  - exists []. split; reflexivity.
  - exists [109; 61; 97; 37; 50; 53; 52; 48; 98]. split; vm_compute; reflexivity.
Qed.
Print Assumptions C132_round_trip_refuted.
(** The query q=%22x%22 is read as a value that is not text. *)
Theorem C132_quotes_refuted : exists v, split_query 20 [113; 61; 37; 50; 50; 120; 37; 50; 50] = Ok (Some [([113], Some v)]) /\ forall cs, text cs -> v <> encode cs.
Proof. exact Query_Proofs.quotes. Qed.
Print Assumptions C132_quotes_refuted.
(** The dictionary with k = a&b/c and the key l without value. *)
Example C132_case : Forall (fun e => Forall (fun s => escapable s /\ (length s <= 5)%nat) (strings e)) [([107], Some [97; 38; 98; 47; 99]); ([108], None)] /\
  combine_query 20 (Some [([107], Some [97; 38; 98; 47; 99]); ([108], None)]) = Ok [107; 61; 97; 37; 50; 54; 98; 37; 50; 70; 99; 38; 108].
Proof. split; [exact Query_Proofs.query_case|vm_compute; reflexivity]. Qed.

(** C133: the styles of a text are its declarations, without white space around keys and values;
    [isspace] is the function of the C library, where it is defined. *)
Theorem C133_styles_partial : forall isspace space ps s, ps <> [] -> Forall piece_ok ps -> style_text ps s ->
  (forall c, In c s -> isspace (Z.of_N c) = Ok (space c)) ->
  exists es, split_styles isspace (encode s) = Ok (Some (map (fun e => (encode (fst e), encode (snd e))) es)) /\ declared space ps es.
Proof. exact Query_Proofs.read_styles. Qed.
Print Assumptions C133_styles_partial.
(** C133 is false for a value with a colon, as in b:url(h:x), which is dropped. *)
Theorem C133_colon_refuted : split_styles c_isspace [97; 58; 120; 59; 98; 58; 117; 114; 108; 40; 104; 58; 120; 41] = Ok (Some [([97], [120])]).
Proof. vm_compute. reflexivity. Qed.
Print Assumptions C133_colon_refuted.
(** The text " a : b; c:d;" *)
Example C133_case : Forall piece_ok [Declaration [32; 97; 32] [32; 98]; Declaration [32; 99] [100]] /\
  style_text [Declaration [32; 97; 32] [32; 98]; Declaration [32; 99] [100]] [32; 97; 32; 58; 32; 98; 59; 32; 99; 58; 100; 59] /\
  split_styles c_isspace [32; 97; 32; 58; 32; 98; 59; 32; 99; 58; 100; 59] = Ok (Some [([97], [98]); ([99], [100])]).
Proof. split; [exact Query_Proofs.styles_case|]. split; [apply after_each|vm_compute; reflexivity]. Qed.
