(** Property C185: what parsing JSON makes. *)
Require Import Coq.NArith.NArith Coq.Lists.List Coq.Bool.Bool Coq.Arith.Arith.
Require Import Verif.Base Verif.Own_Model Verif.Own_Spec Verif.Parsed_Spec.
Require Verif.JSON_Model Verif.Parsed_Model Verif.Parsed_Ends.
Import ListNotations.

(** C185: after any history, parsing a text, accepted or not, gives the value of JSON_Model and one
    reference to the object for it, if there is one; all that was there before stays as it was; and of what
    was made, exactly that object and what is in it is left.  (Texts whose parsing is undefined: C39.) *)
Theorem C185_made :
  forall keq os s vec text v, obeys allowed keq init os -> run keq init os = Ok s -> JSON_Model.json_parse vec text = Ok v ->
    exists r s', Parsed_Model.json_parse vec text s = Ok (v, r, s') /\ sound s' /\ hands s' = hands s ++ somes [r] /\ untouched s s' /\
      forall x, length (cells s) <= x -> (live s' x <-> within s' r x).
Proof. exact Parsed_Ends.made. Qed.
Print Assumptions C185_made.
(** That object is the one for the value: a list has the objects for its values, in their order, and a
    dictionary one entry for each key, with the object for the last value given to it. *)
Theorem C185_stands :
  forall keq os s vec text v r s', obeys allowed keq init os -> run keq init os = Ok s -> JSON_Model.json_parse vec text = Ok v -> Parsed_Model.json_parse vec text s = Ok (v, r, s') -> stands_for s' v r.
Proof. exact Parsed_Ends.objects. Qed.
Print Assumptions C185_stands.
(** And when that reference is released, all of it is freed and everything is as before. *)
Theorem C185_released :
  forall keq os s vec text v x s', obeys allowed keq init os -> run keq init os = Ok s -> JSON_Model.json_parse vec text = Ok v -> Parsed_Model.json_parse vec text s = Ok (v, Some x, s') ->
    exists s'', step keq s' (Release x) = Ok s'' /\ hands s'' = hands s /\ untouched s s'' /\ forall y, length (cells s) <= y -> ~ live s'' y.
Proof. exact Parsed_Ends.unmade. Qed.
Print Assumptions C185_released.

(** A dictionary with a key twice, a list with a boolean, null and an empty list, after a history with a list:
    the first value and the strings read as keys are freed. *)
Definition some_text : list N := [123; 34; 97; 34; 58; 49; 44; 34; 97; 34; 58; 91; 116; 114; 117; 101; 44; 110; 117; 108; 108; 44; 91; 93; 93; 125]%N.
Example C185_case :
  obeys allowed Nat.eqb init [New (Arr [])] /\ run Nat.eqb init [New (Arr [])] = Ok (mkS [Live 1 (Arr [])] [0]) /\
  JSON_Model.json_parse false some_text = Ok (JSON_Model.JObj [([97]%N, JSON_Model.JArr [JSON_Model.JBool true; JSON_Model.JNull; JSON_Model.JArr []])]) /\
  Parsed_Model.json_parse false some_text (mkS [Live 1 (Arr [])] [0]) =
    Ok (JSON_Model.JObj [([97]%N, JSON_Model.JArr [JSON_Model.JBool true; JSON_Model.JNull; JSON_Model.JArr []])], Some 1,
        mkS [Live 1 (Arr []); Live 1 (Hash [(4, Some 6)]); Freed; Freed; Live 1 Leaf; Freed; Live 1 (Arr [None; None; Some 7]); Live 1 (Arr []); Freed] [0; 1]).
Proof. split; [split; [exact Logic.I|intros; exact Logic.I]|]. split; [reflexivity|]. split; vm_compute; reflexivity. Qed.
(** A text that is rejected in the middle leaves nothing. *)
Example C185_rejected :
  JSON_Model.json_parse false [91; 34; 97; 34; 44; 123; 34; 98; 34; 58; 91; 49; 125]%N = Ok JSON_Model.JNull /\
  Parsed_Model.json_parse false [91; 34; 97; 34; 44; 123; 34; 98; 34; 58; 91; 49; 125]%N init = Ok (JSON_Model.JNull, None, mkS [Freed; Freed; Freed; Freed; Freed; Freed] []).
Proof. split; vm_compute; reflexivity. Qed.
