(** Property C186: what parsing XML makes. *)
Require Import Coq.ZArith.ZArith Coq.NArith.NArith Coq.Lists.List Coq.Bool.Bool Coq.Arith.Arith.
Require Import Verif.Base Verif.Own_Model Verif.Own_Spec Verif.Parsed_Spec Verif.Elem_Spec.
Require Verif.XML_Model Verif.XML_Props Verif.Elem_Model Verif.Elem_Ends.
Import ListNotations.

(** C186: after any history, parsing a text, accepted or not, gives the elements of XML_Model and one reference to
    the object for the first, if there is one; all that was there before stays as it was; and of what was
    made, exactly that object and what is in it is left.  (Texts whose parsing is undefined: C118.) *)
Theorem C186_made :
  forall keq os s isspace report fuel text v, obeys allowed keq init os -> run keq init os = Ok s -> XML_Model.parse isspace report fuel text = Ok v ->
    exists r s', Elem_Model.parse isspace report fuel text s = Ok (v, r, s') /\ sound s' /\ hands s' = hands s ++ somes [r] /\ untouched s s' /\ (r = None <-> v = None) /\
      forall x, length (cells s) <= x -> (live s' x <-> within s' r x).
Proof. exact Elem_Ends.made. Qed.
Print Assumptions C186_made.
(** There is an object for each element; the one returned is that for the first; each has a name, one string for each attribute
    and one object for each text and element in it, in their order. *)
Theorem C186_elements :
  forall keq os s isspace report fuel text h e r s', obeys allowed keq init os -> run keq init os = Ok s -> XML_Model.parse isspace report fuel text = Ok (Some (h, e)) -> Elem_Model.parse isspace report fuel text s = Ok (Some (h, e), r, s') ->
    exists ids, r = Some (ids e) /\ forall i el, nth_error h i = Some el -> element_for s' ids el (ids i).
Proof. exact Elem_Ends.elements_made. Qed.
Print Assumptions C186_elements.
(** And when that reference is released, all of it is freed and everything is as before. *)
Theorem C186_released :
  forall keq os s isspace report fuel text v x s', obeys allowed keq init os -> run keq init os = Ok s -> XML_Model.parse isspace report fuel text = Ok v -> Elem_Model.parse isspace report fuel text s = Ok (v, Some x, s') ->
    exists s'', step keq s' (Release x) = Ok s'' /\ hands s'' = hands s /\ untouched s s'' /\ forall y, length (cells s) <= y -> ~ live s'' y.
Proof. exact Elem_Ends.unmade. Qed.
Print Assumptions C186_released.

(** An element with an attribute given twice, a text and an element, after a history with a list: the stack, the first value
    and the second name of the attribute are freed. *)
Definition some_text : list N := [60; 97; 32; 98; 61; 34; 49; 34; 32; 98; 61; 34; 50; 34; 62; 120; 60; 99; 47; 62; 60; 47; 97; 62]%N.
Example C186_case :
  obeys allowed Nat.eqb init [New (Arr [])] /\ run Nat.eqb init [New (Arr [])] = Ok (mkS [Live 1 (Arr [])] [0]) /\
  exists h, XML_Model.parse XML_Props.sp XML_Props.ignore 1 some_text = Ok (Some (h, 0)) /\ length h = 2 /\
  Elem_Model.parse XML_Props.sp XML_Props.ignore 1 some_text (mkS [Live 1 (Arr [])] [0]) =
    Ok (Some (h, 0), Some 2,
        mkS [Live 1 (Arr []); Freed; Live 1 (Lnk [Some 3; Some 4; Some 5]); Live 1 Leaf; Live 1 (Hash [(7, Some 8)]); Live 1 (Arr [Some 10; Some 11]); Freed; Live 1 Leaf; Live 1 Leaf; Freed; Live 1 Leaf;
             Live 1 (Lnk [Some 12; Some 13; Some 14]); Live 1 Leaf; Live 1 (Hash []); Live 1 (Arr [])] [0; 2]).
Proof. split; [split; [exact Logic.I|intros; exact Logic.I]|]. split; [reflexivity|]. eexists. split; [vm_compute; reflexivity|]. split; [reflexivity|]. vm_compute. reflexivity. Qed.
(** A text that is rejected in the middle of an attribute leaves nothing. *)
Example C186_rejected :
  XML_Model.parse XML_Props.sp XML_Props.ignore 1 [60; 97; 62; 60; 99; 32; 98; 61; 34; 49]%N = Ok None /\
  exists s, Elem_Model.parse XML_Props.sp XML_Props.ignore 1 [60; 97; 62; 60; 99; 32; 98; 61; 34; 49]%N init = Ok (None, None, s) /\ hands s = [] /\ Forall (eq Freed) (cells s) /\ length (cells s) = 10.
Proof. split; [vm_compute; reflexivity|]. eexists. split; [vm_compute; reflexivity|]. split; [reflexivity|]. split; [repeat constructor|reflexivity]. Qed.
