(** Proofs about the objects that parsing XML makes: what is left of them. *)
Require Import Coq.ZArith.ZArith Coq.NArith.NArith Coq.Lists.List Coq.Bool.Bool Coq.Arith.Arith Coq.micromega.Lia.
Require Import Verif.Base Verif.Own_Model Verif.Own_Spec Verif.Own_Proofs Verif.Own_Calls Verif.Own_Ends Verif.Parsed_Model Verif.Parsed_Spec Verif.Parsed_Proofs Verif.Parsed_Steps Verif.Parsed_Ends Verif.Elem_Spec Verif.Elem_Loop.
Require Verif.XML_Model Verif.Elem_Model.
Import ListNotations.

Lemma made keq os s isspace report fuel text v : obeys allowed keq init os -> run keq init os = Ok s -> XML_Model.parse isspace report fuel text = Ok v ->
  exists r s', Elem_Model.parse isspace report fuel text s = Ok (v, r, s') /\ sound s' /\ hands s' = hands s ++ somes [r] /\ untouched s s' /\ (r = None <-> v = None) /\ forall x, length (cells s) <= x -> (live s' x <-> within s' r x).
Proof.
  intros O E V. pose proof (history_inv keq os s O E) as I. destruct (parse_ok isspace report fuel text s v I V) as (r & s' & Q & (I' & B & U & L & H & _) & C). exists r, s'. split; [exact Q|]. split; [apply inv_sound, I'|]. split; [exact H|]. split; [exact B|]. split; [|exact (new_live s r s' I I' B U H)].
  destruct v as [(h & e)|]; [destruct C as (ids & -> & _); split; discriminate|subst r; split; reflexivity].
Qed.
Lemma elements_made keq os s isspace report fuel text h e r s' : obeys allowed keq init os -> run keq init os = Ok s -> XML_Model.parse isspace report fuel text = Ok (Some (h, e)) -> Elem_Model.parse isspace report fuel text s = Ok (Some (h, e), r, s') ->
  exists ids, r = Some (ids e) /\ forall i el, nth_error h i = Some el -> element_for s' ids el (ids i).
Proof.
  intros O E V Q. destruct (parse_ok isspace report fuel text s _ (history_inv keq os s O E) V) as (r1 & s1 & Q1 & _ & C). rewrite Q in Q1. injection Q1 as <- <-. exact C.
Qed.
Lemma unmade keq os s isspace report fuel text v x s' : obeys allowed keq init os -> run keq init os = Ok s -> XML_Model.parse isspace report fuel text = Ok v -> Elem_Model.parse isspace report fuel text s = Ok (v, Some x, s') ->
  exists s'', step keq s' (Release x) = Ok s'' /\ hands s'' = hands s /\ untouched s s'' /\ forall y, length (cells s) <= y -> ~ live s'' y.
Proof.
  intros O E V Q. pose proof (history_inv keq os s O E) as I. destruct (parse_ok isspace report fuel text s v I V) as (r & s1 & Q1 & (I' & B & U & L & H & R) & _). rewrite Q in Q1. injection Q1 as <- <-.
  cbn in H, R. inversion R as [|? ? X _]; subst.
  destruct (release_one keq any (next s) s' x I') as (s2 & E2 & I2 & H2 & (L2 & B2 & U2)); [rewrite H; apply in_or_app; right; left; reflexivity|exact X|exact U|]. rewrite H, take_last in H2 by (apply hands_old; auto).
  assert (B': below s s2) by (intros y Y; rewrite B2, B by exact Y; reflexivity). exists s2. split; [exact E2|]. split; [exact H2|]. split; [exact B'|]. intros y Y Lv. apply (new_live s None s2 I I2 B' U2) in Lv; [|cbn; rewrite app_nil_r; exact H2|exact Y]. destruct Lv as (w & W & _). discriminate.
Qed.
