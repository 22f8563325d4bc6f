(** The objects for the elements of an XML document. *)
Require Import Coq.Lists.List.
Require Import Verif.Own_Model Verif.Parsed_Spec.
Require Verif.XML_Model.
Import ListNotations.

(** [x] is the object for the element [el]: it has a name, a dictionary with a string for each attribute, in
    their order, and a list with a string for each text and the object for each element, in their order.  [ids] gives the
    objects for the other elements. *)
Definition element_for (s : state) (ids : nat -> nat) (el : XML_Model.element) (x : nat) : Prop :=
  exists n name attributes elements, nth_error (cells s) x = Some (Live n (Lnk [Some name; Some attributes; Some elements])) /\ leaf s name /\
    (exists m es, nth_error (cells s) attributes = Some (Live m (Hash es)) /\
      Forall2 (fun _ e => leaf s (fst e) /\ exists v, snd e = Some v /\ leaf s v) (XML_Model.eattributes el) es) /\
    (exists m rs, nth_error (cells s) elements = Some (Live m (Arr rs)) /\
      Forall2 (fun c r => match c with XML_Model.CText _ => exists t, r = Some t /\ leaf s t | XML_Model.CElement i => r = Some (ids i) end) (XML_Model.eelements el) rs).
