(** Model of the objects that parsing XML makes and releases: INTERNAL_DKXMLParse and DKXMLParse, Source/DKXML.c
    178-356, over the objects and references of Own_Model.  What is read, and when it is accepted, is as in
    XML_Model, whose state is carried along; here is what each token does to the objects.  An element
    (47-54) is written as a list [Lnk] of its name, attributes and elements, which are released in this order when it is
    finalized (80-87).  The default classes are used: arrays (DKList.c 68-74) and hash tables (DKDictionary.c
    68-74).  DKAutorelease leaves the reference with the program until the pool is popped. *)
Require Import Coq.ZArith.ZArith Coq.NArith.NArith Coq.Lists.List Coq.Bool.Bool Coq.Arith.Arith.
Require Import Verif.Base.
Require Verif.Stream_Model Verif.Utf8_Model Verif.XML_Model Verif.Own_Model Verif.Parsed_Model Verif.HashTable_Model.
Import ListNotations.

Notation state := Own_Model.state.
Notation ref := (option nat).
(** The variables of INTERNAL_DKXMLParse, 218-226, that are objects; [texts] are the names of attributes. *)
Record objects : Type := mkO { heap : state; pile : nat; root : ref; value : ref; texts : list (nat * list N) }.
(** 263-266: a new element with its three parts. *)
Definition new_element (s : state) : state :=
  let e := Parsed_Model.next s in
  Own_Model.mkS (Own_Model.cells s ++
      [Own_Model.Live 1 (Own_Model.Lnk [Some (1 + e); Some (2 + e); Some (3 + e)]); Own_Model.Live 1 Own_Model.Leaf; Own_Model.Live 1 (Own_Model.Hash []); Own_Model.Live 1 (Own_Model.Arr [])])
    (Own_Model.hands s ++ [e]).
(** DKListGetLastObject, DKList.c 366-379. *)
Definition last_of (s : state) (a : nat) : outcome ref := do l <- Own_Model.list_of s a; Ok (last l None).
(** parent->attributes and parent->elements of the last object of the stack; NULL has no members. *)
Definition part (i : nat) (s : state) (a : nat) : outcome nat :=
  do p <- last_of s a;
  match p with
  | None => UB
  | Some p =>
    do b <- Own_Model.body_of s p;
    match b with Own_Model.Lnk l => match nth i l None with Some x => Ok x | None => UB end | _ => UB end
  end.
Definition attributes : state -> nat -> outcome nat := part 1.
Definition elements : state -> nat -> outcome nat := part 2.
(** DKListRemoveLastObject, DKList.c 587-601. *)
Definition remove_last (s : state) (a : nat) : outcome state :=
  do l <- Own_Model.list_of s a;
  match l with [] => Ok s | _ => Own_Model.splice s a (length l - 1) 1 [] end.
(** DKIsKindOfClass( text, DKMutableStringClass() ): strings are the objects without members. *)
Definition is_text (s : state) (r : ref) : outcome bool :=
  match r with None => Ok false | Some x => do b <- Own_Model.body_of s x; Ok match b with Own_Model.Leaf => true | _ => false end end.

Section Parse.
Variable isspace : Z -> outcome bool.
Variable report : list N -> list Stream_Model.arg -> outcome unit.

(** DKXMLAppendTextContent 178-203: a string is made unless the last element is one or the text is blank. *)
Definition append_text (s : state) (els : nat) (ch : list N) : outcome state :=
  do r <- last_of s els;
  do text <- is_text s r;
  do c0 <- Utf8_Model.rd ch 0;
  do ws <- isspace (XML_Model.to_char c0);
  if text || ws then Ok s
  else
    let x := Parsed_Model.next s in
    do s <- Parsed_Model.append (Parsed_Model.make s Own_Model.Leaf) els (Some x);
    Parsed_Model.give_up s (Some x).
(** 261-318: what a token does to the objects; [x] is the state of the parser after it. *)
Definition effect (x : XML_Model.yxml) (r : XML_Model.ret) (o : objects) : outcome objects :=
  match r with
  | XML_Model.ELEMSTART =>
    let e := Parsed_Model.next (heap o) in
    let s := new_element (heap o) in
    match root o with
    | None => do s <- Parsed_Model.append s (pile o) (Some e); Ok (mkO s (pile o) (Some e) (value o) (texts o))
    | Some _ =>
      do els <- elements s (pile o);
      do s <- Parsed_Model.append s els (Some e);
      do s <- Parsed_Model.give_up s (Some e);
      do s <- Parsed_Model.append s (pile o) (Some e);
      Ok (mkO s (pile o) (root o) (value o) (texts o))
    end
  | XML_Model.CONTENT =>
    do els <- elements (heap o) (pile o);
    do s <- append_text (heap o) els (XML_Model.data x);
    Ok (mkO s (pile o) (root o) (value o) (texts o))
  | XML_Model.ELEMEND => do s <- remove_last (heap o) (pile o); Ok (mkO s (pile o) (root o) (value o) (texts o))
  | XML_Model.ATTRSTART =>
    Ok (mkO (Parsed_Model.make (heap o) Own_Model.Leaf) (pile o) (root o) (Some (Parsed_Model.next (heap o))) (texts o))
  | XML_Model.ATTREND =>
    do d <- attributes (heap o) (pile o);
    do n <- XML_Model.cstring_at (skipn (XML_Model.attr x) (XML_Model.stack x));
    match value o with
    | None => UB
    | Some v =>
      let k := Parsed_Model.next (heap o) in
      let ks := (k, n) :: texts o in
      do s <- Own_Model.put (Parsed_Model.key_eq ks) (Parsed_Model.make (heap o) Own_Model.Leaf) d k (Some v) HashTable_Model.InsertAlways;
      do s <- Parsed_Model.give_up s (Some k);
      do s <- Parsed_Model.give_up s (Some v);
      Ok (mkO s (pile o) (root o) None ks)
    end
  | _ => Ok o
  end.
(** 323-329 and 333-337. *)
Definition accept (o : objects) : outcome state :=
  do s <- Parsed_Model.give_up (heap o) (Some (pile o)); Parsed_Model.give_up s (value o).
Definition reject (o : objects) : outcome state :=
  do s <- Parsed_Model.give_up (heap o) (root o); do s <- Parsed_Model.give_up s (Some (pile o)); Parsed_Model.give_up s (value o).
(** The loop 228-342: what XML_Model comes to, the object returned and the objects there are then. *)
Fixpoint loop (s : XML_Model.parsing) (o : objects) (text : list N) : outcome (XML_Model.attempt * ref * state) :=
  let finish :=
    match XML_Model.eof (XML_Model.parser s) with
    | XML_Model.OK =>
      do h <- accept o;
      Ok (match XML_Model.root s with Some e => XML_Model.Parsed (XML_Model.heap s) e | None => XML_Model.Rejected end, root o, h)
    | _ => do _ <- report XML_Model.text_of_incomplete []; do h <- reject o; Ok (XML_Model.Rejected, None, h)
    end in
  match text with
  | [] => finish
  | b :: text' =>
    if (b =? 0)%N then finish
    else
      do p <- XML_Model.parse_byte (XML_Model.parser s) b;
      do s' <- XML_Model.handle isspace report (XML_Model.mkS (fst p) (XML_Model.heap s) (XML_Model.root s) (XML_Model.estack s) (XML_Model.attrvalue s)) (snd p);
      match s' with
      | Some s' => do o <- effect (fst p) (snd p) o; loop s' o text'
      | None => do h <- reject o; Ok (match snd p with XML_Model.ESTACK => XML_Model.Again | _ => XML_Model.Rejected end, None, h)
      end
  end.
(** 218-226: the stack is the first object made. *)
Definition try_parse (text : list N) (size : nat) (s : state) : outcome (XML_Model.attempt * ref * state) :=
  do x <- XML_Model.init size;
  loop (XML_Model.mkS x [] None [] None) (mkO (Parsed_Model.make s (Own_Model.Arr [])) (Parsed_Model.next s) None None []) text.
(** 216-343 with the attempts left in [fuel]. *)
Fixpoint parse_sizes (fuel : nat) (text : list N) (size : nat) (s : state) : outcome (option (list XML_Model.element * nat) * ref * state) :=
  match fuel with
  | O => NoFuel
  | S fuel' =>
    do a <- try_parse text size s;
    let '(a, r, s) := a in
    match a with
    | XML_Model.Parsed h e => Ok (Some (h, e), r, s)
    | XML_Model.Rejected => Ok (None, r, s)
    | XML_Model.Again => parse_sizes fuel' text (2 * size) s
    end
  end.
(** DKXMLParse 350-356. *)
Definition parse (fuel : nat) (text : list N) (s : state) : outcome (option (list XML_Model.element * nat) * ref * state) :=
  match text with
  | [] => Ok (None, None, s)
  | _ => parse_sizes fuel text (N.to_nat 16384) s
  end.
End Parse.
