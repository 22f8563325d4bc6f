(** Model of the objects that splitting strings makes: DKStringSplit, Source/DKString.c 1198-1235, and
    DKStringSplitQueryParameters 2182-2223, over the objects and references of Own_Model.  What the pieces are is
    as in String_Model and Query_Model: the text is not changed by what is made, so all of it is split before.  Strings are
    objects without members; DKMutableArray, DKMutableDictionary and DKAutorelease leave the reference with the program
    until the pool is popped. *)
Require Import Coq.NArith.NArith Coq.Lists.List Coq.Bool.Bool Coq.Arith.Arith.
Require Import Verif.Base.
Require Verif.String_Model Verif.Own_Model Verif.Parsed_Model Verif.HashTable_Model.
Import ListNotations.

Notation state := Own_Model.state.
(** 1214-1216 and 1224-1228: a string is made, appended and released. *)
Fixpoint pieces (l : list (list N)) (a : nat) (s : state) : outcome state :=
  match l with
  | [] => Ok s
  | _ :: l' =>
    let x := Parsed_Model.next s in
    do s <- Parsed_Model.append (Parsed_Model.make s Own_Model.Leaf) a (Some x);
    do s <- Parsed_Model.give_up s (Some x);
    pieces l' a s
  end.
(** DKStringSplit: the pieces, the list and the objects there are then. *)
Definition split (text sep : list N) (s : state) : outcome (list (list N) * nat * state) :=
  let a := Parsed_Model.next s in
  do l <- String_Model.split text sep;
  do s <- pieces l a (Parsed_Model.make s (Own_Model.Arr []));
  Ok (l, a, s).
Section Query.
  Variable fuel : nat.
  (** DKStringSplitQueryParametersCallback 2182-2203; [ks] are the texts of the keys.  The key is made immutable
      (DKStringMakeImmutable 2170), so that its copy in the dictionary is the key itself. *)
  Definition pair (d : nat) (c : list N) (s : state) (ks : list (nat * list N)) : outcome (state * list (nat * list N)) :=
    do r <- split c [61%N] s;
    let '(l, _, s) := r in
    match l with
    | [] => Fatal
    | k :: l' =>
      do key <- String_Model.remove_escapes fuel k;
      let x := Parsed_Model.next s in
      let s := Parsed_Model.make s Own_Model.Leaf in
      let ks := (x, key) :: ks in
      match l' with
      | [] => do s <- Own_Model.put (Parsed_Model.key_eq ks) s d x None HashTable_Model.InsertAlways; Ok (s, ks)
      | v :: _ =>
        do _ <- String_Model.remove_escapes fuel v;
        let y := Parsed_Model.next s in
        do s <- Own_Model.put (Parsed_Model.key_eq ks) (Parsed_Model.make s Own_Model.Leaf) d x (Some y) HashTable_Model.InsertAlways;
        Ok (s, ks)
      end
    end.
  Fixpoint pairs (d : nat) (l : list (list N)) (s : state) (ks : list (nat * list N)) : outcome (state * list (nat * list N)) :=
    match l with
    | [] => Ok (s, ks)
    | c :: l' => do r <- pair d c s ks; pairs d l' (fst r) (snd r)
    end.
  (** DKStringSplitQueryParameters 2205-2223. *)
  Definition split_query (text : list N) (s : state) : outcome (option nat * state) :=
    match text with
    | [] => Ok (None, s)
    | _ =>
      let d := Parsed_Model.next s in
      do r <- split text [38%N] (Parsed_Model.make s (Own_Model.Hash []));
      let '(l, _, s) := r in
      do r <- pairs d l s [];
      Ok (Some d, fst r)
    end.
End Query.
