(** Model of the objects that parsing JSON makes and releases: ParseObject and DKJSONParse, Source/DKJSON.c
    335-523, over the objects and references of Own_Model.  What is read, and when it is accepted, is as in
    JSON_Model; a result has beside the object made the value it stands for, which decides whether a key is
    a string and which keys are equal.  The default classes are used: arrays (DKList.c 68-74) and hash tables
    (DKDictionary.c 68-74).  The two booleans are not counted (DKBoolean.c 75), so that here they
    are no object.  DKAutorelease leaves the reference with the program until the pool is popped. *)
Require Import Coq.ZArith.ZArith Coq.NArith.NArith Coq.Lists.List Coq.Bool.Bool Coq.Arith.Arith.
Require Import Verif.Base Verif.Utf8_Model Verif.Strtonum_Model Verif.JSON_Model.
Require Verif.Own_Model Verif.HashTable_Model.
Import ListNotations.

Notation heap := Own_Model.state.
Notation ref := (option nat).
Inductive result : Type := RVal (v : json) (r : ref) | RClose (b : N) | RFail.
Definition next (s : heap) : nat := length (Own_Model.cells s).
(** A new object of which the parser has the only reference. *)
Definition make (s : heap) (b : Own_Model.body) : heap := Own_Model.add s b.
(** DKRelease of what the parser has; NULL is allowed. *)
Definition give_up (s : heap) (r : ref) : outcome heap :=
  match r with Some x => Own_Model.step (fun _ _ => false) s (Own_Model.Release x) | None => Ok s end.
(** DKListAppendObject: at the end of the array. *)
Definition append (s : heap) (a : nat) (r : ref) : outcome heap :=
  do l <- Own_Model.list_of s a; Own_Model.splice s a (length l) 0 [r].
(** Equality of strings that are keys; [ks] are their texts. *)
Fixpoint text_of (ks : list (nat * list N)) (x : nat) : option (list N) :=
  match ks with [] => None | (y, t) :: ks' => if x =? y then Some t else text_of ks' x end.
Definition key_eq (ks : list (nat * list N)) (x y : nat) : bool :=
  match text_of ks x, text_of ks y with Some t, Some u => same_bytes t u | _, _ => false end.
(** DKDictionarySetObject, DKHashTable.c 717-728: the key is a mutable string, so that its copy is a new one. *)
Definition enter (s : heap) (d : nat) (ks : list (nat * list N)) (k : list N) (r : ref) : outcome (heap * list (nat * list N)) :=
  let c := next s in
  let ks := (c, k) :: ks in
  do s <- Own_Model.put (key_eq ks) (make s Own_Model.Leaf) d c r HashTable_Model.InsertAlways;
  do s <- give_up s (Some c);
  Ok (s, ks).
(** 517-522: what was made so far is released. *)
Definition fail (s : heap) (obj key value : ref) (cur : list N) : outcome (result * list N * heap) :=
  do s <- give_up s obj; do s <- give_up s key; do s <- give_up s value; Ok (RFail, cur, s).
(** ParseObject 358-523; ScanToken has made the string or vector that it returns before its length is looked at. *)
Fixpoint parse (fuel : nat) (vec : bool) (cur : list N) (s : heap) : outcome (result * list N * heap) :=
  match fuel with
  | O => NoFuel
  | S fuel' =>
    do r <- scan_token (S (length cur)) vec true cur;
    let '(t, obj, cur) := r in
    let x := next s in
    let s := match obj with Some _ => make s Own_Model.Leaf | None => s end in
    if (tlen t =? 0)%Z then Ok (RFail, cur, s)
    else
      do ch <- rd (tstr t) 0;
      match obj with
      | Some v => Ok (RVal v (Some x), cur, s)
      | None =>
        if (ch =? 91)%N then array fuel' vec cur (make s (Own_Model.Arr [])) x []
        else if (ch =? 93)%N then Ok (RClose 93, cur, s)
        else if (ch =? 123)%N then object fuel' vec cur (make s (Own_Model.Hash [])) x [] []
        else if (ch =? 125)%N then Ok (RClose 125, cur, s)
        else
          do g <- (if (ch =? 45)%N then Ok true else is_digit ch);
          if g then do n <- strtonum (tstr t); Ok (RVal (JNum (fst n)) (Some x), cur, make s Own_Model.Leaf)
          else
            do b <- starts (tstr t) [116; 114; 117; 101]%N;
            if b then Ok (RVal (JBool true) None, cur, s)
            else
              do b <- starts (tstr t) [102; 97; 108; 115; 101]%N;
              if b then Ok (RVal (JBool false) None, cur, s)
              else
                do b <- starts (tstr t) [110; 117; 108; 108]%N;
                if b then Ok (RVal JNull None, cur, s) else fail s None None None cur
      end
  end
(** 383-409: [a] is the list, [l] the values added. *)
with array (fuel : nat) (vec : bool) (cur : list N) (s : heap) (a : nat) (l : list json) : outcome (result * list N * heap) :=
  match fuel with
  | O => NoFuel
  | S fuel' =>
    do r <- parse fuel' vec cur s;
    let '(p, cur, s) := r in
    match p with
    | RClose b => if (b =? 93)%N then Ok (RVal (JArr l) (Some a), cur, s) else fail s (Some a) None None cur
    | RFail => fail s (Some a) None None cur
    | RVal v x =>
      do s <- append s a x;
      do s <- give_up s x;
      do r <- scan_token (S (length cur)) vec false cur;
      let '(t, _, cur) := r in
      do ch <- rd (tstr t) 0;
      if (ch =? 93)%N then Ok (RVal (JArr (l ++ [v])) (Some a), cur, s)
      else if (ch =? 44)%N then array fuel' vec cur s a (l ++ [v]) else fail s (Some a) None None cur
    end
  end
(** 423-468: [d] is the dictionary, [ks] the texts of its keys, [l] its entries. *)
with object (fuel : nat) (vec : bool) (cur : list N) (s : heap) (d : nat) (ks : list (nat * list N)) (l : list (list N * json)) : outcome (result * list N * heap) :=
  match fuel with
  | O => NoFuel
  | S fuel' =>
    do r <- parse fuel' vec cur s;
    let '(p, cur, s) := r in
    match p with
    | RClose b => if (b =? 125)%N then Ok (RVal (JObj l) (Some d), cur, s) else fail s (Some d) None None cur
    | RFail => fail s (Some d) None None cur
    | RVal (JStr k) key =>
      do r <- scan_token (S (length cur)) vec false cur;
      let '(t, _, cur) := r in
      do ch <- rd (tstr t) 0;
      if (ch =? 58)%N then
        do r <- parse fuel' vec cur s;
        let '(p, cur, s) := r in
        match p with
        | RVal v x =>
          do e <- enter s d ks k x;
          let (s, ks) := e in
          do s <- give_up s key;
          do s <- give_up s x;
          do r <- scan_token (S (length cur)) vec false cur;
          let '(t, _, cur) := r in
          do ch <- rd (tstr t) 0;
          if (ch =? 125)%N then Ok (RVal (JObj (dict_set l k v)) (Some d), cur, s)
          else if (ch =? 44)%N then object fuel' vec cur s d ks (dict_set l k v) else fail s (Some d) None None cur
        | _ => fail s (Some d) key None cur
        end
      else fail s (Some d) key None cur
    | RVal _ key => fail s (Some d) key None cur
    end
  end.
(** DKJSONParse 335-352: the value, the object and the objects there are then. *)
Definition json_parse (vec : bool) (text : list N) (s : heap) : outcome (json * ref * heap) :=
  do r <- parse (2 * length text + 3) vec (text ++ [0%N]) s;
  let '(p, _, s) := r in
  Ok match p with RVal v x => (v, x, s) | _ => (JNull, None, s) end.
