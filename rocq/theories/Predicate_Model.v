(** Model of predicates, Source/DKPredicate.c.

    What predicates ask of other objects through interfaces (truth values, equality, order,
    membership, properties, classes) is the parameter [world].  Strings are objects with their
    bytes; collections are objects with their elements in the order of foreachObject.  Every
    object has an identity; NULL is [Nil]. *)
Require Import Coq.ZArith.ZArith Coq.NArith.NArith Coq.Lists.List Coq.Arith.Arith Coq.Bool.Bool.
Require Import Verif.Base Verif.Utf8_Model Verif.String_Model.
Import ListNotations.

(** enum DKPredicateOp, DKPredicate.h 36-83. *)
Inductive op : Type :=
| Unspecified | NOT | AND | OR | IS | ISNT | EQ | NEQ | LT | LTE | GT | GTE | ALL | ANY | NONE
| IN | CONTAINS | KEYIN | CONTAINSKEY | ISA | LIKE | BEGINSWITH | ENDSWITH.
(** struct DKPredicate 47-58; key paths are numbers.  DKPredicateInit 234-250 copies the
    operands: they are immutable from then on. *)
Inductive obj : Type :=
| Nil
| Leaf (id : nat)
| Str (id : nat) (s : list N)
| Coll (id : nat) (items : list obj)
| Pred (id : nat) (o : op) (a : obj) (ka : option nat) (b : obj) (kb : option nat).
Record world : Type := mkW {
  w_bool : obj -> outcome bool;                        (* getBool of the Conversion interface; fatal without it *)
  w_equal : obj -> obj -> bool;                        (* equal of the Comparison interface *)
  w_compare : obj -> obj -> Z;                         (* compare of the Comparison interface *)
  w_contains : obj -> obj -> outcome bool;             (* containsObject of the Collection interface; fatal without it *)
  w_has_key : obj -> obj -> outcome bool;              (* containsKey of the KeyedCollection interface; fatal without it *)
  w_prop : obj -> nat -> obj;                          (* DKGetPropertyForKeyPath of an object *)
  w_class : obj -> bool;                               (* is the object a class *)
  w_selector : obj -> bool;                            (* is the object a selector *)
  w_kind : obj -> obj -> bool;                         (* DKIsKindOfClass *)
  w_implements : obj -> obj -> bool                    (* DKQueryInterface *)
}.
Definition ident (x : obj) : nat := match x with Nil => 0 | Leaf n | Str n _ | Coll n _ | Pred n _ _ _ _ _ => S n end.
Definition is_nil (x : obj) : bool := match x with Nil => true | _ => false end.
Definition is_pred (x : obj) : bool := match x with Pred _ _ _ _ _ _ => true | _ => false end.
Definition is_str (x : obj) : bool := match x with Str _ _ => true | _ => false end.

(** DKGetBool, DKConversion.c 58-72 (DKTrue and DKFalse are numbers). *)
Definition dk_bool (W : world) (x : obj) : outcome bool := if is_nil x then Ok false else w_bool W x.
(** DKEqual and DKCompare, DKComparison.c 75-109. *)
Definition dk_equal (W : world) (a b : obj) : bool :=
  if ident a =? ident b then true else if negb (is_nil a) && negb (is_nil b) then w_equal W a b else false.
Definition dk_compare (W : world) (a b : obj) : Z :=
  if ident a =? ident b then 0%Z else if negb (is_nil a) && negb (is_nil b) then w_compare W a b else if is_nil a then (-1)%Z else 1%Z.
(** DKContainsObject and DKContainsKey, DKCollection.c 91-115. *)
Definition dk_contains (W : world) (c x : obj) : outcome bool := if is_nil c then Ok false else w_contains W c x.
Definition dk_has_key (W : world) (c k : obj) : outcome bool := if is_nil c then Ok false else w_has_key W c k.
(** DKTryGetPropertyForKeyPath, DKRuntime+Properties.c 750-759: nothing without object or path. *)
Definition dk_prop (W : world) (x : obj) (k : option nat) : obj :=
  match k with Some k => if is_nil x then Nil else w_prop W x k | None => Nil end.

(** DKStringHasSubstring and so on take any object for a string (the class is an assertion). *)
Definition on_strings (f : list N -> list N -> outcome bool) (a b : obj) : outcome bool :=
  match a, b with
  | Nil, _ => Ok false
  | Str _ s, Str _ t => f s t
  | Str _ s, Nil => f s []
  | _, _ => UB
  end.
(** DKStringEqualToString, DKString.c 753-764: equal bytes (C27). *)
Definition same_string (a b : obj) : outcome bool :=
  match a, b with
  | Nil, _ => Ok false
  | Str n s, Str m t => Ok (if n =? m then true else if list_eq_dec N.eq_dec s t then true else false)
  | _, _ => UB
  end.

(** foreachObject with EvaluateALLCallback 469-475 and EvaluateANYCallback 494-500; the result
    is what foreachObject returns. *)
Fixpoint foreach (stop_on : bool) (ev : obj -> outcome bool) (items : list obj) : outcome Z :=
  match items with
  | [] => Ok 0%Z
  | x :: items' => do b <- ev x; if Bool.eqb b stop_on then Ok 1%Z else foreach stop_on ev items'
  end.
(** EvaluateALL 477-488, EvaluateANY 502-513.  DKQueryInterface reads the class of NULL. *)
Definition all_of (ev : obj -> outcome bool) (a : obj) : outcome bool :=
  match a with
  | Nil => UB
  | Coll _ items => do r <- foreach false ev items; Ok (r =? 0)%Z
  | _ => Ok false
  end.
Definition any_of (ev : obj -> outcome bool) (a : obj) : outcome bool :=
  match a with
  | Nil => UB
  | Coll _ items => do r <- foreach true ev items; Ok (negb (r =? 0)%Z)
  | _ => Ok false
  end.
(** EvaluateEQ 402-414. *)
Definition eval_eq (W : world) (ev : obj -> outcome bool) (a b : obj) : outcome bool :=
  if is_pred a || is_pred b then do x <- ev a; do y <- ev b; Ok (Bool.eqb x y) else Ok (dk_equal W a b).
(** The functions of the table 616-673. *)
Definition eval_op (W : world) (ev : obj -> outcome bool) (o : op) (a b : obj) : outcome bool :=
  match o with
  | Unspecified => Ok false                                                          (* 348-351 *)
  | NOT => do x <- ev a; Ok (negb x)                                                 (* 357-360 *)
  | AND => do x <- ev a; if x then ev b else Ok false                                (* 366-369 *)
  | OR => do x <- ev a; if x then Ok true else ev b                                  (* 375-378 *)
  | IS => Ok (ident a =? ident b)                                                    (* 384-387 *)
  | ISNT => Ok (negb (ident a =? ident b))                                           (* 393-396 *)
  | EQ => eval_eq W ev a b                                                           (* 402-414 *)
  | NEQ => do x <- eval_eq W ev a b; Ok (negb x)                                     (* 420-423 *)
  | LT => Ok (0 <? dk_compare W a b)%Z                                               (* 429-433 *)
  | LTE => Ok (0 <=? dk_compare W a b)%Z                                             (* 439-443 *)
  | GT => Ok (dk_compare W a b <? 0)%Z                                               (* 449-453 *)
  | GTE => Ok (dk_compare W a b <=? 0)%Z                                             (* 459-463 *)
  | ALL => all_of ev a                                                               (* 477-488 *)
  | ANY => any_of ev a                                                               (* 502-513 *)
  | NONE => do x <- any_of ev a; Ok (negb x)                                         (* 519-522 *)
  | IN => if is_str b then on_strings has_substring b a else dk_contains W b a       (* 528-534 *)
  | CONTAINS => if is_str b then on_strings has_substring a b else dk_contains W a b (* 540-546 *)
  | KEYIN => dk_has_key W b a                                                        (* 552-555 *)
  | CONTAINSKEY => dk_has_key W a b                                                  (* 561-564 *)
  | ISA => Ok (if is_nil a then true else if w_class W b then w_kind W a b else if w_selector W b then w_implements W a b else false) (* 570-582 *)
  | LIKE => same_string a b                                                          (* 588-591 *)
  | BEGINSWITH => on_strings has_prefix a b                                          (* 597-600 *)
  | ENDSWITH => on_strings has_suffix a b                                            (* 606-609 *)
  end.
(** DKEvaluateInternal 770-778 with DKPredicateEvaluateWithObject 317-338; [s] is the object
    that takes the place of NULL.  The second operand is read with the first key (332). *)
Fixpoint eval (fuel : nat) (W : world) (s : obj) (x : obj) : outcome bool :=
  match fuel with
  | O => NoFuel
  | S fuel' =>
    match x with
    | Pred _ o a ka b kb =>
      let a' := if is_nil a then s else a in
      let b' := if is_nil b then s else b in
      let a'' := match ka with Some _ => dk_prop W a' ka | None => a' end in
      let b'' := match kb with Some _ => dk_prop W b' ka | None => b' end in
      eval_op W (eval fuel' W s) o a'' b''
    | _ => dk_bool W x
    end
  end.
(** DKPredicateEvaluate 290-311 and DKEvaluate 784-787: NULL takes the place of NULL. *)
Definition evaluate (fuel : nat) (W : world) (x : obj) : outcome bool := eval fuel W Nil x.
