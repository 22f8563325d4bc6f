(** What the entries of an enumeration mean. *)
Require Import Coq.ZArith.ZArith Coq.NArith.NArith Coq.Lists.List.
Require Import Verif.Enum_Model.
Require Import Coq.Strings.String Coq.Strings.Ascii.
Import ListNotations.

(** The last entry with the name [s] has the value [v]. *)
Definition means (es : list (name * Z)) (s : name) (v : Z) : Prop :=
  exists a b, es = a ++ (s, v) :: b /\ ~ In s (map fst b).
(** How many different names there are. *)
Definition names (es : list (name * Z)) : nat := List.length (nodup (list_eq_dec N.eq_dec) (map fst es)).
(** Values that fit an int. *)
Definition ints (es : list (name * Z)) : Prop := forall s v, In (s, v) es -> (- 2 ^ 31 <= v < 2 ^ 31)%Z.

(** The bytes of a text. *)
Definition bytes (s : string) : name := map N_of_ascii (list_ascii_of_string s).
Import Predicate_Model.
(** How the operators are written. *)
Local Open Scope string_scope.
Definition word (o : Predicate_Model.op) : string :=
  match o with
  | Unspecified => "Unspecified" | NOT => "NOT" | AND => "AND" | OR => "OR" | IS => "IS" | ISNT => "ISNT"
  | EQ => "EQ" | NEQ => "NEQ" | LT => "LT" | LTE => "LTE" | GT => "GT" | GTE => "GTE"
  | ALL => "ALL" | ANY => "ANY" | NONE => "NONE" | IN => "IN" | CONTAINS => "CONTAINS"
  | KEYIN => "KEYIN" | CONTAINSKEY => "CONTAINSKEY" | ISA => "ISA" | LIKE => "LIKE"
  | BEGINSWITH => "BEGINSWITH" | ENDSWITH => "ENDSWITH"
  end.
Definition symbols (o : Predicate_Model.op) : list string :=
  match o with
  | EQ => ["="; "=="] | NEQ => ["!="; "<>"] | GT => [">"] | LT => ["<"] | GTE => [">="] | LTE => ["<="]
  | AND => ["&&"] | OR => ["||"] | NOT => ["!"] | _ => []
  end.
Definition written (o : Predicate_Model.op) (s : name) : Prop := s = bytes (word o) \/ exists x, In x (symbols o) /\ s = bytes x.
