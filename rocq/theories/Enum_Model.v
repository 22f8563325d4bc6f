(** Model of enumerations, Source/DKEnum.c, on the hash table of Source/DKGenericHashTable.c, and
    of the names of predicate operators, Source/DKPredicate.c 612-757.

    Simplifications: the strings of an enumeration are their bytes (the constant string made of a
    C string, DKString.c __DKStringGetConstantString, outlives the enumeration); the numbers in the
    table of operators are the operators; allocation never fails. *)
Require Import Coq.ZArith.ZArith Coq.NArith.NArith Coq.Lists.List Coq.Bool.Bool.
Require Import Verif.Base Verif.HashTable_Model.
Require Verif.Predicate_Model Verif.Compare_Model.
Import ListNotations.

(** A string is its bytes; a reference to one may be NULL. *)
Definition name := list N.
Definition key := option name.
(** DKEqual, DKComparison.c 75-89, of strings or NULL. *)
Definition key_eqb (a b : key) : bool :=
  match a, b with
  | Some s, Some t => if list_eq_dec N.eq_dec s t then true else false
  | None, None => true
  | _, _ => false
  end.

Section Enum.
  (** RowHash, DKEnum.c 75-79: DKHash of the string. *)
  Variable hash : key -> N.
  (** struct DKEnum 44-49 with rows of struct DKEnumEntry 38-42. *)
  Definition enum := table key Z.
  (** The loop of DKEnumInitWithCStringsAndValues 178-188 and of
      DKEnumInitWithCStringsAndValues64 211-221, on what is left of the arguments; RowUpdate 98-109
      keeps the string of a row and replaces its value. *)
  Fixpoint add_all (t : enum) (es : list (name * Z)) : outcome enum :=
    match es with
    | [] => Ok t
    | (s, v) :: es' => do r <- insert key Z hash key_eqb t (Some s) v InsertAlways; add_all (fst r) es'
    end.
  (** DKEnumInitialize 132-152 and DKEnumInitWithCStringsAndValues64 198-226. *)
  Definition init64 (es : list (name * Z)) : outcome enum := add_all table_init es.
  (** DKEnumInitWithCStringsAndValues 166-193: the values are read as int. *)
  Definition as_int (v : Z) : Z := ((v + 2 ^ 31) mod 2 ^ 32 - 2 ^ 31)%Z.
  Definition init (es : list (name * Z)) : outcome enum := init64 (map (fun e => (fst e, as_int (snd e))) es).
  (** DKEnumFromString64 231-243; without enumeration it reads through NULL. *)
  Definition from_string64 (e : option enum) (s : key) : outcome Z :=
    match e with
    | None => UB
    | Some t => do r <- lookup key Z hash key_eqb t s; Ok (match r with Some (_, v) => v | None => 0%Z end)
    end.
  (** DKEnumFromString, DKEnum.h 62. *)
  Definition from_string (e : option enum) (s : key) : outcome Z := do v <- from_string64 e s; Ok (as_int v).
  (** DKStringFromEnum64 249-272. *)
  Fixpoint scan (rs : list (row key Z)) (v : Z) : key :=
    match rs with
    | [] => None
    | Active k x :: rs' => if (x =? v)%Z then k else scan rs' v
    | _ :: rs' => scan rs' v
    end.
  Definition string_from (e : option enum) (v : Z) : key :=
    match e with Some t => match rows t with Some rs => scan rs v | None => None end | None => None end.
End Enum.

(** ** Names of operators *)
(** DKHash of a string, DKString.c 270-277. *)
Definition real_hash (k : key) : N :=
  match k with Some s => match Compare_Model.string_hash s with Ok h => h | _ => 0%N end | None => 0%N end.
Import Predicate_Model.
(** PredicateOpInfoTable, DKPredicate.c 614-672: the bytes of the name of each row, in the order of
    the rows. *)
Definition op_info : list (Predicate_Model.op * name) :=
  [ (Unspecified, [85; 110; 115; 112; 101; 99; 105; 102; 105; 101; 100]);
    (NOT, [78; 79; 84]); (AND, [65; 78; 68]); (OR, [79; 82]); (IS, [73; 83]); (ISNT, [73; 83; 78; 84]);
    (EQ, [69; 81]); (NEQ, [78; 69; 81]); (LT, [76; 84]); (LTE, [76; 84; 69]); (GT, [71; 84]); (GTE, [71; 84; 69]);
    (ALL, [65; 76; 76]); (ANY, [65; 78; 89]); (NONE, [78; 79; 78; 69]);
    (IN, [73; 78]); (CONTAINS, [67; 79; 78; 84; 65; 73; 78; 83]); (KEYIN, [75; 69; 89; 73; 78]);
    (CONTAINSKEY, [67; 79; 78; 84; 65; 73; 78; 83; 75; 69; 89]); (ISA, [73; 83; 65]); (LIKE, [76; 73; 75; 69]);
    (BEGINSWITH, [66; 69; 71; 73; 78; 83; 87; 73; 84; 72]); (ENDSWITH, [69; 78; 68; 83; 87; 73; 84; 72]) ]%N.
(** PredicateOpLookupTable 691-730: the aliases, in the order in which they are added. *)
Definition aliases : list (name * Predicate_Model.op) :=
  [ ([61], EQ); ([61; 61], EQ); ([33; 61], NEQ); ([60; 62], NEQ); ([62], GT); ([60], LT); ([62; 61], GTE); ([60; 61], LTE);
    ([38; 38], AND); ([124; 124], OR); ([33], NOT) ]%N.
Definition op_dec : forall a b : Predicate_Model.op, {a = b} + {a <> b}.
Proof. decide equality. Defined.
(** GetPredicateOpInfo 736-743 and DKStringFromPredicateOp 749-755. *)
Definition string_from_op (o : Predicate_Model.op) : key :=
  match List.find (fun r => if op_dec (fst r) o then true else false) op_info with Some r => Some (snd r) | None => None end.
(** PredicateOpLookupTable 675-732; DKDictionaryAddObject inserts what is not found. *)
Fixpoint add_names (t : table key Predicate_Model.op) (es : list (name * Predicate_Model.op)) : outcome (table key Predicate_Model.op) :=
  match es with
  | [] => Ok t
  | (s, o) :: es' => do r <- insert key Predicate_Model.op real_hash key_eqb t (Some s) o InsertIfNotFound; add_names (fst r) es'
  end.
Definition op_table : outcome (table key Predicate_Model.op) :=
  add_names table_init (map (fun r => (snd r, fst r)) op_info ++ aliases).
(** DKPredicateOpFromString 761-765; the number of NULL is 0, DKNumber.c 1115-1130. *)
Definition op_from_string (s : key) : outcome Predicate_Model.op :=
  do t <- op_table; do r <- lookup key Predicate_Model.op real_hash key_eqb t s;
  Ok (match r with Some (_, o) => o | None => Unspecified end).
