(** Model of how the library's own objects are written to an egg archive and read from one: the
    Egg interfaces of Source/DKString.c, DKNumber.c, DKBoolean.c, DKData.c, DKPair.c, DKArray.c,
    DKLinkedList.c, DKHashTable.c, DKBinaryTree.c, DKStruct.c and DKPredicate.c, on the archives of
    Egg_Model.

    An object is its contents; references are numbers of objects, or NULL.  Simplifications: the
    keys of dictionaries that are read and the semantics of structures are immutable strings
    without NUL (what else a program uses as a key is not modelled: the result is [NoFuel]); the
    elements of lists are appended to a new list; reference counts are not modelled. *)
Require Import Coq.ZArith.ZArith Coq.NArith.NArith Coq.Lists.List Coq.Bool.Bool Coq.Strings.String Coq.Strings.Ascii.
Require Import Verif.Base Verif.Encoding_Model Verif.Egg_Model.
Require Verif.HashTable_Model Verif.Tree_Model Verif.Predicate_Model Verif.Compare_Model Verif.Enum_Model.
Import ListNotations.
Local Open Scope N_scope.

(** The bytes of a name. *)
Definition ascii (s : string) : list N := map N_of_ascii (list_ascii_of_string s).

(** ** Objects *)
(** The classes of strings. *)
Inductive skind := Immutable | Mutable | Constant.
Inductive dk :=
(** struct DKString, DKString.c 54-60: the bytes. *)
| DText (k : skind) (s : list N)
(** struct DKNumber, DKNumber.c 312-316: whether it is variable, the encoding that is its tag, and the
    values of its elements. *)
| DNumber (variable : bool) (e : N) (l : list N)
(** struct DKBoolean, DKBoolean.c 43-47. *)
| DBoolean (b : bool)
(** struct DKData, DKData.c 43-47: whether it is mutable, the encoding type that is its tag, the
    bytes. *)
| DData (mutable : bool) (t : N) (b : list N)
(** struct DKPair, DKPair.h 36-41. *)
| DPair (first second : option nat)
(** struct DKArray, DKArray.c 43-47, and struct DKLinkedList, DKLinkedList.c 58-68: whether it is linked and mutable, and the elements. *)
| DList (linked mutable : bool) (l : list (option nat))
(** struct DKHashTable, DKHashTable.c 50-54, and struct DKBinaryTree, DKBinaryTree.c 54-64: the keys and objects in the order in which they
    are visited. *)
| DTable (mutable : bool) (ps : list (nat * option nat))
| DTree (mutable : bool) (ps : list (nat * option nat))
(** struct DKStruct, DKStruct.c 41-46. *)
| DStruct (semantic : option nat) (b : list N)
(** struct DKPredicate, DKPredicate.c 47-58. *)
| DPredicate (op : Predicate_Model.op) (obj_a key_a obj_b key_b : option nat).

(** The classes. *)
Inductive cls :=
| CText (k : skind) | CNumber (variable : bool) | CBoolean | CData (mutable : bool) | CPair | CList (linked mutable : bool)
| CTable (mutable : bool) | CTree (mutable : bool) | CStruct | CPredicate.
Definition class_of (o : dk) : cls :=
  match o with
  | DText k _ => CText k | DNumber v _ _ => CNumber v | DBoolean _ => CBoolean | DData m _ _ => CData m | DPair _ _ => CPair
  | DList k m _ => CList k m | DTable m _ => CTable m | DTree m _ => CTree m | DStruct _ _ => CStruct | DPredicate _ _ _ _ _ => CPredicate
  end.
(** The names of the classes: DKRuntime.c 417-418, DKString.c 203, DKNumber.c 345 and 404,
    DKBoolean.c 74, DKData.c 67 and 133, DKPair.c 49, DKArray.c 74 and 164, DKLinkedList.c 94 and
    184, DKHashTable.c 80 and 184, DKBinaryTree.c 88 and 192, DKStruct.c 70, DKPredicate.c 91. *)
Definition class_name (c : cls) : list N :=
  ascii match c with
  | CText Immutable => "DKString" | CText Mutable => "DKMutableString" | CText Constant => "DKConstantString"
  | CNumber false => "DKNumber" | CNumber true => "DKVariableNumber" | CBoolean => "DKBoolean"
  | CData false => "DKData" | CData true => "DKMutableData" | CPair => "DKPair"
  | CList false false => "DKArray" | CList false true => "DKMutableArray"
  | CList true false => "DKLinkedList" | CList true true => "DKMutableLinkedList"
  | CTable false => "DKHashTable" | CTable true => "DKMutablehashTable"
  | CTree false => "DKBinaryTree" | CTree true => "DKMutableBinaryTree"
  | CStruct => "DKStruct" | CPredicate => "DKPredicate"
  end%string.
Definition classes : list cls :=
  [CText Immutable; CText Mutable; CText Constant; CNumber false; CNumber true; CBoolean; CData false; CData true; CPair;
   CList false false; CList false true; CList true false; CList true true; CTable false; CTable true; CTree false; CTree true;
   CStruct; CPredicate].
(** What initWithEgg asks for: DKString.c 647-655, DKNumber.c 529-553, DKBoolean.c 159-167, DKData.c
    334-364, DKPair.c 104-115, DKArray.c 345-356, DKLinkedList.c 611-622, DKHashTable.c 496-507,
    DKBinaryTree.c 760-771, DKStruct.c 183-191, DKPredicate.c 148-160. *)
Definition schema (c : cls) : list (list N * kind) :=
  match c with
  | CText _ => [(ascii "str", KStr)]
  | CNumber _ | CBoolean => [(ascii "value", KNum)]
  | CData _ => [(ascii "data", KData)]
  | CPair => [(ascii "first", KObj); (ascii "second", KObj)]
  | CList _ _ => [(ascii "objects", KColl)]
  | CTable _ | CTree _ => [(ascii "pairs", KKeyed)]
  | CStruct => [(ascii "semantic", KObj); (ascii "value", KBin)]
  | CPredicate => [(ascii "op", KObj); (ascii "obj_a", KObj); (ascii "key_a", KObj); (ascii "obj_b", KObj); (ascii "key_b", KObj)]
  end.
(** The program's classes when all of these are in use: a class is found by name from when it is
    first used, DKRuntime.h 215-264 (DKThreadSafeClassInit). *)
Definition library : list (list N * list (list N * kind)) := map (fun c => (class_name c, schema c)) classes.

(** ** Writing *)
(** The numbers of [w] bytes in a memory, [n] of them. *)
Fixpoint numbers (big : bool) (w n : nat) (b : list N) : list N :=
  match n with O => [] | S n' => of_bytes big (firstn w b) :: numbers big w n' (skipn w b) end.
(** DKNumberBoolean, DKBoolean.h 36. *)
Definition boolean_encoding : N := encode_integer 1 1.
(** DKDataAddToEgg, DKData.c 369-391: of numbers, as many as there are room for; the division is
    undefined for types of size 0, where the elements do not matter, see [add_value]. *)
Definition data_value (big : bool) (t : N) (b : list N) : value :=
  if number_type t then
    let w := N.to_nat (type_size t) in VData t (numbers big w (List.length b / w) b)
  else VData t b.
(** The addToEgg methods: DKString.c 661-667, DKNumber.c 559-563, DKBoolean.c 173-176, DKData.c
    369-391, DKPair.c 121-127, DKArray.c 361-368, DKLinkedList.c 627-634, DKHashTable.c 513-520,
    DKBinaryTree.c 777-784, DKStruct.c 197-203, DKPredicate.c 166-176; [consts] is where the constant
    strings of the program are. *)
Definition to_fields (big : bool) (consts : list N -> nat) (o : dk) : list (list N * value) :=
  match o with
  | DText _ s => [(ascii "str", VStr s)]
  | DNumber _ e l => [(ascii "value", VNum e l)]
  | DBoolean b => [(ascii "value", VNum boolean_encoding [if b then 1 else 0])]
  | DData _ t b => [(ascii "data", data_value big t b)]
  | DPair x y => [(ascii "first", VObj x); (ascii "second", VObj y)]
  | DList _ _ l => [(ascii "objects", VColl l)]
  | DTable _ ps | DTree _ ps => [(ascii "pairs", VKeyed ps)]
  | DStruct x b => [(ascii "semantic", VObj x); (ascii "value", VBin b)]
  | DPredicate op a ka b kb =>
    [(ascii "op", VObj (option_map consts (Enum_Model.string_from_op op))); (ascii "obj_a", VObj a); (ascii "key_a", VObj ka);
     (ascii "obj_b", VObj b); (ascii "key_b", VObj kb)]
  end.
Definition to_node (big : bool) (consts : list N -> nat) (o : dk) : node := mkN (class_name (class_of o)) (to_fields big consts o).

(** ** Reading *)
Section Read.
(** The byte order of the machine, the constant strings that the program has, and the objects. *)
Context (big : bool) (known : list N -> bool) (h : heap).

(** InitString, DKString.c 344-372, with the text of an archive; CopySubstring 321-338 gives the
    constant string for the empty text. *)
Definition init_string (k : skind) (s : list N) : dk :=
  let copy := match s with [] => DText Constant [] | _ => DText Immutable s end in
  match k with
  | Immutable => copy
  | Constant => if known s then DText Constant s else copy
  | Mutable => DText Mutable s
  end.
(** The text of the immutable string at a place, without NUL. *)
Definition key_at (i : nat) : option (list N) :=
  match nth_error h i with
  | Some (mkN c [(_, VStr s)]) =>
    if (list_eqb c (class_name (CText Immutable)) || list_eqb c (class_name (CText Constant))) && forallb (fun b => (0 <? b) && (b <? 256)) s
    then Some s else None
  | _ => None
  end.
Definition key_text (i : nat) : list N := match key_at i with Some s => s | None => [] end.
Definition are_keys (ps : list (nat * option nat)) : bool := forallb (fun p => match key_at (fst p) with Some _ => true | None => false end) ps.
(** DKHash and DKEqual, DKComparison.c 75-89 and 115-129, of such strings; DKCompare 95-109. *)
Definition key_hash (i : nat) : N := Enum_Model.real_hash (Some (key_text i)).
Definition key_equal (i j : nat) : bool := list_eqb (key_text i) (key_text j).
Definition key_compare (i j : nat) : Z := match Compare_Model.string_compare (key_text i) (key_text j) with Ok z => z | _ => 0%Z end.
(** InsertKeyAndObject, DKHashTable.c 305-318, for each pair, on a new table; a copy of an immutable
    string is the string. *)
Definition new_table (ps : list (nat * option nat)) : outcome (list (nat * option nat)) :=
  if are_keys ps then
    do r <- HashTable_Model.run nat (option nat) key_hash key_equal HashTable_Model.table_init (map (fun p => HashTable_Model.OpSet (fst p) (snd p)) ps);
    Ok (HashTable_Model.enumerate (fst r))
  else NoFuel.
(** InsertKeyAndObject, DKBinaryTree.c 559-570, for each pair, on a new tree, whose comparison is
    DKCompare, DKBinaryTree.c 593-620. *)
Definition new_tree (ps : list (nat * option nat)) : outcome (list (nat * option nat)) :=
  if are_keys ps then
    do r <- Tree_Model.trun nat (option nat) key_compare (S (S (List.length ps))) (Tree_Model.init nat (option nat))
      (map (fun p => Tree_Model.TInsert _ _ (fst p) (snd p) HashTable_Model.InsertAlways) ps ++ [Tree_Model.TAll _ _]);
    match last (snd r) (Tree_Model.TUnit _ _) with Tree_Model.TList _ _ l => Ok l | _ => NoFuel end
  else NoFuel.
(** The text of a string of any class. *)
Definition text_at (o : option nat) : option (list N) :=
  match o with
  | Some i => match nth_error h i with Some (mkN _ [(_, VStr s)]) => Some s | _ => None end
  | None => None
  end.
(** The initWithEgg methods, cited at [schema], on what they were given for their keys: DKStructInit,
    DKStruct.c 150-177, where no bytes give NULL ([UB] here, the caller's); DKDataInitWithBytes,
    DKData.c 223-233; DKPredicateOpFromString of the name, DKPredicate.c 761-765. *)
Definition of_fields (c : cls) (vs : list value) : outcome dk :=
  match c, vs with
  | CText k, [VStr s] => Ok (init_string k s)
  | CNumber v, [VNum e l] => Ok (DNumber v e l)
  | CBoolean, [VNum e [x]] => Ok (DBoolean (negb (x =? 0)))
  | CData m, [VData t l] => Ok (DData m t (if number_type t then List.concat (map (int_bytes big (N.to_nat (type_size t))) l) else l))
  | CPair, [VObj x; VObj y] => Ok (DPair x y)
  | CList k m, [VColl l] => Ok (DList k m l)
  | CTable m, [VKeyed ps] => do qs <- new_table ps; Ok (DTable m qs)
  | CTree m, [VKeyed ps] => do qs <- new_tree ps; Ok (DTree m qs)
  | CStruct, [VObj x; VBin b] => match b with [] => UB | _ => Ok (DStruct x b) end
  | CPredicate, [VObj op; VObj a; VObj ka; VObj b; VObj kb] =>
    do o <- Enum_Model.op_from_string (text_at op); Ok (DPredicate o a ka b kb)
  | _, _ => NoFuel
  end.
(** The object that was read. *)
Definition of_node (n : node) : outcome dk :=
  match List.find (fun c => list_eqb (class_name c) (ncls n)) classes with
  | Some c => of_fields c (map snd (nfields n))
  | None => NoFuel
  end.
End Read.
