(** Model of the descriptions of objects: Source/DKDescription.c, Source/DKCollection.c 162-252,
    Source/DKPredicate.c 182-228 and the descriptions of strings, numbers, booleans, data and
    structures.

    [heap] are the objects; a reference is an index, or None for NULL.  What DKSPrintf writes to a new
    mutable string is appended to it (C94, C149): the text of a call is built up here directly.  The
    description of an XML element is not modelled. *)
Require Import Coq.Strings.String Coq.Strings.Ascii Coq.ZArith.ZArith Coq.NArith.NArith Coq.Lists.List Coq.Bool.Bool.
Require Import Verif.Base Verif.Strtonum_Model Verif.JSON_Model Verif.Predicate_Model.
Require Verif.Enum_Model.
Import ListNotations.
Local Open Scope N_scope.

Notation bytes := (list N).
Definition ascii (s : string) : bytes := map N_of_ascii (list_ascii_of_string s).
Definition ref : Type := option nat.

(** An object as far as its description goes. *)
Inductive object : Type :=
| Text (s : bytes)                       (* DKString, DKMutableString and what is derived from them *)
| Number (l : list jnum)                 (* DKNumber, of integers *)
| Boolean (b : bool)
| Data (cls : bytes) (size : Z)
| Struct (cls : bytes) (semantic : option bytes)
| Plain (cls : bytes)                    (* the default: DKDefaultGetDescription *)
| Predicate (o : op) (a : ref) (ka : option bytes) (b : ref) (kb : option bytes)
| Collection (cls : bytes) (members : list ref)          (* arrays and linked lists *)
| Keyed (cls : bytes) (entries : list (ref * ref)).      (* hash tables and binary trees, also when they are sets *)
Definition heap : Type := list object.

Section Describe.
  (** What va_arg( arg_ptr, int ), DKStream.c 424-470, gives when a DKIndex was passed. *)
  Variable va_int : Z -> outcome Z.
  Variable h : heap.

  (** DKIsKindOfClass( object, DKStringClass() ); false of NULL. *)
  Definition is_text (r : ref) : bool := match r with Some p => match nth_error h p with Some (Text _) => true | _ => false end | None => false end.
  (** %@ in quotes or not, DKCollection.c 178-182, 218-228. *)
  Definition quoted (r : ref) (t : bytes) : bytes := if is_text r then 34 :: t ++ [34] else t.
  (** 176, 216. *)
  Definition prefix (n : nat) : bytes := match n with O => [10; 32; 32; 32; 32] | S _ => [44; 10; 32; 32; 32; 32] end.
  (** DKCollectionGetDescription 197, DKKeyedCollectionGetDescription 243. *)
  Definition header (cls : bytes) (count : Z) : outcome bytes :=
    do n <- va_int count; Ok (cls ++ ascii ", " ++ print_int n ++ ascii " objects = (").

  Section Members.
    Variable describe : ref -> outcome bytes.
    (** foreachObject with PrintDescriptionCallback, 172-187; [n] is what was counted so far. *)
    Fixpoint print_members (n : nat) (l : list ref) : outcome bytes :=
      match l with
      | [] => Ok []
      | r :: l' => do t <- describe r; do rest <- print_members (S n) l'; Ok (prefix n ++ quoted r t ++ rest)
      end.
    (** foreachKeyAndObject with PrintKeyedDescriptionCallback, 212-233. *)
    Fixpoint print_entries (n : nat) (l : list (ref * ref)) : outcome bytes :=
      match l with
      | [] => Ok []
      | (k, x) :: l' =>
        do tk <- describe k; do tx <- describe x; do rest <- print_entries (S n) l';
        Ok (prefix n ++ quoted k tk ++ ascii " = " ++ quoted x tx ++ rest)
      end.
    (** An operand of a predicate, DKPredicate.c 188-189, with its key, 197-223. *)
    Definition operand (r : ref) (k : option bytes) : outcome bytes :=
      do t <- match r with None => Ok (ascii "*") | Some _ => describe r end;
      Ok (t ++ match k with Some k => ascii "." ++ k | None => [] end).
  End Members.
  (** DKStringFromPredicateOp, DKPredicate.c 749-755. *)
  Definition op_text (o : op) : bytes := match Enum_Model.string_from_op o with Some s => s | None => ascii "null" end.

  (** DKGetDescription, DKDescription.c 74-83.  [fuel] bounds the depth of the calls. *)
  Fixpoint describe (fuel : nat) (r : ref) : outcome bytes :=
    match fuel with
    | O => NoFuel
    | S fuel' =>
      match r with
      | None => Ok (ascii "null")
      | Some p =>
        match nth_error h p with
        | None => UB
        (** DKGetSelf, DKString.c 132, and DKMutableStringGetDescription, 688-691, a copy. *)
        | Some (Text s) => Ok s
        (** DKNumberGetDescription, DKNumber.c 1029-1032. *)
        | Some (Number l) => Ok (format_nums [32] l)
        (** DKBooleanGetDescription, DKBoolean.c 182-188. *)
        | Some (Boolean b) => Ok (ascii (if b then "true" else "false"))
        (** DKDataGetDescription, DKData.c 412-420. *)
        | Some (Data cls n) => Ok (cls ++ ascii " (" ++ print_int n ++ ascii " bytes)")
        (** DKStructGetDescription, DKStruct.c 375-387. *)
        | Some (Struct cls s) => Ok (cls ++ ascii " (" ++ match s with Some s => s | None => ascii "null" end ++ ascii ")")
        (** DKDefaultGetDescription, DKDescription.c 45-48. *)
        | Some (Plain cls) => Ok cls
        (** DKPredicateGetDescription, DKPredicate.c 182-228. *)
        | Some (Predicate o a ka b kb) =>
          do ta <- operand (describe fuel') a ka;
          match o with
          | NOT | ALL | ANY | NONE => Ok (op_text o ++ ascii " " ++ ta)
          | _ => do tb <- operand (describe fuel') b kb; Ok (ta ++ ascii " " ++ op_text o ++ ascii " " ++ tb)
          end
        (** DKCollectionGetDescription, DKCollection.c 189-206. *)
        | Some (Collection cls l) =>
          do t <- header cls (Z.of_nat (length l));
          do m <- print_members (describe fuel') 0 l;
          Ok (t ++ m ++ ascii (String "010" ")"))
        (** DKKeyedCollectionGetDescription, DKCollection.c 235-252. *)
        | Some (Keyed cls l) =>
          do t <- header cls (Z.of_nat (length l));
          do m <- print_entries (describe fuel') 0 l;
          Ok (t ++ m ++ ascii (String "010" ")"))
        end
      end
    end.
End Describe.

(** By the C standard an int must not be read where a DKIndex was passed; on 64-bit platforms the
    lower half is read. *)
Definition strict (z : Z) : outcome Z := UB.
Definition lower_half (z : Z) : outcome Z := Ok ((z + 2^31) mod 2^32 - 2^31)%Z.
