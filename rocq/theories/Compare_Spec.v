(** What it means for objects to have the same contents. *)
Require Import Coq.ZArith.ZArith Coq.NArith.NArith Coq.Lists.List.
Require Import Verif.Utf8_Spec Verif.Number_Model Verif.Number_Spec Verif.Compare_Model.
Import ListNotations.
Local Open Scope N_scope.

Inductive both {A : Type} (R : A -> A -> Prop) : option A -> option A -> Prop :=
| both_none : both R None None
| both_some : forall x y, R x y -> both R (Some x) (Some y).

(** The same contents: the same text, bytes, values, semantic and bytes, parts, elements, or
    entries; an object without contents has those of no other. *)
Inductive same : obj -> obj -> Prop :=
| same_string : forall a b s, same (OString a s) (OString b s)
| same_data : forall a b s, same (OData a s) (OData b s)
| same_number : forall a b m n t sm sn vs, is_number m t sm vs -> is_number n t sn vs -> same (ONumber a m) (ONumber b n)
| same_struct : forall a b s v, same (OStruct a (Some s) v) (OStruct b (Some s) v)
| same_plain_struct : forall a b v, same (OStruct a None v) (OStruct b None v)
| same_pair : forall a b x y x' y', both same x x' -> both same y y' -> same (OPair a x y) (OPair b x' y')
| same_list : forall a b k k' l m, Forall2 (both same) l m -> same (OList a k l) (OList b k' m)
| same_dict : forall a b es fs,
    (forall k v, In (k, v) es -> exists w, In (k, w) fs /\ same v w) ->
    (forall k w, In (k, w) fs -> exists v, In (k, v) es /\ same v w) -> same (ODict a es) (ODict b fs)
| same_other : forall a, same (OOther a) (OOther a).

(** The objects inside an object, and the object. *)
Inductive inside (o : obj) : obj -> Prop :=
| in_self : inside o o
| in_first : forall a x y, inside o x -> inside o (OPair a (Some x) y)
| in_second : forall a x y, inside o y -> inside o (OPair a x (Some y))
| in_list : forall a k l x, In (Some x) l -> inside o x -> inside o (OList a k l)
| in_dict : forall a es k v, In (k, v) es -> inside o v -> inside o (ODict a es).
(** Objects in one memory: at an address there is one object. *)
Definition one_memory (os : list obj) : Prop :=
  forall a b x y, In a os -> In b os -> inside x a -> inside y b -> addr x = addr y -> x = y.

(** What is required of each object inside: strings hold no NUL, numbers are of the integer type
    [t], structures have a semantic, and dictionaries have one entry for each key. *)
Definition proper1 (t : ity) (o : obj) : Prop :=
  match o with
  | OString _ s => cstring s
  | OData _ s => Forall (fun b => b < 256) s
  | ONumber _ n => ty n = t /\ well_sized n
  | OStruct _ x v => Forall (fun b => b < 256) v /\ exists s, x = Some s /\ cstring s
  | ODict _ es => NoDup (map fst es)
  | _ => True
  end.
Definition proper (t : ity) (o : obj) : Prop := forall x, inside x o -> proper1 t x.
(** Objects that consist of strings, data, numbers, structures, pairs and objects without
    contents: no lists and dictionaries. *)
Definition no_collection (o : obj) : Prop :=
  forall x, inside x o -> match x with OList _ _ _ | ODict _ _ => False | _ => True end.

(** Objects of one kind: all strings, well-formed; all data; all numbers of one type; all
    without contents; all pairs of references to one kind and to another. *)
Inductive kind : Type := KString | KData | KNumber (t : ity) | KOther | KPair (first second : kind).
Inductive of_kind : kind -> obj -> Prop :=
| k_string : forall a cs, Forall char_ok cs -> of_kind KString (OString a (encode cs))
| k_data : forall a s, of_kind KData (OData a s)
| k_number : forall a n t, ty n = t -> well_sized n -> of_kind (KNumber t) (ONumber a n)
| k_other : forall a, of_kind KOther (OOther a)
| k_pair : forall k1 k2 a x y, (forall o, x = Some o -> of_kind k1 o) -> (forall o, y = Some o -> of_kind k2 o) ->
    of_kind (KPair k1 k2) (OPair a x y).
Definition ref_of_kind (k : kind) (r : option obj) : Prop := forall o, r = Some o -> of_kind k o.
(** The objects that references refer to. *)
Definition objects (rs : list (option obj)) : list obj := flat_map (fun r => match r with Some o => [o] | None => [] end) rs.
