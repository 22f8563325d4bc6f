(** The proposition that a predicate stands for. *)
Require Import Coq.ZArith.ZArith Coq.NArith.NArith Coq.Lists.List Coq.Arith.Arith.
Require Import Verif.Base Verif.Utf8_Model Verif.Utf8_Spec Verif.String_Spec Verif.Predicate_Model.
Import ListNotations.

(** An operand: the object, or the one that is evaluated for in place of NULL; with a key, its
    property. *)
Inductive operand (W : world) (s : obj) : obj -> option nat -> obj -> Prop :=
| operand_object : forall a, a <> Nil -> operand W s a None a
| operand_subject : operand W s Nil None s
| operand_object_key : forall a k, a <> Nil -> operand W s a (Some k) (w_prop W a k)
| operand_subject_key : forall k, s <> Nil -> operand W s Nil (Some k) (w_prop W s k)
| operand_nothing_key : forall k, s = Nil -> operand W s Nil (Some k) Nil.

(** In order: NULL is last. *)
Definition before (W : world) (a b : obj) : Prop :=
  match a, b with
  | Nil, _ => False
  | _, Nil => True
  | _, _ => ident a <> ident b /\ (0 < w_compare W a b)%Z
  end.
Definition same (W : world) (a b : obj) : Prop := ident a = ident b \/ (a <> Nil /\ b <> Nil /\ w_equal W a b = true).
(** The characters of a string object of moderate size. *)
Definition chars (x : obj) (cs : list N) : Prop := exists n, x = Str n (encode cs) /\ text cs /\ (Z.of_nat (length (encode cs)) < 2 ^ 63)%Z.

(** Operators on two values. *)
Inductive relates (W : world) : op -> obj -> obj -> Prop -> Prop :=
| r_unspecified : forall A B, relates W Unspecified A B False
| r_is : forall A B, relates W IS A B (ident A = ident B)
| r_isnt : forall A B, relates W ISNT A B (ident A <> ident B)
| r_eq : forall A B, is_pred A = false -> is_pred B = false -> relates W EQ A B (same W A B)
| r_neq : forall A B, is_pred A = false -> is_pred B = false -> relates W NEQ A B (~ same W A B)
| r_lt : forall A B, relates W LT A B (before W A B)
| r_gt : forall A B, relates W GT A B (before W B A)
| r_lte : forall A B, relates W LTE A B (~ before W B A)
| r_gte : forall A B, relates W GTE A B (~ before W A B)
| r_in_string : forall A B ca cb, chars A ca -> chars B cb -> ca <> [] -> relates W IN A B (exists p q, cb = p ++ ca ++ q)
| r_in : forall A n items b, w_contains W (Coll n items) A = Ok b -> relates W IN A (Coll n items) (b = true)
| r_contains_string : forall A B ca cb, chars A ca -> chars B cb -> cb <> [] -> relates W CONTAINS A B (exists p q, ca = p ++ cb ++ q)
| r_contains : forall n items B b, w_contains W (Coll n items) B = Ok b -> relates W CONTAINS (Coll n items) B (b = true)
| r_keyin : forall A B b, B <> Nil -> w_has_key W B A = Ok b -> relates W KEYIN A B (b = true)
| r_containskey : forall A B b, A <> Nil -> w_has_key W A B = Ok b -> relates W CONTAINSKEY A B (b = true)
| r_isa_class : forall A B, A <> Nil -> w_class W B = true -> relates W ISA A B (w_kind W A B = true)
| r_isa_selector : forall A B, A <> Nil -> w_class W B = false -> w_selector W B = true -> relates W ISA A B (w_implements W A B = true)
| r_like : forall A B ca cb, chars A ca -> chars B cb -> (ident A = ident B -> A = B) -> relates W LIKE A B (ca = cb)
| r_begins : forall A B ca cb, chars A ca -> chars B cb -> cb <> [] -> relates W BEGINSWITH A B (exists q, ca = cb ++ q)
| r_ends : forall A B ca cb, chars A ca -> chars B cb -> cb <> [] -> relates W ENDSWITH A B (exists p, ca = p ++ cb).

(** [means W ok s x P]: evaluated for [s], the object [x] stands for the proposition [P].
    [ok o A B ka kb] restricts the predicates to operators, operands and keys. *)
Section Means.
Context (W : world) (ok : op -> obj -> obj -> option nat -> option nat -> Prop) (s : obj).
Inductive means : obj -> Prop -> Prop :=
| m_nothing : means Nil False
| m_value : forall x b, x <> Nil -> is_pred x = false -> w_bool W x = Ok b -> means x (b = true)
| m_relates : forall n o a ka b kb A B P, operand W s a ka A -> operand W s b kb B -> ok o A B ka kb ->
    relates W o A B P -> means (Pred n o a ka b kb) P
| m_not : forall n a ka b kb A B P, operand W s a ka A -> operand W s b kb B -> ok NOT A B ka kb ->
    means A P -> means (Pred n NOT a ka b kb) (~ P)
| m_and : forall n a ka b kb A B P Q, operand W s a ka A -> operand W s b kb B -> ok AND A B ka kb ->
    means A P -> means B Q -> means (Pred n AND a ka b kb) (P /\ Q)
| m_or : forall n a ka b kb A B P Q, operand W s a ka A -> operand W s b kb B -> ok OR A B ka kb ->
    means A P -> means B Q -> means (Pred n OR a ka b kb) (P \/ Q)
| m_eq : forall n a ka b kb A B P Q, operand W s a ka A -> operand W s b kb B -> ok EQ A B ka kb ->
    is_pred A = true \/ is_pred B = true -> means A P -> means B Q -> means (Pred n EQ a ka b kb) (P <-> Q)
| m_neq : forall n a ka b kb A B P Q, operand W s a ka A -> operand W s b kb B -> ok NEQ A B ka kb ->
    is_pred A = true \/ is_pred B = true -> means A P -> means B Q -> means (Pred n NEQ a ka b kb) (~ (P <-> Q))
| m_all : forall n a ka b kb m items B (P : nat -> Prop), operand W s a ka (Coll m items) -> operand W s b kb B -> ok ALL (Coll m items) B ka kb ->
    (forall i x, nth_error items i = Some x -> means x (P i)) -> means (Pred n ALL a ka b kb) (forall i, i < length items -> P i)
| m_any : forall n a ka b kb m items B (P : nat -> Prop), operand W s a ka (Coll m items) -> operand W s b kb B -> ok ANY (Coll m items) B ka kb ->
    (forall i x, nth_error items i = Some x -> means x (P i)) -> means (Pred n ANY a ka b kb) (exists i, i < length items /\ P i)
| m_none : forall n a ka b kb m items B (P : nat -> Prop), operand W s a ka (Coll m items) -> operand W s b kb B -> ok NONE (Coll m items) B ka kb ->
    (forall i x, nth_error items i = Some x -> means x (P i)) -> means (Pred n NONE a ka b kb) (forall i, i < length items -> ~ P i).
End Means.

(** No restriction, and the restriction under which the code is right: the second operand has
    no key, or the same as the first; and a collection is not asked for a string. *)
Definition anything : op -> obj -> obj -> option nat -> option nat -> Prop := fun _ _ _ _ _ => True.
Definition usable : op -> obj -> obj -> option nat -> option nat -> Prop :=
  fun o A B ka kb => (kb = None \/ kb = ka) /\ (o = CONTAINS -> is_str A = is_str B).
(** Comparing two objects the other way around gives the opposite. *)
Definition fair (W : world) : Prop := forall a b, w_compare W b a = (- w_compare W a b)%Z.

(** Trees of logical operators without keys over values that have a truth value. *)
Section Logical.
Context (W : world) (s : obj).
Definition filled (x : obj) : obj := match x with Nil => s | _ => x end.
Inductive logical : obj -> Prop :=
| l_nothing : logical Nil
| l_value : forall x b, x <> Nil -> is_pred x = false -> w_bool W x = Ok b -> logical x
| l_not : forall n a b, logical (filled a) -> logical (Pred n NOT a None b None)
| l_two : forall n o a b, In o [AND; OR; EQ; NEQ] -> logical (filled a) -> logical (filled b) -> logical (Pred n o a None b None)
| l_order : forall n o a b, In o [IS; ISNT; LT; LTE; GT; GTE; Unspecified] -> logical (Pred n o a None b None)
| l_many : forall n o a m items b, In o [ALL; ANY; NONE] -> filled a = Coll m items -> (forall x, In x items -> logical x) -> logical (Pred n o a None b None).
End Logical.
