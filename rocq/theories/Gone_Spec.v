(** What removing an object from a list leaves, and what a program may pass. *)
Require Import Coq.Lists.List Coq.Bool.Bool Coq.Arith.Arith.
Require Import Verif.Base Verif.Own_Model Verif.Own_Spec Verif.Gone_Model.
Import ListNotations.

(** Equal, as the user sees it. *)
Definition alike (keq : nat -> nat -> bool) (r r' : ref) : bool :=
  match r, r' with Some x, Some y => (x =? y) || keq x y | None, None => true | _, _ => false end.
(** The list [a] has the elements [l]. *)
Definition elements (s : state) (a : nat) (l : list ref) : Prop :=
  exists n, nth_error (cells s) a = Some (Live n (Arr l)) \/ nth_error (cells s) a = Some (Live n (Lnk l)).
(** Something else than the list [a] keeps [x] alive: the program, or another collection the program has. *)
Definition kept (s : state) (a x : nat) : Prop := In x (hands s) \/ exists y, y <> a /\ In y (hands s) /\ holds s y x.
(** No element before the last is equal to [r]. *)
Definition only_last (keq : nat -> nat -> bool) (l : list ref) (r : ref) : Prop := Forall (fun r' => alike keq r r' = false) (removelast l).

(** The program changes only lists it has a reference to, and passes an object that exists. *)
Definition may_call (s : state) (c : call) : Prop :=
  match c with Other o => allowed s o | RemoveObject a r => In a (hands s) /\ ref_in (live s) r end.
(** And the object is kept alive by something else, or at most the last element is equal to it. *)
Definition careful_call (keq : nat -> nat -> bool) (s : state) (c : call) : Prop :=
  match c with
  | Other o => careful keq s o
  | RemoveObject a r => In a (hands s) /\ ref_in (live s) r /\ (ref_in (kept s a) r \/ exists l, elements s a l /\ only_last keq l r)
  end.
Fixpoint follows (P : state -> call -> Prop) (keq : nat -> nat -> bool) (s : state) (cs : list call) : Prop :=
  match cs with [] => True | c :: cs' => P s c /\ forall s', do_call keq s c = Ok s' -> follows P keq s' cs' end.
