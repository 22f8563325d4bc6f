(** What an object consists of. *)
Require Import Coq.Lists.List.
Require Import Verif.Own_Model Verif.Own_Spec.
Require Import Verif.JSON_Model.
Import ListNotations.

(** [x] is [r] or in a collection that is [r] or in it, at any depth. *)
Definition within (s : state) (r : option nat) (x : nat) : Prop := exists w, r = Some w /\ (w = x \/ chain s w x).
(** [s'] has the objects of [s] as they were, with the same reference counts. *)
Definition untouched (s s' : state) : Prop := forall x, x < length (cells s) -> nth_error (cells s') x = nth_error (cells s) x.

(** [r] is the object for the value [v]: none for null and the booleans, an object without members for a number,
    a string and a vector, an array of the objects for the values of a list in their order, a hash table with one entry for
    each entry of an object, in their order, with the object for its value. *)
Definition leaf (s : state) (x : nat) : Prop := exists n, nth_error (cells s) x = Some (Live n Leaf).
Fixpoint stands_for (s : state) (v : json) (r : option nat) : Prop :=
  match v with
  | JNull | JBool _ => r = None
  | JNum _ | JVec _ _ | JStr _ => exists x, r = Some x /\ leaf s x
  | JArr l =>
    exists x n rs, r = Some x /\ nth_error (cells s) x = Some (Live n (Arr rs)) /\
    (fix all l rs := match l, rs with [], [] => True | v :: l, r :: rs => stands_for s v r /\ all l rs | _, _ => False end) l rs
  | JObj l =>
    exists x n es, r = Some x /\ nth_error (cells s) x = Some (Live n (Hash es)) /\
    (fix all l es := match l, es with [], [] => True | (_, v) :: l, (k, r) :: es => leaf s k /\ stands_for s v r /\ all l es | _, _ => False end) l es
  end.
