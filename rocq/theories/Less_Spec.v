(** Union and difference of lists. *)
Require Import Coq.Lists.List Coq.Bool.Bool Coq.Arith.Arith.
Require Import Verif.Base Verif.Own_Model Verif.Own_Spec Verif.Gone_Spec.
Import ListNotations.

(** The collection [c] has the objects [os], in the order in which it is enumerated. *)
Definition has_objects (s : state) (c : nat) (os : list ref) : Prop :=
  elements s c os \/
  exists n es, os = map snd es /\ (nth_error (cells s) c = Some (Live n (Hash es)) \/ nth_error (cells s) c = Some (Live n (Tree es))).
(** [x] is equal to one of [os]. *)
Definition among (keq : nat -> nat -> bool) (os : list ref) (x : ref) : bool := existsb (fun r => alike keq r x) os.
(** What is left of [l] without [os]. *)
Definition without (keq : nat -> nat -> bool) (os l : list ref) : list ref := filter (fun x => negb (among keq os x)) l.
(** [l] and then those of [os] which are equal to nothing that is there already. *)
Fixpoint with_all (keq : nat -> nat -> bool) (os l : list ref) : list ref :=
  match os with [] => l | r :: os' => with_all keq os' (if existsb (alike keq r) l then l else l ++ [r]) end.
(** Everything the program has, but for [a], is as it was. *)
Definition unchanged_but (a : nat) (s s' : state) : Prop :=
  hands s' = hands s /\
  forall y n b, y <> a -> In y (hands s) -> nth_error (cells s) y = Some (Live n b) -> exists n', nth_error (cells s') y = Some (Live n' b).
