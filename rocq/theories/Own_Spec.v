(** Who keeps an object alive, and what a program may pass. *)
Require Import Coq.Lists.List Coq.Bool.Bool Coq.Arith.Arith.
Require Import Verif.Base Verif.Own_Model.
Import ListNotations.

Definition live (s : state) (x : nat) : Prop := exists n b, nth_error (cells s) x = Some (Live n b).
Definition freed (s : state) (x : nat) : Prop := nth_error (cells s) x = Some Freed.
(** [y] is a collection that exists and holds [x]. *)
Definition holds (s : state) (y x : nat) : Prop := exists n b, nth_error (cells s) y = Some (Live n b) /\ In x (members b).
Definition held (s : state) (x : nat) : Prop := In x (hands s) \/ exists y, holds s y x.
(** All references there are. *)
Definition references (s : state) : list nat :=
  hands s ++ concat (map (fun c => match c with Live _ b => members b | Freed => [] end) (cells s)).
(** Every reference is to an object that exists, every object that exists is held, and its reference
    count is the number of references to it. *)
Definition sound (s : state) : Prop :=
  (forall x, live s x <-> held s x) /\
  (forall x n b, nth_error (cells s) x = Some (Live n b) -> n = count_occ Nat.eq_dec (references s) x).

Definition ref_in (P : nat -> Prop) (r : ref) : Prop := match r with Some x => P x | None => True end.
(** Objects the program has a reference to. *)
Definition own (s : state) (x : nat) : Prop := In x (hands s).
(** The least that can be asked of a program: it changes only collections it has a reference to itself,
    releases only references it has, and passes only objects that exist.  A list is not spliced into
    itself. *)
Definition allowed (s : state) (o : op) : Prop :=
  match o with
  | New _ => True
  | NewPair a b => ref_in (live s) a /\ ref_in (live s) b
  | Retain x => live s x
  | Release x => In x (hands s)
  | Splice a _ _ xs => In a (hands s) /\ Forall (ref_in (live s)) xs
  | SpliceAll a _ _ c => In a (hands s) /\ live s c /\ a <> c
  | Put d k v _ => In d (hands s) /\ live s k /\ ref_in (live s) v
  | Remove d k => In d (hands s) /\ live s k
  | RemoveAll d => In d (hands s)
  end.
(** When a call replaces what a collection holds, what it puts there instead has to be more than
    alive: the program must have a reference to it.  One object can be put into an array, and
    anything into a tree. *)
Definition replacing (keq : nat -> nat -> bool) (s : state) (o : op) : Prop :=
  match o with
  | Splice a _ n xs => n <> 0 /\ ((exists c l, nth_error (cells s) a = Some (Live c (Arr l))) -> 1 < length xs)
  | SpliceAll _ _ n _ => n <> 0
  | Put d k _ _ => exists c es, nth_error (cells s) d = Some (Live c (Hash es)) /\ exists e, In e es /\ keq (fst e) k = true
  | _ => False
  end.
Definition owned (s : state) (o : op) : Prop :=
  match o with
  | Splice _ _ _ xs => Forall (ref_in (own s)) xs
  | SpliceAll _ _ _ c => own s c
  | Put _ _ v _ => ref_in (own s) v
  | _ => True
  end.
Definition careful (keq : nat -> nat -> bool) (s : state) (o : op) : Prop := allowed s o /\ (replacing keq s o -> owned s o).
Fixpoint obeys (P : state -> op -> Prop) (keq : nat -> nat -> bool) (s : state) (os : list op) : Prop :=
  match os with [] => True | o :: os' => P s o /\ forall s', step keq s o = Ok s' -> obeys P keq s' os' end.
(** Being held by each other in a circle. *)
Inductive chain (s : state) : nat -> nat -> Prop :=
| Link y x : holds s y x -> chain s y x
| More y z x : holds s y z -> chain s z x -> chain s y x.
