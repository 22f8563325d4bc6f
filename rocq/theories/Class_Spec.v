(** Specification of the lifetimes, the names and the ancestry of classes. *)
Require Import Coq.NArith.NArith Coq.Lists.List Coq.Arith.Arith Coq.Bool.Bool.
Require Import Verif.Base Verif.Class_Model.
Require Verif.HashTable_Model.
Import ListNotations.

(** The object [i] exists. *)
Definition is_cell (w : world) (i : nat) (o : cell) : Prop := nth_error (heap w) i = Some o.
Definition exists_ (w : world) (i : nat) : Prop := exists o, is_cell w i o /\ live o = true.
(** It is a class, with this superclass. *)
Definition is_class (w : world) (i : nat) : Prop := exists o k, is_cell w i o /\ live o = true /\ what o = Some k.
Definition subclass_of (w : world) (i s : nat) : Prop := exists o k, is_cell w i o /\ live o = true /\ what o = Some k /\ csuper k = Some s.
Definition instance_of (w : world) (i c : nat) : Prop := exists o, is_cell w i o /\ live o = true /\ isa o = c.
(** It is the class of that name. *)
Definition named (w : world) (i : nat) (n : text) : Prop := exists o k, is_cell w i o /\ live o = true /\ what o = Some k /\ cname k = Some n.
Definition nameless (w : world) (i : nat) : Prop := exists o k, is_cell w i o /\ live o = true /\ what o = Some k /\ cname k = None.
(** One class is another, or a descendant of it. *)
Inductive inherits (w : world) : nat -> nat -> Prop :=
| same i : inherits w i i
| up i s j : subclass_of w i s -> inherits w s j -> inherits w i j.

(** What is held by references: what the client and the runtime hold, what is never released,
    and the class and the superclass of what is held. *)
Inductive held (w : world) (c : list nat) : nat -> Prop :=
| by_client i : In i c -> held w c i
| by_runtime i : In i [8; 9] -> held w c i
| forever i o : is_cell w i o -> counted o = false -> held w c i
| by_instance i j : held w c j -> instance_of w j i -> held w c i
| by_subclass i j : held w c j -> subclass_of w j i -> held w c i.

(** Histories of calls, with the references the client holds afterwards.  A client retains and
    uses only what exists and releases only what it holds. *)
Fixpoint drop (i : nat) (c : list nat) : list nat :=
  match c with [] => [] | j :: c' => if i =? j then c' else j :: drop i c' end.
Inductive reach (hash : text -> N) : world -> list nat -> Prop :=
| at_start w : runtime_init hash = Ok w -> reach hash w []
| by_new w c n s pre abs unc imm w' i : reach hash w c -> step hash w (NewClass n s pre abs unc imm) = Ok (w', Some i) -> reach hash w' (i :: c)
| by_alloc w c k w' i : reach hash w c -> step hash w (Alloc k) = Ok (w', Some i) -> reach hash w' (i :: c)
| by_retain w c i w' r : reach hash w c -> step hash w (Retain i) = Ok (w', r) -> reach hash w' (i :: c)
| by_release w c i w' r : reach hash w c -> In i c -> step hash w (Release i) = Ok (w', r) -> reach hash w' (drop i c).

(** The table of names is such that a search may leave it (C02). *)
Definition tight (w : world) : Prop :=
  (HashTable_Model.rowCount (names w) = 25 /\ HashTable_Model.activeCount (names w) + HashTable_Model.deletedCount (names w) = 11)%N.
(** It is, or there is a class without a name. *)
Definition awkward (w : world) : Prop := tight w \/ exists i, nameless w i.
(** The table has its maximum size. *)
Definition names_full (w : world) : Prop := (1675364863 <= HashTable_Model.rowCount (names w))%N.
(** Options of classes. *)
Definition abstract_class (w : world) (i : nat) : Prop := exists o k, is_cell w i o /\ what o = Some k /\ abstract k = true.
Definition final_class (w : world) (i : nat) : Prop := exists o k, is_cell w i o /\ what o = Some k /\ prevent k = true.
Definition immutable_class (w : world) (i : nat) : Prop := exists o k, is_cell w i o /\ what o = Some k /\ immutable k = true.
Definition uncounted_class (w : world) (i : nat) : Prop := exists o k, is_cell w i o /\ what o = Some k /\ uncounted k = true.
