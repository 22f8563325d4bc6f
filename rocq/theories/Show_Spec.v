(** What a program may do with arrays that show a C array of its own. *)
Require Import Coq.Lists.List Coq.Bool.Bool Coq.Arith.Arith.
Require Import Verif.Base Verif.Own_Model Verif.Own_Spec Verif.Show_Model.
Import ListNotations.

(** The block [b] of the caller has [l] in it. *)
Definition memory (w : world) (b : nat) (l : list ref) : Prop := nth_error (blocks w) b = Some (Some l).
(** The list [a] can be read: it exists and, if it shows a block, the block exists, is long enough, and so
    do the objects in it. *)
Definition readable (w : world) (a : nat) : Prop :=
  live (own w) a /\
  forall b n, shown w a = Some (b, n) -> exists l, memory w b l /\ n <= length l /\ Forall (ref_in (live (own w))) (firstn n l).
(** The program keeps to the rules of the other calls (C167), writes to and frees blocks it has, and copies
    lists that can be read. *)
Definition fair (keq : nat -> nat -> bool) (w : world) (c : call) : Prop :=
  match c with
  | Other o => careful keq (own w) o
  | Block _ => True
  | Write b i _ => exists l, memory w b l /\ i < length l
  | Free b => exists l, memory w b l
  | Lend b n => exists l, memory w b l /\ n <= length l
  | Copy a => live (own w) a
  | MutableCopy a => readable w a
  end.
Fixpoint plays (keq : nat -> nat -> bool) (w : world) (cs : list call) : Prop :=
  match cs with [] => True | c :: cs' => fair keq w c /\ forall w', do_call keq w c = Ok w' -> plays keq w' cs' end.
(** A call that neither changes the collection [x] nor releases it.  The C arrays can be changed and freed. *)
Definition leaves (x : nat) (c : call) : Prop :=
  match c with
  | Other (Release y) => y <> x
  | Other (Splice a _ _ _) | Other (SpliceAll a _ _ _) => a <> x
  | Other (Put d _ _ _) | Other (Remove d _) | Other (RemoveAll d) => d <> x
  | _ => True
  end.
(** The reference count of an object. *)
Definition count_of (s : state) (x : nat) : nat := match nth_error (cells s) x with Some (Live n _) => n | _ => 0 end.
