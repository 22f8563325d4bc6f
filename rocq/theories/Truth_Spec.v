(** The situations of C180 and C181. *)
Require Import Coq.NArith.NArith Coq.ZArith.ZArith Coq.Lists.List Coq.Arith.Arith Coq.Bool.Bool.
Require Import Verif.Base Verif.Number_Model Verif.Number_Spec Verif.Property_Model Verif.Property_Spec Verif.Truth_Model.
Import ListNotations.
Local Open Scope nat_scope.

(** The truth values: two different objects of a class whose instances are never copied. *)
Definition truths (P : program) (w : world) (yes no : nat) : Prop :=
  yes <> no /\ exists c, copies P c = None /\ is_a w yes c (boolean true) /\ is_a w no c (boolean false) /\ alive w yes /\ alive w no.
(** The truth value [b] was written to a property of an object that lives, in some state a
    client can reach; then other things happened, none of which wrote that property. *)
Record told (P : program) (w : world) (c : list nat) (o : nat) (p : property) (yes no : nat) (b : bool) (w1 : world) (l : list op) (w2 : world) (c2 : list nat) : Prop := {
  t_reach : reachable P w c; t_has : has_property P w o p; t_rw : readonly p = false; t_alive : alive w o;
  t_truths : truths P w yes no; t_set : set_bool P w (GObj o) (pname p) yes no b = Ok w1;
  t_then : reaches P w1 c w2 c2 l; t_others : Forall (fun a => ~ writes a o (pname p)) l;
  t_still : alive w2 o; t_yes : alive w2 yes; t_no : alive w2 no }.
(** An enumeration in which every name and every value is found once. *)
Definition proper (e : list (text * Z)) : Prop := NoDup (map fst e) /\ NoDup (map snd e).
