(** Which runs are considered, and when a thread is between calls. *)
Require Import Coq.ZArith.ZArith Coq.Lists.List.
Require Import Verif.Base Verif.RefCount_Model.
Import ListNotations.
Local Open Scope Z_scope.

(** A first weak reference is not made while another thread is in DKRelease between
    its test for metadata and its decrement. *)
Definition calm (s : state) (l : nat * call) : Prop :=
  forall t, nth_error (threads s) (fst l) = Some t -> at_pc t = WIns -> entry s = false -> forall u, In u (threads s) -> at_pc u <> RelDec.
(** There are fewer than 2^28 references. *)
Definition fits (s : state) : Prop := refs s < 268435456.
Fixpoint admissible (s : state) (ls : list (nat * call)) : Prop :=
  match ls with
  | [] => True
  | l :: ls' => calm s l /\ forall s', step s l = Ok s' -> fits s' /\ admissible s' ls'
  end.
(** No weak reference is ever made. *)
Definition no_weak (ls : list (nat * call)) : Prop := Forall (fun l => snd l <> CWeak) ls.
Definition quiet (s : state) : Prop := Forall (fun t => at_pc t = Idle) (threads s).
Definition held (s : state) : Z := total owned (threads s).
Definition weakly_held (s : state) : Z := total weak (threads s).
(** The references stay countable along the run. *)
Fixpoint counted (s : state) (ls : list (nat * call)) : Prop :=
  match ls with
  | [] => True
  | l :: ls' => forall s', step s l = Ok s' -> fits s' /\ counted s' ls'
  end.
(** Steps taken by threads inside calls only. *)
Definition busy (s : state) (i : nat) : Prop := exists t, nth_error (threads s) i = Some t /\ at_pc t <> Idle.
Fixpoint only_busy (s : state) (ls : list (nat * call)) : Prop :=
  match ls with
  | [] => True
  | l :: ls' => busy s (fst l) /\ forall s', step s l = Ok s' -> only_busy s' ls'
  end.
