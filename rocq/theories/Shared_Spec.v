(** What threads can rely on. *)
Require Import Coq.Lists.List Coq.Arith.Arith.
Require Import Verif.Base Verif.Shared_Model.
Import ListNotations.

(** Call [t] has returned [r]. *)
Definition returned (s : st) (t : nat) (r : option nat) : Prop := nth_error (calls s) t = Some (Done r).
Definition all_returned (s : st) : Prop := forall t p, nth_error (calls s) t = Some p -> exists r, p = Done r.
(** Thread [t] is between the return of lock and the call of unlock. *)
Definition holds (s : lst) (t : nat) : Prop := nth_error (threads s) t = Some Inside.
(** Thread [t] has called lock or unlock, and this call has not returned yet. *)
Definition waiting (s : lst) (t : nat) : Prop := exists p, nth_error (threads s) t = Some p /\ p <> Inside /\ p <> Outside.
(** No lookup has begun that has not returned. *)
Definition no_find (s : ist) : Prop := forall t p, nth_error (finds s) t = Some p -> exists r, p = FDone r.
(** No installation has begun that has not returned. *)
Definition no_install (s : ist) : Prop := forall t p, nth_error (installs s) t = Some p -> exists i, p = IDone i.
(** Installations do not overlap with anything. *)
Inductive separate : ist -> list ilabel -> ist -> Prop :=
| sep_nil : forall s, separate s [] s
| sep_begin : forall s ls s', separate (istep s BeginFind) ls s' -> separate s (BeginFind :: ls) s'
| sep_step : forall s t ls s', separate (istep s (StepFind t)) ls s' -> separate s (StepFind t :: ls) s'
| sep_install : forall s i ls s', no_find s -> separate (irun s [BeginInstall i; StepInstall (length (installs s)); StepInstall (length (installs s))]) ls s' ->
    separate s (BeginInstall i :: ls) s'.
(** The interface installed last, at first [r]. *)
Definition latest (r : option nat) (ls : list ilabel) : option nat := fold_left (fun r l => match l with BeginInstall i => Some i | _ => r end) ls r.
