(** What happened to a semaphore. *)
Require Import Coq.Lists.List Coq.ZArith.ZArith.
Require Import Verif.Base Verif.Thread_Model.
Import ListNotations.
Local Open Scope Z_scope.

(** Increments and decrements, and their difference. *)
Definition amount (e : sevent) : Z := match e with Incremented v => v | Decremented v => - v | Returned _ _ => 0 end.
Definition balance (l : list sevent) : Z := fold_right (fun e z => amount e + z) 0 l.
(** All increments together. *)
Definition raised (l : list slabel) : Z := fold_right (fun x z => match x with Inc v => v + z | _ => z end) 0 l.
(** Amounts below 2^31. *)
Definition small (l : slabel) : Prop := match l with Inc v | Dec v | Wait _ v => 0 <= v < 2 ^ 31 | _ => True end.
