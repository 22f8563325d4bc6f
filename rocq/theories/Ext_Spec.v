(** The extension of a path, of characters. *)
Require Import Coq.NArith.NArith Coq.Lists.List.
Require Import Verif.String_Spec.
Import ListNotations.
Local Open Scope N_scope.

Definition period : N := 46.
(** What follows the last [c]. *)
Fixpoint after_last (c : N) (cs : list N) : option (list N) :=
  match cs with
  | [] => None
  | x :: r => match after_last c r with Some t => Some t | None => if x =? c then Some r else None end
  end.
Definition file_name (cs : list N) : list N := match after_last slash cs with Some t => t | None => cs end.
Definition extension (name : list N) : list N := match after_last period name with Some t => t | None => [] end.
