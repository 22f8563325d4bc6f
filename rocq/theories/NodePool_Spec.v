(** What a program sees of a node pool: its nodes are separate arrays. *)
Require Import Coq.Lists.List Coq.ZArith.ZArith Coq.Arith.Arith.
Require Import Verif.Base Verif.NodePool_Model.
Import ListNotations.

(** The contents of the nodes the program has, and what it has read. *)
Definition view : Type := (list (list cell) * list cell)%type.
(** [None]: the program uses a node it does not have, or writes beyond its end. *)
Definition means (size : nat) (v : view) (o : op) : option view :=
  match o with
  | Alloc => Some (fst v ++ [repeat (Data 0) size], snd v)
  | Free k => if k <? length (fst v) then Some (remove_nth k (fst v), snd v) else None
  | Write k o c =>
    match nth_error (fst v) k with
    | Some n => if o <? size then Some (upd (fst v) k (upd n o c), snd v) else None
    | None => None
    end
  | Read k o =>
    match nth_error (fst v) k with
    | Some n => match nth_error n o with Some c => Some (fst v, snd v ++ [c]) | None => None end
    | None => None
    end
  end.
Fixpoint meaning (size : nat) (v : view) (os : list op) : option view :=
  match os with
  | [] => Some v
  | o :: os' => match means size v o with Some v' => meaning size v' os' | None => None end
  end.
