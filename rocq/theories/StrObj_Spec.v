(** Specification of string objects: contents only. *)
Require Import Coq.NArith.NArith Coq.Lists.List Coq.Bool.Bool Coq.Arith.Arith.
Require Import Verif.String_Model Verif.StrObj_Model.
Import ListNotations.
Local Open Scope N_scope.

(** The C string at the start of some bytes. *)
Fixpoint cut (s : bytes) : bytes :=
  match s with [] => [] | b :: s' => if b =? 0 then [] else b :: cut s' end.
(** The hash code of a C string: a polynomial in its (signed) characters. *)
Definition poly (s : bytes) : N :=
  fold_left (fun h b => (31 * h + (if b <? 128 then b else b + (2^64 - 256))) mod 2^64) s 0.

(** The contents and mutability of every object. *)
Definition aworld : Type := list (bytes * bool).
Definition aset (w : aworld) (a : nat) (c : bytes) : aworld :=
  firstn a w ++ match skipn a w with [] => [] | (_, m) :: t => (c, m) :: t end.
(** What each call means when only contents matter; [None]: no such object. *)
Definition anew (w : aworld) (m : bool) (bs : bytes) : aworld * nat :=
  if negb m && (length bs =? 0)%nat then (w, 0%nat) else (w ++ [(bs, m)], length w).
Definition astep (w : aworld) (o : sop) : option (aworld * sres) :=
  match o with
  | ONew m bs => let '(w', a) := anew w m bs in Some (w', RAddr a)
  | OCopy m a =>
    match nth_error w a with
    | Some (c, _) => let '(w', n) := anew w m c in Some (w', RAddr n)
    | None => None
    end
  | OEdit a loc len bs =>
    match nth_error w a with
    | Some (c, m) =>
      if m && (loc + len <=? length c)%nat then Some (aset w a (firstn loc c ++ bs ++ skipn (loc + len) c), RNone) else Some (w, RNone)
    | None => None
    end
  | OHash a => match nth_error w a with Some (c, _) => Some (w, RHash (poly (cut c))) | None => None end
  | OEqual a b =>
    match nth_error w a, nth_error w b with
    | Some (c, _), Some (d, _) => Some (w, REqual (bytes_eqb (cut c) (cut d)))
    | _, _ => None
    end
  | OSetLength a n fill =>
    match nth_error w a with
    | Some (c, m) => if m then Some (aset w a (firstn n (c ++ fill)), RNone) else Some (w, RNone)
    | None => None
    end
  end.
Fixpoint arun (w : aworld) (os : list sop) : option (aworld * list sres) :=
  match os with
  | [] => Some (w, [])
  | o :: os' =>
    match astep w o with
    | None => None
    | Some (w', r) => match arun w' os' with None => None | Some (w'', rs) => Some (w'', r :: rs) end
    end
  end.
Definition astart : aworld := [([], false)].
