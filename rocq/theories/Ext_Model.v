(** Model of DKStringHasPathExtension, Source/DKString.c 1796-1824; reading the extension is in
    String_Model, comparing C strings in StrObj_Model. *)
Require Import Coq.ZArith.ZArith Coq.NArith.NArith Coq.Lists.List Coq.Bool.Bool.
Require Import Verif.Base Verif.Utf8_Model Verif.String_Model.
Import ListNotations.

(** 1812-1823: ext is stepped over its first character, and compared with strcmp. *)
Definition compare_from (s : list N) (e : nat) (x : list N) : outcome bool :=
  do r <- ustrscan (skipn e (sto s)); String_Model.strcmp_eq (skipn (e + snd r) (sto s)) (sto x).
Definition has_path_extension (s x : list N) : outcome bool :=
  do e <- ustrrchr (sto s) 46;
  match e with
  | None => Ok (length x =? 0)%nat
  | Some e =>
    do l <- ustrrchr (sto s) 47;
    match l with
    | Some l => if (e <? l)%nat then Ok (length x =? 0)%nat else compare_from s e x
    | None => compare_from s e x
    end
  end.
