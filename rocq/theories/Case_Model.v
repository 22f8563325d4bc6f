(** Model of dk_ustrlwr and dk_ustrupr, Source/DKUnicode.c 296-341.

    A source is its bytes up to and including the terminator; the destination is an array of [size]
    bytes, of which the bytes written are given.  The locale is that of C. *)
Require Import Coq.NArith.NArith Coq.Lists.List Coq.Bool.Bool.
Require Import Verif.Base.
Import ListNotations.
Local Open Scope N_scope.

Definition tolower (c : N) : N := if (65 <=? c) && (c <=? 90) then c + 32 else c.
Definition toupper (c : N) : N := if (97 <=? c) && (c <=? 122) then c - 32 else c.
(** uint32_t capacity = (uint32_t)dst_size - 1, 298 and 322. *)
Definition capacity (size : N) : N := (size mod 2^32 + (2^32 - 1)) mod 2^32.
(** The loop, 301-311 and 325-335, and the terminator, 313 and 337. *)
Fixpoint convert (f : N -> N) (size cap i : N) (src : list N) : outcome (list N) :=
  let last := if i <? size then Ok [0] else UB in
  if i <? cap then
    match src with
    | [] => UB
    | ch :: src' =>
      if ch =? 0 then last
      else if i <? size then do r <- convert f size cap (i + 1) src'; Ok ((if ch <? 128 then f ch else ch) :: r)
      else UB
    end
  else last.
Definition ustrlwr (size : N) (src : list N) : outcome (list N) := convert tolower size (capacity size) 0 src.
Definition ustrupr (size : N) (src : list N) : outcome (list N) := convert toupper size (capacity size) 0 src.
