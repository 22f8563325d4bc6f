(** Model of strings read as integers and truth values: Source/DKString.c 2420-2478, Source/DKPlatform.h
    874-878, Source/DKConversion.c 57-105.

    strtol is the one of the C library, with a long of 64 bits and in the C locale. *)
Require Import Coq.ZArith.ZArith Coq.NArith.NArith Coq.Lists.List Coq.Bool.Bool.
Require Import Verif.Base.
Import ListNotations.
Local Open Scope N_scope.

Definition is_space (b : N) : bool := (b =? 32) || ((9 <=? b) && (b <=? 13)).
Definition is_digit (b : N) : bool := (48 <=? b) && (b <=? 57).
(** strtol( str, NULL, 10 ); a text ends at its first NUL, which is neither space, sign nor digit. *)
Fixpoint skip_space (s : list N) : list N := match s with b :: s' => if is_space b then skip_space s' else s | [] => [] end.
Fixpoint digits (acc : Z) (s : list N) : Z :=
  match s with b :: s' => if is_digit b then digits (acc * 10 + (Z.of_N b - 48))%Z s' else acc | [] => acc end.
Definition clamp64 (z : Z) : Z := if (z <? - 2 ^ 63)%Z then (- 2 ^ 63)%Z else if (2 ^ 63 - 1 <? z)%Z then (2 ^ 63 - 1)%Z else z.
Definition strtol (s : list N) : Z :=
  match skip_space s with
  | 45 :: s' => clamp64 (- digits 0 s')
  | 43 :: s' => clamp64 (digits 0 s')
  | s' => clamp64 (digits 0 s')
  end.
(** The conversion to int32_t in dk_strtoi32, DKPlatform.h 874: the lower half. *)
Definition to_int32 (z : Z) : Z := ((z + 2 ^ 31) mod 2 ^ 32 - 2 ^ 31)%Z.
(** DKStringGetBool, DKString.c 2420-2441, of a string or NULL. *)
Definition get_bool (o : option (list N)) : bool :=
  match o with
  | Some (c :: _) => (is_digit c && negb (c =? 48)) || (c =? 116) || (c =? 84) || (c =? 121) || (c =? 89)
  | _ => false
  end.
(** DKStringGetInt32 2447-2458. *)
Definition get_int32 (o : option (list N)) : Z := match o with None | Some [] => 0%Z | Some s => to_int32 (strtol s) end.
(** DKStringGetInt64 2464-2475. *)
Definition get_int64 (o : option (list N)) : Z := match o with None | Some [] => 0%Z | Some s => strtol s end.
