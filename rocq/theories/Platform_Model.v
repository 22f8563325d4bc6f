(** Model of parts of the platform layer: byte swaps and spin locks, Source/DKPlatform.h 718-783,
    reading of universal identifiers, Source/DKPlatform.c 432-493, and the deadlines of conditions,
    Source/DKCondition.c 127-175. *)
Require Import Coq.NArith.NArith Coq.ZArith.ZArith Coq.Lists.List Coq.Bool.Bool.
Require Import Verif.Base.
Import ListNotations.
Local Open Scope N_scope.

(** ** Byte swaps for compilers without a byte swap of their own

    A number of 64 bits is its bit pattern, signed or not. *)

(** DKSwapInt16 746-752. *)
Definition swap16 (x : N) : N := N.lor (N.shiftl x 8 mod 2 ^ 16) (N.shiftr x 8).
(** DKSwapInt32 754-762. *)
Definition swap32 (x : N) : N :=
  let byte0 := N.shiftl x 24 mod 2 ^ 32 in
  let byte1 := N.land (N.shiftl x 8 mod 2 ^ 32) 0x00ff0000 in
  let byte2 := N.land (N.shiftr x 8) 0x0000ff00 in
  let byte3 := N.shiftr x 24 in
  N.lor (N.lor (N.lor byte0 byte1) byte2) byte3.
(** DKSwapInt64 764-770. *)
Definition swap64 (x : N) : N :=
  let word0 := swap32 (x mod 2 ^ 32) in
  let word1 := swap32 (N.shiftr x 32 mod 2 ^ 32) in
  N.lor word0 word1.

(** ** Spin locks

    A step is one atomic operation. *)
Inductive place := Outside | Spinning | Inside.
Record spin := mkSpin { word : Z; places : list place }.
Inductive slabel := SNew | SLock (i : nat) | SStep (i : nat) | SUnlock (i : nat).
Definition sinit : spin := mkSpin 0 [].
(** DKSpinLockLock 718-726, one attempt, and DKSpinLockUnlock 728-733. *)
Definition attempt (s : spin) (i : nat) : spin :=
  if (word s =? 0)%Z then mkSpin 1 (upd (places s) i Inside) else s.
Definition sstep (s : spin) (l : slabel) : spin :=
  match l with
  | SNew => mkSpin (word s) (places s ++ [Outside])
  | SLock i => match nth_error (places s) i with Some Outside => mkSpin (word s) (upd (places s) i Spinning) | _ => s end
  | SStep i => match nth_error (places s) i with Some Spinning => attempt s i | _ => s end
  | SUnlock i => match nth_error (places s) i with Some Inside => mkSpin (Z.land (word s) 0) (upd (places s) i Outside) | _ => s end
  end.
Definition srun (s : spin) (ls : list slabel) : spin := fold_left sstep ls s.

(** ** Universal identifiers

    The text is what is read from the file; the identifier is not defined when it is too short. *)

(** ascii_to_hex 432-443: the digits, and the letters in both cases. *)
Definition ascii_to_hex (c : N) : N :=
  if (48 <=? c) && (c <=? 57) then c - 48
  else if (65 <=? c) && (c <=? 70) then c - 55
  else if (97 <=? c) && (c <=? 102) then c - 87
  else 0.
(** dk_uuid_readbyte 445-450. *)
Definition read_byte (l : list N) (i : nat) : outcome N :=
  match nth_error l i, nth_error l (S i) with
  | Some a, Some b => Ok (N.lor (N.shiftl (ascii_to_hex (N.land a 127)) 4 mod 256) (ascii_to_hex (N.land b 127)))
  | _, _ => UB
  end.
Fixpoint read_bytes (l : list N) (is : list nat) : outcome (list N) :=
  match is with [] => Ok [] | i :: is' => do b <- read_byte l i; do bs <- read_bytes l is'; Ok (b :: bs) end.
(** dk_uuid_generate 452-493 on Android; [None] is a file that cannot be opened. *)
Definition uuid_generate (file : option (list N)) : outcome (list N) :=
  match file with
  | None => UB
  | Some l =>
    if (36 <=? length l)%nat then read_bytes (firstn 36 l) [0; 2; 4; 6; 9; 11; 14; 16; 19; 21; 24; 26; 28; 30; 32; 34]%nat
    else UB
  end.

(** ** Deadlines of conditions

    A timeout in seconds is a double.  Its parts as given by modf are the integer [ipart] and the
    fraction [num] / 2 ^ [k] of the same sign.  [nanos] is the product of the fraction and 10^9,
    rounded to a double and then cut off to an integer.  Infinities and values that are no numbers
    are not modelled, nor is the branch for Windows. *)
Local Open Scope Z_scope.
Definition long_ok (x : Z) : bool := (- 2 ^ 63 <=? x) && (x <? 2 ^ 63).
Definition in_long (x : Z) : outcome Z := if long_ok x then Ok x else UB.
(** The loop, 154-158. *)
Fixpoint normalise (fuel : nat) (sec nsec : Z) : outcome (Z * Z) :=
  match fuel with
  | O => NoFuel
  | S fuel =>
    if 999999999 <? nsec then do sec <- in_long (sec + 1); normalise fuel sec (nsec - 1000000000)
    else Ok (sec, nsec)
  end.
(** DKConditionTimedWait 135-158, with the clock of POSIX. *)
Definition deadline (fuel : nat) (now_sec now_nsec ipart nanos : Z) : outcome (Z * Z) :=
  do ip <- in_long ipart;
  do sec <- in_long (now_sec + ip);
  do nsec <- in_long (now_nsec + nanos);
  normalise fuel sec nsec.
