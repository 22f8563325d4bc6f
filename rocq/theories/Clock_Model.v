(** Model of the clocks, Source/DKPlatform.c 699-799, with the arithmetic of double of Real_Model.

    The system calls are their results; they do not fail. *)
Require Import Coq.ZArith.ZArith Coq.Bool.Bool.
Require Import Verif.Base Verif.Real_Model.
Local Open Scope Z_scope.

(** - DKAbsoluteTimeSince1970, DKPlatform.h 285: seconds from 1970 to 2001. *)
Definition minus_epoch : Z := of_int Double (- 978307200).
(** The literals 1.0e-6 and 1.0e-7. *)
Definition e6 : Z := round Double one 1000000.
Definition e7 : Z := round Double one 10000000.

(** dk_datetime, DKPlatform.c 703-711, of [s] seconds and [u] microseconds since 1970. *)
Definition datetime (s u : Z) : Z := add (add (of_int Double s) minus_epoch) (mul (of_int Double u) e6).
(** dk_localtime, DKPlatform.c 737-746; [west]: the minutes that local time is behind. *)
Definition localtime (s u west : Z) : Z := add (datetime s u) (mul (of_int Double west) (of_int Double 60)).
(** dk_systemtime, DKPlatform.c 769-772. *)
Definition systemtime (s u : Z) : Z := datetime s u.
(** dk_datetime of Windows, DKPlatform.c 714-728, of [n] times 100 nanoseconds since 1601. *)
Definition windows_datetime (n : Z) : Z :=
  let since := (n - 11644473600000 * 10000) mod 2 ^ 64 in
  let secs := since / 10000000 in
  let nsecs := (since - secs) mod 2 ^ 64 in
  add (add (of_int Double secs) minus_epoch) (mul (of_int Double nsecs) e7).
(** dk_localtime of Windows, DKPlatform.c 749-760; [bias]: local time plus the bias is universal
    time. *)
Definition windows_localtime (n bias : Z) : Z := add (windows_datetime n) (mul (of_int Double bias) (of_int Double 60)).
