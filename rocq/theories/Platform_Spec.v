(** What is expected of byte swaps, spin locks, universal identifiers and deadlines. *)
Require Import Coq.NArith.NArith Coq.ZArith.ZArith Coq.Lists.List.
Require Import Verif.Base Verif.Platform_Model.
Import ListNotations.
Local Open Scope N_scope.

(** The byte [i] of a number, and numbers with the same bytes in the opposite order. *)
Definition byte (x i : N) : N := x / 256 ^ i mod 256.
Definition reversed (w x y : N) : Prop := y < 256 ^ w /\ forall i, i < w -> byte y i = byte x (w - 1 - i).

(** Threads in the section that a spin lock protects. *)
Definition within (s : spin) (i : nat) : Prop := nth_error (places s) i = Some Inside.

(** The text of an identifier; digits above nine may have either case. *)
Definition digit_of (c d : N) : Prop := d < 16 /\ (c = (if d <? 10 then 48 + d else 87 + d) \/ c = (if d <? 10 then 48 + d else 55 + d)).
Inductive hex : list N -> list N -> Prop :=
| hex_nil : hex [] []
| hex_cons a b x y bs cs : digit_of a x -> digit_of b y -> hex bs cs -> hex (a :: b :: bs) (16 * x + y :: cs).
Definition uuid_text (l : list N) (bytes : list N) : Prop :=
  exists t1 t2 t3 t4 t5 b1 b2 b3 b4 b5,
    hex t1 b1 /\ hex t2 b2 /\ hex t3 b3 /\ hex t4 b4 /\ hex t5 b5 /\
    length b1 = 4%nat /\ length b2 = 2%nat /\ length b3 = 2%nat /\ length b4 = 2%nat /\ length b5 = 6%nat /\
    l = t1 ++ [45] ++ t2 ++ [45] ++ t3 ++ [45] ++ t4 ++ [45] ++ t5 /\ bytes = b1 ++ b2 ++ b3 ++ b4 ++ b5.

(** A product that was rounded and cut off is next to the exact one: rounding keeps the order and
    integers are exact. *)
Local Open Scope Z_scope.
Definition next_to (k num nanos : Z) : Prop :=
  num * 1000000000 / 2 ^ k <= nanos <= - ((- (num * 1000000000)) / 2 ^ k).
(** A time as POSIX has it. *)
Definition valid_time (t : Z * Z) : Prop := 0 <= snd t < 1000000000.
(** The time is less than a nanosecond away from [now_sec], [now_nsec] plus [ipart] + [num] / 2 ^ [k]. *)
Definition close_to (t : Z * Z) (now_sec now_nsec ipart k num : Z) : Prop :=
  Z.abs ((fst t * 1000000000 + snd t) * 2 ^ k - (((now_sec + ipart) * 1000000000 + now_nsec) * 2 ^ k + num * 1000000000)) < 2 ^ k.
