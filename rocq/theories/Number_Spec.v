(** Numbers as sequences of integers. *)
Require Import Coq.ZArith.ZArith Coq.Lists.List Coq.Arith.Arith Coq.Bool.Bool.
Require Import Verif.Base Verif.Number_Model.
Import ListNotations.
Local Open Scope Z_scope.

(** The integer types, and the integers they hold. *)
Definition integer_type (t : ity) : Prop := In (width t) [1; 2; 4; 8]%nat.
Definition bits (t : ity) : Z := 8 * Z.of_nat (width t).
Definition holds (t : ity) (z : Z) : Prop := if signed t then - 2 ^ (bits t - 1) <= z < 2 ^ (bits t - 1) else 0 <= z < 2 ^ bits t.
(** The representative of [z] modulo 2^bits that the type holds. *)
Definition represents (t : ity) (z y : Z) : Prop := holds t y /\ exists k, y = z + k * 2 ^ bits t.
(** [n] is the number made from the values [vs]: a vector, or a matrix row by row. *)
Definition is_number (n : num) (t : ity) (s : shape) (vs : list Z) : Prop :=
  integer_type t /\ Forall (holds t) vs /\ length vs = count s /\ n = mkNum t s (flat_map (le (width t)) vs).
(** What any memory of the right size holds. *)
Definition well_sized (n : num) : Prop :=
  integer_type (ty n) /\ length (mem n) = size (ty n) (sh n) /\ Forall (fun b => 0 <= b < 256) (mem n).
(** Fewer values come first; otherwise in the order of the first values that differ. *)
Fixpoint first_less (a b : list Z) : Prop :=
  match a, b with x :: a', y :: b' => x < y \/ x = y /\ first_less a' b' | _, _ => False end.
Definition less (a b : list Z) : Prop := (length a < length b)%nat \/ length a = length b /\ first_less a b.
(** The element of a matrix in row [r] and column [c], given row by row. *)
Definition at_rc (cs : nat) (vs : list Z) (r c : nat) : option Z := nth_error vs (r * cs + c).
