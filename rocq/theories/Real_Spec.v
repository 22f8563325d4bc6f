(** What the bits of a float and a double mean, by the formula of IEEE 754, and when a number is
    the nearest of its format.  Of the model only the names of the types are used. *)
Require Import Coq.ZArith.ZArith Coq.QArith.QArith Coq.QArith.Qabs Coq.Lists.List.
Require Import Verif.Base Verif.Number_Model Verif.Number_Spec Verif.Real_Model.
Import ListNotations.
Local Open Scope Z_scope.

(** Bits of the fraction field and of the exponent field: float has 23 and 8, double has 52 and
    11.  The bias of the exponent follows. *)
Record layout : Type := { fraction_bits : Z; exponent_bits : Z }.
Definition float : layout := {| fraction_bits := 23; exponent_bits := 8 |}.
Definition double : layout := {| fraction_bits := 52; exponent_bits := 11 |}.
Definition bias (l : layout) : Z := 2 ^ (exponent_bits l - 1) - 1.
Inductive ext : Type := NotANumber | Minus | Real (q : Q) | Plus.
Definition power (z : Z) : Q := Qpower (2 # 1) z.
Definition fraction_field (l : layout) (b : Z) : Z := b mod 2 ^ fraction_bits l.
Definition exponent_field (l : layout) (b : Z) : Z := b / 2 ^ fraction_bits l mod 2 ^ exponent_bits l.
Definition negative (l : layout) (b : Z) : bool := Z.odd (b / 2 ^ (fraction_bits l + exponent_bits l)).
Definition meaning (l : layout) (b : Z) : ext :=
  let e := exponent_field l b in
  let m := (inject_Z (fraction_field l b) * power (- fraction_bits l))%Q in
  if e =? 2 ^ exponent_bits l - 1 then
    if fraction_field l b =? 0 then (if negative l b then Minus else Plus) else NotANumber
  else
    let v := if e =? 0 then (m * power (1 - bias l))%Q else ((1 + m) * power (e - bias l))%Q in
    Real (if negative l b then - v else v)%Q.
(** A bit pattern of this layout. *)
Definition pattern (l : layout) (b : Z) : Prop := 0 <= b < 2 ^ (1 + fraction_bits l + exponent_bits l).

(** [q] is a value of the layout, and no other value is nearer to [x]. *)
Definition nearest (l : layout) (x q : Q) : Prop :=
  forall b r, pattern l b -> meaning l b = Real r -> (Qabs (x - q) <= Qabs (x - r))%Q.

(** [b] is the value nearest to [x]; of two that are equally near, the one with an even fraction
    field. *)
Definition rounded (l : layout) (x : Q) (b : Z) : Prop :=
  pattern l b /\ exists q, meaning l b = Real q /\ nearest l x q /\
    forall b' r, pattern l b' -> meaning l b' = Real r -> ~ (r == q)%Q -> (Qabs (x - r) == Qabs (x - q))%Q -> Z.even (fraction_field l b) = true.
(** The largest value of a layout. *)
Definition largest (l : layout) : Q := ((2 - power (- fraction_bits l)) * power (bias l))%Q.

(** The order of the extended real numbers. *)
Definition before (x y : ext) : Prop :=
  match x, y with
  | NotANumber, _ | _, NotANumber => False
  | Minus, Minus => False
  | Minus, _ => True
  | Real q, Real r => (q < r)%Q
  | Real _, Plus => True
  | _, _ => False
  end.
Definition same (x y : ext) : Prop :=
  match x, y with
  | Minus, Minus | Plus, Plus => True
  | Real q, Real r => (q == r)%Q
  | _, _ => False
  end.
Definition proper (x : ext) : Prop := x <> NotANumber.
(** Lists are ordered by the first place where they differ. *)
Inductive first : list ext -> list ext -> Prop :=
| first_here : forall x y xs ys, before x y -> first (x :: xs) (y :: ys)
| first_later : forall x y xs ys, same x y -> first xs ys -> first (x :: xs) (y :: ys).

(** [z] is [q] without its fraction. *)
Definition truncated (q : Q) (z : Z) : Prop :=
  ((0 <= q /\ inject_Z z <= q /\ q < inject_Z z + 1) \/ (q <= 0 /\ q <= inject_Z z /\ inject_Z z - 1 < q))%Q.

(** The elements of a type, and the number that each is. *)
Definition layout_of (f : fmt) : layout := match f with Single => float | Double => double end.
Definition value_of (t : nty) (x : Z) : ext := match t with TI _ => Real (inject_Z x) | TF f => meaning (layout_of f) x end.
Definition element (t : nty) (x : Z) : Prop := match t with TI t => integer_type t /\ holds t x | TF f => pattern (layout_of f) x end.
(** The type has an element for this number. *)
Definition can_hold (t : nty) (v : ext) : Prop := exists y, element t y /\ same (value_of t y) v.
(** An integer with at most [p] significant bits. *)
Definition significant (p : Z) (z : Z) : Prop := exists k j, Z.abs k <= 2 ^ p /\ 0 <= j /\ z = k * 2 ^ j.
