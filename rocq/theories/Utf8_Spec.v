(** Specification of UTF-8 (RFC 3629) and of operations on character sequences. *)
Require Import Coq.ZArith.ZArith Coq.NArith.NArith Coq.Lists.List Coq.Bool.Bool.
Import ListNotations.
Local Open Scope N_scope.

(** Unicode scalar values. *)
Definition scalar (c : N) : Prop := c <= 0x10ffff /\ ~ (0xd800 <= c <= 0xdfff).

(** The encoding of a scalar value. *)
Definition utf8 (c : N) : list N :=
  if c <? 0x80 then [c]
  else if c <? 0x800 then [0xc0 + c / 64; 0x80 + c mod 64]
  else if c <? 0x10000 then [0xe0 + c / 4096; 0x80 + c / 64 mod 64; 0x80 + c mod 64]
  else [0xf0 + c / 262144; 0x80 + c / 4096 mod 64; 0x80 + c / 64 mod 64; 0x80 + c mod 64].

(** The encoding of a character sequence; characters of a C string are not NUL. *)
Definition encode (cs : list N) : list N := concat (map utf8 cs).
Definition char_ok (c : N) : Prop := scalar c /\ c <> 0.

(** A NUL-terminated byte string: [s0] without NUL, the terminator, anything. *)
Definition bytes_ok (s : list N) : Prop := Forall (fun b => b < 256) s.
Definition cstring (s0 : list N) : Prop := bytes_ok s0 /\ ~ In 0 s0.

(** [pat] occurs in [cs] at position [i]. *)
Definition occurs_at (pat cs : list N) (i : nat) : Prop :=
  exists pre post, cs = pre ++ pat ++ post /\ length pre = i.

(** The code point order of strings. *)
Inductive chars_before : list N -> list N -> Prop :=
| cb_end : forall x l, chars_before [] (x :: l)
| cb_here : forall x y l1 l2, x < y -> chars_before (x :: l1) (y :: l2)
| cb_later : forall x l1 l2, chars_before l1 l2 -> chars_before (x :: l1) (x :: l2).

(** A trail byte. *)
Definition trail_byte (b : N) : Prop := 0x80 <= b < 0xc0.

(** How a byte string is divided into characters: well-formed encodings are
    decoded; everything else is consumed in pieces of one byte and the trail
    bytes after it, each reported as -1. *)
Inductive decodes : list N -> list Z -> Prop :=
| dec_end : decodes [] []
| dec_char : forall c s zs, char_ok c -> decodes s zs -> decodes (utf8 c ++ s) (Z.of_N c :: zs)
| dec_bad : forall b ts s zs, Forall trail_byte ts ->
    (forall c s', char_ok c -> b :: ts ++ s <> utf8 c ++ s') ->
    decodes s zs -> decodes (b :: ts ++ s) ((-1)%Z :: zs).
