(** Specification of byte arrays and data streams: edits of a plain sequence of
    bytes, and a file with a position. *)
Require Import Coq.ZArith.ZArith Coq.NArith.NArith Coq.Lists.List Coq.Bool.Bool.
Require Import Verif.Base Verif.Array_Model Verif.Array_Spec Verif.Bytes_Model.
Import ListNotations.

(** ** Byte arrays *)

(** One edit of a sequence of bytes.  Growing by set-length leaves the new
    bytes unspecified, reserving changes nothing, aligning pads with zeros up
    to a multiple of the alignment. *)
Inductive bstep (l : list cell) : bop -> list cell -> Prop :=
| bs_replace : forall loc len d, loc + len <= length l ->
    bstep l (BReplace loc len d) (splice cell l loc len (map Some d))
| bs_zeros : forall loc len n, loc + len <= length l ->
    bstep l (BZeros loc len n) (splice cell l loc len (repeat (Some 0%N) n))
| bs_append : forall d, bstep l (BAppend d) (l ++ map Some d)
| bs_length : forall n junk, length junk = n - length l ->
    bstep l (BSetLength n) (firstn n l ++ junk)
| bs_reserve : forall n, bstep l (BReserve n) l
| bs_align : forall k pad q, 0 < k -> pad < k -> length l + pad = q * k ->
    bstep l (BAlign k) (l ++ repeat (Some 0%N) pad).

Inductive bsteps : list cell -> list bop -> list cell -> Prop :=
| bss_nil : forall l, bsteps l [] l
| bss_cons : forall l o l1 os l2, bstep l o l1 -> bsteps l1 os l2 -> bsteps l (o :: os) l2.

(** The requirements on a caller: ranges inside the current contents, whose
    length is [n], and a positive alignment.  The contents after an operation
    have a length that does not depend on the bytes. *)
Definition bop_ok (n : nat) (o : bop) : Prop :=
  match o with
  | BReplace loc len _ | BZeros loc len _ => loc + len <= n
  | BAlign k => 0 < k
  | _ => True
  end.
Definition blength (n : nat) (o : bop) : nat :=
  match o with
  | BReplace _ len d => n - len + length d
  | BZeros _ len m => n - len + m
  | BAppend d => n + length d
  | BSetLength m => m
  | BReserve _ => n
  | BAlign k => if n mod k =? 0 then n else n + (k - n mod k)
  end.
Fixpoint bops_ok (n : nat) (os : list bop) : Prop :=
  match os with
  | [] => True
  | o :: os' => bop_ok n o /\ bops_ok (blength n o) os'
  end.

(** The storage of [a] holds the bytes [l] followed by four NULs. *)
Definition bytes_shown (a : barray) (l : list cell) : Prop :=
  blen a = length l /\
  (forall i, i < length l -> nth_error (bcells a) i = nth_error l i) /\
  (forall i, i < 4 -> nth_error (bcells a) (length l + i) = Some (Some 0%N)).

(** ** Data streams *)

(** A file: its bytes and the position.  [limit] is the nearest valid position. *)
Definition file := (list byte * Z)%type.
Definition limit (l : list byte) (c : Z) : Z := Z.max 0 (Z.min c (Z.of_nat (length l))).
Definition part (l : list byte) (loc len : nat) : list byte := firstn len (skipn loc l).

Definition file_step (f : file) (o : dop) : file * dres :=
  let (l, c) := f in
  match o with
  | DAppend b => ((l ++ b, c), DDone)
  | DReplace loc len b => ((seq_replace byte l loc len b, c), DDone)
  | DSetLength n => ((firstn (Z.to_nat n) l ++ repeat 0%N (Z.to_nat n - length l), c), DDone)
  | DIncrease n => ((l ++ repeat 0%N n, c), DDone)
  | DGetBytes loc len =>
      (f, DBytes (if valid_range byte loc len l then map Some (part l (Z.to_nat loc) (Z.to_nat len)) else []))
  | DSeek off SeekSet => ((l, limit l off), DDone)
  | DSeek off SeekCur => ((l, limit l (c + off)), DDone)
  | DSeek off SeekEnd => ((l, Z.of_nat (length l)), DDone)          (* the offset is ignored *)
  | DTell => (f, DNum c)
  | DRead size count =>
      let here := limit l c in
      let got := Z.min (Z.of_N (size * count)) (Z.of_nat (length l) - here) in
      ((l, here + got)%Z, DReadResult (map Some (part l (Z.to_nat here) (Z.to_nat got))) (Z.to_N got / size))
  | DWrite b size count =>
      let here := Z.to_nat (limit l c) in
      let n := N.to_nat (size * count) in
      ((firstn here l ++ firstn n b ++ skipn (here + n) l, Z.of_nat (here + n)), DNum (Z.of_N count))
  end.

Fixpoint file_run (f : file) (os : list dop) : file * list dres :=
  match os with
  | [] => (f, [])
  | o :: os' =>
    let (f1, r) := file_step f o in
    let (f2, rs) := file_run f1 os' in
    (f2, r :: rs)
  end.

(** Requirements on the caller: lengths are not negative, range ends, positions
    and transfer sizes are 64-bit integers, the buffer written from is large
    enough, and elements read are not of size zero. *)
Definition dop_ok (f : file) (o : dop) : Prop :=
  match o with
  | DReplace loc len _ | DGetBytes loc len => (loc + len <= INT64_MAX)%Z
  | DSetLength n => (0 <= n)%Z
  | DSeek off SeekCur => (snd f + off <= INT64_MAX)%Z
  | DRead size count => (0 < size)%N /\ (size * count < 2^63)%N
  | DWrite b size count => (size * count < 2^63)%N /\ N.to_nat (size * count) <= length b
  | _ => True
  end.
Fixpoint dops_ok (f : file) (os : list dop) : Prop :=
  match os with
  | [] => True
  | o :: os' => dop_ok f o /\ dops_ok (fst (file_step f o)) os'
  end.

Definition data_shown (d : data) (f : file) : Prop :=
  bytes_shown (dbytes d) (map Some (fst f)) /\ dcursor d = snd f.

(** Operations that do not remove bytes: seeks, reads, writes, tells, appends. *)
Definition stream_op (o : dop) : bool :=
  match o with DReplace _ _ _ | DSetLength _ => false | _ => true end.

(** ** Comparison *)

(** The dictionary order of byte strings. *)
Inductive bytes_before : list byte -> list byte -> Prop :=
| bb_end : forall x l, bytes_before [] (x :: l)
| bb_here : forall x y l1 l2, (x < y)%N -> bytes_before (x :: l1) (y :: l2)
| bb_later : forall x l1 l2, bytes_before l1 l2 -> bytes_before (x :: l1) (x :: l2).

(** The laws of a three-way comparison.  [c x y] positive means x sorts first
    for strings and numbers; negative means so in C's memcmp. *)
Definition three_way {A : Type} (c : A -> A -> Z) : Prop :=
  (forall x y, Z.sgn (c y x) = - Z.sgn (c x y))%Z /\
  (forall x y, c x y = 0%Z <-> x = y) /\
  (forall x y z, (0 < c x y -> 0 < c y z -> 0 < c x z)%Z).
