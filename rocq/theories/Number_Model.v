(** Model of numbers of integer types, Source/DKNumber.c, on little-endian machines with 64 bit
    words.  Encodings are taken apart already (see Encoding_Model.v and C34): an element type
    and a shape.  Numbers of floating point types are not modelled. *)
Require Import Coq.ZArith.ZArith Coq.Lists.List Coq.Arith.Arith Coq.Bool.Bool.
Require Import Verif.Base.
Import ListNotations.
Local Open Scope Z_scope.

(** int8_t ... uint64_t; the width is in bytes. *)
Record ity : Type := mkI { signed : bool; width : nat }.
Inductive shape : Type := Vec (count : nat) | Mat (rows cols : nat).
(** DKEncodingGetCount, GetRows, GetCols (DKEncoding.h 142-168). *)
Definition count (s : shape) : nat := match s with Vec n => n | Mat r c => (r * c)%nat end.
Definition rows (s : shape) : nat := match s with Vec _ => 1%nat | Mat r _ => r end.
Definition cols (s : shape) : nat := match s with Vec n => n | Mat _ c => c end.
Definition is_mat (s : shape) : bool := match s with Vec _ => false | Mat _ _ => true end.
(** struct DKNumber 312-316 with the encoding in the tag; [mem] are the bytes of the value. *)
Record num : Type := mkNum { ty : ity; sh : shape; mem : list Z }.
(** DKEncodingGetTypeSize and DKEncodingGetSize. *)
Definition size (t : ity) (s : shape) : nat := (width t * count s)%nat.

(** Reading and writing an element: the bytes of two's complement integers. *)
Fixpoint le (w : nat) (z : Z) : list Z := match w with O => [] | S w' => z mod 256 :: le w' (z / 256) end.
Fixpoint unle (bs : list Z) : Z := match bs with [] => 0 | b :: bs' => b + 256 * unle bs' end.
Definition full (t : ity) : Z := 256 ^ Z.of_nat (width t).
Definition of_bytes (t : ity) (bs : list Z) : Z :=
  let u := unle bs in if signed t && (full t / 2 <=? u) then u - full t else u.
Definition load (t : ity) (m : list Z) (off : nat) : outcome Z :=
  if (off + width t <=? length m)%nat then Ok (of_bytes t (firstn (width t) (skipn off m))) else UB.
Definition store (t : ity) (m : list Z) (off : nat) (z : Z) : outcome (list Z) :=
  if (off + width t <=? length m)%nat then Ok (firstn off m ++ le (width t) z ++ skipn (off + width t) m) else UB.
(** The conversion (ytype)x between integer types. *)
Definition cast (t : ity) (z : Z) : Z := of_bytes t (le (width t) z).

(** Cast_x_to_y 70-75 from offset [so] to offset [d_o]; [i] counts up to [n]. *)
Fixpoint cast_loop (ts td : ity) (src dst : list Z) (so d_o n : nat) : outcome (list Z) :=
  match n with
  | O => Ok dst
  | S n' =>
    do x <- load ts src so;
    do dst <- store td dst d_o x;
    cast_loop ts td src dst (so + width ts) (d_o + width td) n'
  end.
(** DKNumberConvert 1038-1088: the number of elements and the new bytes of the destination.  In
    the matrix loop both strides are computed with the size of the source type (1062, 1067). *)
Fixpoint rows_loop (ts td : ity) (src dst : list Z) (so d_o sstride dstride cs n : nat) : outcome (list Z) :=
  match n with
  | O => Ok dst
  | S n' => do dst <- cast_loop ts td src dst so d_o cs; rows_loop ts td src dst (so + sstride) (d_o + dstride) sstride dstride cs n'
  end.
Definition convert (ts : ity) (ss : shape) (src : list Z) (td : ity) (sd : shape) (dst : list Z) : outcome (nat * list Z) :=
  if (count sd =? count ss)%nat then do dst <- cast_loop ts td src dst 0 0 (count sd); Ok (count sd, dst)
  else if is_mat ss && is_mat sd then
    let sstride := (width ts * cols ss)%nat in
    let dstride := (width ts * cols sd)%nat in
    let rs := if (rows ss <? rows sd)%nat then rows ss else rows sd in
    let cs := if (cols ss <? cols sd)%nat then cols ss else cols sd in
    do dst <- rows_loop ts td src dst 0 0 sstride dstride cs rs; Ok ((rs * cs)%nat, dst)
  else
    let c := if (count ss <? count sd)%nat then count ss else count sd in
    do dst <- cast_loop ts td src dst 0 0 c; Ok (c, dst).
(** DKNumberCastValue 691-701 and DKNumberSetValue 673-685 into a number of another encoding. *)
Definition cast_value (a b : num) : outcome (nat * num) :=
  do p <- convert (ty a) (sh a) (mem a) (ty b) (sh b) (mem b); Ok (fst p, mkNum (ty b) (sh b) (snd p)).
(** DKNumberGetInt32 1115-1130, DKNumberGetInt64 1136-1151; [junk] is the variable before. *)
Definition int32 : ity := mkI true 4.
Definition int64 : ity := mkI true 8.
Definition get_int (t : ity) (junk : list Z) (a : num) : outcome Z :=
  do p <- convert (ty a) (sh a) (mem a) t (Vec 1) junk;
  if (fst p =? 1)%nat then load t (snd p) 0 else Ok 0.
(** DKNumberGetBool 1094-1109. *)
Definition get_bool (junk : list Z) (a : num) : outcome bool := do z <- get_int int32 junk a; Ok (negb (z =? 0)).

(** Cmp_x_to_y 89-102. *)
Fixpoint cmp_loop (tx ty : ity) (x y : list Z) (xo yo n : nat) : outcome Z :=
  match n with
  | O => Ok 0
  | S n' =>
    do a <- load tx x xo;
    do b <- load ty y yo;
    if a <? cast tx b then Ok 1 else if cast tx b <? a then Ok (-1) else cmp_loop tx ty x y (xo + width tx) (yo + width ty) n'
  end.
(** memcmp: the sign of the difference of the first bytes that differ. *)
Fixpoint memcmp (x y : list Z) (n : nat) : outcome Z :=
  match n, x, y with
  | O, _, _ => Ok 0
  | S n', a :: x', b :: y' => if a <? b then Ok (-1) else if b <? a then Ok 1 else memcmp x' y' n'
  | _, _, _ => UB
  end.
(** DKNumberCompare 889-924, for two numbers; DKNumberEqual 877-883. *)
Definition compare (a b : num) : outcome Z :=
  if (count (sh a) =? count (sh b))%nat then cmp_loop (ty a) (ty b) (mem a) (mem b) 0 0 (count (sh b))
  else
    let sa := size (ty a) (sh a) in let sb := size (ty b) (sh b) in
    if (sa <? sb)%nat then Ok 1 else if (sb <? sa)%nat then Ok (-1) else memcmp (mem a) (mem b) sa.
Definition equal (a b : num) : outcome bool := do c <- compare a b; Ok (c =? 0).

(** dk_memhash64, DKPlatform.c 579-590; char is signed. *)
Definition schar (b : Z) : Z := if 128 <=? b then b - 256 else b.
Fixpoint memhash (h : Z) (bs : list Z) : Z := match bs with [] => h | b :: bs' => memhash ((31 * h + schar b) mod 2 ^ 64) bs' end.
(** DKNumberHash 930-974. *)
Definition hash (a : num) : outcome Z :=
  if (count (sh a) =? 1)%nat && (width (ty a) <=? 8)%nat then do z <- load (ty a) (mem a) 0; Ok (z mod 2 ^ 64)
  else if (size (ty a) (sh a) <=? length (mem a))%nat then Ok (memhash 0 (firstn (size (ty a) (sh a)) (mem a))) else UB.

(** DKNumberEnumerateValue 749-772: what the callback is called with, index and value. *)
Fixpoint enum_loop (ts td : ity) (src : list Z) (i n : nat) : outcome (list (nat * Z)) :=
  match n with
  | O => Ok []
  | S n' => do x <- load ts src (width ts * i); do l <- enum_loop ts td src (S i) n'; Ok ((i, cast td x) :: l)
  end.
Definition enumerate (a : num) (td : ity) : outcome (list (nat * Z)) := enum_loop (ty a) td (mem a) 0 (count (sh a)).
(** DKNumberEnumerateMatrixValue 807-836: row, column and value; the index is row * rows + column (825). *)
Fixpoint cols_loop (ts td : ity) (src : list Z) (rs row col n : nat) : outcome (list (nat * nat * Z)) :=
  match n with
  | O => Ok []
  | S n' => do x <- load ts src (width ts * (row * rs + col)); do l <- cols_loop ts td src rs row (S col) n'; Ok ((row, col, cast td x) :: l)
  end.
Fixpoint matrix_loop (ts td : ity) (src : list Z) (rs cs row n : nat) : outcome (list (nat * nat * Z)) :=
  match n with
  | O => Ok []
  | S n' => do l <- cols_loop ts td src rs row 0 cs; do l' <- matrix_loop ts td src rs cs (S row) n'; Ok (l ++ l')
  end.
Definition enumerate_matrix (a : num) (td : ity) : outcome (list (nat * nat * Z)) :=
  matrix_loop (ty a) td (mem a) (rows (sh a)) (cols (sh a)) 0 (rows (sh a)).
