(** Model of Source/DKByteArray.c and of the byte and stream functions of
    Source/DKData.c.

    Simplifications: allocation does not fail, and lengths are natural numbers
    (a length near 2^63 cannot be allocated).  Only arrays that own their
    storage are modelled: external storage (DKByteArrayInitWithExternalStorage)
    is for immutable data.  The receiver is not NULL and has the right class. *)
Require Import Coq.ZArith.ZArith Coq.NArith.NArith Coq.Lists.List Coq.Bool.Bool Coq.Arith.Arith.
Require Import Verif.Base Verif.Array_Model.
Import ListNotations.

Notation byte := N.
(** A byte of memory; [None] is indeterminate (malloc'd and never written). *)
Notation cell := (option N).

(** memcpy / memmove within one object: reading or writing outside is [UB]. *)
Definition mread (m : list cell) (off n : nat) : outcome (list cell) :=
  if off + n <=? length m then Ok (firstn n (skipn off m)) else UB.
Definition mwrite (m : list cell) (off : nat) (data : list cell) : outcome (list cell) :=
  if off + length data <=? length m
  then Ok (firstn off m ++ data ++ skipn (off + length data) m) else UB.

(** DKByteArray.h DKByteArray.  [bnull] tells that bytes points to the static
    NULL_BYTES; [bcells] is the whole allocation. *)
Record barray := mkBarray { bnull : bool; bcells : list cell; blen : nat; bmax : nat }.

(** DKByteArray.c 37-40 NULL_TERMINATOR_SIZE and NULL_BYTES. *)
Definition terminator : list cell := [Some 0%N; Some 0%N; Some 0%N; Some 0%N].

(** DKByteArrayInit, DKByteArray.c 58-63. *)
Definition barray_init : barray := mkBarray true terminator 0 0.

(** SetNullTerminator, DKByteArray.c 46-52. *)
Definition set_terminator (a : barray) : outcome barray :=
  do m <- mwrite (bcells a) (blen a) terminator;
  Ok (mkBarray (bnull a) m (blen a) (bmax a)).

(** DKByteArrayReserve, DKByteArray.c 94-119. *)
Definition barray_reserve (a : barray) (n : nat) : outcome barray :=
  if bmax a <? n then
    let n := if n <? 64 then 64 else n in
    let m := repeat None (n + 4) in
    do m <- (if negb (bnull a) && (0 <? bmax a) then
               if 0 <? blen a then
                 do d <- mread (bcells a) 0 (blen a);
                 mwrite m 0 d
               else Ok m
             else Ok m);
    set_terminator (mkBarray false m (blen a) n)
  else Ok a.

(** ResizeArray, DKByteArray.c 134-153: None when the old allocation is kept. *)
Definition resize (old requested : nat) : option nat :=
  if requested <? old then None
  else
    let n := old + old / 4 in
    let n := if n <? requested then requested else n in
    Some (if n <? 64 then 64 else n).

(** DKByteArraySetLength, DKByteArray.c 159-164. *)
Definition barray_set_length (a : barray) (n : nat) : outcome barray :=
  do a1 <- barray_reserve a n;
  set_terminator (mkBarray (bnull a1) (bcells a1) n (bmax a1)).

(** Where the inserted bytes come from: NULL (zeros), another object holding
    [data], or the array's own storage at offset [off]. *)
Inductive source := FromNull | FromBytes (data : list byte) | FromSelf (off : nat).

(** DKByteArrayReplaceBytes, DKByteArray.c 170-253: replace [len] bytes at
    [loc] by [n] bytes of the source.  The range assertions are compiled out, so
    a range outside the array is undefined. *)
Definition barray_replace (a : barray) (loc len : nat) (src : source) (n : nat) : outcome barray :=
  if negb (loc + len <=? blen a) then UB
  else if (len =? 0) && (n =? 0) then Ok a
  else
    let suffix := blen a - (loc + len) in
    let newlen := blen a + n - len in
    do r <- match resize (bmax a) newlen with
            | Some max =>
              let m := repeat None (max + 4) in
              do m <- (if negb (bnull a) then
                         do m <- (if 0 <? loc then do d <- mread (bcells a) 0 loc; mwrite m 0 d else Ok m);
                         (if 0 <? suffix then do d <- mread (bcells a) (loc + len) suffix; mwrite m (loc + n) d else Ok m)
                       else Ok m);
              Ok (m, max, false, true)
            | None =>
              do m <- (if negb (bnull a) && (0 <? suffix)
                       then do d <- mread (bcells a) (loc + len) suffix; mwrite (bcells a) (loc + n) d
                       else Ok (bcells a));
              Ok (m, bmax a, bnull a, false)
            end;
    let '(m, max, isnull, moved) := r in
    do m <- (if 0 <? n then
               match src with
               | FromNull => mwrite m loc (repeat (Some 0%N) n)
               | FromBytes data =>
                 if n <=? length data then mwrite m loc (map Some (firstn n data)) else UB
               | FromSelf off =>
                 if moved then UB                                       (* the source was freed *)
                 else if (off + n <=? loc) || (loc + n <=? off)
                      then do d <- mread m off n; mwrite m loc d
                      else UB                                           (* overlapping memcpy *)
               end
             else Ok m);
    set_terminator (mkBarray isnull m newlen max).

(** DKByteArrayAppendBytes, DKByteArray.c 259-263. *)
Definition barray_append (a : barray) (src : source) (n : nat) : outcome barray :=
  barray_replace a (blen a) 0 src n.

(** DKByteArrayAlignLength, DKByteArray.c 269-286, for a positive alignment. *)
Definition barray_align (a : barray) (k : nat) : outcome (barray * nat) :=
  if k =? 0 then UB
  else
    let rem := blen a mod k in
    if 0 <? rem then
      let pad := k - rem in
      do a1 <- barray_append a FromNull pad;
      do m <- mwrite (bcells a1) (blen a) (repeat (Some 0%N) pad);
      Ok (mkBarray (bnull a1) m (blen a1) (bmax a1), pad)
    else Ok (a, 0).

(** Histories of a byte array. *)
Inductive bop :=
| BReplace (loc len : nat) (data : list byte)
| BZeros (loc len n : nat)                 (* bytes == NULL *)
| BAppend (data : list byte)
| BSetLength (n : nat)
| BReserve (n : nat)
| BAlign (k : nat).

Definition barray_step (a : barray) (o : bop) : outcome barray :=
  match o with
  | BReplace loc len data => barray_replace a loc len (FromBytes data) (length data)
  | BZeros loc len n => barray_replace a loc len FromNull n
  | BAppend data => barray_append a (FromBytes data) (length data)
  | BSetLength n => barray_set_length a n
  | BReserve n => barray_reserve a n
  | BAlign k => do r <- barray_align a k; Ok (fst r)
  end.

Fixpoint barray_run (a : barray) (os : list bop) : outcome barray :=
  match os with
  | [] => Ok a
  | o :: os' => do a' <- barray_step a o; barray_run a' os'
  end.

(** ** Data objects *)

(** DKData.c struct DKData: the bytes and the stream cursor. *)
Record data := mkData { dbytes : barray; dcursor : Z }.

Definition data_init : data := mkData barray_init 0.

(** DKDataSetCursor, DKData.c 170-182. *)
Definition clamp (len : nat) (c : Z) : Z :=
  if (c <? 0)%Z then 0%Z else if (Z.of_nat len <? c)%Z then Z.of_nat len else c.
Definition set_cursor (d : data) (c : Z) : data := mkData (dbytes d) (clamp (blen (dbytes d)) c).

Definition with_bytes (d : data) (a : barray) : data := mkData a (dcursor d).

(** DKDataSetLength, DKData.c 542-560. *)
Definition data_set_length (d : data) (n : Z) : outcome data :=
  let a := dbytes d in
  if (Z.of_nat (blen a) <? n)%Z then
    do a' <- barray_replace a (blen a) 0 FromNull (Z.to_nat n - blen a); Ok (with_bytes d a')
  else if (n <? Z.of_nat (blen a))%Z then
    if (n <? 0)%Z then UB
    else do a' <- barray_replace a (Z.to_nat n) (blen a - Z.to_nat n) FromNull 0; Ok (with_bytes d a')
  else Ok d.

(** DKDataIncreaseLength, DKData.c 566-575, for a length that is not negative. *)
Definition data_increase_length (d : data) (n : nat) : outcome data :=
  do a' <- barray_replace (dbytes d) (blen (dbytes d)) 0 FromNull n; Ok (with_bytes d a').

(** DKDataAppendBytes, DKData.c 730-739; DKDataAppendData, DKData.c 714-724, for
    another data object with these bytes. *)
Definition data_append (d : data) (bytes : list byte) : outcome data :=
  do a' <- barray_append (dbytes d) (FromBytes bytes) (length bytes); Ok (with_bytes d a').

(** DKDataAppendData, DKData.c 714-724, with the receiver as argument. *)
Definition data_append_self (d : data) : outcome data :=
  do a' <- barray_append (dbytes d) (FromSelf 0) (blen (dbytes d)); Ok (with_bytes d a').

(** DKDataReplaceBytes, DKData.c 745-754, and DKDataDeleteBytes, 760-769. *)
Definition data_replace (d : data) (loc len : Z) (bytes : list byte) : outcome data :=
  do r <- check_range loc len (blen (dbytes d));
  match r with
  | None => Ok d
  | Some (loc, len) =>
    do a' <- barray_replace (dbytes d) loc len (FromBytes bytes) (length bytes); Ok (with_bytes d a')
  end.

(** DKDataGetBytes, DKData.c 689-708 (through DKDataGetByteRange, 618-632): the
    bytes copied; an invalid range copies nothing. *)
Definition data_get_bytes (d : data) (loc len : Z) : outcome (list cell) :=
  let a := dbytes d in
  do r <- check_range loc len (blen a);
  match r with
  | None => Ok []
  | Some (loc, len) => if loc <? blen a then mread (bcells a) loc len else Ok []
  end.

(** DKDataSeek, DKData.c 775-798: the offset is ignored for SEEK_END, and
    SEEK_CUR adds in signed 64-bit arithmetic. *)
Inductive whence := SeekSet | SeekCur | SeekEnd.
Definition data_seek (d : data) (offset : Z) (w : whence) : outcome data :=
  match w with
  | SeekSet => Ok (set_cursor d offset)
  | SeekCur => if (INT64_MAX <? dcursor d + offset)%Z then UB else Ok (set_cursor d (dcursor d + offset))
  | SeekEnd => Ok (set_cursor d (Z.of_nat (blen (dbytes d)) + dcursor d))
  end.

(** size * count as a size_t, then as a DKIndex: negative past 2^63. *)
Definition transfer (size count : N) : option nat :=
  let p := (size * count mod 2^64)%N in
  if (p <? 2^63)%N then Some (N.to_nat p) else None.

(** DKDataRead, DKData.c 820-841: the bytes put in the buffer and the number of
    elements returned; the division by a zero size is undefined. *)
Definition data_read (d : data) (size count : N) : outcome (data * (list cell * N)) :=
  let d := set_cursor d (dcursor d) in
  let a := dbytes d in
  let cur := Z.to_nat (dcursor d) in
  match transfer size count with
  | None => UB
  | Some n =>
    let n := if blen a - cur <? n then blen a - cur else n in
    do out <- mread (bcells a) cur n;
    let d' := set_cursor d (dcursor d + Z.of_nat n) in
    if (size =? 0)%N then UB
    else Ok (d', (out, (N.of_nat n / size)%N))
  end.

(** DKDataWrite, DKData.c 847-868, from a buffer holding [bytes]; the result is
    the count. *)
Definition data_write (d : data) (bytes : list byte) (size count : N) : outcome (data * N) :=
  let d := set_cursor d (dcursor d) in
  let a := dbytes d in
  let cur := Z.to_nat (dcursor d) in
  match transfer size count with
  | None => UB
  | Some n =>
    let over := if blen a - cur <? n then blen a - cur else n in
    do a' <- barray_replace a cur over (FromBytes bytes) n;
    Ok (set_cursor (with_bytes d a') (dcursor d + Z.of_nat n), count)
  end.

(** Histories of a data object. *)
Inductive dop :=
| DAppend (bytes : list byte)
| DReplace (loc len : Z) (bytes : list byte)
| DSetLength (n : Z)
| DIncrease (n : nat)
| DGetBytes (loc len : Z)
| DSeek (offset : Z) (w : whence)
| DTell
| DRead (size count : N)
| DWrite (bytes : list byte) (size count : N).

Inductive dres :=
| DDone
| DBytes (l : list cell)
| DNum (z : Z)
| DReadResult (l : list cell) (n : N).

Definition data_step (d : data) (o : dop) : outcome (data * dres) :=
  match o with
  | DAppend bytes => do d' <- data_append d bytes; Ok (d', DDone)
  | DReplace loc len bytes => do d' <- data_replace d loc len bytes; Ok (d', DDone)
  | DSetLength n => do d' <- data_set_length d n; Ok (d', DDone)
  | DIncrease n => do d' <- data_increase_length d n; Ok (d', DDone)
  | DGetBytes loc len => do l <- data_get_bytes d loc len; Ok (d, DBytes l)
  | DSeek off w => do d' <- data_seek d off w; Ok (d', DDone)
  | DTell => Ok (d, DNum (dcursor d))
  | DRead size count => do r <- data_read d size count; Ok (fst r, DReadResult (fst (snd r)) (snd (snd r)))
  | DWrite bytes size count => do r <- data_write d bytes size count; Ok (fst r, DNum (Z.of_N (snd r)))
  end.

Fixpoint data_run (d : data) (os : list dop) : outcome (data * list dres) :=
  match os with
  | [] => Ok (d, [])
  | o :: os' =>
    do r <- data_step d o;
    do r' <- data_run (fst r) os';
    Ok (fst r', snd r :: snd r')
  end.

(** DKDataCompare, DKData.c 440-474, on the bytes of two data objects.  memcmp
    is modelled by the sign of the first difference. *)
Fixpoint memcmp (l1 l2 : list byte) (n : nat) : Z :=
  match n, l1, l2 with
  | S n', x :: l1', y :: l2' =>
    if (x <? y)%N then (-1)%Z else if (y <? x)%N then 1%Z else memcmp l1' l2' n'
  | _, _, _ => 0%Z
  end.
Definition data_compare (l1 l2 : list byte) : Z :=
  let len1 := length l1 in
  let len2 := length l2 in
  let c := memcmp l1 l2 (if len1 <? len2 then len1 else len2) in
  if (c =? 0)%Z then if len1 <? len2 then (-1)%Z else if len2 <? len1 then 1%Z else 0%Z
  else c.

(** DKStructCompare, DKStruct.c 234-268, for two structs given by semantic and
    value; [scmp] is DKStringCompare on semantics. *)
Definition struct_compare {S : Type} (scmp : S -> S -> Z) (x y : S * list byte) : Z :=
  let c := scmp (fst x) (fst y) in
  if negb (c =? 0)%Z then c
  else
    let size1 := length (snd x) in
    let size2 := length (snd y) in
    if size1 <? size2 then 1%Z
    else if size2 <? size1 then (-1)%Z
    else if size1 =? 0 then 0%Z
    else memcmp (snd x) (snd y) size1.
