(** Model of strings as streams, Source/DKString.c, on the byte arrays and cursors of Bytes_Model.

    Simplifications as in Bytes_Model; the storage of immutable strings, which lies behind the
    object, is modelled as a byte array that is never changed. *)
Require Import Coq.ZArith.ZArith Coq.NArith.NArith Coq.Lists.List Coq.Bool.Bool Coq.Arith.Arith.
Require Import Verif.Base Verif.Bytes_Model.
Require Verif.String_Model.
Import ListNotations.

(** struct DKString, DKString.c 54-60: the bytes with the cursor, the cached hash code, and whether
    the class is DKMutableString. *)
Record text := mkText { body : data; code : N; mut : bool }.
(** InitString, DKString.c 344-373: a string with these bytes. *)
Definition text_new (m : bool) (b : list byte) : outcome text := do d <- data_append data_init b; Ok (mkText d 0 m).
(** The determinate bytes from the start of the storage on. *)
Fixpoint known (m : list cell) : list byte := match m with Some b :: m' => b :: known m' | _ => [] end.
(** UpdateHash, DKString.c 270-277, and DKStringHash, 815-827. *)
Definition text_hash (s : text) : outcome (text * N) :=
  if (code s =? 0)%N then
    if (0 <? blen (dbytes (body s)))%nat then do h <- String_Model.strhash (known (bcells (dbytes (body s)))); Ok (mkText (body s) h (mut s), h)
    else Ok (s, 0%N)
  else Ok (s, code s).
(** ReplaceBytes, DKString.c 311-315, as called by the functions that change a string, which check
    the class and the range. *)
Definition text_edit (s : text) (loc len : nat) (b : list byte) : outcome text :=
  if mut s && (loc + len <=? blen (dbytes (body s)))%nat then
    do a <- barray_replace (dbytes (body s)) loc len (FromBytes b) (length b); Ok (mkText (with_bytes (body s) a) 0 true)
  else Ok s.
(** DKStringSetByteLength, DKString.c 919-938. *)
Definition text_set_length (s : text) (n : Z) : outcome text :=
  if mut s then do d <- data_set_length (body s) n; Ok (mkText d (code s) true) else Ok s.
(** DKStringSeek, DKString.c 2313-2336 (with DKStringSetCursor, 252-264): the code is that of
    DKDataSeek. *)
Definition text_seek (s : text) (off : Z) (w : whence) : outcome text :=
  do d <- data_seek (body s) off w; Ok (mkText d (code s) (mut s)).
(** DKStringRead, DKString.c 2357-2378: the code is that of DKDataRead. *)
Definition text_read (s : text) (size count : N) : outcome (text * (list cell * N)) :=
  do r <- data_read (body s) size count; Ok (mkText (fst r) (code s) (mut s), snd r).
(** DKStringWrite, DKString.c 2384-2405: that of DKDataWrite, through ReplaceBytes. *)
Definition text_write (s : text) (b : list byte) (size count : N) : outcome (text * N) :=
  if mut s then do r <- data_write (body s) b size count; Ok (mkText (fst r) 0 true, snd r) else Ok (s, 0%N).

Inductive top :=
| TSeek (off : Z) (w : whence) | TTell | TRead (size count : N) | TWrite (b : list byte) (size count : N)
| TEdit (loc len : nat) (b : list byte) | TLength (n : Z) | THash.
Inductive tres := TDone | TNum (z : Z) | TGot (l : list cell) (n : N) | TCode (h : N).
(** DKStringTell, DKString.c 2342-2351. *)
Definition text_step (s : text) (o : top) : outcome (text * tres) :=
  match o with
  | TSeek off w => do s' <- text_seek s off w; Ok (s', TDone)
  | TTell => Ok (s, TNum (dcursor (body s)))
  | TRead size count => do r <- text_read s size count; Ok (fst r, TGot (fst (snd r)) (snd (snd r)))
  | TWrite b size count => do r <- text_write s b size count; Ok (fst r, TNum (Z.of_N (snd r)))
  | TEdit loc len b => do s' <- text_edit s loc len b; Ok (s', TDone)
  | TLength n => do s' <- text_set_length s n; Ok (s', TDone)
  | THash => do r <- text_hash s; Ok (fst r, TCode (snd r))
  end.
Fixpoint text_run (s : text) (os : list top) : outcome (text * list tres) :=
  match os with
  | [] => Ok (s, [])
  | o :: os' => do r <- text_step s o; do q <- text_run (fst r) os'; Ok (fst q, snd r :: snd q)
  end.
