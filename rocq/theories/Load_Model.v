(** Model of making strings and data objects of the contents of files, Source/DKString.c and
    Source/DKData.c, on the files of File_Model and the byte arrays of Bytes_Model. *)
Require Import Coq.ZArith.ZArith Coq.NArith.NArith Coq.Lists.List Coq.Arith.Arith Coq.Bool.Bool.
Require Import Verif.Base Verif.Bytes_Model.
Require Verif.File_Model.
Import ListNotations.

(** fread into the storage of a byte array, DKString.c 610-611: the bytes that were read. *)
Definition fill (a : barray) (b : list N) : outcome barray :=
  do m <- mwrite (bcells a) 0 (map Some b); Ok (mkBarray (bnull a) m (blen a) (bmax a)).
(** DKString.c 604-612 and DKData.c 292-300, given the length of the file and what a read of that
    many bytes reads; how much was read is not looked at. *)
Definition contents (len : Z) (b : list N) : outcome barray :=
  if (0 <? len)%Z then do a <- barray_set_length barray_init (Z.to_nat len); fill a b else Ok barray_init.

Section Load.
Variable drain : list N -> nat.
(** The same for the file object [i]. *)
Definition read_all (w : File_Model.world) (i : nat) : outcome (File_Model.world * barray) :=
  do r <- File_Model.step drain w (File_Model.Length i);
  match r with
  | (w1, File_Model.Num len) =>
    if (0 <? len)%Z then
      do q <- File_Model.step drain w1 (File_Model.Read i 1 (Z.to_nat len));
      match q with
      | (w2, File_Model.Bytes _ b) => do a <- contents len b; Ok (w2, a)
      | _ => UB
      end
    else do a <- contents len []; Ok (w1, a)
  | _ => UB
  end.
(** The argument: NULL, the name of a file that is there (with its bytes) or not, a file object, or
    some other object. *)
Inductive from := From_null | Named (d : option (list N)) | Handle (i : nat) | Not_file.
(** DKStringInitWithContentsOfFile, DKString.c 573-624, and DKDataInitWithContentsOfFile, DKData.c
    274-311: the bytes of the new object.  An object that is not a file is reported and nothing is
    read. *)
Definition load (w : File_Model.world) (s : from) : outcome (File_Model.world * barray) :=
  match s with
  | Named (Some d) =>
    let '(w1, i) := File_Model.open_file w d in
    do r <- read_all w1 i;
    do q <- File_Model.step drain (fst r) (File_Model.Close i);
    Ok (fst q, snd r)
  | Handle i => read_all w i
  | From_null | Named None | Not_file => Ok (w, barray_init)
  end.
End Load.
