(** Model of strings and data that show memory of the caller: the NoCopy initialisers of
    Source/DKString.c and Source/DKData.c, copies, edits and writes through a pointer, over a heap of
    blocks.  Source/DKByteArray.c in full, with the pointers.

    A block belongs to the caller or was allocated by the library; dk_free of anything but an existing
    block of the library is [UB], and so is any access to a block that was freed or outside of it.
    Every object has one reference.  DKAssert is off, as in release builds.

    Simplified: a copy of an empty immutable string is a new object and not the shared one (C27); a
    block of fresh memory is filled with an arbitrary byte; what is inserted does not lie in the object
    that is changed. *)
Require Import Coq.ZArith.ZArith Coq.NArith.NArith Coq.Lists.List Coq.Bool.Bool.
Require Import Verif.Base.
Require Verif.String_Model.
Import ListNotations.

Record block : Type := mkB { lib : bool; data : option (list N) }.
Definition heap : Type := list block.
(** bytes: NULL_BYTES, DKByteArray.c 37, or a block. *)
Inductive ptr : Type := PNull | PBlk (b : nat).
(** DKByteArray, DKByteArray.h 42-48. *)
Record array : Type := mkA { bytes : ptr; len : nat; maxl : Z }.

Definition upd {A} (l : list A) (i : nat) (x : A) : list A := firstn i l ++ x :: skipn (S i) l.
Definition get (h : heap) (p : ptr) : outcome (list N) :=
  match p with
  | PNull => Ok [0; 0; 0; 0]%N
  | PBlk b => match nth_error h b with Some (mkB _ (Some d)) => Ok d | _ => UB end
  end.
(** [n] bytes from [off] on. *)
Definition load (h : heap) (p : ptr) (off n : nat) : outcome (list N) :=
  do d <- get h p; if (off + n <=? length d)%nat then Ok (firstn n (skipn off d)) else UB.
Definition store (h : heap) (p : ptr) (off : nat) (bs : list N) : outcome heap :=
  match p with
  | PNull => UB
  | PBlk b =>
    match nth_error h b with
    | Some (mkB l (Some d)) =>
      if (off + length bs <=? length d)%nat then Ok (upd h b (mkB l (Some (firstn off d ++ bs ++ skipn (off + length bs) d)))) else UB
    | _ => UB
    end
  end.
Definition malloc (h : heap) (n : nat) : ptr * heap := (PBlk (length h), h ++ [mkB true (Some (repeat 205%N n))]).
Definition free (h : heap) (p : ptr) : outcome heap :=
  match p with
  | PNull => UB
  | PBlk b => match nth_error h b with Some (mkB true (Some _)) => Ok (upd h b (mkB true None)) | _ => UB end
  end.
Definition is_null (p : ptr) : bool := match p with PNull => true | _ => false end.
(** DKByteArrayInit 56-61, DKByteArrayInitWithExternalStorage 69-74. *)
Definition init : array := mkA PNull 0 0.
Definition init_external (p : ptr) (n : nat) : array := mkA p n (-1).
(** DKByteArrayFinalize 80-88. *)
Definition finalize (h : heap) (a : array) : outcome heap := if negb (is_null (bytes a)) && (0 <? maxl a)%Z then free h (bytes a) else Ok h.
(** ResizeArray 134-153: the pointer, whether it is new, the allocated length. *)
Definition resize (h : heap) (a : array) (requested : nat) : ptr * bool * Z * heap :=
  if (Z.of_nat requested <? maxl a)%Z then (bytes a, false, maxl a, h)
  else
    let n := Z.max (Z.max (maxl a + Z.shiftr (maxl a) 2) (Z.of_nat requested)) 64 in
    let (p, h) := malloc h (Z.to_nat n + 4) in (p, true, n, h).
(** DKByteArrayReplaceBytes 170-254 with bytes that are not NULL. *)
Definition replace (h : heap) (a : array) (loc n : nat) (bs : list N) : outcome (heap * array) :=
  if (n =? 0)%nat && (length bs =? 0)%nat then Ok (h, a)
  else
    let rest := (len a - (loc + n))%nat in
    let new_len := (len a + length bs - n)%nat in
    let '(p, fresh, m, h) := resize h a new_len in
    do h <- (if is_null (bytes a) then Ok h
             else if fresh then
               do x <- load h (bytes a) 0 loc; do h <- store h p 0 x;
               do x <- load h (bytes a) (loc + n) rest; do h <- store h p (loc + length bs) x;
               free h (bytes a)
             else do x <- load h p (loc + n) rest; store h p (loc + length bs) x);
    do h <- store h p loc bs;
    do h <- store h p new_len [0; 0; 0; 0]%N;
    Ok (h, mkA p new_len m).

Inductive cls : Type := Imm | Mut | Dat | MDat.
Definition mutable (c : cls) : bool := match c with Mut | MDat => true | _ => false end.
Definition is_string (c : cls) : bool := match c with Imm | Mut => true | _ => false end.
(** struct DKString 53-60, struct DKData; [extra] is the memory that is allocated with the object
    itself, CopySubstring 326-329, as a block of its own. *)
Record obj : Type := mkO { class : cls; arr : array; hash : N; extra : option nat }.
(** [lent]: the blocks of the caller. *)
Record state : Type := mkS { hp : heap; lent : list nat; objs : list (option obj) }.
Definition start : state := mkS [] [] [].

Inductive op : Type :=
| Lend (bs : list N) | Poke (k i : nat) (x : N) | Reclaim (k : nat)
| NoCopyString (k : nat) | NoCopyData (k : nat)
| Copy (o : nat) | MutableCopy (o : nat) | Splice (o loc n : nat) (bs : list N) | WritePtr (o i : nat) (x : N)
| MakeImmutable (o : nat) | Release (o : nat)
| Bytes (o : nat) | Hash (o : nat) | Equal (a b : nat).
Inductive out : Type := ONone | OBytes (bs : list N) | OHash (h : N) | OEqual (e : bool).

Definition find_obj (s : state) (o : nat) : outcome obj := match nth_error (objs s) o with Some (Some x) => Ok x | _ => UB end.
Definition set_obj (s : state) (h : heap) (o : nat) (x : option obj) : state := mkS h (lent s) (upd (objs s) o x).
Definition add_obj (s : state) (h : heap) (x : obj) : state := mkS h (lent s) (objs s ++ [Some x]).
Definition lent_ptr (s : state) (k : nat) : outcome ptr := match nth_error (lent s) k with Some b => Ok (PBlk b) | None => UB end.
(** strlen *)
Fixpoint strlen (d : list N) : outcome nat :=
  match d with [] => UB | b :: d' => if (b =? 0)%N then Ok O else do n <- strlen d'; Ok (S n) end.
(** UpdateHash, DKString.c 270-277. *)
Definition update_hash (h : heap) (x : obj) : outcome obj :=
  if (hash x =? 0)%N then
    if (0 <? len (arr x))%nat then do d <- get h (bytes (arr x)); do v <- String_Model.strhash d; Ok (mkO (class x) (arr x) v (extra x))
    else Ok x
  else Ok x.
(** strcmp( a, b ) == 0; a terminator is reached in both or they differ before. *)
Fixpoint same_cstr (a b : list N) : outcome bool :=
  match a, b with
  | x :: a', y :: b' => if (x =? y)%N then if (x =? 0)%N then Ok true else same_cstr a' b' else Ok false
  | _, _ => UB
  end.
(** CopySubstring 320-338, of the length of the object: its block is filled and ended. *)
Definition copy_substring (h : heap) (p : ptr) (n : nat) : outcome (heap * obj) :=
  if (n =? 0)%nat then Ok (h, mkO Imm init 0 None)
  else
    let (q, h) := malloc h (n + 4) in
    do x <- load h p 0 n; do h <- store h q 0 x; do h <- store h q n [0; 0; 0; 0]%N;
    Ok (h, mkO Imm (init_external q n) 0 (match q with PBlk b => Some b | PNull => None end)).
(** DKStringInitWithString 449-469 and InitString 344-374; DKDataInitWithBytes 222-234. *)
Definition copy_as (h : heap) (c : cls) (x : obj) : outcome (heap * obj) :=
  match c with
  | Imm => do r <- copy_substring h (bytes (arr x)) (len (arr x)); Ok (fst r, mkO Imm (arr (snd r)) (hash x) (extra (snd r)))
  | _ => do d <- load h (bytes (arr x)) 0 (len (arr x)); do r <- replace h init 0 0 d; Ok (fst r, mkO c (snd r) (if is_string c then hash x else 0) None)
  end.
(** DKStringMutableCopy 701-704, DKDataMutableCopy 512-521. *)
Definition as_mutable (c : cls) : cls := if is_string c then Mut else MDat.
(** DKStringCopy 692-695: always immutable; DKDataCopy 497-506: of the same class. *)
Definition as_copy (c : cls) : cls := if is_string c then Imm else c.

Definition step (s : state) (o : op) : outcome (state * out) :=
  match o with
  (** The caller's own memory: a C string of any bytes, changed and given back by the caller. *)
  | Lend bs => Ok (mkS (hp s ++ [mkB false (Some (bs ++ [0%N]))]) (lent s ++ [length (hp s)]) (objs s), ONone)
  | Poke k i x => do p <- lent_ptr s k; do h <- store (hp s) p i [x]; Ok (mkS h (lent s) (objs s), ONone)
  | Reclaim k =>
    do p <- lent_ptr s k;
    match p with
    | PBlk b => match nth_error (hp s) b with Some (mkB false (Some _)) => Ok (mkS (upd (hp s) b (mkB false None)) (lent s) (objs s), ONone) | _ => UB end
    | PNull => UB
    end
  (** DKStringInitWithCStringNoCopy, DKString.c 490-511. *)
  | NoCopyString k =>
    do p <- lent_ptr s k; do d <- get (hp s) p; do n <- strlen d; Ok (add_obj s (hp s) (mkO Imm (init_external p n) 0 None), ONone)
  (** DKDataInitWithBytesNoCopy, DKData.c 240-251, with all bytes but the last. *)
  | NoCopyData k =>
    do p <- lent_ptr s k; do d <- get (hp s) p; Ok (add_obj s (hp s) (mkO Dat (init_external p (length d - 1)) 0 None), ONone)
  | Copy a => do x <- find_obj s a; do r <- copy_as (hp s) (as_copy (class x)) x; Ok (add_obj s (fst r) (snd r), ONone)
  | MutableCopy a => do x <- find_obj s a; do r <- copy_as (hp s) (as_mutable (class x)) x; Ok (add_obj s (fst r) (snd r), ONone)
  (** DKDataReplaceBytes, DKData.c 745-754, DKDataAppendBytes 730-739; ReplaceBytes, DKString.c 311-315,
      of a mutable string and a range in it, in DKStringAppendBytes 1605-1614 and others. *)
  | Splice a loc n bs =>
    do x <- find_obj s a;
    if mutable (class x) && (loc + n <=? len (arr x))%nat then
      do r <- replace (hp s) (arr x) loc n bs; Ok (set_obj s (fst r) a (Some (mkO (class x) (snd r) 0 (extra x))), ONone)
    else Ok (s, ONone)
  (** DKStringGetMutableBytePtr, DKString.c 1030-1041, DKDataGetMutableBytePtr, DKData.c 653-664, and a byte
      written there. *)
  | WritePtr a i v =>
    do x <- find_obj s a;
    if mutable (class x) && (i <? len (arr x))%nat then
      do h <- store (hp s) (bytes (arr x)) i [v]; Ok (mkS h (lent s) (objs s), ONone)
    else Ok (s, ONone)
  (** DKStringMakeImmutable 673-682, DKDataMakeImmutable 397-406. *)
  | MakeImmutable a =>
    do x <- find_obj s a; Ok (set_obj s (hp s) a (Some (mkO (match class x with Mut => Imm | MDat => Dat | c => c end) (arr x) (hash x) (extra x))), ONone)
  (** DKStringFinalize 432-443, DKDataFinalize 213-217, and the memory of the object. *)
  | Release a =>
    do x <- find_obj s a; do h <- finalize (hp s) (arr x);
    do h <- match extra x with Some b => free h (PBlk b) | None => Ok h end;
    Ok (set_obj s h a None, ONone)
  (** DKStringGetBytePtr 1013-1024, DKDataGetBytes 690-709, of all bytes. *)
  | Bytes a => do x <- find_obj s a; do d <- load (hp s) (bytes (arr x)) 0 (len (arr x)); Ok (s, OBytes d)
  (** DKStringHash 815-827. *)
  | Hash a =>
    do x <- find_obj s a;
    if is_string (class x) then do x <- update_hash (hp s) x; Ok (set_obj s (hp s) a (Some x), OHash (hash x)) else Ok (s, ONone)
  (** DKStringEqual 710-719, TestEquality 283-295. *)
  | Equal a b =>
    do x <- find_obj s a; do y <- find_obj s b;
    if is_string (class x) && is_string (class y) then
      if (a =? b)%nat then Ok (s, OEqual true)
      else
        do x <- update_hash (hp s) x; let s := set_obj s (hp s) a (Some x) in
        do y <- update_hash (hp s) y; let s := set_obj s (hp s) b (Some y) in
        if negb (hash x =? hash y)%N then Ok (s, OEqual false)
        else do d <- get (hp s) (bytes (arr x)); do e <- get (hp s) (bytes (arr y)); do r <- same_cstr d e; Ok (s, OEqual r)
    else Ok (s, ONone)
  end.
Fixpoint run (s : state) (ops : list op) : outcome (state * list out) :=
  match ops with
  | [] => Ok (s, [])
  | o :: ops' => do r <- step s o; do t <- run (fst r) ops'; Ok (fst t, snd r :: snd t)
  end.
