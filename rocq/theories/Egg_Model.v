(** Model of egg archives, Source/DKEgg.c.

    The program's objects are a heap: an object is its class name and what its addToEgg method
    adds to the archiver, in order; initWithEgg reads the attributes of the class's schema, in
    order.  Not modelled: objects that do not implement the Egg interface, initWithEgg methods
    that fail or replace the object, reference counts, and the alignment of the archive in
    memory.  The hash tables of visited objects and of symbols are finite maps. *)
Require Import Coq.NArith.NArith Coq.Lists.List Coq.Arith.Arith Coq.Bool.Bool.
Require Import Verif.Base Verif.Encoding_Model.
Import ListNotations.
Local Open Scope N_scope.

(** ** Memory *)

(** An integer of [w] bytes in memory, on a big or little endian machine. *)
Fixpoint le_bytes (w : nat) (n : N) : list N :=
  match w with O => [] | S w' => n mod 256 :: le_bytes w' (n / 256) end.
Fixpoint of_le (l : list N) : N := match l with [] => 0 | b :: l' => b + 256 * of_le l' end.
Definition int_bytes (big : bool) (w : nat) (n : N) : list N := if big then rev (le_bytes w n) else le_bytes w n.
Definition of_bytes (big : bool) (l : list N) : N := of_le (if big then rev l else l).
(** DKSwapInt16, DKSwapInt32, DKSwapInt64, DKPlatform.h 735-757 (the compiler's byte swaps). *)
Definition swap (w : nat) (n : N) : N := of_le (rev (le_bytes w n)).
(** Read [n] bytes at [off]. *)
Definition slice (l : list N) (off n : N) : outcome (list N) :=
  if off + n <=? N.of_nat (length l) then Ok (firstn (N.to_nat n) (skipn (N.to_nat off) l)) else UB.
(** Write [bs] at [off]. *)
Definition put (l : list N) (off : nat) (bs : list N) : outcome (list N) :=
  if (off + length bs <=? length l)%nat then Ok (firstn off l ++ bs ++ skipn (off + length bs) l) else UB.
(** A NUL terminated string. *)
Fixpoint cstr (l : list N) : outcome (list N) :=
  match l with [] => UB | b :: l' => if b =? 0 then Ok [] else do s <- cstr l'; Ok (b :: s) end.
(** A cast to uint32_t. *)
Definition u32 (n : nat) : N := N.of_nat n mod 2 ^ 32.
(** dk_strhash32, DKPlatform.c 536-547: char is signed. *)
Fixpoint hash32 (h : N) (s : list N) : N :=
  match s with
  | [] => h
  | b :: s' => if b =? 0 then h else hash32 ((31 * h + (if b <? 128 then b else b + 0xffffff00)) mod 2 ^ 32) s'
  end.

(** ** Objects *)

(** DKEncodingType, DKEncoding.h 38-88. *)
Definition TClass : N := 1.
Definition TSelector : N := 2.
Definition TObject : N := 3.
Definition TKeyedObject : N := 4.
Definition TText : N := 5.
Definition TBinary : N := 6.

(** What a method adds under a key: an object (or NULL), a class, a selector, a collection, a
    keyed collection, text, bytes, or numbers of an encoding; the text of a string (DKString.c
    661-667: nothing if it is empty); the elements of data of a type (DKData.c 369-391: numbers if
    the type is one of numbers, otherwise bytes, and nothing if there are none). *)
Inductive value :=
| VObj (o : option nat)
| VClass (s : list N)
| VSel (s : list N)
| VColl (l : list (option nat))
| VKeyed (l : list (nat * option nat))
| VText (s : list N)
| VBin (s : list N)
| VNum (e : N) (l : list N)
| VStr (s : list N)
| VData (t : N) (l : list N).
Record node := mkN { ncls : list N; nfields : list (list N * value) }.
Definition heap := list node.
(** What initWithEgg asks for under a key; [KStr] and [KData] are what strings and data ask for. *)
Inductive kind := KObj | KColl | KKeyed | KText | KBin | KNum | KStr | KData.
(** The program's classes and selectors by name. *)
Record registry := mkR { rclasses : list (list N * list (list N * kind)); rsels : list (list N) }.

(** DKEggAttribute 99-105. *)
Record attr := mkA { ahash : N; aenc : N; aval : N }.

(** ** The archiver *)

(** struct DKEggArchiver 821-836 and struct ArchivedObject. *)
Record archiver := mkArch {
  aobjs : list (N * list attr); avisited : list (nat * nat); asyms : list (list N * nat); adata : list N; astack : list nat }.

(** DKEncodingTypeIsNumber, DKEncoding.h 131. *)
Definition number_type (t : N) : bool := (8 <=? t) && (t <=? 25).
Definition list_eqb (a b : list N) : bool := if list_eq_dec N.eq_dec a b then true else false.

(** DKByteArrayAlignLength, DKByteArray.c 269-286. *)
Definition align (d : list N) (k : nat) : outcome (list N) :=
  match k with
  | O => UB
  | _ => let r := (length d mod k)%nat in Ok (if (0 <? r)%nat then d ++ repeat 0 (k - r) else d)
  end.

(** AddEncodedData 1144-1193; [src] is the memory at the data pointer.  The archiver's byte order
    is always native. *)
Definition add_data (a : archiver) (enc : N) (src : list N) : outcome (archiver * nat) :=
  let count := get_count enc in
  let size := get_type_size enc in
  do d <- align (adata a) (N.to_nat size);
  do bs <- slice src 0 (size * count);
  Ok (mkArch (aobjs a) (avisited a) (asyms a) (d ++ bs) (astack a), length d).

(** AddSymbol 1199-1223.  Symbols are constant strings, so the same text is the same pointer. *)
Definition add_symbol (a : archiver) (s : list N) : outcome (archiver * nat) :=
  match find (fun p => list_eqb (fst p) s) (asyms a) with
  | Some (_, off) => Ok (a, off)
  | None =>
    do r <- add_data a (encode TText (u32 (length s + 1))) (s ++ [0]);
    let (a', off) := r in
    Ok (mkArch (aobjs a') (avisited a') ((s, off) :: asyms a') (adata a') (astack a'), off)
  end.

(** AddAttribute 1275-1288. *)
Definition add_attr (a : archiver) (key : list N) (enc v : N) : outcome archiver :=
  match astack a with
  | [] => UB
  | i :: _ =>
    match nth_error (aobjs a) i with
    | None => UB
    | Some (c, l) => Ok (mkArch (upd (aobjs a) i (c, l ++ [mkA (hash32 0 key) enc v])) (avisited a) (asyms a) (adata a) (astack a))
    end
  end.

(** Functions that add values call AddObject, given here as [add]. *)
Section Add.
Context (big : bool) (add : archiver -> nat -> outcome (archiver * nat)).

(** DKEggAddCollectionCallback 1340-1359; [n] is the context's count. *)
Definition add_elem (off : nat) (r : archiver * nat) (o : option nat) : outcome (archiver * nat) :=
  let (a, n) := r in
  match o with
  | None => Ok (a, n)
  | Some j =>
    do r <- add a j;
    let (a, i) := r in
    do d <- put (adata a) (off + 4 * n) (int_bytes big 4 (u32 i));
    Ok (mkArch (aobjs a) (avisited a) (asyms a) d (astack a), S n)
  end.
Fixpoint add_elems (off : nat) (r : archiver * nat) (l : list (option nat)) : outcome (archiver * nat) :=
  match l with [] => Ok r | o :: l' => do r' <- add_elem off r o; add_elems off r' l' end.

(** DKEggAddKeyedCollectionCallback 1415-1437. *)
Definition add_pair (off : nat) (r : archiver * nat) (p : nat * option nat) : outcome (archiver * nat) :=
  let (a, n) := r in
  do r <- add a (fst p);
  let (a, k) := r in
  if (0 <? k)%nat then
    do r <- match snd p with None => Ok (a, 0%nat) | Some j => add a j end;
    let (a, v) := r in
    do d <- put (adata a) (off + 8 * n) (int_bytes big 4 (u32 k) ++ int_bytes big 4 (u32 v));
    Ok (mkArch (aobjs a) (avisited a) (asyms a) d (astack a), S n)
  else Ok (a, n).
Fixpoint add_pairs (off : nat) (r : archiver * nat) (l : list (nat * option nat)) : outcome (archiver * nat) :=
  match l with [] => Ok r | p :: l' => do r' <- add_pair off r p; add_pairs off r' l' end.

(** Align the data and append zeros: the storage of a collection, 1363-1367 and 1444-1448. *)
Definition reserve (a : archiver) (n : nat) : outcome (archiver * nat) :=
  do d <- align (adata a) 4;
  Ok (mkArch (aobjs a) (avisited a) (asyms a) (d ++ repeat 0 n) (astack a), length d).

(** DKEggAddObject 1294-1327, DKEggAddCollection 1361-1402, DKEggAddKeyedCollection 1439-1458,
    DKEggAddTextData 1464-1488 (the text is [s] and a NUL byte, [length] is its length),
    DKEggAddBinaryData 1494-1507, DKEggAddNumberData 1513-1520. *)
Definition add_text (a : archiver) (key s : list N) : outcome archiver :=
  if max_count <? N.of_nat (length s) + 1 then Ok a else
  let enc := encode TText (u32 (length s + 1)) in
  do r <- add_data a enc (s ++ [0]); let (a, off) := r in add_attr a key enc (u32 off).
Definition add_bin (a : archiver) (key s : list N) : outcome archiver :=
  if max_count <? N.of_nat (length s) then Ok a else
  let enc := encode TBinary (u32 (length s)) in
  do r <- add_data a enc s; let (a, off) := r in add_attr a key enc (u32 off).
Definition add_num (a : archiver) (key : list N) (e : N) (l : list N) : outcome archiver :=
  do r <- add_data a e (concat (map (int_bytes big (N.to_nat (get_type_size e))) l)); let (a, off) := r in add_attr a key e (u32 off).
Definition add_value (a : archiver) (key : list N) (v : value) : outcome archiver :=
  match v with
  | VObj None => Ok a
  | VObj (Some j) =>
    do r <- add a j; let (a, i) := r in
    if (0 <? i)%nat then add_attr a key (encode TObject 1) (u32 i) else Ok a
  | VClass s =>
    do r <- add_symbol a s; let (a, i) := r in
    if (0 <? i)%nat then add_attr a key (encode TClass 1) (u32 i) else Ok a
  | VSel s =>
    do r <- add_symbol a s; let (a, i) := r in
    if (0 <? i)%nat then add_attr a key (encode TSelector 1) (u32 i) else Ok a
  | VColl [] => Ok a
  | VColl [o] =>
    do r <- match o with None => Ok (a, 0%nat) | Some j => add a j end; let (a, i) := r in
    add_attr a key (encode TObject 1) (u32 i)
  | VColl l =>
    do r <- reserve a (4 * length l); let (a, off) := r in
    do r <- add_elems off (a, 0%nat) l; let (a, _) := r in
    add_attr a key (encode TObject (u32 (length l))) (u32 off)
  | VKeyed l =>
    do r <- reserve a (8 * length l); let (a, off) := r in
    do r <- add_pairs off (a, 0%nat) l; let (a, _) := r in
    add_attr a key (encode TKeyedObject (u32 (length l))) (u32 off)
  | VText s => add_text a key s
  | VBin s => add_bin a key s
  | VNum e l => add_num a key e l
  | VStr [] => Ok a
  | VStr s => add_text a key s
  | VData t l =>
    if number_type t then
      let e := encode t (u32 (length l)) in
      if get_type_size e =? 0 then UB (* the number of elements is divided by the size *) else add_num a key e l
    else match l with [] => Ok a | _ => add_bin a key l end
  end.
Fixpoint add_fields (a : archiver) (fs : list (list N * value)) : outcome archiver :=
  match fs with [] => Ok a | (k, v) :: fs' => do a' <- add_value a k v; add_fields a' fs' end.
End Add.

Definition lookup {A} (k : nat) (l : list (nat * A)) : option A :=
  match find (fun p => Nat.eqb (fst p) k) l with Some (_, v) => Some v | None => None end.

(** AddObject 1229-1269.  The fuel bounds the recursion through addToEgg. *)
Fixpoint add_object (fuel : nat) (big : bool) (h : heap) (a : archiver) (id : nat) : outcome (archiver * nat) :=
  match fuel with
  | O => NoFuel
  | S fuel =>
    match nth_error h id with
    | None => UB
    | Some n =>
      match lookup id (avisited a) with
      | Some i => Ok (a, i)
      | None =>
        let i := length (aobjs a) in
        do r <- add_symbol a (ncls n); let (a, c) := r in
        do a <- add_fields big (add_object fuel big h)
          (mkArch (aobjs a ++ [(u32 c, [])]) ((id, i) :: avisited a) (asyms a) (adata a) (i :: astack a)) (nfields n);
        Ok (mkArch (aobjs a) (avisited a) (asyms a) (adata a) (tl (astack a)), i)
      end
    end
  end.

Definition no_arch : archiver := mkArch [] [] [] [] [].
(** DKHashTable, the class of the anonymous root object of a rootless archive. *)
Definition anonymous : list N := [68; 75; 72; 97; 115; 104; 84; 97; 98; 108; 101].
(** DKEggArchiverInitWithObject 931-977 with an object. *)
Definition archive_root (big : bool) (h : heap) (root : nat) : outcome archiver :=
  do r <- add_object (S (length h)) big h no_arch root; Ok (fst r).
(** The same with NULL, and the values that the program adds afterwards. *)
Definition archive_fields (big : bool) (h : heap) (fs : list (list N * value)) : outcome archiver :=
  do r <- add_symbol no_arch anonymous; let (a, c) := r in
  add_fields big (add_object (S (length h)) big h) (mkArch (aobjs a ++ [(u32 c, [])]) (avisited a) (asyms a) (adata a) [0%nat]) fs.

(** DKEggPrefix 59, padded to 20 bytes. *)
Definition prefix_text : list N := [69; 71; 71; 45; 86; 101; 114; 115; 105; 111; 110; 58; 32; 49; 46; 48; 10].
Definition byte_order (big : bool) : N := if big then 1 else 2.
(** BuildHeader 1011-1036 and WriteHeader 1042-1045. *)
Definition header (big rootless : bool) (nobj nattr : N) (ndata : nat) : list N :=
  let oi := 48 in
  let ai := (oi + nobj * 12) mod 2 ^ 32 in
  let di := (ai + nattr * 12) mod 2 ^ 32 in
  prefix_text ++ [0; 0; 0] ++ [1; 1; byte_order big; if rootless then 1 else 0] ++
  int_bytes big 4 oi ++ int_bytes big 4 nobj ++ int_bytes big 4 ai ++ int_bytes big 4 nattr ++ int_bytes big 4 di ++ int_bytes big 4 (u32 ndata).
(** WriteObjectTable 1050-1073; [k] is the index of the next attribute. *)
Fixpoint object_table (big : bool) (k : nat) (l : list (N * list attr)) : list N :=
  match l with
  | [] => []
  | (c, attrs) :: l' => int_bytes big 4 c ++ int_bytes big 4 (u32 k) ++ int_bytes big 4 (u32 (length attrs)) ++ object_table big (k + length attrs) l'
  end.
(** WriteAttributeTable 1079-1095. *)
Definition attr_bytes (big : bool) (x : attr) : list N := int_bytes big 4 (ahash x) ++ int_bytes big 4 (aenc x) ++ int_bytes big 4 (aval x).
(** DKEggArchiverWriteToStream 1115-1124, DKEggArchiverGetArchivedData 1130-1142.  The tables
    are written for the first objectTable.length objects. *)
Definition archived_data (big rootless : bool) (a : archiver) : list N :=
  let nobj := u32 (length (aobjs a)) in
  let os := firstn (N.to_nat nobj) (aobjs a) in
  let attrs := concat (map snd os) in
  header big rootless nobj (u32 (length attrs)) (length (adata a)) ++
  object_table big 0 os ++ concat (map (attr_bytes big) attrs) ++ adata a.

(** ** The unarchiver *)

(** The archive in memory: [ubytes] from its first byte, whether its integers are swapped when
    they are read, and the header's table lengths.  The tables of a foreign archive are swapped
    in place or in a copy when it is opened (SwizzleEggObjects, SwizzleEggAttributes 189-217);
    here they are swapped when they are read. *)
Record egg := mkE { ubytes : list N; uswap : bool; unobj : N; unattr : N; urootless : bool }.

Definition read_int (big : bool) (w : nat) (sw : bool) (l : list N) (off : N) : outcome N :=
  do bs <- slice l off (N.of_nat w);
  let n := of_bytes big bs in Ok (if sw then swap w n else n).

(** The header's checks, 242-270 and 352-374: the prefix up to its NUL byte, the version, the
    encoding version.  The result is whether the byte order is foreign. *)
Definition check_header (big : bool) (l : list N) : outcome (option bool) :=
  do p <- slice l 0 18;
  do v <- slice l 20 4;
  if negb (list_eqb p (prefix_text ++ [0])) then Ok None else
  if negb (nth 0 v 0 =? 1) then Ok None else
  if negb (nth 1 v 0 =? 1) then Ok None else
  Ok (Some (negb (nth 2 v 0 =? byte_order big))).
Definition is_rootless (l : list N) : outcome bool := do v <- slice l 23 1; Ok (negb (nth 0 v 0 =? 0)).

(** DKEggUnarchiverInitWithData 330-443.  [None] is NULL. *)
Definition open_data (big : bool) (l : list N) : outcome (option egg) :=
  if N.of_nat (length l) <? 48 then Ok None else
  do c <- check_header big l;
  match c with
  | None => Ok None
  | Some sw =>
    do no <- read_int big 4 sw l 28;
    do na <- read_int big 4 sw l 36;
    if sw && (N.of_nat (length l) <? 48 + 12 * no + 12 * na) then Ok None else
    do di <- read_int big 4 sw l 40;
    do dl <- read_int big 4 sw l 44;
    if N.of_nat (length l) <? (di + dl) mod 2 ^ 32 then Ok None else
    do rl <- is_rootless l;
    Ok (Some (mkE l sw no na rl))
  end.

(** DKEggUnarchiverInitWithStream 227-324; [l] is what is left of the stream.  When the length
    in the header is shorter than a header the number of bytes to read wraps around, and what
    the stream has left is read over the end of the buffer.  The result has what the stream has
    left after the archive. *)
Definition open_stream (big : bool) (l : list N) : outcome (option (egg * list N)) :=
  if N.of_nat (length l) <? 48 then Ok None else
  do c <- check_header big l;
  match c with
  | None => Ok None
  | Some sw =>
    do di <- read_int big 4 sw l 40;
    do dl <- read_int big 4 sw l 44;
    let len := (di + dl) mod 2 ^ 32 in
    if len <? 48 then (if N.of_nat (length l) =? 48 then Ok None else UB) else
    if N.of_nat (length l) <? len then Ok None else
    do no <- read_int big 4 sw l 28;
    do na <- read_int big 4 sw l 36;
    if sw && (len <? 48 + 12 * no + 12 * na) then UB else
    do rl <- is_rootless l;
    Ok (Some (mkE (firstn (N.to_nat len) l) sw no na rl, skipn (N.to_nat len) l))
  end.

Section Read.
Context (big : bool) (g : registry) (e : egg).

Definition table_int (off : N) : outcome N := read_int big 4 (uswap e) (ubytes e) off.
(** Where the attribute table and the data start, 303-309. *)
Definition attrs_at : N := 48 + unobj e * 12.
Definition data_at : N := 48 + unobj e * 12 + unattr e * 12.

(** GetAttribute 450-467, the loop. *)
Fixpoint find_attr (n : nat) (k : N) (h : N) : outcome (option attr) :=
  match n with
  | O => Ok None
  | S n' =>
    do x <- table_int (attrs_at + 12 * k);
    if x =? h then
      do en <- table_int (attrs_at + 12 * k + 4);
      do v <- table_int (attrs_at + 12 * k + 8);
      Ok (Some (mkA x en v))
    else find_attr n' ((k + 1) mod 2 ^ 32) h
  end.
(** GetAttribute 450-467: the object is the last one on the stack. *)
Definition get_attr (st : list nat) (key : list N) : outcome (option attr) :=
  match st with
  | [] => UB
  | i :: _ =>
    do k <- table_int (48 + 12 * N.of_nat i + 4);
    do n <- table_int (48 + 12 * N.of_nat i + 8);
    find_attr (N.to_nat n) k (hash32 0 key)
  end.

(** The NUL terminated string at an offset of the data. *)
Definition name_at (off : N) : outcome (list N) :=
  if data_at + off <=? N.of_nat (length (ubytes e)) then cstr (skipn (N.to_nat (data_at + off)) (ubytes e)) else UB.
(** DKEggUnarchiverGetClass 473-486, DKEggUnarchiverGetSelector 492-505. *)
Definition get_class (off : N) : outcome (option (list N * list (list N * kind))) :=
  do s <- name_at off; Ok (find (fun p => list_eqb (fst p) s) (rclasses g)).
Definition get_sel (off : N) : outcome (option (list N)) :=
  do s <- name_at off; Ok (find (fun p => list_eqb p s) (rsels g)).

(** The unarchiver's state: the objects made so far, which of them stand for which index
    (unarchivedObjects), and the stack. *)
Record unarch := mkU { uheap : heap; ucache : list (nat * nat); ustack : list nat }.

(** Functions that read values call DKEggUnarchiverGetObject, given here as [get]. *)
Section Get.
Context (get : unarch -> N -> outcome (unarch * option nat)).

(** The loop of DKEggGetCollection 622-637. *)
Fixpoint get_elems (u : unarch) (n : nat) (off : N) : outcome (unarch * list (option nat)) :=
  match n with
  | O => Ok (u, [])
  | S n' =>
    do i <- read_int big 4 (uswap e) (ubytes e) off;
    do r <- (if 0 <? i then get u i else Ok (u, None)); let (u, o) := r in
    do r <- get_elems u n' (off + 4); let (u, l) := r in
    Ok (u, o :: l)
  end.
(** The loop of DKEggGetKeyedCollection 659-677. *)
Fixpoint get_pairs (u : unarch) (n : nat) (off : N) : outcome (unarch * list (nat * option nat)) :=
  match n with
  | O => Ok (u, [])
  | S n' =>
    do k <- read_int big 4 (uswap e) (ubytes e) off;
    do v <- read_int big 4 (uswap e) (ubytes e) (off + 4);
    do r <- get u k; let (u, ko) := r in
    match ko with
    | None => get_pairs u n' (off + 8)
    | Some kj =>
      do r <- (if 0 <? v then get u v else Ok (u, None)); let (u, o) := r in
      do r <- get_pairs u n' (off + 8); let (u, l) := r in
      Ok (u, (kj, o) :: l)
    end
  end.
(** The elements of number data: copied, or swapped by their size, 769-806. *)
Fixpoint get_nums (w : nat) (n : nat) (off : N) : outcome (list N) :=
  match n with
  | O => Ok []
  | S n' =>
    do x <- read_int big w (uswap e) (ubytes e) off;
    do l <- get_nums w n' (off + N.of_nat w);
    Ok (x :: l)
  end.
Definition is_number (en : N) : bool := number_type (get_type en).

(** DKEggGetObject 585-602, DKEggGetCollection 608-640, DKEggGetKeyedCollection 647-679,
    DKEggGetTextDataPtr 685-703, DKEggGetBinaryDataPtr 724-739, DKEggGetNumberData 760-814 (with
    the encoding from DKEggGetEncoding 571-579; reserved types of size 0 copy nothing).
    DKStringInitWithEgg, DKString.c 647-655; DKDataInitWithEgg, DKData.c 334-364. *)
Definition get_value (u : unarch) (key : list N) (k : kind) : outcome (unarch * value) :=
  do x <- get_attr (ustack u) key;
  match k, x with
  | KObj, None => Ok (u, VObj None)
  | KObj, Some x =>
    if aenc x =? encode TObject 1 then do r <- get u (aval x); let (u, o) := r in Ok (u, VObj o)
    else if aenc x =? encode TClass 1 then do c <- get_class (aval x); Ok (u, match c with Some p => VClass (fst p) | None => VObj None end)
    else if aenc x =? encode TSelector 1 then do c <- get_sel (aval x); Ok (u, match c with Some s => VSel s | None => VObj None end)
    else Ok (u, VObj None)
  | KColl, None => Ok (u, VColl [])
  | KColl, Some x =>
    if get_type (aenc x) =? TObject then
      if get_count (aenc x) =? 1 then
        do r <- (if 0 <? aval x then get u (aval x) else Ok (u, None)); let (u, o) := r in Ok (u, VColl [o])
      else do r <- get_elems u (N.to_nat (get_count (aenc x))) (data_at + aval x); let (u, l) := r in Ok (u, VColl l)
    else Ok (u, VColl [])
  | KKeyed, None => Ok (u, VKeyed [])
  | KKeyed, Some x =>
    if get_type (aenc x) =? TKeyedObject then
      do r <- get_pairs u (N.to_nat (get_count (aenc x))) (data_at + aval x); let (u, l) := r in Ok (u, VKeyed l)
    else Ok (u, VKeyed [])
  | KText, None => Ok (u, VText [])
  | KText, Some x =>
    if get_type (aenc x) =? TText then
      let stored := get_size (aenc x) in
      do s <- slice (ubytes e) (data_at + aval x) (if 0 <? stored then stored - 1 else 0); Ok (u, VText s)
    else Ok (u, VText [])
  | KBin, None => Ok (u, VBin [])
  | KBin, Some x =>
    if get_type (aenc x) =? TBinary then
      do s <- slice (ubytes e) (data_at + aval x) (get_size (aenc x)); Ok (u, VBin s)
    else Ok (u, VBin [])
  | KNum, None => Ok (u, VNum 0 [])
  | KNum, Some x =>
    if is_number (aenc x) then
      let w := N.to_nat (get_type_size (aenc x)) in
      do l <- (if (w =? 0)%nat then Ok [] else get_nums w (N.to_nat (get_count (aenc x))) (data_at + aval x)); Ok (u, VNum (aenc x) l)
    else Ok (u, VNum 0 [])
  | KStr, None => Ok (u, VStr [])
  | KStr, Some x =>
    if get_type (aenc x) =? TText then
      let stored := get_size (aenc x) in
      do s <- slice (ubytes e) (data_at + aval x) (if 0 <? stored then stored - 1 else 0); Ok (u, VStr s)
    else Ok (u, VStr [])
  | KData, None => Ok (u, VData 0 [])
  | KData, Some x =>
    if is_number (aenc x) then
      let w := N.to_nat (get_type_size (aenc x)) in
      do l <- (if (w =? 0)%nat then Ok [] else get_nums w (N.to_nat (get_count (aenc x))) (data_at + aval x)); Ok (u, VData (get_type (aenc x)) l)
    else if get_type (aenc x) =? TBinary then
      do s <- slice (ubytes e) (data_at + aval x) (get_size (aenc x)); Ok (u, VData 0 s)
    else Ok (u, VData 0 [])
  end.
Fixpoint get_fields (u : unarch) (ks : list (list N * kind)) : outcome (unarch * list (list N * value)) :=
  match ks with
  | [] => Ok (u, [])
  | (key, k) :: ks' =>
    do r <- get_value u key k; let (u, v) := r in
    do r <- get_fields u ks'; let (u, l) := r in
    Ok (u, (key, v) :: l)
  end.
End Get.

(** DKEggUnarchiverGetObject 510-556.  The new object is in the cache, without fields, while its
    initWithEgg method runs. *)
Fixpoint get_object (fuel : nat) (u : unarch) (i : N) : outcome (unarch * option nat) :=
  match fuel with
  | O => NoFuel
  | S fuel =>
    if negb (i <? unobj e) then Ok (u, None) else
    match lookup (N.to_nat i) (ucache u) with
    | Some id => Ok (u, Some id)
    | None =>
      do off <- table_int (48 + 12 * i);
      do c <- get_class off;
      match c with
      | None => Ok (u, None)
      | Some (name, schema) =>
        let id := length (uheap u) in
        do r <- get_fields (get_object fuel) (mkU (uheap u ++ [mkN name []]) ((N.to_nat i, id) :: ucache u) (N.to_nat i :: ustack u)) schema;
        let (u, fs) := r in
        Ok (mkU (upd (uheap u) id (mkN name fs)) (ucache u) (tl (ustack u)), Some id)
      end
    end
  end.
(** The state after InitWithData and InitWithStream, 313-320 and 432-439. *)
Definition no_unarch : unarch := mkU [] [] (if urootless e then [0%nat] else []).
(** DKEggGetRootObject 562-565. *)
Definition get_root : outcome (heap * option nat) :=
  do r <- get_object (S (N.to_nat (unobj e))) no_unarch 0; Ok (uheap (fst r), snd r).
(** What the program reads from a rootless archive. *)
Definition get_rootless (ks : list (list N * kind)) : outcome (heap * list (list N * value)) :=
  do r <- get_fields (get_object (S (N.to_nat (unobj e)))) no_unarch ks; Ok (uheap (fst r), snd r).
End Read.

(** DKEggGetTextData 705-718: what is copied to the caller's buffer and what is returned. *)
Definition get_text_data (big : bool) (e : egg) (st : list nat) (key : list N) : outcome (list N * N) :=
  do x <- get_attr big e st key;
  match x with
  | None => Ok ([], 0)
  | Some x =>
    if get_type (aenc x) =? TText then
      let stored := get_size (aenc x) in
      let len := if 0 <? stored then stored - 1 else 0 in
      do s <- slice (ubytes e) (data_at e + aval x) len;
      Ok (s, (len + 2 ^ 64 - 1) mod 2 ^ 64)
    else Ok ([], 0)
  end.

(** ** Archiving and unarchiving *)

(** Archive the objects reachable from a root on a machine, and read them back on another. *)
Definition save (big : bool) (h : heap) (root : nat) : outcome (list N) :=
  do a <- archive_root big h root; Ok (archived_data big false a).
Definition save_fields (big : bool) (h : heap) (fs : list (list N * value)) : outcome (list N) :=
  do a <- archive_fields big h fs; Ok (archived_data big true a).
Definition load (big : bool) (g : registry) (l : list N) : outcome (option (heap * option nat)) :=
  do x <- open_data big l;
  match x with None => Ok None | Some e => do r <- get_root big g e; Ok (Some r) end.
Definition load_stream (big : bool) (g : registry) (l : list N) : outcome (option (heap * option nat * list N)) :=
  do x <- open_stream big l;
  match x with None => Ok None | Some (e, rest) => do r <- get_root big g e; Ok (Some (r, rest)) end.
Definition load_fields (big : bool) (g : registry) (l : list N) (ks : list (list N * kind)) : outcome (option (heap * list (list N * value))) :=
  do x <- open_data big l;
  match x with None => Ok None | Some e => do r <- get_rootless big g e ks; Ok (Some r) end.
