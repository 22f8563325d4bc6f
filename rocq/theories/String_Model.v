(** Model of Source/DKString.c on string contents.

    The byte array of a string is represented by its content, the list of its
    bytes (C20 relates DKByteArray to sequences of bytes); the storage the
    C-string functions see is the content followed by the four NUL bytes of the
    terminator (DKByteArray.c 30-38).  Functions taking other strings get their
    contents.  NULL receivers are not modelled. *)
Require Import Coq.ZArith.ZArith Coq.NArith.NArith Coq.Lists.List Coq.Bool.Bool Coq.Arith.Arith.
Require Import Verif.Base Verif.Array_Model Verif.Utf8_Model.
Require Verif.HashTable_Model.
Import ListNotations.
Local Open Scope N_scope.

Notation bytes := (list N).

(** The storage of a string. *)
Definition sto (s : bytes) : bytes := s ++ [0; 0; 0; 0].

(** Conversion of a DKIndex argument to size_t. *)
Definition idx (z : Z) : nat := Z.to_nat (z mod 2^64).

(** DKByteArrayReplaceBytes on the content (C20). *)
Definition replace_bytes (s : bytes) (loc len : nat) (bs : bytes) : outcome bytes :=
  if (loc + len <=? length s)%nat then Ok (firstn loc s ++ bs ++ skipn (loc + len) s) else UB.

(** CopySubstring, DKString.c 321-338: the bytes copied from the storage [p]. *)
Definition copy_bytes (p : bytes) (loc len : nat) : bytes := firstn len (skipn loc p).

(** DKStringGetLength, DKString.c 887-897. *)
Definition str_length (s : bytes) : outcome nat := ustrlen (sto s).

(** DKStringGetCharacterAtIndex, DKString.c 961-1005: the code point and
    the bytes stored in the DKChar8 (sizeof 8); 0 and "" when out of range. *)
Fixpoint char_at_loop (fuel : nat) (p : bytes) (i index : Z) : outcome (Z * bytes) :=
  match fuel with
  | O => NoFuel
  | S fuel' =>
    do b <- rd p 0;
    if b =? 0 then Ok (0%Z, [])
    else
      do r <- ustrscan p;
      if (i =? index)%Z then Ok (fst r, if (snd r <? 8)%nat then firstn (snd r) p else []) else char_at_loop fuel' (skipn (snd r) p) (i + 1) index
  end.
Definition char_at (s : bytes) (index : Z) : outcome (Z * bytes) := char_at_loop (S (length (sto s))) (sto s) 0 index.

(** DKStringCopySubstring, DKString.c 1047-1081; [None] is NULL. *)
Definition substring (s : bytes) (loc len : Z) : outcome (option bytes) :=
  if (len <=? 0)%Z then Ok None
  else if (length s =? 0)%nat then Ok None
  else
    do a <- ustridx (sto s) (idx loc);
    match a with
    | None => Ok None
    | Some a =>
      do e <- ustridx (skipn a (sto s)) (idx len);
      Ok (option_map (fun e => copy_bytes (sto s) a e) e)
    end.
(** DKStringCopySubstringFromIndex, DKString.c 1086-1114. *)
Definition substring_from (s : bytes) (index : Z) : outcome (option bytes) :=
  if (index <? 0)%Z then Ok None
  else if (length s =? 0)%nat then Ok None
  else
    do a <- ustridx (sto s) (idx index);
    Ok (option_map (fun a => copy_bytes (sto s) a (length s - a)) a).
(** DKStringCopySubstringToIndex, DKString.c 1120-1148. *)
Definition substring_to (s : bytes) (index : Z) : outcome (option bytes) :=
  if (index <? 0)%Z then Ok None
  else if (length s =? 0)%nat then Ok None
  else
    do e <- ustridx (sto s) (idx index);
    Ok (option_map (fun e => copy_bytes (sto s) 0 e) e).

(** DKStringGetRangeOfString, DKString.c 1154-1192; [None] is DKNotFound.  A
    start position beyond the end gives a NULL pointer that is then read.  (With
    a negative start the location found is shifted below; it can then collide
    with the value -1 of DKNotFound, which this model keeps apart.) *)
Definition range_of_string (s pat : bytes) (start : Z) : outcome (option (Z * nat)) :=
  if (length s =? 0)%nat then Ok None
  else
    do p <- (if (0 <? start)%Z then ustridx (sto s) (idx start) else Ok (Some 0%nat));
    do b <- rd (sto pat) 0;
    if b =? 0 then Ok None
    else
      match p with
      | None => UB
      | Some p =>
        do r <- ustrstr_range (skipn p (sto s)) (sto pat);
        Ok (option_map (fun r => ((Z.of_nat (fst r) + start)%Z, snd r)) r)
      end.

(** DKStringHasPrefix, HasSuffix, HasSubstring, DKString.c 849-881. *)
Definition has_prefix (s t : bytes) : outcome bool :=
  do r <- range_of_string s t 0; Ok (match r with Some (0%Z, _) => true | _ => false end).
Definition has_suffix (s t : bytes) : outcome bool :=
  do a <- str_length s;
  do b <- str_length t;
  if (b <=? a)%nat then
    do r <- range_of_string s t (Z.of_nat a - Z.of_nat b); Ok (match r with Some _ => true | None => false end)
  else Ok false.
Definition has_substring (s t : bytes) : outcome bool :=
  do r <- range_of_string s t 0; Ok (match r with Some _ => true | None => false end).

(** DKStringReplaceSubstring, DKString.c 1622-1632: a range of bytes. *)
Definition replace_substring (s : bytes) (loc len : Z) (rep : bytes) : outcome bytes :=
  do r <- check_range loc len (length s);
  match r with
  | None => Ok s
  | Some (l, n) => replace_bytes s l n rep
  end.
(** DKStringDeleteSubstring, DKString.c 1704-1713. *)
Definition delete_substring (s : bytes) (loc len : Z) : outcome bytes := replace_substring s loc len [].

(** INTERNAL_DKStringReplaceOccurrencesOfString, DKString.c 1638-1648. *)
Fixpoint replace_loop (fuel : nat) (s pat rep : bytes) (replen : nat) (start : Z) : outcome bytes :=
  match fuel with
  | O => NoFuel
  | S fuel' =>
    do r <- range_of_string s pat start;
    match r with
    | None => Ok s
    | Some (loc, len) =>
      do s' <- replace_substring s loc (Z.of_nat len) rep;
      replace_loop fuel' s' pat rep replen (loc + Z.of_nat replen)
    end
  end.
Definition replace_occurrences (fuel : nat) (s pat rep : bytes) : outcome bytes :=
  do n <- str_length rep; replace_loop fuel s pat rep n 0.

(** DKStringEscape and DKStringUnescape, DKString.c 1659-1698, on the entries of
    the pattern dictionary in the order of its enumeration.  [fuel] bounds the
    number of matches of each pattern. *)
Fixpoint escape (fuel : nat) (s : bytes) (pats : list (bytes * bytes)) : outcome bytes :=
  match pats with
  | [] => Ok s
  | (k, o) :: pats' => do s' <- replace_occurrences fuel s k o; escape fuel s' pats'
  end.
Fixpoint unescape (fuel : nat) (s : bytes) (pats : list (bytes * bytes)) : outcome bytes :=
  match pats with
  | [] => Ok s
  | (k, o) :: pats' => do s' <- replace_occurrences fuel s o k; unescape fuel s' pats'
  end.

(** dk_strhash64, DKPlatform.c 549-560; char is signed. *)
Fixpoint strhash_loop (p : bytes) (h : N) : outcome N :=
  match p with
  | [] => UB
  | b :: p' =>
    if b =? 0 then Ok h
    else strhash_loop p' ((31 * h + (if b <? 128 then b else b + (2^64 - 256))) mod 2^64)
  end.
Definition strhash (p : bytes) : outcome N := strhash_loop p 0.

(** strcmp( a, b ) == 0 *)
Fixpoint strcmp_eq (a b : bytes) : outcome bool :=
  match a, b with
  | x :: a', y :: b' => if x =? y then (if x =? 0 then Ok true else strcmp_eq a' b') else Ok false
  | _, _ => UB
  end.

(** The URL escape patterns, DKString.c 2106-2136, in the order of the source. *)
Definition url_pattern_list : list (bytes * bytes) :=
  [ ([32], [37; 50; 48]); ([35], [37; 50; 51]); ([36], [37; 50; 52]); ([37], [37; 50; 53]);
    ([38], [37; 50; 54]); ([64], [37; 52; 48]); ([96], [37; 54; 48]); ([47], [37; 50; 70]);
    ([58], [37; 51; 65]); ([59], [37; 51; 66]); ([60], [37; 51; 67]); ([61], [37; 51; 68]);
    ([62], [37; 51; 69]); ([63], [37; 51; 70]); ([91], [37; 53; 66]); ([92], [37; 53; 67]);
    ([93], [37; 53; 68]); ([94], [37; 53; 69]); ([123], [37; 55; 66]); ([124], [37; 55; 67]);
    ([125], [37; 55; 68]); ([126], [37; 55; 69]); ([226; 128; 156], [37; 50; 50]); ([226; 128; 152], [37; 50; 55]);
    ([43], [37; 50; 66]); ([44], [37; 50; 67]) ].
Definition key_hash (k : bytes) : N := match strhash (sto k) with Ok h => h | _ => 0 end.
Fixpoint bytes_eqb (a b : bytes) : bool :=
  match a, b with
  | [], [] => true
  | x :: a', y :: b' => (x =? y) && bytes_eqb a' b'
  | _, _ => false
  end.
(** DKHashTableInitDictionaryWithVAKeysAndObjects, DKHashTable.c 382-404, and
    the enumeration of the table. *)
Fixpoint dict_of (t : HashTable_Model.table bytes bytes) (l : list (bytes * bytes)) : outcome (HashTable_Model.table bytes bytes) :=
  match l with
  | [] => Ok t
  | (k, o) :: l' => do r <- HashTable_Model.insert bytes bytes key_hash bytes_eqb t k o HashTable_Model.InsertAlways; dict_of (fst r) l'
  end.
Definition url_patterns : list (bytes * bytes) :=
  match dict_of (HashTable_Model.table_init) url_pattern_list with
  | Ok t => HashTable_Model.enumerate t
  | _ => []
  end.
(** DKStringByAddingURLPercentEscapes, DKStringByRemovingURLPercentEscapes,
    DKString.c 2142-2176. *)
Definition add_escapes (fuel : nat) (s : bytes) : outcome bytes := escape fuel s url_patterns.
Definition remove_escapes (fuel : nat) (s : bytes) : outcome bytes := unescape fuel s url_patterns.

(** DKStringSplit, DKString.c 1198-1235, from position [p] on. *)
Fixpoint split_loop (fuel : nat) (p sep : bytes) (seplen : nat) : outcome (list bytes) :=
  match fuel with
  | O => NoFuel
  | S fuel' =>
    do b <- ustrstr p sep;
    match b with
    | Some (S k) =>
      do l <- split_loop fuel' (skipn (S k + seplen) p) sep seplen;
      Ok (firstn (S k) p :: l)
    | _ =>
      do c <- rd p 0;
      if c =? 0 then Ok [] else do n <- strlen p; Ok [firstn n p]
    end
  end.
Definition split (s sep : bytes) : outcome (list bytes) :=
  do n <- strlen (sto sep); split_loop (S (length s)) (sto s) (sto sep) n.

(** DKStringCombine, DKString.c 1316-1342. *)
Fixpoint combine_loop (l : list bytes) (sep : bytes) (acc : bytes) : bytes :=
  match l with
  | [] => acc
  | [x] => acc ++ x
  | x :: l' => combine_loop l' sep ((acc ++ x) ++ sep)
  end.
Definition combine (l : list bytes) (sep : bytes) : bytes := combine_loop l sep [].

(** isspace in the C locale: undefined for arguments that are neither EOF (-1)
    nor an unsigned char (C17 7.4). *)
Definition c_isspace (ch : Z) : outcome bool :=
  if (ch =? -1)%Z || ((0 <=? ch) && (ch <=? 255))%Z
  then Ok (((9 <=? ch) && (ch <=? 13))%Z || (ch =? 32)%Z)
  else UB.

(** DKStringByTrimmingWhitespace, DKString.c 1348-1396; isspace is a parameter. *)
Section Trim.
  Variable isspace : Z -> outcome bool.
  (** The first loop: location, length and the position reached. *)
  Fixpoint trim_head (fuel : nat) (p : bytes) (loc : nat) : outcome (nat * nat * bytes) :=
    match fuel with
    | O => NoFuel
    | S fuel' =>
      do b <- rd p 0;
      if b =? 0 then Ok (loc, 0%nat, p)
      else
        do r <- ustrscan p;
        let p' := skipn (snd r) p in
        do w <- isspace (fst r);
        if w then trim_head fuel' p' (loc + snd r) else Ok (loc, snd r, p')
    end.
  (** The second loop: the length of the range. *)
  Fixpoint trim_tail (fuel : nat) (p : bytes) (len rlen : nat) : outcome nat :=
    match fuel with
    | O => NoFuel
    | S fuel' =>
      do b <- rd p 0;
      if b =? 0 then Ok rlen
      else
        do r <- ustrscan p;
        let len := (len + snd r)%nat in
        do w <- isspace (fst r);
        trim_tail fuel' (skipn (snd r) p) len (if w then rlen else len)
    end.
  Definition trim (s : bytes) : outcome bytes :=
    do h <- trim_head (S (length (sto s))) (sto s) 0;
    let '(loc, rlen, p) := h in
    do n <- trim_tail (S (length (sto s))) p rlen rlen;
    Ok (if (n =? length s)%nat then s else copy_bytes (sto s) loc n).
End Trim.

(** DKStringByFilteringString, DKString.c 1402-1453.  The callback gets the
    source index, the destination index, the bytes of the character and its
    code, and answers keep and stop; [st] is its context.  A character of 8
    bytes or more would overrun the DKChar8. *)
Section Filter.
  Variable St : Type.
  Variable f : St -> nat -> nat -> bytes -> Z -> St * (bool * bool).
  Fixpoint filter_loop (fuel : nat) (st : St) (p : bytes) (rdx wrx : nat) (out : bytes) : outcome (St * bytes) :=
    match fuel with
    | O => NoFuel
    | S fuel' =>
      do b <- rd p 0;
      if b =? 0 then Ok (st, out)
      else
        do r <- ustrscan p;
        let n := snd r in
        if (8 <=? n)%nat then UB
        else
          let u := firstn n p in
          let a := f st rdx wrx u (fst r) in
          let keep := fst (snd a) in
          let out := if keep then out ++ u else out in
          let wrx := if keep then S wrx else wrx in
          if snd (snd a) then Ok (fst a, out)
          else filter_loop fuel' (fst a) (skipn n p) (S rdx) wrx out
    end.
  Definition filter_string (st : St) (s : bytes) : outcome (St * bytes) :=
    filter_loop (S (length (sto s))) st (sto s) 0 0 [].
End Filter.

(** ** Paths *)
(** for( i = 0; i < n; ++i ) *dst++ = src[i]; inside one buffer. *)
Fixpoint copy_loop (n : nat) (mem : bytes) (dst src : nat) : outcome bytes :=
  match n with
  | O => Ok mem
  | S n' =>
    do b <- rd mem src;
    if (dst <? length mem)%nat then copy_loop n' (upd mem dst b) (S dst) (S src) else UB
  end.
(** The loop of DKStringStandardizePath, DKString.c 2076-2090: the buffer, the
    position of dst and wasslash. *)
Fixpoint standardize_loop (fuel : nat) (mem : bytes) (dst src : nat) (wasslash : bool) : outcome (bytes * nat * bool) :=
  match fuel with
  | O => NoFuel
  | S fuel' =>
    do r <- ustrscan (skipn src mem);
    let n := snd r in
    if (n =? 0)%nat then Ok (mem, dst, wasslash)
    else
      let isslash := (fst r =? 47)%Z in
      if negb wasslash || negb isslash
      then do mem' <- copy_loop n mem dst src; standardize_loop fuel' mem' (dst + n) (src + n) isslash
      else standardize_loop fuel' mem dst (src + n) isslash
  end.
(** DKStringStandardizePath, DKString.c 2062-2100. *)
Definition standardize (s : bytes) : outcome bytes :=
  do r <- standardize_loop (S (length (sto s))) (sto s) 0 0 false;
  let '(mem, dst, wasslash) := r in
  let loc := if wasslash && (1 <? dst)%nat then (dst - 1)%nat else dst in
  replace_bytes (firstn (length s) mem) loc (length s - loc) [].

(** The condition "Empty or root path", e.g. DKString.c 1743-1744. *)
Definition empty_or_root (s : bytes) : bool :=
  match s with [] => true | [b] => b =? 47 | _ => false end.

(** DKStringGetLastPathComponent, DKString.c 1734-1789. *)
Fixpoint skip_slashes (fuel : nat) (p : bytes) (e : nat) : outcome nat :=
  match fuel with
  | O => NoFuel
  | S fuel' =>
    match e with
    | O => Ok 0%nat
    | _ => do r <- u8_prev p e; if (fst r =? 47)%Z then skip_slashes fuel' p (snd r) else Ok e
    end
  end.
Fixpoint back_to_slash (fuel : nat) (p : bytes) (e : nat) : outcome nat :=
  match fuel with
  | O => NoFuel
  | S fuel' =>
    match e with
    | O => Ok 0%nat
    | _ => do r <- u8_prev p e; if (fst r =? 47)%Z then Ok e else back_to_slash fuel' p (snd r)
    end
  end.
Definition last_path_component (s : bytes) : outcome bytes :=
  if empty_or_root s then Ok []
  else
    do e <- skip_slashes (S (length s)) (sto s) (length s);
    do b <- back_to_slash (S (length s)) (sto s) e;
    if (e =? 0)%nat then Ok s else Ok (copy_bytes (sto s) b (e - b)).

(** DKStringAppendPathComponent, DKString.c 1931-1948. *)
Definition append_path_component (s c : bytes) : outcome bytes :=
  standardize ((if (0 <? length s)%nat then s ++ [47] else s) ++ c).

(** DKStringDeleteLastPathComponent, DKString.c 1954-1993. *)
Definition delete_last_path_component (s : bytes) : outcome bytes :=
  do s <- standardize s;
  if empty_or_root s then Ok s
  else
    do l <- ustrrchr (sto s) 47;
    let loc := match l with None => 0%nat | Some 0%nat => 1%nat | Some k => k end in
    replace_bytes s loc (length s - loc) [].

(** DKStringGetPathExtension, DKString.c 1830-1857. *)
Definition path_extension (s : bytes) : outcome bytes :=
  do e <- ustrrchr (sto s) 46;
  match e with
  | None => Ok []
  | Some e =>
    do l <- ustrrchr (sto s) 47;
    match l with
    | Some l => if (e <? l)%nat then Ok [] else Ok (copy_bytes (sto s) (e + 1) (length s - (e + 1)))
    | None => Ok (copy_bytes (sto s) (e + 1) (length s - (e + 1)))
    end
  end.

(** DKStringAppendPathExtension, DKString.c 1999-2023. *)
Definition append_path_extension (s e : bytes) : outcome bytes :=
  do s <- standardize s;
  if empty_or_root s then Ok s else Ok ((s ++ [46]) ++ e).

(** DKStringDeletePathExtension, DKString.c 2029-2056. *)
Definition delete_path_extension (s : bytes) : outcome bytes :=
  do s <- standardize s;
  do e <- ustrrchr (sto s) 46;
  match e with
  | None => Ok s
  | Some e =>
    do l <- ustrrchr (sto s) 47;
    match l with
    | Some l => if (e <? l)%nat then Ok s else replace_bytes s e (length s - e) []
    | None => replace_bytes s e (length s - e) []
    end
  end.

(** ** Word wrapping, DKStringWrap, DKString.c 1241-1310 *)
Definition wrap_stop (b : N) : bool := (b =? 32) || (b =? 10) || (b =? 13) || (b =? 9).
Definition wrap_space (b : N) : bool := (b =? 32) || (b =? 9).
(** strcspn( p, " \n\r\t" ) and strspn( p, " \t" ). *)
Fixpoint strcspn (p : bytes) : outcome nat :=
  match p with
  | [] => UB
  | b :: p' => if (b =? 0) || wrap_stop b then Ok 0%nat else do n <- strcspn p'; Ok (S n)
  end.
Fixpoint strspn (p : bytes) : outcome nat :=
  match p with
  | [] => UB
  | b :: p' => if wrap_space b then do n <- strspn p'; Ok (S n) else Ok 0%nat
  end.
(** The loop.  [line] is the line being built, [lineLength] its counter, [out]
    the lines finished so far.  DKStringAppendBytes copies from the storage. *)
Fixpoint wrap_loop (fuel : nat) (p : bytes) (line : bytes) (lineLength glyphs : nat) (out : list bytes) : outcome (list bytes) :=
  match fuel with
  | O => NoFuel
  | S fuel' =>
    do b <- rd p 0;
    if b =? 0 then
      if (0 <? lineLength)%nat then do t <- trim c_isspace line; Ok (out ++ [t]) else Ok out
    else
      do wordBytes <- strcspn p;
      do word <- ustrnlen p wordBytes;
      do r <- (if (0 <? lineLength)%nat && (glyphs <? lineLength + word)%nat
               then do t <- trim c_isspace line; Ok (out ++ [t], [], 0%nat)
               else Ok (out, line, lineLength));
      let '(out, line, lineLength) := r in
      let line := line ++ firstn word p in
      let lineLength := (lineLength + word)%nat in
      let p := skipn word p in
      do c <- rd p 0;
      if c =? 13 then wrap_loop fuel' (skipn 1 p) line lineLength glyphs out
      else if c =? 10 then
        do r <- (if (0 <? lineLength)%nat then do t <- trim c_isspace line; Ok (out ++ [t], [], 0%nat) else Ok (out, line, lineLength));
        let '(out, line, lineLength) := r in
        wrap_loop fuel' (skipn 1 p) line lineLength glyphs (out ++ [[]])
      else
        do sp <- strspn p;
        wrap_loop fuel' (skipn sp p) (line ++ firstn sp p) (lineLength + sp) glyphs out
  end.
Definition wrap (s : bytes) (glyphs : nat) : outcome (list bytes) := wrap_loop (S (length s)) (sto s) [] 0 glyphs [].
