(** Model of formatted printing, of lines and of single characters in streams,
    Source/DKStream.c.  A stream to write to is the list of the bytes written so far, and
    every write succeeds; a stream to read from is the list of the bytes still to come.  That
    data objects are such streams is the subject of C22. *)
Require Import Coq.ZArith.ZArith Coq.NArith.NArith Coq.Lists.List Coq.Bool.Bool.
Require Import Verif.Base Verif.Utf8_Model Verif.Strtonum_Model.
Import ListNotations.
Local Open Scope N_scope.

(** Arguments in the va_list: a C string or NULL, a wide string or NULL, an object given by
    its description, an int (signed or unsigned) or narrower, a 64-bit integer, a pointer to
    print, a double, a long double, the address of a counter. *)
Inductive arg : Type :=
| AStr (s : option (list N)) | AWide (s : option (list N)) | AObj (description : list N)
| AInt (z : Z) | ALong (z : Z) | APtr (p : N) | ADouble (bits : N) | ALongDouble (bits : N) | ACounter.

(** What a printing produced: the bytes, write_count and the values stored by %n. *)
Record printed : Type := mkP { text : list N; count : N; counters : list N }.
Definition null_text : list N := [40; 110; 117; 108; 108; 41].
Definition until_nul (s : list N) : list N :=
  (fix go (s : list N) := match s with [] => [] | b :: s' => if b =? 0 then [] else b :: go s' end) s.

(** The characters of line 343. *)
Definition conversions : list N :=
  [64; 37; 99; 115; 100; 105; 111; 120; 88; 117; 102; 70; 101; 69; 97; 65; 103; 71; 110; 112].
Definition mem (l : list N) (b : N) : bool := existsb (N.eqb b) l.
(** strcspn with them. *)
Fixpoint strcspn (s : list N) : outcome nat :=
  match s with
  | [] => UB
  | b :: s' => if (b =? 0) || mem conversions b then Ok 0%nat else do n <- strcspn s'; Ok (S n)
  end.

(** IntegerSize, 151-189, of a format in storage that begins with it. *)
Definition integer_size (f : list N) (len : nat) : outcome N :=
  if (len <=? 2)%nat then Ok 4
  else
    do m1 <- rd f (len - 2);
    do m2 <- rd f (len - 3);
    if m1 =? 108 then Ok 8
    else if m1 =? 104 then Ok (if m2 =? 104 then 1 else 2)
    else if (m1 =? 112) || (m1 =? 106) || (m1 =? 122) || (m1 =? 116) then Ok 8
    else Ok 4.
(** FloatSize, 191-195: whether the argument is a long double. *)
Definition long_double (f : list N) (len : nat) : outcome bool := do m <- rd f (len - 2); Ok (m =? 76).
(** IsUnformattedFloat, 197-203. *)
Definition unformatted (f : list N) (len : nat) : outcome bool :=
  do c <- rd f (len - 1); do m <- rd f (len - 2);
  Ok ((c =? 102) && ((len =? 2)%nat || ((len =? 3)%nat && (m =? 108)))).
(** strchr of a point. *)
Fixpoint find_point (s : list N) : option nat :=
  match s with
  | [] => None
  | b :: s' => if b =? 46 then Some 0%nat else match find_point s' with Some n => Some (S n) | None => None end
  end.
(** TrimZeroes, 205-221: the loop on [i], which counts down from [len - 1]. *)
Fixpoint trim_loop (i : nat) (stop : nat) (num : list N) : list N :=
  match i with
  | O => num
  | S i' => if (stop <? i)%nat && (nth i num 0 =? 48) then trim_loop i' stop (firstn i num) else num
  end.
Definition trim_zeroes (num : list N) : list N :=
  match find_point num with
  | None => num
  | Some dp => trim_loop (length num - 1) (dp + 1) num
  end.
(** CopyFormat, 223-228, into tmp_format, line 299: the assertion is not compiled in a
    release build. *)
Definition copy_format (f : list N) (len : nat) : outcome (list N) :=
  if (len <? 8)%nat then Ok (firstn len f) else UB.
(** WriteCounter, 230-273: the value stored, if any. *)
Definition write_counter (f : list N) (len : nat) (n : N) : outcome (option N) :=
  do m <- rd f (len - 2);
  Ok (match len with
      | 2%nat => Some (n mod 2^32)
      | 3%nat => if m =? 108 then Some (n mod 2^64) else if m =? 104 then Some (n mod 2^16)
                 else if (m =? 106) || (m =? 122) || (m =? 116) then Some (n mod 2^64) else None
      | 4%nat => if m =? 108 then Some (n mod 2^64) else if m =? 104 then Some (n mod 2^8) else None
      | _ => None
      end).

Section Printf.
(** The text that sprintf of the C library produces for one conversion and its argument. *)
Variable cprintf : list N -> arg -> list N.

(** sprintf to tmp, line 300, of 120 bytes.  A star in the format takes an argument that was
    not passed. *)
Definition sprintf_tmp (f : list N) (a : arg) : outcome (list N) :=
  if mem f 42 then UB
  else let t := cprintf f a in if (length t <? 120)%nat then Ok t else UB.
(** The two calls of snprintf and the write, 369-377 and 391-399. *)
Definition snprintf_buf (f : list N) (a : arg) : outcome (list N) :=
  if mem f 42 then UB else Ok (until_nul (cprintf f a)).

(** The write of a sequence or of a text. *)
Definition put (p : printed) (s : list N) : printed := mkP (text p ++ s) (count p + N.of_nat (length s)) (counters p).

(** The switch of lines 350-513 for a conversion that begins at [cur] and ends with the
    character [ch] at [tok]; the arguments left are returned, and the new sequence.  An
    argument of another type than the one va_arg names is undefined. *)
Definition convert (cur : list N) (tok : nat) (ch : N) (args : list arg) (p : printed) : outcome (list N * list arg * printed) :=
  if ch =? 37 then Ok ([37], args, p)
  else if ch =? 115 then
    do m <- rd cur (tok - 1);
    if m =? 108 then
      match args with
      | AWide w :: args =>
        let w := match w with Some w => w | None => null_text end in
        do f <- copy_format cur (tok + 1);
        do t <- snprintf_buf f (AWide (Some w));
        Ok ([], args, put p t)
      | _ => UB
      end
    else
      match args with
      | AStr s :: args =>
        let s := match s with Some s => s | None => null_text end in
        if (1 <? tok)%nat then
          do f <- copy_format cur (tok + 1);
          do t <- snprintf_buf f (AStr (Some s));
          Ok ([], args, put p t)
        else Ok ([], args, put p (until_nul s))
      | _ => UB
      end
  else if ch =? 64 then
    match args with
    | AObj d :: args => Ok ([], args, put p d)
    | _ => UB
    end
  else if ch =? 99 then
    match args with
    | AInt z :: args =>
      Ok ([], args, mkP (text p ++ [Z.to_N (z mod 256)]) (if (z =? Z.of_N ch)%Z then count p + 1 else count p) (counters p))
    | _ => UB
    end
  else if mem [100; 105; 117; 111; 120; 88; 112] ch then
    do f <- copy_format cur (tok + 1);
    do size <- integer_size cur (tok + 1);
    match args with
    | AInt z :: args => if size =? 8 then UB else do t <- sprintf_tmp f (AInt z); Ok ([], args, put p t)
    | ALong z :: args => if size =? 8 then do t <- sprintf_tmp f (ALong z); Ok ([], args, put p t) else UB
    | _ => UB
    end
  else if mem [102; 70; 103; 71; 101; 69; 97; 65] ch then
    do f <- copy_format cur (tok + 1);
    do big <- long_double cur (tok + 1);
    do a <- match args with
            | ADouble d :: args => if big then UB else Ok (ADouble d, args)
            | ALongDouble d :: args => if big then Ok (ALongDouble d, args) else UB
            | _ => UB
            end;
    do t <- sprintf_tmp f (fst a);
    do u <- unformatted f (tok + 1);
    Ok ([], snd a, put p (if u then trim_zeroes t else t))
  else if ch =? 110 then
    do f <- copy_format cur (tok + 1);
    match args with
    | ACounter :: args =>
      do v <- write_counter f (tok + 1) (count p);
      Ok ([], args, mkP (text p) (count p) (counters p ++ match v with Some v => [v] | None => [] end))
    | _ => UB
    end
  else Ok ([], args, p).

(** The loop of DKVSPrintf, 303-523, from the cursor [cur]: [seq] is the sequence of
    characters not yet written.  After a conversion the cursor is one past the character
    that ended it, also when that is the terminator of the format. *)
Fixpoint print_loop (fuel : nat) (seq cur : list N) (args : list arg) (p : printed) : outcome printed :=
  match fuel with
  | O => NoFuel
  | S fuel' =>
    do r <- ustrscan cur;
    let '(ch, n) := r in
    if (n =? 0)%nat then Ok (put p seq)
    else if (1 <? n)%nat || negb (ch =? 37)%Z then print_loop fuel' (seq ++ firstn n cur) (skipn n cur) args p
    else
      let p := put p seq in
      do k <- strcspn (skipn 1 cur);
      let tok := (k + 1)%nat in
      do ch <- rd cur tok;
      do c <- convert cur tok ch args p;
      let '(seq, args, p) := c in
      print_loop fuel' seq (skipn (tok + 1) cur) args p
  end.

(** The conversion of a size_t to int. *)
Definition to_int (n : N) : Z := let m := Z.of_N (n mod 2^32) in if (m <? 2^31)%Z then m else (m - 2^32)%Z.

(** DKVSPrintf, 275-526, on a stream that is not NULL: the bytes written, the values stored
    by %n and the result.  The format is a C string. *)
Definition vsprintf (format : list N) (args : list arg) : outcome (list N * list N * Z) :=
  let s := format ++ [0] in
  do p <- print_loop (S (length s)) [] s args (mkP [] 0 []);
  Ok (text p, counters p, to_int (count p)).
End Printf.

(** DKGets, 532-549: the string read and the rest of the stream.  DKStringAppendCString,
    DKString.c 1587-1599, appends nothing for a NUL. *)
Fixpoint gets (s : list N) : list N * list N :=
  match s with
  | [] => ([], [])
  | b :: s' => if b =? 10 then ([], s') else let '(l, r) := gets s' in (if b =? 0 then l else b :: l, r)
  end.
(** DKPuts, 555-566: the bytes written. *)
Definition puts (s : list N) : list N := s.
(** DKGetc, 572-580: the result and the rest of the stream; EOF is -1 and char is signed. *)
Definition getc (s : list N) : Z * list N := match s with [] => ((-1)%Z, []) | b :: s' => (schar b, s') end.
(** DKPutc, 586-594: the byte written. *)
Definition putc (ch : Z) : list N := [Z.to_N (ch mod 256)].
