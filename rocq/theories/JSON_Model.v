(** Model of Source/DKJSON.c.  Bytes are [N]; a pointer into a text is the list of the bytes
    from there to the end of the storage, and reading past the end is [UB].  What is written
    to the stream is the list of the bytes.  The 32 bit variant of the vector
    extension (DKJSONVectorRead32BitTypes) is in Vec32_Model.  Not modelled: writing floating
    point numbers, objects other than strings, numbers, booleans, lists and dictionaries, allocation and the depth of the
    C stack. *)
Require Import Coq.ZArith.ZArith Coq.NArith.NArith Coq.Lists.List Coq.Bool.Bool Coq.Arith.Arith.
Require Import Verif.Base Verif.Utf8_Model Verif.Strtonum_Model.
Import ListNotations.
Local Open Scope N_scope.

(** Objects.  A dictionary lists its keys and values in the order of enumeration (for
    dictionaries made by the parser, the order in which they were added first: see C01 and
    C03).  A number with several values of type int64 or double; the double of an integer
    read before is the integer. *)
Inductive json : Type :=
| JNull | JBool (b : bool) | JNum (n : jnum) | JVec (dbl : bool) (l : list jnum) | JStr (s : list N)
| JArr (l : list json) | JObj (l : list (list N * json)).

(** ** Writing *)
(** WriteContext 49-56; options and stream are fixed. *)
Record wctx : Type := mkW { indent : nat; comma : bool }.
Definition spaces : list N := [32; 32; 32; 32].
(** for( int i = 0; i < context->indent; i++ ) DKSPrintf( "    " ) *)
Definition indentation (n : nat) : list N := concat (repeat spaces n).
(** WriteComma 246-263. *)
Definition write_comma (pretty : bool) (c : wctx) : list N :=
  if comma c then if pretty then 44 :: 10 :: indentation (indent c) else [44] else [].
(** BeginGroup 269-287, EndGroup 293-306. *)
Definition begin_group (pretty : bool) (c : wctx) (d : N) : list N * wctx :=
  if pretty then (d :: 10 :: indentation (S (indent c)), mkW (S (indent c)) false) else ([d], mkW (indent c) false).
Definition end_group (pretty : bool) (c : wctx) (d : N) : list N * wctx :=
  if pretty then (10 :: indentation (pred (indent c)) ++ [d], mkW (pred (indent c)) (comma c)) else ([d], c).
(** EscapedChars 181-192, without the terminator. *)
Definition escaped_chars : list (Z * list N) :=
  [(92%Z, [92; 92]); (34%Z, [92; 34]); (13%Z, [92; 114]); (12%Z, [92; 102]); (10%Z, [92; 110]); (9%Z, [92; 116]); (8%Z, [92; 98])].
(** 208-231: the replacement, or none if the character goes to the buffer. *)
Fixpoint replacement (t : list (Z * list N)) (ch : Z) : option (list N) :=
  match t with
  | [] => None
  | (p, r) :: t' => if (p <? ch)%Z then None else if (p =? ch)%Z then Some r else replacement t' ch
  end.
(** 206-234: [start] is bufferStart, [len] bufferLength. *)
Fixpoint escape_loop (fuel : nat) (start : list N) (len : nat) (cursor : list N) : outcome (list N) :=
  match fuel with
  | O => NoFuel
  | S fuel' =>
    do r <- ustrscan cursor;
    let (ch, n) := r in
    if (n =? 0)%nat then Ok (if (0 <? len)%nat then firstn len start else [])
    else
      match replacement escaped_chars ch with
      | None => escape_loop fuel' start (len + n) (skipn n cursor)
      | Some x =>
        do out <- escape_loop fuel' (skipn n cursor) 0 (skipn n cursor);
        Ok ((if (0 <? len)%nat then firstn len start else []) ++ x ++ out)
      end
  end.
(** WriteEscapedString 194-240 of a string with the bytes [s]. *)
Definition write_escaped (s : list N) : outcome (list N) :=
  do out <- escape_loop (S (length s)) (s ++ [0]) 0 (s ++ [0]); Ok (34 :: out ++ [34]).
(** DKNumberFormatString, DKNumber.c 980-1023, of integers. *)
Definition print_num (n : jnum) : list N := match n with NInt z => print_int z | NReal _ _ _ _ => [] end.
Fixpoint format_nums (sep : list N) (l : list jnum) : list N :=
  match l with [] => [] | n :: l' => print_num n ++ match l' with [] => [] | _ => sep ++ format_nums sep l' end end.
(** WriteObject 91-148 and WriteKeyAndObject 155-167. *)
Fixpoint write_object (pretty vec : bool) (c : wctx) (v : json) {struct v} : outcome (list N * wctx) :=
  do r <- match v with
          | JNull => Ok ([110; 117; 108; 108], c)
          | JStr s => do t <- write_escaped s; Ok (t, c)
          | JBool b => Ok (if b then [116; 114; 117; 101] else [102; 97; 108; 115; 101], c)
          | JNum n => Ok (print_num n, c)
          | JVec _ l => if vec then Ok (35 :: 91 :: format_nums [44; 32] l ++ [93], c) else Ok (34 :: format_nums [32] l ++ [34], c)
          | JObj l =>
            let (t1, c1) := begin_group pretty c 123 in
            do r <- (fix each (c : wctx) (l : list (list N * json)) : outcome (list N * wctx) :=
                       match l with
                       | [] => Ok ([], c)
                       | (k, x) :: l' =>
                         do r <- write_object pretty vec (mkW (indent c) false) x;
                         do r' <- each (mkW (indent (snd r)) true) l';
                         Ok (write_comma pretty c ++ 34 :: k ++ (if pretty then [34; 32; 58; 32] else [34; 58]) ++ fst r ++ fst r', snd r')
                       end) c1 l;
            let (t3, c3) := end_group pretty (snd r) 125 in
            Ok (t1 ++ fst r ++ t3, c3)
          | JArr l =>
            let (t1, c1) := begin_group pretty c 91 in
            do r <- (fix each (c : wctx) (l : list json) : outcome (list N * wctx) :=
                       match l with
                       | [] => Ok ([], c)
                       | x :: l' => do r <- write_object pretty vec c x; do r' <- each (snd r) l'; Ok (fst r ++ fst r', snd r')
                       end) c1 l;
            let (t3, c3) := end_group pretty (snd r) 93 in
            Ok (t1 ++ fst r ++ t3, c3)
          end;
  Ok (write_comma pretty c ++ fst r, mkW (indent (snd r)) true).
(** DKJSONWrite 71-85. *)
Definition json_write (pretty vec : bool) (v : json) : outcome (list N) :=
  do r <- write_object pretty vec (mkW 0 false) v; Ok (fst r ++ (if pretty then [10] else [])).

(** ** Parsing *)
(** Token 321-326; the length is a difference of pointers for vectors. *)
Record token : Type := mkT { tstr : list N; tlen : Z }.
(** strtol( hex, &end, 16 ) of at most four characters. *)
Definition hex_digit (b : N) : option Z :=
  if (48 <=? b) && (b <=? 57) then Some (Z.of_N b - 48)%Z
  else if (97 <=? b) && (b <=? 102) then Some (Z.of_N b - 87)%Z
  else if (65 <=? b) && (b <=? 70) then Some (Z.of_N b - 55)%Z else None.
Fixpoint hex_digits (acc : Z) (s : list N) : Z :=
  match s with
  | [] => acc
  | b :: s' => match hex_digit b with Some d => hex_digits (16 * acc + d)%Z s' | None => acc end
  end.
Fixpoint hex_space (s : list N) : list N :=
  match s with b :: s' => if ((9 <=? b) && (b <=? 13)) || (b =? 32) then hex_space s' else s | [] => [] end.
Definition hex_unsigned (s : list N) : Z :=
  match s with
  | 48 :: x :: d :: s' => if ((x =? 120) || (x =? 88)) && match hex_digit d with Some _ => true | None => false end then hex_digits 0 (d :: s') else hex_digits 0 s
  | _ => hex_digits 0 s
  end.
Definition strtol16 (s : list N) : Z :=
  match hex_space s with
  | 45 :: s' => (- hex_unsigned s')%Z
  | 43 :: s' => hex_unsigned s'
  | s' => hex_unsigned s'
  end.
(** A C string up to its terminator. *)
Fixpoint until_nul (s : list N) : list N := match s with [] => [] | b :: s' => if b =? 0 then [] else b :: until_nul s' end.
(** ScanUnicodeCodePoint 529-547: the bytes appended.  If dk_ustrwrite rejects the character
    then the buffer that is appended is not initialised. *)
Definition scan_unicode (want : bool) (s : list N) : outcome (list N) :=
  do a <- rd s 0; do b <- rd s 1; do c <- rd s 2; do d <- rd s 3;
  do r <- ustrwrite (strtol16 (until_nul [a; b; c; d])) 8;
  if (snd r =? 0)%nat && want then UB else Ok (until_nul (fst r)).
(** ScanStringToken 553-638: the length of the token and what the buffer holds.  Without a
    buffer nothing is appended (DKString.c 1587-1599, 2384-2405). *)
Fixpoint scan_string (fuel : nat) (want : bool) (s : list N) (len : nat) (buf : list N) : outcome (nat * list N) :=
  match fuel with
  | O => NoFuel
  | S fuel' =>
    do r <- ustrscan (skipn len s);
    let (ch, n) := r in
    if (n =? 0)%nat then Ok (len, buf)
    else if (ch =? 92)%Z then
      let len := (len + n)%nat in
      do r <- ustrscan (skipn len s);
      let (ch, n) := r in
      if (ch =? 117)%Z then
        do x <- scan_unicode want (skipn (len + n) s);
        scan_string fuel' want s (len + 4 + n) (buf ++ x)
      else
        let x := if (ch =? 92)%Z then [92] else if (ch =? 34)%Z then [34] else if (ch =? 98)%Z then [8] else if (ch =? 102)%Z then [12]
                 else if (ch =? 110)%Z then [10] else if (ch =? 114)%Z then [13] else if (ch =? 116)%Z then [9] else if (ch =? 47)%Z then [47] else [] in
        scan_string fuel' want s (len + n) (buf ++ x)
    else if (ch =? 34)%Z then Ok ((len + n)%nat, buf)
    else scan_string fuel' want s (len + n) (buf ++ firstn n (skipn len s))
  end.
(** strchr( ",:[]{}", ch ): the character is converted to char; the terminator is found, too. *)
Definition special (ch : Z) : bool :=
  let b := (ch mod 256)%Z in
  ((b =? 44) || (b =? 58) || (b =? 91) || (b =? 93) || (b =? 123) || (b =? 125) || (b =? 0))%Z.
(** 869-886: the first character that is no space, its length and the text from there on. *)
Fixpoint skip_space (fuel : nat) (s : list N) : outcome (Z * nat * list N) :=
  match fuel with
  | O => NoFuel
  | S fuel' =>
    do r <- ustrscan s;
    let (ch, n) := r in
    if (n =? 0)%nat then Ok (ch, O, s)
    else do w <- isspace ch; if w then skip_space fuel' (skipn n s) else Ok (ch, n, s)
  end.
(** 917-930: the length of the token. *)
Fixpoint scan_word (fuel : nat) (s : list N) (len : nat) : outcome nat :=
  match fuel with
  | O => NoFuel
  | S fuel' =>
    do r <- ustrscan (skipn len s);
    let (ch, n) := r in
    if (n =? 0)%nat then Ok len
    else do w <- isspace ch; if w || special ch then Ok len else scan_word fuel' s (len + n)
  end.
(** isdigit of a char. *)
Definition is_digit (b : N) : outcome bool := if (b <? 128) || (b =? 255) then Ok (isdigit b) else UB.
(** DKNewNumber with DKEncode( numberType, count ) 724-727: the count has 24 bits. *)
Definition new_vector (dbl : bool) (l : list jnum) : json :=
  match firstn (N.to_nat (N.of_nat (length l) mod 2 ^ 24)) l with [n] => JNum n | l' => JVec dbl l' end.
(** ScanToken 860-932: the token, the object if one was asked for ([want]), the cursor; and
    ScanVectorToken64 644-745 after the bracket (660-737): the object and the cursor. *)
Fixpoint scan_token (fuel : nat) (vec want : bool) (cur : list N) : outcome (token * option json * list N) :=
  match fuel with
  | O => NoFuel
  | S fuel' =>
    do r <- skip_space (S (length cur)) cur;
    let '(ch, n, s) := r in
    if (n =? 0)%nat then Ok (mkT s 0, None, s)
    else if (ch =? 34)%Z then
      do r <- scan_string (S (length s)) want s n [];
      let (len, buf) := r in
      Ok (mkT s (Z.of_nat len), if want then Some (JStr buf) else None, skipn len s)
    else if (ch =? 35)%Z && vec then
      do r <- ustrscan (skipn n s);
      if (fst r =? 91)%Z then
        do r <- scan_vector fuel' vec want (skipn (n + snd r) s) false [];
        let (obj, cur') := r in
        Ok (mkT s (Z.of_nat (length s) - Z.of_nat (length cur')), obj, cur')
      else Ok (mkT s (Z.of_nat (length s) - Z.of_nat (length cur)), None, cur)
    else
      do b <- rd s 0;
      if special (Z.of_N b) then Ok (mkT s (Z.of_nat n), None, skipn n s)
      else do len <- scan_word (S (length s)) s n; Ok (mkT s (Z.of_nat len), None, skipn len s)
  end
with scan_vector (fuel : nat) (vec want : bool) (cur : list N) (dbl : bool) (buf : list jnum) : outcome (option json * list N) :=
  match fuel with
  | O => NoFuel
  | S fuel' =>
    do r <- scan_token fuel' vec false cur;
    let '(t, _, cur) := r in
    do b <- rd (tstr t) 0;
    do g <- (if b =? 45 then Ok true else is_digit b);
    if g then
      do x <- strtonum (tstr t);
      let dbl := dbl || match fst x with NInt _ => false | NReal _ _ _ _ => true end in
      let buf := buf ++ [fst x] in
      do r <- scan_token fuel' vec false cur;
      let '(t, _, cur) := r in
      do b <- rd (tstr t) 0;
      if b =? 44 then scan_vector fuel' vec want cur dbl buf
      else if b =? 93 then Ok (if want then Some (new_vector dbl buf) else None, cur)
      else Ok (None, cur)
    else Ok (None, cur)
  end.
(** DKDictionarySetObject with the policy DKInsertAlways; keys are the same if their bytes are
    (see C26 for ill-formed strings). *)
Fixpoint same_bytes (a b : list N) : bool :=
  match a, b with [], [] => true | x :: a', y :: b' => (x =? y) && same_bytes a' b' | _, _ => false end.
Fixpoint dict_set (l : list (list N * json)) (k : list N) (v : json) : list (list N * json) :=
  match l with [] => [(k, v)] | (k', v') :: l' => if same_bytes k k' then (k', v) :: l' else (k', v') :: dict_set l' k v end.
(** strncmp( token.str, word, strlen( word ) ) == 0 *)
Fixpoint starts (s word : list N) : outcome bool :=
  match word with
  | [] => Ok true
  | w :: word' => do b <- rd s 0; if b =? w then starts (tl s) word' else Ok false
  end.
(** What ParseObject returns: an object with 0, a closing bracket, or -1. *)
Inductive pres : Type := PVal (v : json) | PClose (b : N) | PFail.
(** ParseObject 358-523 with the loops of arrays (383-409) and of objects (423-468). *)
Fixpoint parse_object (fuel : nat) (vec : bool) (cur : list N) : outcome (pres * list N) :=
  match fuel with
  | O => NoFuel
  | S fuel' =>
    do r <- scan_token (S (length cur)) vec true cur;
    let '(t, obj, cur) := r in
    if (tlen t =? 0)%Z then Ok (PFail, cur)
    else
      do ch <- rd (tstr t) 0;
      match obj with
      | Some v => Ok (PVal v, cur)
      | None =>
        if ch =? 91 then array_loop fuel' vec cur []
        else if ch =? 93 then Ok (PClose 93, cur)
        else if ch =? 123 then object_loop fuel' vec cur []
        else if ch =? 125 then Ok (PClose 125, cur)
        else
          do g <- (if ch =? 45 then Ok true else is_digit ch);
          if g then do x <- strtonum (tstr t); Ok (PVal (JNum (fst x)), cur)
          else
            do b <- starts (tstr t) [116; 114; 117; 101];
            if b then Ok (PVal (JBool true), cur)
            else
              do b <- starts (tstr t) [102; 97; 108; 115; 101];
              if b then Ok (PVal (JBool false), cur)
              else
                do b <- starts (tstr t) [110; 117; 108; 108];
                if b then Ok (PVal JNull, cur) else Ok (PFail, cur)
      end
  end
with array_loop (fuel : nat) (vec : bool) (cur : list N) (l : list json) : outcome (pres * list N) :=
  match fuel with
  | O => NoFuel
  | S fuel' =>
    do r <- parse_object fuel' vec cur;
    let (p, cur) := r in
    match p with
    | PClose b => if b =? 93 then Ok (PVal (JArr l), cur) else Ok (PFail, cur)
    | PFail => Ok (PFail, cur)
    | PVal v =>
      do r <- scan_token (S (length cur)) vec false cur;
      let '(t, _, cur) := r in
      do ch <- rd (tstr t) 0;
      if ch =? 93 then Ok (PVal (JArr (l ++ [v])), cur)
      else if ch =? 44 then array_loop fuel' vec cur (l ++ [v]) else Ok (PFail, cur)
    end
  end
with object_loop (fuel : nat) (vec : bool) (cur : list N) (l : list (list N * json)) : outcome (pres * list N) :=
  match fuel with
  | O => NoFuel
  | S fuel' =>
    do r <- parse_object fuel' vec cur;
    let (p, cur) := r in
    match p with
    | PClose b => if b =? 125 then Ok (PVal (JObj l), cur) else Ok (PFail, cur)
    | PVal (JStr k) =>
      do r <- scan_token (S (length cur)) vec false cur;
      let '(t, _, cur) := r in
      do ch <- rd (tstr t) 0;
      if ch =? 58 then
        do r <- parse_object fuel' vec cur;
        let (p, cur) := r in
        match p with
        | PVal v =>
          let l := dict_set l k v in
          do r <- scan_token (S (length cur)) vec false cur;
          let '(t, _, cur) := r in
          do ch <- rd (tstr t) 0;
          if ch =? 125 then Ok (PVal (JObj l), cur)
          else if ch =? 44 then object_loop fuel' vec cur l else Ok (PFail, cur)
        | _ => Ok (PFail, cur)
        end
      else Ok (PFail, cur)
    | _ => Ok (PFail, cur)
    end
  end.
(** DKJSONParse 335-352: NULL if the text is not accepted. *)
Definition json_parse (vec : bool) (text : list N) : outcome json :=
  do r <- parse_object (2 * length text + 3) vec (text ++ [0]);
  Ok match fst r with PVal v => v | _ => JNull end.
