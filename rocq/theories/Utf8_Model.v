(** Model of Source/DKUnicode.c and of the ICU macros and functions it uses
    (ThirdParty/icu/unicode/utf8.h, ThirdParty/icu/utf_impl.c).

    A string argument is the list of the bytes of its storage from the pointer
    on; reading past the end of that list is [UB].  Results that are pointers
    into the argument are offsets.  Byte indices are natural numbers (the code
    uses int32_t: strings are shorter than 2^31 bytes). *)
Require Import Coq.ZArith.ZArith Coq.NArith.NArith Coq.Lists.List Coq.Bool.Bool Coq.Arith.Arith.
Require Import Verif.Base.
Import ListNotations.

Local Open Scope N_scope.

(** s[i] *)
Definition rd (s : list N) (i : nat) : outcome N :=
  match nth_error s i with Some b => Ok b | None => UB end.

(** U8_COUNT_TRAIL_BYTES, utf8.h 64-67. *)
Definition count_trail (b : N) : N :=
  if b <? 0xf0 then (if 0xc0 <=? b then 1 else 0) + (if 0xe0 <=? b then 1 else 0)
  else if b <? 0xfe then 3 + (if 0xf8 <=? b then 1 else 0) + (if 0xfc <=? b then 1 else 0)
  else 0.

(** U8_MASK_LEAD_BYTE, utf8.h 90. *)
Definition mask_lead (b count : N) : N := N.land b (N.shiftl 1 (6 - count) - 1).

(** U8_IS_TRAIL, utf8.h 164. *)
Definition is_trail (b : N) : bool := N.land b 0xc0 =? 0x80.

(** (uint8_t)(s[i] - 0x80) *)
Definition trail (s : list N) (i : nat) : outcome N :=
  do b <- rd s i; Ok ((b + 256 - 0x80) mod 256).

(** utf8_minLegal, utf_impl.c 92-93. *)
Definition min_legal (count : N) : N :=
  match count with 0 => 0 | 1 => 0x80 | 2 => 0x800 | _ => 0x10000 end.

(** The fallthrough cases 1 and 2 of the switch of utf8_nextCharSafeBody,
    utf_impl.c 156-181; None is break. *)
Definition next_case1 (s : list N) (i : nat) (c count : N) : outcome (option (N * nat)) :=
  do t <- trail s i;
  let c := N.lor (N.shiftl c 6) t in
  if 0x3f <? t then Ok None
  else if min_legal count <=? c then Ok (Some (c, S i)) else Ok None.
Definition next_case2 (s : list N) (i : nat) (c count : N) : outcome (option (N * nat)) :=
  do t <- trail s i;
  let c := N.lor (N.shiftl c 6) t in
  if (N.land c 0xffe0 =? 0x360) || (0x3f <? t) then Ok None
  else next_case1 s (S i) c count.

(** while(count>0 && U8_IS_TRAIL(s[i])) { ++i; --count; }, utf_impl.c 189-192. *)
Fixpoint skip_trail (count : nat) (s : list N) (i : nat) : outcome nat :=
  match count with
  | O => Ok i
  | S count' => do b <- rd s i; if is_trail b then skip_trail count' s (S i) else Ok i
  end.

(** utf8_nextCharSafeBody, utf_impl.c 131-197, with length < 0 and strict = -1,
    after reading the lead byte [c] at offset 0. *)
Definition next_safe_body (s : list N) (c : N) : outcome (Z * nat) :=
  let count := count_trail c in
  let c := mask_lead c count in
  do r <- match count with
          | 3 =>
            do t <- trail s 1;
            let c := N.lor (N.shiftl c 6) t in
            if (0x110 <=? c) || (0x3f <? t) then Ok None else next_case2 s 2 c count
          | 2 => next_case2 s 1 c count
          | 1 => next_case1 s 1 c count
          | _ => Ok None
          end;
  match r with
  | Some (c, i) => Ok (Z.of_N c, i)
  | None => do i <- skip_trail (N.to_nat count) s 1; Ok ((-1)%Z, i)
  end.

(** U8_NEXT, utf8.h 326-351, with length = -1: the code point (-1 for an
    illegal sequence) and the number of bytes consumed. *)
Definition u8_next (s : list N) : outcome (Z * nat) :=
  do c <- rd s 0;
  if c <? 0x80 then Ok (Z.of_N c, 1%nat)
  else
    do r3 <- (if (0xe0 <? c) && (c <=? 0xec) then
                do t1 <- trail s 1;
                if t1 <=? 0x3f then
                  do t2 <- trail s 2;
                  if t2 <=? 0x3f
                  then Ok (Some (N.lor (N.lor (N.shiftl c 12) (N.shiftl t1 6)) t2 mod 0x10000))
                  else Ok None
                else Ok None
              else Ok None);
    match r3 with
    | Some c => Ok (Z.of_N c, 3%nat)
    | None =>
      do r2 <- (if (c <? 0xe0) && (0xc2 <=? c) then
                  do t1 <- trail s 1;
                  if t1 <=? 0x3f then Ok (Some (N.lor (N.shiftl (N.land c 0x1f) 6) t1)) else Ok None
                else Ok None);
      match r2 with
      | Some c => Ok (Z.of_N c, 2%nat)
      | None => next_safe_body s c
      end
    end.

(** The loop of utf8_prevCharSafeBody, utf_impl.c 252-305, with strict = -1:
    [pi] is the position to report when the sequence is not accepted. *)
Fixpoint prev_loop (fuel : nat) (s : list N) (pi i : nat) (count shift c : N) : outcome (Z * nat) :=
  match fuel with
  | O => NoFuel
  | S fuel' =>
    match i with
    | O => Ok ((-1)%Z, pi)
    | S i =>
      do b <- rd s i;
      if (b + 256 - 0x80) mod 256 <? 0x7e then
        if negb (N.land b 0x40 =? 0) then
          let should := count_trail b in
          if count =? should then
            let c := N.lor c (N.shiftl (mask_lead b count) shift) in
            if (4 <=? count) || (0x10ffff <? c) || (c <? min_legal count) || ((0xd800 <=? c) && (c <=? 0xdfff))
            then Ok ((-1)%Z, i) else Ok (Z.of_N c, i)
          else if count <? should then Ok ((-1)%Z, i) else Ok ((-1)%Z, pi)
        else if count <? 5 then prev_loop fuel' s pi i (count + 1) (shift + 6) (N.lor c (N.shiftl (N.land b 0x3f) shift))
        else Ok ((-1)%Z, pi)
      else Ok ((-1)%Z, pi)
    end
  end.

(** U8_PREV, utf8.h 652-657, with start = 0 and i > 0, on the storage [s]: the
    code point and the new position. *)
Definition u8_prev (s : list N) (i : nat) : outcome (Z * nat) :=
  match i with
  | O => UB
  | S i =>
    do c <- rd s i;
    if c <? 0x80 then Ok (Z.of_N c, i)
    else if is_trail c then prev_loop (S i) s i i 1 6 (N.land c 0x3f) else Ok ((-1)%Z, i)
  end.

(** dk_ustrscan, DKUnicode.c 252-267. *)
Definition ustrscan (s : list N) : outcome (Z * nat) :=
  do b <- rd s 0;
  if b =? 0 then Ok (0%Z, 0%nat) else u8_next s.

(** Stores into a buffer of [size] bytes; the result is the prefix written. *)
Definition wr (size : N) (bs : list N) : outcome (list N) :=
  if N.of_nat (length bs) <=? size then Ok bs else UB.

(** The code units of U8_APPEND (utf8.h 453-466) and utf8_appendCharSafeBody
    (utf_impl.c 200-243) at i = 0 with capacity [cap]; None is isError. *)
Definition u8_append (cap c : N) : option (list N) :=
  let two := [N.lor (N.shiftr c 6) 0xc0; N.lor (N.land c 0x3f) 0x80] in
  let three := [N.lor (N.shiftr c 12) 0xe0; N.lor (N.land (N.shiftr c 6) 0x3f) 0x80; N.lor (N.land c 0x3f) 0x80] in
  if c <=? 0x7f then Some [c]
  else if (c <=? 0x7ff) && (1 <? cap) then Some two
  else if (c <=? 0xd7ff) && (2 <? cap) then Some three
  else if c <=? 0x7ff then None
  else if c <=? 0xffff then
    if (2 <? cap) && negb ((0xd800 <=? c) && (c <=? 0xdfff)) then Some three else None
  else if c <=? 0x10ffff then
    if 3 <? cap
    then Some [N.lor (N.shiftr c 18) 0xf0; N.lor (N.land (N.shiftr c 12) 0x3f) 0x80;
               N.lor (N.land (N.shiftr c 6) 0x3f) 0x80; N.lor (N.land c 0x3f) 0x80]
    else None
  else None.

(** dk_ustrwrite, DKUnicode.c 273-290: what the buffer of [size] bytes holds and
    the result.  DKChar32 is int32_t, converted to uint32_t in the tests.  On an
    error nothing is written. *)
Definition ustrwrite (ch : Z) (size : N) : outcome (list N * nat) :=
  let cap := (size + 2^32 - 1) mod 2^32 in
  match u8_append cap (Z.to_N (ch mod 2^32)%Z) with
  | None => Ok ([], 0%nat)
  | Some bs =>
    do _ <- wr size bs;
    Ok (if N.of_nat (length bs) <? size then bs ++ [0] else bs, length bs)
  end.

(** dk_ustrlen, DKUnicode.c 172-186. *)
Fixpoint ustrlen_loop (fuel : nat) (s : list N) (len : nat) : outcome nat :=
  match fuel with
  | O => NoFuel
  | S fuel' =>
    do b <- rd s 0;
    if b =? 0 then Ok len
    else do r <- ustrscan s; ustrlen_loop fuel' (skipn (snd r) s) (S len)
  end.
Definition ustrlen (s : list N) : outcome nat := ustrlen_loop (S (length s)) s 0.

(** dk_ustrnlen, DKUnicode.c 192-206. *)
Fixpoint ustrnlen_loop (fuel : nat) (s : list N) (off n len : nat) : outcome nat :=
  match fuel with
  | O => NoFuel
  | S fuel' =>
    do b <- rd s 0;
    if (b =? 0) || (n <=? off)%nat then Ok len
    else do r <- ustrscan s; ustrnlen_loop fuel' (skipn (snd r) s) (off + snd r) n (S len)
  end.
Definition ustrnlen (s : list N) (n : nat) : outcome nat := ustrnlen_loop (S (length s)) s 0 n 0.

(** dk_ustridx, DKUnicode.c 212-226: [None] is NULL. *)
Fixpoint ustridx_loop (idx : nat) (s : list N) (off : nat) : outcome (option nat) :=
  match idx with
  | O => Ok (Some off)
  | S idx' =>
    do r <- ustrscan s;
    if (fst r =? 0)%Z then Ok None
    else ustridx_loop idx' (skipn (snd r) s) (off + snd r)
  end.
Definition ustridx (s : list N) (idx : nat) : outcome (option nat) := ustridx_loop idx s 0.

(** dk_ustrchr, DKUnicode.c 36-50. *)
Fixpoint ustrchr_loop (fuel : nat) (s : list N) (ch : Z) (i : nat) : outcome (option nat) :=
  match fuel with
  | O => NoFuel
  | S fuel' =>
    do b <- rd s 0;
    if b =? 0 then Ok None
    else
      do r <- u8_next s;
      if (fst r =? ch)%Z then Ok (Some (i + snd r)%nat)
      else ustrchr_loop fuel' (skipn (snd r) s) ch (i + snd r)
  end.
Definition ustrchr (s : list N) (ch : Z) : outcome (option nat) := ustrchr_loop (S (length s)) s ch 0.

(** strlen *)
Fixpoint strlen (s : list N) : outcome nat :=
  match s with
  | [] => UB
  | b :: s' => if b =? 0 then Ok 0%nat else do n <- strlen s'; Ok (S n)
  end.

(** dk_ustrrchr, DKUnicode.c 56-70. *)
Fixpoint ustrrchr_loop (fuel : nat) (s : list N) (ch : Z) (i : nat) : outcome (option nat) :=
  match fuel with
  | O => NoFuel
  | S fuel' =>
    match i with
    | O => Ok None
    | _ =>
      do r <- u8_prev s i;
      if (fst r =? ch)%Z then Ok (Some (snd r)) else ustrrchr_loop fuel' s ch (snd r)
    end
  end.
Definition ustrrchr (s : list N) (ch : Z) : outcome (option nat) :=
  do n <- strlen s; ustrrchr_loop (S n) s ch n.

(** dk_ustrridx, DKUnicode.c 232-246. *)
Fixpoint ustrridx_loop (fuel : nat) (s : list N) (idx j i : nat) : outcome (option nat) :=
  match fuel with
  | O => NoFuel
  | S fuel' =>
    match i with
    | O => Ok None
    | _ =>
      do r <- u8_prev s i;
      if (idx <=? j)%nat then Ok (Some (snd r)) else ustrridx_loop fuel' s idx (S j) (snd r)
    end
  end.
Definition ustrridx (s : list N) (idx : nat) : outcome (option nat) :=
  do n <- strlen s; ustrridx_loop (S n) s idx 0 n.

(** The inner while loop of dk_ustrstr and dk_ustrstr_range, DKUnicode.c 94-101
    and 129-138: [len] counts the characters matched so far. *)
Fixpoint match_loop (fuel : nat) (s1 s2 : list N) (c1 c2 : Z) (len : nat) : outcome (option nat) :=
  match fuel with
  | O => NoFuel
  | S fuel' =>
    if (c1 =? c2)%Z then
      do b <- rd s2 0;
      if b =? 0 then Ok (Some len)
      else
        do r1 <- u8_next s1;
        do r2 <- u8_next s2;
        match_loop fuel' (skipn (snd r1) s1) (skipn (snd r2) s2) (fst r1) (fst r2) (S len)
    else Ok None
  end.

(** The outer loop, DKUnicode.c 81-102 and 116-143: byte offset, character
    position and number of characters of the match. *)
Fixpoint ustrstr_loop (fuel : nat) (s1 s2 : list N) (off loc : nat) : outcome (option (nat * nat * nat)) :=
  match fuel with
  | O => NoFuel
  | S fuel' =>
    do b <- rd s1 0;
    if b =? 0 then Ok None
    else
      do r1 <- u8_next s1;
      do r2 <- u8_next s2;
      do m <- match_loop (S (length s2)) (skipn (snd r1) s1) (skipn (snd r2) s2) (fst r1) (fst r2) 1;
      match m with
      | Some len => Ok (Some (off, loc, len))
      | None => ustrstr_loop fuel' (skipn (snd r1) s1) s2 (off + snd r1) (S loc)
      end
  end.

(** dk_ustrstr, DKUnicode.c 76-104, and dk_ustrstr_range, 110-146 ([None] is
    NULL and DKNotFound). *)
Definition ustrstr_both (s1 s2 : list N) : outcome (option (nat * nat * nat)) :=
  do b1 <- rd s1 0;
  if b1 =? 0 then Ok None
  else
    do b2 <- rd s2 0;
    if b2 =? 0 then Ok None else ustrstr_loop (S (length s1)) s1 s2 0 0.
Definition ustrstr (s1 s2 : list N) : outcome (option nat) :=
  do r <- ustrstr_both s1 s2; Ok (option_map (fun x => fst (fst x)) r).
Definition ustrstr_range (s1 s2 : list N) : outcome (option (nat * nat)) :=
  do r <- ustrstr_both s1 s2; Ok (option_map (fun x => (snd (fst x), snd x)) r).

(** dk_ustrcmp, DKUnicode.c 152-166. *)
Fixpoint ustrcmp_loop (fuel : nat) (s1 s2 : list N) : outcome Z :=
  match fuel with
  | O => NoFuel
  | S fuel' =>
    do r1 <- u8_next s1;
    do r2 <- u8_next s2;
    if (fst r1 =? fst r2)%Z && negb (fst r1 =? 0)%Z
    then ustrcmp_loop fuel' (skipn (snd r1) s1) (skipn (snd r2) s2)
    else Ok (fst r2 - fst r1)%Z
  end.
Definition ustrcmp (s1 s2 : list N) : outcome Z := ustrcmp_loop (S (length s1)) s1 s2.
