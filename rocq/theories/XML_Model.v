(** Model of XML documents: the parser yxml, ThirdParty/yxml/yxml.c, which is given one byte
    at a time, and DKXMLParse, DKXMLElementGetDescription, Source/DKXML.c.  The mutable
    strings and lists used by DKXML.c are represented by their contents; attributes by an
    association list in the order of the first assignment of each key.  The reference
    counts of the elements are not modelled. *)
Require Import Coq.ZArith.ZArith Coq.NArith.NArith Coq.Lists.List Coq.Bool.Bool.
Require Import Verif.Base Verif.Utf8_Model Verif.Strtonum_Model Verif.Stream_Model.
Import ListNotations.
Local Open Scope N_scope.

(** yxml_state_t, yxml.c 28-95. *)
Inductive ystate : Type :=
| S_string
| S_attr0 | S_attr1 | S_attr2 | S_attr3 | S_attr4 | S_cd0 | S_cd1 | S_cd2 | S_comment0
| S_comment1 | S_comment2 | S_comment3 | S_comment4 | S_dt0 | S_dt1 | S_dt2 | S_dt3
| S_dt4 | S_elem0 | S_elem1 | S_elem2 | S_elem3 | S_enc0 | S_enc1 | S_enc2 | S_enc3
| S_etag0 | S_etag1 | S_etag2 | S_init | S_le0 | S_le1 | S_le2 | S_le3 | S_lee1 | S_lee2
| S_leq0 | S_misc0 | S_misc1 | S_misc2 | S_misc2a | S_misc3 | S_pi0 | S_pi1 | S_pi2
| S_pi3 | S_pi4 | S_std0 | S_std1 | S_std2 | S_std3 | S_ver0 | S_ver1 | S_ver2 | S_ver3
| S_xmldecl0 | S_xmldecl1 | S_xmldecl2 | S_xmldecl3 | S_xmldecl4 | S_xmldecl5 | S_xmldecl6
| S_xmldecl7 | S_xmldecl8 | S_xmldecl9.
(** yxml_ret_t, yxml.h 35-51. *)
Inductive ret : Type :=
| EEOF | EREF | ECLOSE | ESTACK | ESYN | OK
| ELEMSTART | CONTENT | ELEMEND | ATTRSTART | ATTRVAL | ATTREND | PISTART | PICONTENT | PIEND.

(** yxml_t, yxml.h 76-120.  [stack] is the memory of the stack, a byte not yet written is
    [None]; elem, attr and pi are offsets into it.  [data] is the array data.  [str] is what
    string points to, with its terminator, and [] for NULL. *)
Record yxml : Type := mkY {
  elem : nat; attr : nat; pi : nat; data : list N; byte : N; total : N; line : N;
  st : ystate; stack : list (option N); stacklen : nat; reflen : nat; quote : N;
  nextst : ystate; ignore : N; str : list N }.

Definition to_state (x : yxml) (s : ystate) : yxml :=
  mkY (elem x) (attr x) (pi x) (data x) (byte x) (total x) (line x) s (stack x) (stacklen x) (reflen x) (quote x) (nextst x) (ignore x) (str x).
Definition to_next (x : yxml) : yxml := to_state x (nextst x).
Definition set_next (x : yxml) (s : ystate) : yxml :=
  mkY (elem x) (attr x) (pi x) (data x) (byte x) (total x) (line x) (st x) (stack x) (stacklen x) (reflen x) (quote x) s (ignore x) (str x).
Definition set_quote (x : yxml) (q : N) : yxml :=
  mkY (elem x) (attr x) (pi x) (data x) (byte x) (total x) (line x) (st x) (stack x) (stacklen x) (reflen x) q (nextst x) (ignore x) (str x).
Definition set_string (x : yxml) (s : list N) : yxml :=
  mkY (elem x) (attr x) (pi x) (data x) (byte x) (total x) (line x) (st x) (stack x) (stacklen x) (reflen x) (quote x) (nextst x) (ignore x) s.
Definition set_data (x : yxml) (d : list N) (r : nat) : yxml :=
  mkY (elem x) (attr x) (pi x) d (byte x) (total x) (line x) (st x) (stack x) (stacklen x) r (quote x) (nextst x) (ignore x) (str x).
Definition set_stack (x : yxml) (s : list (option N)) (n : nat) : yxml :=
  mkY (elem x) (attr x) (pi x) (data x) (byte x) (total x) (line x) (st x) s n (reflen x) (quote x) (nextst x) (ignore x) (str x).
Definition set_elem (x : yxml) (e : nat) : yxml :=
  mkY e (attr x) (pi x) (data x) (byte x) (total x) (line x) (st x) (stack x) (stacklen x) (reflen x) (quote x) (nextst x) (ignore x) (str x).
Definition set_attr (x : yxml) (e : nat) : yxml :=
  mkY (elem x) e (pi x) (data x) (byte x) (total x) (line x) (st x) (stack x) (stacklen x) (reflen x) (quote x) (nextst x) (ignore x) (str x).
Definition set_pi (x : yxml) (e : nat) : yxml :=
  mkY (elem x) (attr x) e (data x) (byte x) (total x) (line x) (st x) (stack x) (stacklen x) (reflen x) (quote x) (nextst x) (ignore x) (str x).
Definition set_position (x : yxml) (b t l ig : N) : yxml :=
  mkY (elem x) (attr x) (pi x) (data x) b t l (st x) (stack x) (stacklen x) (reflen x) (quote x) (nextst x) ig (str x).

(** Unsigned subtraction. *)
Definition sub32 (a b : N) : N := (a + 2^32 - b) mod 2^32.
(** The character classes, yxml.c 98-112, of an unsigned int. *)
Definition is_sp (c : N) : bool := (c =? 32) || (c =? 9) || (c =? 10).
Definition is_alpha (c : N) : bool := sub32 (N.lor c 32) 97 <? 26.
Definition is_num (c : N) : bool := sub32 c 48 <? 10.
Definition is_hex (c : N) : bool := is_num c || (sub32 (N.lor c 32) 97 <? 6).
Definition is_encname (c : N) : bool := is_alpha c || is_num c || (c =? 46) || (c =? 95) || (c =? 45).
Definition is_namestart (c : N) : bool := is_alpha c || (c =? 58) || (c =? 95) || (128 <=? c).
Definition is_name (c : N) : bool := is_namestart c || is_num c || (c =? 45) || (c =? 46).
Definition is_attvalue (x : yxml) (c : N) : bool := negb (c =? quote x) && negb (c =? 60) && negb (c =? 38).
Definition is_ref (c : N) : bool := is_num c || is_alpha c || (c =? 35).

(** Reading and writing the memory of the stack. *)
Definition rds (s : list (option N)) (i : nat) : outcome N :=
  match nth_error s i with Some (Some b) => Ok b | _ => UB end.
Definition wrs (s : list (option N)) (i : nat) (b : N) : outcome (list (option N)) :=
  if (i <? length s)%nat then Ok (upd s i (Some b)) else UB.
(** Writing [bs] at [i] in the array data. *)
Fixpoint wrd (d : list N) (i : nat) (bs : list N) : outcome (list N) :=
  match bs with
  | [] => Ok d
  | b :: bs' => if (i <? length d)%nat then wrd (upd d i b) (S i) bs' else UB
  end.

(** yxml_setchar, yxml.c 122-125: the byte stored. *)
Definition setchar (ch : N) : N := ch mod 256.
(** yxml_setutf8, yxml.c 130-147: the bytes stored, with the terminator. *)
Definition utf8_bytes (ch : N) : list N :=
  if ch <=? 0x7F then [setchar ch; 0]
  else if ch <=? 0x7FF then [setchar (N.lor 0xC0 (N.shiftr ch 6)); setchar (N.lor 0x80 (N.land ch 0x3F)); 0]
  else if ch <=? 0xFFFF then
    [setchar (N.lor 0xE0 (N.shiftr ch 12)); setchar (N.lor 0x80 (N.land (N.shiftr ch 6) 0x3F));
     setchar (N.lor 0x80 (N.land ch 0x3F)); 0]
  else
    [setchar (N.lor 0xF0 (N.shiftr ch 18)); setchar (N.lor 0x80 (N.land (N.shiftr ch 12) 0x3F));
     setchar (N.lor 0x80 (N.land (N.shiftr ch 6) 0x3F)); setchar (N.lor 0x80 (N.land ch 0x3F)); 0].

Definition result : Type := outcome (yxml * ret).
(** Storing [bs] and a terminator in data, yxml.c 150-194. *)
Definition put_data (x : yxml) (bs : list N) (r : ret) : result :=
  do d <- wrd (data x) 0 (bs ++ [0]); Ok (set_data x d (reflen x), r).
Definition datacontent (x : yxml) (ch : N) : result := put_data x [setchar ch] CONTENT.
Definition datapi1 (x : yxml) (ch : N) : result := put_data x [setchar ch] PICONTENT.
Definition datapi2 (x : yxml) (ch : N) : result := put_data x [63; setchar ch] PICONTENT.
Definition datacd1 (x : yxml) (ch : N) : result := put_data x [93; setchar ch] CONTENT.
Definition datacd2 (x : yxml) (ch : N) : result := put_data x [93; 93; setchar ch] CONTENT.
Definition dataattr (x : yxml) (ch : N) : result :=
  put_data x [setchar (if (ch =? 9) || (ch =? 10) then 32 else ch)] ATTRVAL.

(** yxml_pushstack, yxml.c 197-206: [res] stores the pointer. *)
Definition pushstack (x : yxml) (res : yxml -> nat -> yxml) (ch : N) : result :=
  if (length (stack x) <=? stacklen x + 2)%nat then Ok (x, ESTACK)
  else
    let n := S (stacklen x) in
    do s <- wrs (stack x) n (ch mod 256);
    do s <- wrs s (S n) 0;
    Ok (set_stack (res x n) s (S n), OK).
(** yxml_pushstackc, yxml.c 209-216. *)
Definition pushstackc (x : yxml) (ch : N) : result :=
  if (length (stack x) <=? stacklen x + 1)%nat then Ok (x, ESTACK)
  else
    do s <- wrs (stack x) (stacklen x) (ch mod 256);
    do s <- wrs s (S (stacklen x)) 0;
    Ok (set_stack x s (S (stacklen x)), OK).
(** yxml_popstack, yxml.c 219-223: the new stacklen. *)
Fixpoint pop_loop (s : list (option N)) (n : nat) : outcome nat :=
  match n with
  | O => UB
  | S n' => do b <- rds s n'; if b =? 0 then Ok n' else pop_loop s n'
  end.
Definition popstack (x : yxml) : outcome yxml :=
  do n <- pop_loop (stack x) (stacklen x); Ok (set_stack x (stack x) n).

(** yxml.c 226-228. *)
Definition elemstart (x : yxml) (ch : N) : result := pushstack x set_elem ch.
Definition elemname (x : yxml) (ch : N) : result := pushstackc x ch.
Definition elemnameend (x : yxml) (ch : N) : result := Ok (x, ELEMSTART).
(** The loop of yxml_selfclose, yxml.c 237-238, from the offset [e]. *)
Fixpoint elem_loop (s : list (option N)) (e : nat) : outcome nat :=
  match e with
  | O => UB
  | S e' => do b <- rds s e'; if b =? 0 then Ok e else elem_loop s e'
  end.
(** yxml_selfclose, yxml.c 233-244. *)
Definition selfclose (x : yxml) (ch : N) : result :=
  do x <- popstack x;
  match stacklen x with
  | O => Ok (to_state (set_elem x 0) S_misc3, ELEMEND)
  | S e => do e <- elem_loop (stack x) e; Ok (set_elem x e, ELEMEND)
  end.
(** yxml_elemclose, yxml.c 247-252. *)
Definition elemclose (x : yxml) (ch : N) : result :=
  do b <- rds (stack x) (elem x);
  if b =? ch then Ok (set_elem x (S (elem x)), OK) else Ok (x, ECLOSE).
(** yxml_elemcloseend, yxml.c 255-259. *)
Definition elemcloseend (x : yxml) (ch : N) : result :=
  do b <- rds (stack x) (elem x);
  if b =? 0 then selfclose x ch else Ok (x, ECLOSE).
(** yxml.c 262-265. *)
Definition attrstart (x : yxml) (ch : N) : result := pushstack x set_attr ch.
Definition attrname (x : yxml) (ch : N) : result := pushstackc x ch.
Definition attrnameend (x : yxml) (ch : N) : result := Ok (x, ATTRSTART).
Definition attrvalend (x : yxml) (ch : N) : result := do x <- popstack x; Ok (x, ATTREND).
(** yxml.c 268-274.  The characters of the target are compared without their bit 5. *)
Definition pistart (x : yxml) (ch : N) : result := pushstack x set_pi ch.
Definition piname (x : yxml) (ch : N) : result := pushstackc x ch.
Definition piabort (x : yxml) (ch : N) : result := do x <- popstack x; Ok (x, OK).
Definition pinameend (x : yxml) (ch : N) : result :=
  do b0 <- rds (stack x) (pi x);
  if N.lor b0 32 =? 120 then
    do b1 <- rds (stack x) (pi x + 1);
    if N.lor b1 32 =? 109 then
      do b2 <- rds (stack x) (pi x + 2);
      if N.lor b2 32 =? 108 then
        do b3 <- rds (stack x) (pi x + 3);
        if b3 =? 0 then Ok (x, ESYN) else Ok (x, PISTART)
      else Ok (x, PISTART)
    else Ok (x, PISTART)
  else Ok (x, PISTART).
Definition pivalend (x : yxml) (ch : N) : result := do x <- popstack x; Ok (set_pi x 0, PIEND).

(** yxml_refstart, yxml.c 277-281. *)
Definition refstart (x : yxml) (ch : N) : result := Ok (set_data x (repeat 0 8) 0, OK).
(** yxml_ref, yxml.c 284-290. *)
Definition ref (x : yxml) (ch : N) : result :=
  if (7 <=? reflen x)%nat then Ok (x, EREF)
  else do d <- wrd (data x) (reflen x) [setchar ch]; Ok (set_data x d (S (reflen x)), OK).
(** The loops of yxml_refend, yxml.c 298-302, from the pointer [r]: the number and what the
    pointer is left at. *)
Fixpoint hex_loop (r : list N) (ch : N) : outcome (N * N) :=
  match r with
  | [] => UB
  | b :: r' =>
    if is_hex b then hex_loop r' ((N.shiftl ch 4 mod 2^32 + (if b <=? 57 then b - 48 else N.lor b 32 - 97 + 10)) mod 2^32)
    else Ok (ch, b)
  end.
Fixpoint dec_loop (r : list N) (ch : N) : outcome (N * N) :=
  match r with
  | [] => UB
  | b :: r' => if is_num b then dec_loop r' ((ch * 10 mod 2^32 + (b - 48)) mod 2^32) else Ok (ch, b)
  end.
(** INTFROM5CHARS, yxml.c 114. *)
Definition int5 (a b c d e : N) : N :=
  N.lor (N.lor (N.lor (N.lor (N.shiftl a 32) (N.shiftl b 24)) (N.shiftl c 16)) (N.shiftl d 8)) e.
(** The character named by what is in data, yxml.c 294-314, and 0 for none. *)
Definition ref_char (d : list N) : outcome N :=
  do r0 <- rd d 0;
  do r1 <- rd d 1;
  if r0 =? 35 then
    do p <- if r1 =? 120 then hex_loop (skipn 2 d) 0 else dec_loop (skipn 1 d) 0;
    Ok (if snd p =? 0 then fst p else 0)
  else
    do r2 <- rd d 2; do r3 <- rd d 3; do r4 <- rd d 4;
    let i := int5 r0 r1 r2 r3 r4 in
    Ok (if i =? int5 108 116 0 0 0 then 60
        else if i =? int5 103 116 0 0 0 then 62
        else if i =? int5 97 109 112 0 0 then 38
        else if i =? int5 97 112 111 115 0 then 39
        else if i =? int5 113 117 111 116 0 then 34 else 0).
(** The test of yxml.c 317. *)
Definition bad_char (ch : N) : bool :=
  (ch =? 0) || (0x10FFFF <? ch) || (ch =? 0xFFFE) || (ch =? 0xFFFF) || (sub32 ch 0xDFFF <? 0x7FF).
(** yxml_refend, yxml.c 293-321. *)
Definition refend (x : yxml) (r : ret) : result :=
  do ch <- ref_char (data x);
  if bad_char ch then Ok (x, EREF)
  else do d <- wrd (data x) 0 (utf8_bytes ch); Ok (set_data x d (reflen x), r).
(** yxml.c 323-324. *)
Definition refcontent (x : yxml) (ch : N) : result := refend x CONTENT.
Definition refattrval (x : yxml) (ch : N) : result := refend x ATTRVAL.

(** yxml_init, yxml.c 327-335, on memory of [size] bytes, which must not be empty.  All other
    members are 0; nextstate 0 is YXMLS_string. *)
Definition init (size : nat) : outcome yxml :=
  do s <- wrs (repeat None size) 0 0;
  Ok (mkY 0 0 0 (repeat 0 8) 0 0 1 S_init s 0 0 0 S_string 0 []).

(** The switch of yxml_parse, yxml.c 362-1052.  The lines of each case are given with it. *)
Definition switch (x : yxml) (ch : N) : result :=
  match st x with
  | S_string => (* 363-370 *)
    do b <- rd (str x) 0;
    if ch =? b then
      let x := set_string x (skipn 1 (str x)) in
      do b <- rd (str x) 0;
      Ok (if b =? 0 then to_next x else x, OK)
    else Ok (x, ESYN)
  | S_attr0 => (* 371-382 *)
    if is_name ch then attrname x ch
    else if is_sp ch then let x := to_state x S_attr1 in attrnameend x ch
    else if (ch =? 61) then let x := to_state x S_attr2 in attrnameend x ch
    else Ok (x, ESYN)
  | S_attr1 => (* 383-390 *)
    if is_sp ch then Ok (x, OK)
    else if (ch =? 61) then let x := to_state x S_attr2 in Ok (x, OK)
    else Ok (x, ESYN)
  | S_attr2 => (* 391-399 *)
    if is_sp ch then Ok (x, OK)
    else if (ch =? 39) || (ch =? 34) then let x := to_state x S_attr3 in let x := set_quote x ch in Ok (x, OK)
    else Ok (x, ESYN)
  | S_attr3 => (* 400-411 *)
    if is_attvalue x ch then dataattr x ch
    else if (ch =? 38) then let x := to_state x S_attr4 in refstart x ch
    else if (quote x =? ch) then let x := to_state x S_elem2 in attrvalend x ch
    else Ok (x, ESYN)
  | S_attr4 => (* 412-419 *)
    if is_ref ch then ref x ch
    else if (ch =? 59) then let x := to_state x S_attr3 in refattrval x ch
    else Ok (x, ESYN)
  | S_cd0 => (* 420-427 *)
    if (ch =? 93) then let x := to_state x S_cd1 in Ok (x, OK)
    else datacontent x ch
  | S_cd1 => (* 428-437 *)
    if (ch =? 93) then let x := to_state x S_cd2 in Ok (x, OK)
    else let x := to_state x S_cd0 in datacd1 x ch
  | S_cd2 => (* 438-449 *)
    if (ch =? 93) then datacontent x ch
    else if (ch =? 62) then let x := to_state x S_misc2 in Ok (x, OK)
    else let x := to_state x S_cd0 in datacd2 x ch
  | S_comment0 => (* 450-455 *)
    if (ch =? 45) then let x := to_state x S_comment1 in Ok (x, OK)
    else Ok (x, ESYN)
  | S_comment1 => (* 456-461 *)
    if (ch =? 45) then let x := to_state x S_comment2 in Ok (x, OK)
    else Ok (x, ESYN)
  | S_comment2 => (* 462-469 *)
    if (ch =? 45) then let x := to_state x S_comment3 in Ok (x, OK)
    else Ok (x, OK)
  | S_comment3 => (* 470-479 *)
    if (ch =? 45) then let x := to_state x S_comment4 in Ok (x, OK)
    else let x := to_state x S_comment2 in Ok (x, OK)
  | S_comment4 => (* 480-485 *)
    if (ch =? 62) then let x := to_next x in Ok (x, OK)
    else Ok (x, ESYN)
  | S_dt0 => (* 486-503 *)
    if (ch =? 62) then let x := to_state x S_misc1 in Ok (x, OK)
    else if (ch =? 39) || (ch =? 34) then let x := to_state x S_dt1 in let x := set_quote x ch in let x := set_next x S_dt0 in Ok (x, OK)
    else if (ch =? 60) then let x := to_state x S_dt2 in Ok (x, OK)
    else Ok (x, OK)
  | S_dt1 => (* 504-511 *)
    if (quote x =? ch) then let x := to_next x in Ok (x, OK)
    else Ok (x, OK)
  | S_dt2 => (* 512-522 *)
    if (ch =? 63) then let x := to_state x S_pi0 in let x := set_next x S_dt0 in Ok (x, OK)
    else if (ch =? 33) then let x := to_state x S_dt3 in Ok (x, OK)
    else Ok (x, ESYN)
  | S_dt3 => (* 523-533 *)
    if (ch =? 45) then let x := to_state x S_comment1 in let x := set_next x S_dt0 in Ok (x, OK)
    else let x := to_state x S_dt4 in Ok (x, OK)
  | S_dt4 => (* 534-547 *)
    if (ch =? 39) || (ch =? 34) then let x := to_state x S_dt1 in let x := set_quote x ch in let x := set_next x S_dt4 in Ok (x, OK)
    else if (ch =? 62) then let x := to_state x S_dt0 in Ok (x, OK)
    else Ok (x, OK)
  | S_elem0 => (* 548-563 *)
    if is_name ch then elemname x ch
    else if is_sp ch then let x := to_state x S_elem1 in elemnameend x ch
    else if (ch =? 47) then let x := to_state x S_elem3 in elemnameend x ch
    else if (ch =? 62) then let x := to_state x S_misc2 in elemnameend x ch
    else Ok (x, ESYN)
  | S_elem1 => (* 564-579 *)
    if is_sp ch then Ok (x, OK)
    else if (ch =? 47) then let x := to_state x S_elem3 in Ok (x, OK)
    else if (ch =? 62) then let x := to_state x S_misc2 in Ok (x, OK)
    else if is_namestart ch then let x := to_state x S_attr0 in attrstart x ch
    else Ok (x, ESYN)
  | S_elem2 => (* 580-593 *)
    if is_sp ch then let x := to_state x S_elem1 in Ok (x, OK)
    else if (ch =? 47) then let x := to_state x S_elem3 in Ok (x, OK)
    else if (ch =? 62) then let x := to_state x S_misc2 in Ok (x, OK)
    else Ok (x, ESYN)
  | S_elem3 => (* 594-599 *)
    if (ch =? 62) then let x := to_state x S_misc2 in selfclose x ch
    else Ok (x, ESYN)
  | S_enc0 => (* 600-607 *)
    if is_sp ch then Ok (x, OK)
    else if (ch =? 61) then let x := to_state x S_enc1 in Ok (x, OK)
    else Ok (x, ESYN)
  | S_enc1 => (* 608-616 *)
    if is_sp ch then Ok (x, OK)
    else if (ch =? 39) || (ch =? 34) then let x := to_state x S_enc2 in let x := set_quote x ch in Ok (x, OK)
    else Ok (x, ESYN)
  | S_enc2 => (* 617-622 *)
    if is_alpha ch then let x := to_state x S_enc3 in Ok (x, OK)
    else Ok (x, ESYN)
  | S_enc3 => (* 623-630 *)
    if is_encname ch then Ok (x, OK)
    else if (quote x =? ch) then let x := to_state x S_xmldecl6 in Ok (x, OK)
    else Ok (x, ESYN)
  | S_etag0 => (* 631-636 *)
    if is_namestart ch then let x := to_state x S_etag1 in elemclose x ch
    else Ok (x, ESYN)
  | S_etag1 => (* 637-648 *)
    if is_name ch then elemclose x ch
    else if is_sp ch then let x := to_state x S_etag2 in elemcloseend x ch
    else if (ch =? 62) then let x := to_state x S_misc2 in elemcloseend x ch
    else Ok (x, ESYN)
  | S_etag2 => (* 649-656 *)
    if is_sp ch then Ok (x, OK)
    else if (ch =? 62) then let x := to_state x S_misc2 in Ok (x, OK)
    else Ok (x, ESYN)
  | S_init => (* 657-672 *)
    if (ch =? 239) then let x := to_state x S_string in let x := set_next x S_misc0 in let x := set_string x [187; 191; 0] in Ok (x, OK)
    else if is_sp ch then let x := to_state x S_misc0 in Ok (x, OK)
    else if (ch =? 60) then let x := to_state x S_le0 in Ok (x, OK)
    else Ok (x, ESYN)
  | S_le0 => (* 673-686 *)
    if (ch =? 33) then let x := to_state x S_lee1 in Ok (x, OK)
    else if (ch =? 63) then let x := to_state x S_leq0 in Ok (x, OK)
    else if is_namestart ch then let x := to_state x S_elem0 in elemstart x ch
    else Ok (x, ESYN)
  | S_le1 => (* 687-701 *)
    if (ch =? 33) then let x := to_state x S_lee1 in Ok (x, OK)
    else if (ch =? 63) then let x := to_state x S_pi0 in let x := set_next x S_misc1 in Ok (x, OK)
    else if is_namestart ch then let x := to_state x S_elem0 in elemstart x ch
    else Ok (x, ESYN)
  | S_le2 => (* 702-720 *)
    if (ch =? 33) then let x := to_state x S_lee2 in Ok (x, OK)
    else if (ch =? 63) then let x := to_state x S_pi0 in let x := set_next x S_misc2 in Ok (x, OK)
    else if (ch =? 47) then let x := to_state x S_etag0 in Ok (x, OK)
    else if is_namestart ch then let x := to_state x S_elem0 in elemstart x ch
    else Ok (x, ESYN)
  | S_le3 => (* 721-732 *)
    if (ch =? 33) then let x := to_state x S_comment0 in let x := set_next x S_misc3 in Ok (x, OK)
    else if (ch =? 63) then let x := to_state x S_pi0 in let x := set_next x S_misc3 in Ok (x, OK)
    else Ok (x, ESYN)
  | S_lee1 => (* 733-745 *)
    if (ch =? 45) then let x := to_state x S_comment1 in let x := set_next x S_misc1 in Ok (x, OK)
    else if (ch =? 68) then let x := to_state x S_string in let x := set_next x S_dt0 in let x := set_string x [79; 67; 84; 89; 80; 69; 0] in Ok (x, OK)
    else Ok (x, ESYN)
  | S_lee2 => (* 746-758 *)
    if (ch =? 45) then let x := to_state x S_comment1 in let x := set_next x S_misc2 in Ok (x, OK)
    else if (ch =? 91) then let x := to_state x S_string in let x := set_next x S_cd0 in let x := set_string x [67; 68; 65; 84; 65; 91; 0] in Ok (x, OK)
    else Ok (x, ESYN)
  | S_leq0 => (* 759-770 *)
    if (ch =? 120) then let x := to_state x S_xmldecl0 in let x := set_next x S_misc1 in pistart x ch
    else if is_namestart ch then let x := to_state x S_pi1 in let x := set_next x S_misc1 in pistart x ch
    else Ok (x, ESYN)
  | S_misc0 => (* 771-778 *)
    if is_sp ch then Ok (x, OK)
    else if (ch =? 60) then let x := to_state x S_le0 in Ok (x, OK)
    else Ok (x, ESYN)
  | S_misc1 => (* 779-786 *)
    if is_sp ch then Ok (x, OK)
    else if (ch =? 60) then let x := to_state x S_le1 in Ok (x, OK)
    else Ok (x, ESYN)
  | S_misc2 => (* 787-798 *)
    if (ch =? 60) then let x := to_state x S_le2 in Ok (x, OK)
    else if (ch =? 38) then let x := to_state x S_misc2a in refstart x ch
    else datacontent x ch
  | S_misc2a => (* 799-806 *)
    if is_ref ch then ref x ch
    else if (ch =? 59) then let x := to_state x S_misc2 in refcontent x ch
    else Ok (x, ESYN)
  | S_misc3 => (* 807-814 *)
    if is_sp ch then Ok (x, OK)
    else if (ch =? 60) then let x := to_state x S_le3 in Ok (x, OK)
    else Ok (x, ESYN)
  | S_pi0 => (* 815-820 *)
    if is_namestart ch then let x := to_state x S_pi1 in pistart x ch
    else Ok (x, ESYN)
  | S_pi1 => (* 821-832 *)
    if is_name ch then piname x ch
    else if (ch =? 63) then let x := to_state x S_pi4 in pinameend x ch
    else if is_sp ch then let x := to_state x S_pi2 in pinameend x ch
    else Ok (x, ESYN)
  | S_pi2 => (* 833-840 *)
    if (ch =? 63) then let x := to_state x S_pi3 in Ok (x, OK)
    else datapi1 x ch
  | S_pi3 => (* 841-850 *)
    if (ch =? 62) then let x := to_next x in pivalend x ch
    else let x := to_state x S_pi2 in datapi2 x ch
  | S_pi4 => (* 851-856 *)
    if (ch =? 62) then let x := to_next x in pivalend x ch
    else Ok (x, ESYN)
  | S_std0 => (* 857-864 *)
    if is_sp ch then Ok (x, OK)
    else if (ch =? 61) then let x := to_state x S_std1 in Ok (x, OK)
    else Ok (x, ESYN)
  | S_std1 => (* 865-873 *)
    if is_sp ch then Ok (x, OK)
    else if (ch =? 39) || (ch =? 34) then let x := to_state x S_std2 in let x := set_quote x ch in Ok (x, OK)
    else Ok (x, ESYN)
  | S_std2 => (* 874-887 *)
    if (ch =? 121) then let x := to_state x S_string in let x := set_next x S_std3 in let x := set_string x [101; 115; 0] in Ok (x, OK)
    else if (ch =? 110) then let x := to_state x S_string in let x := set_next x S_std3 in let x := set_string x [111; 0] in Ok (x, OK)
    else Ok (x, ESYN)
  | S_std3 => (* 888-893 *)
    if (quote x =? ch) then let x := to_state x S_xmldecl8 in Ok (x, OK)
    else Ok (x, ESYN)
  | S_ver0 => (* 894-901 *)
    if is_sp ch then Ok (x, OK)
    else if (ch =? 61) then let x := to_state x S_ver1 in Ok (x, OK)
    else Ok (x, ESYN)
  | S_ver1 => (* 902-912 *)
    if is_sp ch then Ok (x, OK)
    else if (ch =? 39) || (ch =? 34) then let x := to_state x S_string in let x := set_quote x ch in let x := set_next x S_ver2 in let x := set_string x [49; 46; 0] in Ok (x, OK)
    else Ok (x, ESYN)
  | S_ver2 => (* 913-918 *)
    if is_num ch then let x := to_state x S_ver3 in Ok (x, OK)
    else Ok (x, ESYN)
  | S_ver3 => (* 919-926 *)
    if is_num ch then Ok (x, OK)
    else if (quote x =? ch) then let x := to_state x S_xmldecl4 in Ok (x, OK)
    else Ok (x, ESYN)
  | S_xmldecl0 => (* 927-944 *)
    if (ch =? 109) then let x := to_state x S_xmldecl1 in piname x ch
    else if is_name ch then let x := to_state x S_pi1 in piname x ch
    else if (ch =? 63) then let x := to_state x S_pi4 in pinameend x ch
    else if is_sp ch then let x := to_state x S_pi2 in pinameend x ch
    else Ok (x, ESYN)
  | S_xmldecl1 => (* 945-962 *)
    if (ch =? 108) then let x := to_state x S_xmldecl2 in piname x ch
    else if is_name ch then let x := to_state x S_pi1 in piname x ch
    else if (ch =? 63) then let x := to_state x S_pi4 in pinameend x ch
    else if is_sp ch then let x := to_state x S_pi2 in pinameend x ch
    else Ok (x, ESYN)
  | S_xmldecl2 => (* 963-972 *)
    if is_sp ch then let x := to_state x S_xmldecl3 in piabort x ch
    else if is_name ch then let x := to_state x S_pi1 in piname x ch
    else Ok (x, ESYN)
  | S_xmldecl3 => (* 973-982 *)
    if is_sp ch then Ok (x, OK)
    else if (ch =? 118) then let x := to_state x S_string in let x := set_next x S_ver0 in let x := set_string x [101; 114; 115; 105; 111; 110; 0] in Ok (x, OK)
    else Ok (x, ESYN)
  | S_xmldecl4 => (* 983-992 *)
    if is_sp ch then let x := to_state x S_xmldecl5 in Ok (x, OK)
    else if (ch =? 63) then let x := to_state x S_xmldecl9 in Ok (x, OK)
    else Ok (x, ESYN)
  | S_xmldecl5 => (* 993-1012 *)
    if is_sp ch then Ok (x, OK)
    else if (ch =? 63) then let x := to_state x S_xmldecl9 in Ok (x, OK)
    else if (ch =? 101) then let x := to_state x S_string in let x := set_next x S_enc0 in let x := set_string x [110; 99; 111; 100; 105; 110; 103; 0] in Ok (x, OK)
    else if (ch =? 115) then let x := to_state x S_string in let x := set_next x S_std0 in let x := set_string x [116; 97; 110; 100; 97; 108; 111; 110; 101; 0] in Ok (x, OK)
    else Ok (x, ESYN)
  | S_xmldecl6 => (* 1013-1022 *)
    if is_sp ch then let x := to_state x S_xmldecl7 in Ok (x, OK)
    else if (ch =? 63) then let x := to_state x S_xmldecl9 in Ok (x, OK)
    else Ok (x, ESYN)
  | S_xmldecl7 => (* 1023-1036 *)
    if is_sp ch then Ok (x, OK)
    else if (ch =? 63) then let x := to_state x S_xmldecl9 in Ok (x, OK)
    else if (ch =? 115) then let x := to_state x S_string in let x := set_next x S_std0 in let x := set_string x [116; 97; 110; 100; 97; 108; 111; 110; 101; 0] in Ok (x, OK)
    else Ok (x, ESYN)
  | S_xmldecl8 => (* 1037-1044 *)
    if is_sp ch then Ok (x, OK)
    else if (ch =? 63) then let x := to_state x S_xmldecl9 in Ok (x, OK)
    else Ok (x, ESYN)
  | S_xmldecl9 => (* 1045-1051 *)
    if (ch =? 62) then let x := to_state x S_misc1 in Ok (x, OK)
    else Ok (x, ESYN)
  end.

(** yxml_parse, yxml.c 338-1053, of a byte given as a char. *)
Definition parse_byte (x : yxml) (b : N) : result :=
  let ch := b mod 256 in
  if ch =? 0 then Ok (x, ESYN)
  else
    let t := (total x + 1) mod 2^64 in
    if ignore x =? ch then Ok (set_position x (byte x) t (line x) 0, OK)
    else
      let ig := if ch =? 13 then 10 else 0 in
      let nl := (ch =? 10) || (ch =? 13) in
      let l := if nl then (line x + 1) mod 2^32 else line x in
      let nb := ((if nl then 0 else byte x) + 1) mod 2^64 in
      switch (set_position x nb t l ig) (if nl then 10 else ch).

(** yxml_eof, yxml.c 1056-1060. *)
Definition eof (x : yxml) : ret := match st x with S_misc3 => OK | _ => EEOF end.

(** struct DKXMLElement, DKXML.c 47-54.  An element in a list of elements is given by its
    number; elements are numbered in the order of their creation. *)
Inductive child : Type := CText (s : list N) | CElement (e : nat).
Record element : Type := mkE { ename : list N; eattributes : list (list N * list N); eelements : list child }.

(** What a C string in memory is. *)
Fixpoint cstring (s : list N) : outcome (list N) :=
  match s with
  | [] => UB
  | b :: s' => if b =? 0 then Ok [] else do r <- cstring s'; Ok (b :: r)
  end.
Fixpoint cstring_at (s : list (option N)) : outcome (list N) :=
  match s with
  | Some b :: s' => if b =? 0 then Ok [] else do r <- cstring_at s'; Ok (b :: r)
  | _ => UB
  end.

(** DKDictionarySetObject, DKDictionary.c, of a string for a string. *)
Fixpoint set_attribute (l : list (list N * list N)) (k v : list N) : list (list N * list N) :=
  match l with
  | [] => [(k, v)]
  | (k', v') :: l' => if list_eq_dec N.eq_dec k k' then (k, v) :: l' else (k', v') :: set_attribute l' k v
  end.

(** The value of a char with the byte [b]. *)
Definition to_char (b : N) : Z := if b <? 128 then Z.of_N b else (Z.of_N b - 256)%Z.

Section Parse.
(** isspace of the C library, and DKError, DKPlatform.c 208-226, of a format and its
    arguments. *)
Variable isspace : Z -> outcome bool.
Variable report : list N -> list arg -> outcome unit.

(** DKXMLAppendTextContent, DKXML.c 178-210, of the C string [ch] to a list of elements. *)
Definition append_text (els : list child) (ch : list N) : outcome (list child) :=
  let text := match rev els with CText t :: _ => Some t | _ => None end in
  do c0 <- rd ch 0;
  do ws <- isspace (to_char c0);
  match text, ws with
  | None, true => Ok els
  | _, _ =>
    let before := match text with Some _ => removelast els | None => els end in
    let t := match text with Some t => t | None => [] end in
    do last <- ustrridx (t ++ [0]) 0;
    if negb ws then do s <- cstring ch; Ok (before ++ [CText (t ++ s)])
    else
      match last with
      | None => Ok (before ++ [CText t])
      | Some i =>
        do b <- rd (t ++ [0]) i;
        do w <- isspace (to_char b);
        Ok (before ++ [CText (if w then t else t ++ [32])])
      end
  end.

(** The variables of INTERNAL_DKXMLParse, DKXML.c 218-226, and the elements made so far. *)
Record parsing : Type := mkS {
  parser : yxml; heap : list element; root : option nat; estack : list nat; attrvalue : option (list N) }.

(** Using the last object of the stack: NULL if it is empty. *)
Definition top (s : parsing) : outcome (nat * element) :=
  match rev (estack s) with
  | [] => UB
  | e :: _ => match nth_error (heap s) e with Some x => Ok (e, x) | None => UB end
  end.
Definition set_heap (s : parsing) (e : nat) (x : element) : parsing :=
  mkS (parser s) (upd (heap s) e x) (root s) (estack s) (attrvalue s).

(** The messages, DKXML.c 235-251 and 331. *)
Definition text_of_eof : list N := [68;75;88;77;76;80;97;114;115;101;58;32;85;110;101;120;112;101;99;116;101;100;32;101;110;100;45;111;102;45;102;105;108;101;32;40;108;105;110;101;32;37;108;100;44;32;99;104;97;114;32;37;108;100;41].
Definition text_of_ref : list N := [68; 75; 88; 77; 76; 80; 97; 114; 115; 101; 58; 32; 73; 110; 118; 97; 108; 105; 100; 32; 99; 104; 97; 114; 97; 99; 116; 101; 114; 32; 111; 114; 32; 101; 110; 116; 105; 116; 121; 32; 114; 101; 102; 101; 114; 101; 110; 99; 101; 32; 40; 108; 105; 110; 101; 32; 37; 108; 100; 44; 32; 99; 104; 97; 114; 32; 37; 108; 100; 41].
Definition text_of_close : list N := [68; 75; 88; 77; 76; 80; 97; 114; 115; 101; 58; 32; 67; 108; 111; 115; 105; 110; 103; 32; 116; 97; 103; 32; 100; 111; 101; 115; 32; 109; 97; 116; 99; 104; 32; 111; 112; 101; 110; 105; 110; 103; 32; 116; 97; 103; 32; 40; 108; 105; 110; 101; 32; 37; 108; 100; 44; 32; 99; 104; 97; 114; 32; 37; 108; 100; 41].
Definition text_of_stack : list N := [68; 75; 88; 77; 76; 80; 97; 114; 115; 101; 58; 32; 83; 116; 97; 99; 107; 32; 111; 118; 101; 114; 102; 108; 111; 119; 44; 32; 114; 101; 45; 112; 97; 114; 115; 105; 110; 103; 32; 119; 105; 116; 104; 32; 108; 97; 114; 103; 101; 114; 32; 115; 116; 97; 99; 107; 32; 40; 37; 73; 110; 118; 97; 108; 105; 100; 32; 99; 104; 97; 114; 97; 99; 116; 101; 114; 32; 111; 114; 32; 101; 110; 116; 105; 116; 121; 32; 114; 101; 102; 101; 114; 101; 110; 99; 101; 32; 40; 108; 105; 110; 101; 32; 37; 117; 100; 44; 32; 99; 104; 97; 114; 32; 37; 117; 100; 41].
Definition text_of_syntax : list N := [68; 75; 88; 77; 76; 80; 97; 114; 115; 101; 58; 32; 83; 121; 110; 116; 97; 120; 32; 101; 114; 114; 111; 114; 32; 40; 108; 105; 110; 101; 32; 37; 108; 100; 44; 32; 99; 104; 97; 114; 32; 37; 108; 100; 41].
Definition text_of_incomplete : list N := [68; 75; 88; 77; 76; 80; 97; 114; 115; 101; 58; 32; 73; 110; 99; 111; 109; 112; 108; 101; 116; 101; 32; 100; 111; 99; 117; 109; 101; 110; 116].

(** The switch of INTERNAL_DKXMLParse, DKXML.c 232-321, for what yxml_parse returned: [None]
    is the jump to error.  parser->line is a uint32_t and parser->byte a uint64_t. *)
Definition handle (s : parsing) (r : ret) : outcome (option parsing) :=
  let args := [AInt (Z.of_N (line (parser s))); ALong (Z.of_N (byte (parser s)))] in
  let fail m := do _ <- report m args; Ok None in
  match r with
  | EEOF => fail text_of_eof
  | EREF => fail text_of_ref
  | ECLOSE => fail text_of_close
  | ESTACK => fail text_of_stack
  | ESYN => fail text_of_syntax
  | OK => Ok (Some s)
  | ELEMSTART =>
    do n <- cstring_at (skipn (elem (parser s)) (stack (parser s)));
    let e := length (heap s) in
    let h := heap s ++ [mkE n [] []] in
    match root s with
    | None => Ok (Some (mkS (parser s) h (Some e) (estack s ++ [e]) (attrvalue s)))
    | Some _ =>
      do p <- top s;
      let p' := mkE (ename (snd p)) (eattributes (snd p)) (eelements (snd p) ++ [CElement e]) in
      Ok (Some (mkS (parser s) (upd h (fst p) p') (root s) (estack s ++ [e]) (attrvalue s)))
    end
  | CONTENT =>
    do p <- top s;
    do els <- append_text (eelements (snd p)) (data (parser s));
    Ok (Some (set_heap s (fst p) (mkE (ename (snd p)) (eattributes (snd p)) els)))
  | ELEMEND => Ok (Some (mkS (parser s) (heap s) (root s) (removelast (estack s)) (attrvalue s)))
  | ATTRSTART => Ok (Some (mkS (parser s) (heap s) (root s) (estack s) (Some [])))
  | ATTRVAL =>
    do d <- cstring (data (parser s));
    Ok (Some (mkS (parser s) (heap s) (root s) (estack s)
                  (match attrvalue s with Some v => Some (v ++ d) | None => None end)))
  | ATTREND =>
    do p <- top s;
    do n <- cstring_at (skipn (attr (parser s)) (stack (parser s)));
    match attrvalue s with
    | None => UB
    | Some v =>
      Ok (Some (mkS (parser s)
        (upd (heap s) (fst p) (mkE (ename (snd p)) (set_attribute (eattributes (snd p)) n v) (eelements (snd p))))
        (root s) (estack s) None))
    end
  | PISTART | PICONTENT | PIEND => Ok (Some s)
  end.

(** What a parsing comes to: an element, no element, or another attempt with a larger stack. *)
Inductive attempt : Type := Parsed (h : list element) (e : nat) | Rejected | Again.

(** The loop of INTERNAL_DKXMLParse and what follows it, DKXML.c 228-342. *)
Fixpoint loop (s : parsing) (text : list N) : outcome attempt :=
  let finish :=
    match eof (parser s) with
    | OK => match root s with Some e => Ok (Parsed (heap s) e) | None => Ok Rejected end
    | _ => do _ <- report text_of_incomplete []; Ok Rejected
    end in
  match text with
  | [] => finish
  | b :: text' =>
    if b =? 0 then finish
    else
      do p <- parse_byte (parser s) b;
      do s' <- handle (mkS (fst p) (heap s) (root s) (estack s) (attrvalue s)) (snd p);
      match s' with
      | Some s' => loop s' text'
      | None => Ok (match snd p with ESTACK => Again | _ => Rejected end)
      end
  end.
Definition try_parse (text : list N) (size : nat) : outcome attempt :=
  do x <- init size; loop (mkS x [] None [] None) text.

(** INTERNAL_DKXMLParse, DKXML.c 216-343, with the attempts left in [fuel]; [None] is NULL.
    size_t is unbounded. *)
Fixpoint parse_sizes (fuel : nat) (text : list N) (size : nat) : outcome (option (list element * nat)) :=
  match fuel with
  | O => NoFuel
  | S fuel' =>
    do a <- try_parse text size;
    match a with
    | Parsed h e => Ok (Some (h, e))
    | Rejected => Ok None
    | Again => parse_sizes fuel' text (2 * size)
    end
  end.
(** DKXMLParse, DKXML.c 350-356, of a string with the bytes [text]. *)
Definition parse (fuel : nat) (text : list N) : outcome (option (list element * nat)) :=
  match text with
  | [] => Ok None
  | _ => parse_sizes fuel text (N.to_nat 16384)
  end.
End Parse.

(** DKError as it is, DKPlatform.c 208-226, in a release build, where errors do not abort:
    the message is formatted by DKVSPrintf. *)
Definition dkerror (cprintf : list N -> arg -> list N) (format : list N) (args : list arg) : outcome unit :=
  do _ <- vsprintf cprintf format args; Ok tt.

(** INTERNAL_DKXMLElementGetDescription, DKXML.c 133-163, with WriteIndent and WriteAttribute,
    120-131.  The attributes are written in the order of the list.  [fuel] bounds the depth.
    Every member of a list of elements is an element or a string. *)
Definition indent (n : nat) : list N := concat (repeat [32; 32] n).
Definition write_attribute (kv : list N * list N) : list N := [32] ++ fst kv ++ [61; 34] ++ snd kv ++ [34].
Fixpoint describe (fuel : nat) (h : list element) (e : nat) (ind : nat) : outcome (list N) :=
  match fuel with
  | O => NoFuel
  | S fuel' =>
    match nth_error h e with
    | None => UB
    | Some x =>
      let each :=
        (fix each (l : list child) : outcome (list N) :=
           match l with
           | [] => Ok []
           | c :: l' =>
             do a <- match c with
                     | CText t => Ok (indent (ind + 1) ++ t ++ [10])
                     | CElement e => describe fuel' h e (ind + 1)
                     end;
             do r <- each l'; Ok (a ++ r)
           end) in
      do c <- each (eelements x);
      Ok (indent ind ++ [60] ++ ename x ++ concat (map write_attribute (eattributes x)) ++ [62; 10] ++ c
          ++ indent ind ++ [60; 47] ++ ename x ++ [62; 10])
    end
  end.
