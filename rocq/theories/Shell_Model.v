(** Model of shell segments, Source/DKShell.c, in streams as in Stream_Model. *)
Require Import Coq.ZArith.ZArith Coq.NArith.NArith Coq.Lists.List Coq.Bool.Bool.
Require Import Verif.Base Verif.String_Model Verif.Strtonum_Model Verif.Stream_Model.
Import ListNotations.
Local Open Scope N_scope.

(** Objects: strings and data, which implement the Buffer interface, and others. *)
Inductive obj : Type := Text (s : list N) | Binary (s : list N) | Other (id : N).
(** DKQueryInterface and DKBufferGetLength, DKBufferGetBytePtr, DKBuffer.c 42-56. *)
Definition buffer (o : obj) : option (list N) := match o with Text s | Binary s => Some s | Other _ => None end.
(** struct DKShellEncoder, 61-69; a decoder may return NULL. *)
Record codec : Type := mkCodec { enc : obj -> obj; dec : obj -> option obj }.
(** The dictionary of encoders, 85-103 and 141-169: a map from content types (C01). *)
Definition registry : Type := list N -> option codec.

(** DKShellHeaderString, 47, and the header names of 300, 306, 400 and 401. *)
Definition version : list N := [83; 72; 69; 76; 76; 45; 86; 101; 114; 115; 105; 111; 110; 32; 49; 46; 48].
Definition type_name : list N := [67; 111; 110; 116; 101; 110; 116; 45; 84; 121; 112; 101; 58].
Definition length_name : list N := [67; 111; 110; 116; 101; 110; 116; 45; 76; 101; 110; 103; 116; 104; 58].

(** strncmp with a constant of the length compared, on a string without NUL. *)
Fixpoint starts (s p : list N) {struct p} : bool :=
  match p, s with
  | [], _ => true
  | _, [] => false
  | x :: p', y :: s' => (x =? y) && starts s' p'
  end.
(** GetHeaderValue, 252-260, of the string [s] from the position after the name. *)
Fixpoint header_value (s : list N) : outcome (list N) :=
  match s with
  | [] => Ok []
  | b :: s' => do w <- isspace (schar b); if w then header_value s' else Ok s
  end.
(** strtoul of base 10: blanks, a sign, digits; the result saturates, and a negative one is
    its complement. *)
Fixpoint ul_space (s : list N) : list N :=
  match s with
  | [] => []
  | b :: s' => if ((9 <=? b) && (b <=? 13)) || (b =? 32) then ul_space s' else s
  end.
Fixpoint ul_digits (acc : N) (s : list N) : N :=
  match s with
  | [] => acc
  | b :: s' => if isdigit b then ul_digits (10 * acc + (b - 48)) s' else acc
  end.
Definition strtoul (s : list N) : N :=
  let s := ul_space s in
  let '(neg, s) := match s with
                   | b :: s' => if b =? 45 then (true, s') else if b =? 43 then (false, s') else (false, s)
                   | [] => (false, [])
                   end in
  let v := ul_digits 0 s in
  if 2^64 <=? v then 2^64 - 1 else if neg then (2^64 - v) mod 2^64 else v.

(** The loop over the headers, 292-311: the content type and length, and the rest of the
    stream. *)
Fixpoint read_headers (fuel : nat) (s : list N) (ct : option (list N)) (len : N) : outcome (option (list N) * N * list N) :=
  match fuel with
  | O => NoFuel
  | S fuel' =>
    let '(h, r) := gets s in
    match h with
    | [] => Ok (ct, len, r)
    | _ =>
      if starts h type_name then do v <- header_value (skipn 13 h); read_headers fuel' r (Some v) len
      else if starts h length_name then do v <- header_value (skipn 15 h); read_headers fuel' r ct (strtoul v)
      else read_headers fuel' r ct len
    end
  end.

(** What DKShellRead returns and stores. *)
Record result : Type := mkR { ok : bool; object : option obj; ctype : option (list N); annotation : option (list N) }.

(** DKShellRead, 266-361; [auto] unless DKShellNoAutoEncoding is given.  The buffer is made
    as long as the content length, a DKIndex: DKDataSetLength, DKData.c 542-560, and
    DKStringSetByteLength, DKString.c 919-937, with a negative length write before the
    bytes. *)
Definition shell_read (reg : registry) (auto : bool) (s : list N) : outcome (result * list N) :=
  let '(prefix, r) := gets s in
  do n <- str_length prefix;
  if (n =? 0)%nat then Ok (mkR false None None None, r)
  else if negb (bytes_eqb prefix version) then Ok (mkR false None None None, r)
  else
    do h <- read_headers (S (length r)) r None 0;
    let '(ct, len, r) := h in
    let '(ann, r) := gets r in
    do n <- str_length ann;
    let '(bad, r) := if (0 <? n)%nat then let '(c, r) := getc r in (negb (c =? 10)%Z, r) else (false, r) in
    if bad then Ok (mkR false None ct None, r)
    else
      let ann := if (0 <? n)%nat then Some ann else None in
      if len =? 0 then Ok (mkR true None ct ann, r)
      else if 2^63 <=? len then UB
      else
        let data := firstn (N.to_nat len) r in
        let r := skipn (N.to_nat len) r in
        if N.of_nat (length data) <? len then Ok (mkR false None ct ann, r)
        else
          let text := match ct with Some t => starts t [116; 101; 120; 116] | None => false end in
          let o := if text then Text data else Binary data in
          let o := if auto then match match ct with Some t => reg t | None => None end with Some c => dec c o | None => Some o end
                   else Some o in
          Ok (mkR true o ct ann, r).

Section Write.
Variable cprintf : list N -> arg -> list N.
(** DKSPrintf, DKStream.c 135-145: the bytes written. *)
Definition sprintf (format : list N) (args : list arg) : outcome (list N) := do r <- vsprintf cprintf format args; Ok (fst (fst r)).

(** DKShellWrite, 367-418, for a content type that is not NULL; a NULL annotation is like an
    empty one.  The bytes written and the result. *)
Definition shell_write (reg : registry) (auto : bool) (o : obj) (ct ann : list N) : outcome (list N * bool) :=
  let a := until_nul ann in
  if existsb (fun b => (b =? 13) || (b =? 10)) a then Ok ([], false)
  else
    let o := if auto then match reg ct with Some c => enc c o | None => o end else o in
    match buffer o with
    | None => Ok ([], false)
    | Some data =>
      let len := N.of_nat (length data) in
      do h1 <- sprintf [37; 115; 10] [AStr (Some version)];
      do h2 <- sprintf (type_name ++ [32; 37; 115; 10]) [AStr (Some ct)];
      do h3 <- sprintf (length_name ++ [32; 37; 122; 117; 10]) [ALong (Z.of_N len)];
      let w := h1 ++ h2 ++ h3 ++ putc 10 in
      do w <- match a with
              | [] => Ok w
              | _ => do h4 <- sprintf [37; 115; 10] [AStr (Some ann)]; Ok (w ++ h4 ++ putc 10)
              end;
      Ok (w ++ data, true)
    end.
End Write.
