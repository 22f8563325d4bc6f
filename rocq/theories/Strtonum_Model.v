(** Model of dk_strtonum, Source/DKPlatform.c 596-696, and of the printing of integers with the
    formats %d and PRId64.  A string is the list of the bytes of its storage from the pointer
    on; reading past the end of the list is [UB], and so is signed overflow.  A floating
    point result is given by the parts from which lines 681-685 compute it: the sign, the
    integer part, the digits of the fraction and the exponent. *)
Require Import Coq.ZArith.ZArith Coq.NArith.NArith Coq.Lists.List Coq.Bool.Bool.
Require Import Verif.Base.
Import ListNotations.
Local Open Scope N_scope.

Definition i64max : Z := (2 ^ 63 - 1)%Z.
Inductive jnum : Type := NInt (z : Z) | NReal (sign ipart : Z) (frac : list N) (exp : option Z).

(** isspace of a char in the C locale: the argument must be an unsigned char or EOF, and char
    is signed. *)
Definition isspace (c : Z) : outcome bool :=
  if ((-1 <=? c) && (c <=? 255))%Z then Ok (((9 <=? c) && (c <=? 13)) || (c =? 32))%Z else UB.
Definition schar (b : N) : Z := if b <? 128 then Z.of_N b else (Z.of_N b - 256)%Z.
Definition isdigit (b : N) : bool := (48 <=? b) && (b <=? 57).

(** 608-611. *)
Fixpoint skip_white (s : list N) : outcome (list N) :=
  match s with
  | [] => UB
  | b :: s' => do w <- isspace (schar b); if w then skip_white s' else Ok s
  end.
(** 627-633 and 663-669. *)
Fixpoint digits (acc : Z) (s : list N) : outcome (Z * list N) :=
  match s with
  | [] => UB
  | b :: s' =>
    if isdigit b then
      let x := (acc * 10 + (Z.of_N b - 48))%Z in
      if (x <=? i64max)%Z then digits x s' else UB
    else Ok (acc, s)
  end.
(** 644-651; long has 64 bits. *)
Fixpoint fraction (denom : Z) (s : list N) : outcome (list N * list N) :=
  match s with
  | [] => UB
  | b :: s' =>
    if isdigit b then
      if (denom * 10 <=? i64max)%Z then do r <- fraction (denom * 10) s'; Ok (b - 48 :: fst r, snd r) else UB
    else Ok ([], s)
  end.
(** The number and the rest of the string, str_end. *)
Definition strtonum (s : list N) : outcome (jnum * list N) :=
  do s <- skip_white s;
  match s with
  | [] => UB
  | b :: s' =>
    let (sign, s) := if b =? 45 then ((-1)%Z, s') else if b =? 43 then (1%Z, s') else (1%Z, s) in
    do r <- digits 0 s;
    let (ipart, s) := r in
    match s with
    | [] => UB
    | b :: s' =>
      do r <- (if b =? 46 then do r <- fraction 10 s'; Ok (Some (fst r), snd r) else Ok (None, s));
      let (fpart, s) := r : option (list N) * list N in
      match s with
      | [] => UB
      | b :: s' =>
        do r <- (if (b =? 101) || (b =? 69) then do r <- digits 0 s'; Ok (Some (fst r), snd r) else Ok (None, s));
        let (epart, s) := r : option Z * list N in
        match fpart, epart with
        | None, None => Ok (NInt (ipart * sign), s)
        | _, _ => Ok (NReal sign ipart (match fpart with Some f => f | None => [] end) epart, s)
        end
      end
    end
  end.

(** printf of an integer of at most 64 bits: at most 20 digits. *)
Fixpoint print_digits (fuel : nat) (n : N) (acc : list N) : list N :=
  match fuel with
  | O => acc
  | S fuel' => let acc := 48 + n mod 10 :: acc in if n / 10 =? 0 then acc else print_digits fuel' (n / 10) acc
  end.
Definition print_int (z : Z) : list N := if (z <? 0)%Z then 45 :: print_digits 20 (Z.to_N (- z)) [] else print_digits 20 (Z.to_N z) [].
