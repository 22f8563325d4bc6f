(** Model of reading JSON with the option DKJSONVectorRead32BitTypes, Source/DKJSON.c 751-854 and the
    parser around it, 335-523 and 860-932: the same code as without the option, but for the vectors,
    whose numbers are stored as 32 bit integers, or as floats from the first one with a fraction or an
    exponent on.  The parts that read no vector are those of JSON_Model; the floating point arithmetic
    is that of Real_Model, [pow10] is pow of 10 and an exponent. *)
Require Import Coq.ZArith.ZArith Coq.NArith.NArith Coq.Lists.List Coq.Bool.Bool.
Require Import Verif.Base Verif.Utf8_Model Verif.Strtonum_Model Verif.JSON_Model.
Require Verif.Number_Model Verif.Real_Model.
Import ListNotations.
Local Open Scope N_scope.

(** The objects: numbers outside of vectors are read as without the option. *)
Inductive json32 : Type :=
| VNull | VBool (b : bool) | VNum (n : jnum) | VVec (r : Real_Model.rnum) | VStr (s : list N)
| VArr (l : list json32) | VObj (l : list (list N * json32)).

Section Parse.
Context (pow10 : Z -> Z).

(** numberType and buffer 764-768: whether the elements are floats, and the elements. *)
Definition store : Type := bool * list Z.
(** 782-818: a number that was read is appended. *)
Definition push (st : store) (n : jnum) : store :=
  let (fl, ws) := st in
  match n with
  | NInt z => if fl then (true, ws ++ [Real_Model.of_int Real_Model.Single z]) else (false, ws ++ [Number_Model.cast Number_Model.int32 z])
  | NReal sign ipart fs exp =>
    (true, (if fl then ws else map (Real_Model.of_int Real_Model.Single) ws)
           ++ [Real_Model.to_fmt Real_Model.Single (Real_Model.decode Real_Model.Double (Real_Model.real pow10 sign ipart fs exp))])
  end.
(** 834-840: DKNewNumber with DKEncode( numberType, count ), whose count has 24 bits. *)
Definition elem_type (fl : bool) : Real_Model.nty := if fl then Real_Model.TF Real_Model.Single else Real_Model.TI Number_Model.int32.
Definition new_vector32 (st : store) : json32 :=
  VVec (Real_Model.mkR (elem_type (fst st)) (firstn (N.to_nat (N.of_nat (length (snd st)) mod 2 ^ 24)) (snd st))).
(** ScanToken 860-932 and ScanVectorToken32 751-854 after the bracket (762-848). *)
Fixpoint scan_token32 (fuel : nat) (want : bool) (cur : list N) : outcome (token * option json32 * list N) :=
  match fuel with
  | O => NoFuel
  | S fuel' =>
    do r <- skip_space (S (length cur)) cur;
    let '(ch, n, s) := r in
    if (n =? 0)%nat then Ok (mkT s 0, None, s)
    else if (ch =? 34)%Z then
      do r <- scan_string (S (length s)) want s n [];
      let (len, buf) := r in
      Ok (mkT s (Z.of_nat len), if want then Some (VStr buf) else None, skipn len s)
    else if (ch =? 35)%Z then
      do r <- ustrscan (skipn n s);
      if (fst r =? 91)%Z then
        do r <- scan_vector32 fuel' want (skipn (n + snd r) s) (false, []);
        let (obj, cur') := r in
        Ok (mkT s (Z.of_nat (length s) - Z.of_nat (length cur')), obj, cur')
      else Ok (mkT s (Z.of_nat (length s) - Z.of_nat (length cur)), None, cur)
    else
      do b <- rd s 0;
      if special (Z.of_N b) then Ok (mkT s (Z.of_nat n), None, skipn n s)
      else do len <- scan_word (S (length s)) s n; Ok (mkT s (Z.of_nat len), None, skipn len s)
  end
with scan_vector32 (fuel : nat) (want : bool) (cur : list N) (st : store) : outcome (option json32 * list N) :=
  match fuel with
  | O => NoFuel
  | S fuel' =>
    do r <- scan_token32 fuel' false cur;
    let '(t, _, cur) := r in
    do b <- rd (tstr t) 0;
    do g <- (if b =? 45 then Ok true else is_digit b);
    if g then
      do x <- strtonum (tstr t);
      let st := push st (fst x) in
      do r <- scan_token32 fuel' false cur;
      let '(t, _, cur) := r in
      do b <- rd (tstr t) 0;
      if b =? 44 then scan_vector32 fuel' want cur st
      else if b =? 93 then Ok (if want then Some (new_vector32 st) else None, cur)
      else Ok (None, cur)
    else Ok (None, cur)
  end.
(** DKDictionarySetObject as in JSON_Model. *)
Fixpoint dict_set32 (l : list (list N * json32)) (k : list N) (v : json32) : list (list N * json32) :=
  match l with [] => [(k, v)] | (k', v') :: l' => if same_bytes k k' then (k', v) :: l' else (k', v') :: dict_set32 l' k v end.
Inductive pres32 : Type := QVal (v : json32) | QClose (b : N) | QFail.
(** ParseObject 358-523 with the loops of arrays (383-409) and of objects (423-468). *)
Fixpoint parse_object32 (fuel : nat) (cur : list N) : outcome (pres32 * list N) :=
  match fuel with
  | O => NoFuel
  | S fuel' =>
    do r <- scan_token32 (S (length cur)) true cur;
    let '(t, obj, cur) := r in
    if (tlen t =? 0)%Z then Ok (QFail, cur)
    else
      do ch <- rd (tstr t) 0;
      match obj with
      | Some v => Ok (QVal v, cur)
      | None =>
        if ch =? 91 then array_loop32 fuel' cur []
        else if ch =? 93 then Ok (QClose 93, cur)
        else if ch =? 123 then object_loop32 fuel' cur []
        else if ch =? 125 then Ok (QClose 125, cur)
        else
          do g <- (if ch =? 45 then Ok true else is_digit ch);
          if g then do x <- strtonum (tstr t); Ok (QVal (VNum (fst x)), cur)
          else
            do b <- starts (tstr t) [116; 114; 117; 101];
            if b then Ok (QVal (VBool true), cur)
            else
              do b <- starts (tstr t) [102; 97; 108; 115; 101];
              if b then Ok (QVal (VBool false), cur)
              else
                do b <- starts (tstr t) [110; 117; 108; 108];
                if b then Ok (QVal VNull, cur) else Ok (QFail, cur)
      end
  end
with array_loop32 (fuel : nat) (cur : list N) (l : list json32) : outcome (pres32 * list N) :=
  match fuel with
  | O => NoFuel
  | S fuel' =>
    do r <- parse_object32 fuel' cur;
    let (p, cur) := r in
    match p with
    | QClose b => if b =? 93 then Ok (QVal (VArr l), cur) else Ok (QFail, cur)
    | QFail => Ok (QFail, cur)
    | QVal v =>
      do r <- scan_token32 (S (length cur)) false cur;
      let '(t, _, cur) := r in
      do ch <- rd (tstr t) 0;
      if ch =? 93 then Ok (QVal (VArr (l ++ [v])), cur)
      else if ch =? 44 then array_loop32 fuel' cur (l ++ [v]) else Ok (QFail, cur)
    end
  end
with object_loop32 (fuel : nat) (cur : list N) (l : list (list N * json32)) : outcome (pres32 * list N) :=
  match fuel with
  | O => NoFuel
  | S fuel' =>
    do r <- parse_object32 fuel' cur;
    let (p, cur) := r in
    match p with
    | QClose b => if b =? 125 then Ok (QVal (VObj l), cur) else Ok (QFail, cur)
    | QVal (VStr k) =>
      do r <- scan_token32 (S (length cur)) false cur;
      let '(t, _, cur) := r in
      do ch <- rd (tstr t) 0;
      if ch =? 58 then
        do r <- parse_object32 fuel' cur;
        let (p, cur) := r in
        match p with
        | QVal v =>
          let l := dict_set32 l k v in
          do r <- scan_token32 (S (length cur)) false cur;
          let '(t, _, cur) := r in
          do ch <- rd (tstr t) 0;
          if ch =? 125 then Ok (QVal (VObj l), cur)
          else if ch =? 44 then object_loop32 fuel' cur l else Ok (QFail, cur)
        | _ => Ok (QFail, cur)
        end
      else Ok (QFail, cur)
    | _ => Ok (QFail, cur)
    end
  end.
(** DKJSONParse 335-352 with DKJSONVectorSyntaxExtension and DKJSONVectorRead32BitTypes. *)
Definition json_parse32 (text : list N) : outcome json32 :=
  do r <- parse_object32 (2 * length text + 3) (text ++ [0]);
  Ok match fst r with QVal v => v | _ => VNull end.
End Parse.
