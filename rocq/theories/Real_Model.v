(** Model of floating point numbers: the conversions and comparisons of Source/DKNumber.c with
    elements of type float and double, the floating point result of dk_strtonum and the text of
    a floating point number.  The arithmetic is that of IEEE 754, rounding to nearest with ties
    to even, as on every platform the library is made for; nothing of it is in the code, it is
    what the C operators do.  A float or a double is its bit pattern.  Values are counted
    in units of 2^-1074, of which every finite float and double is a multiple. *)
Require Import Coq.ZArith.ZArith Coq.NArith.NArith Coq.Lists.List Coq.Bool.Bool.
Require Import Verif.Base Verif.Number_Model Verif.Strtonum_Model Verif.Stream_Model.
Import ListNotations.
Local Open Scope Z_scope.

Inductive fmt : Type := Single | Double.
(** Bits of the significand, with the leading one; the power of two of the last bit of the
    smallest number, in the units above; the largest exponent field; all bits. *)
Definition prec (f : fmt) : Z := match f with Single => 24 | Double => 53 end.
Definition unit (f : fmt) : Z := match f with Single => 925 | Double => 0 end.
Definition top (f : fmt) : Z := match f with Single => 255 | Double => 2047 end.
Definition fbits (f : fmt) : Z := match f with Single => 32 | Double => 64 end.
Definition one : Z := 2 ^ 1074.
(** The bits of infinity without the sign. *)
Definition inf (f : fmt) : Z := top f * 2 ^ (prec f - 1).
Definition sign_bit (f : fmt) : Z := 2 ^ (fbits f - 1).

(** What a bit pattern stands for. *)
Inductive fval : Type := NaN | Inf (neg : bool) | Fin (neg : bool) (m : Z).
(** The value of the bits without the sign, below [inf f]. *)
Definition mag (f : fmt) (b : Z) : Z :=
  let e := b / 2 ^ (prec f - 1) in
  let m := b mod 2 ^ (prec f - 1) in
  if e =? 0 then m * 2 ^ unit f else (m + 2 ^ (prec f - 1)) * 2 ^ (e - 1 + unit f).
Definition decode (f : fmt) (b : Z) : fval :=
  let neg := sign_bit f <=? b in
  let b := b mod sign_bit f in
  if b <? inf f then Fin neg (mag f b) else if b =? inf f then Inf neg else NaN.

(** Rounding of n / d units, both not negative: the bits without the sign. *)
Definition round (f : fmt) (n d : Z) : Z :=
  let q := Z.max (unit f) (Z.log2 (n / d) - (prec f - 1)) in
  let u := d * 2 ^ q in
  let k := n / u in
  let r := n mod u in
  let k := if 2 * r <? u then k else if u <? 2 * r then k + 1 else if Z.even k then k else k + 1 in
  Z.min ((q - unit f) * 2 ^ (prec f - 1) + k) (inf f).
Definition with_sign (f : fmt) (neg : bool) (b : Z) : Z := if neg then sign_bit f + b else b.
(** A NaN: the quiet one without a payload.  Which one is produced by an operation is not
    specified, and nothing in the model depends on it. *)
Definition nan (f : fmt) : Z := inf f + 2 ^ (prec f - 2).
Definition fin (f : fmt) (z : Z) : Z := with_sign f (z <? 0) (round f (Z.abs z) 1).

(** (ftype)z of an integer. *)
Definition of_int (f : fmt) (z : Z) : Z := fin f (z * one).
(** (itype)x of a floating point number: truncated, and undefined if it does not fit. *)
Definition lowest (t : ity) : Z := if signed t then - (full t / 2) else 0.
Definition highest (t : ity) : Z := if signed t then full t / 2 - 1 else full t - 1.
Definition to_int (t : ity) (x : fval) : outcome Z :=
  match x with
  | Fin neg m =>
    let z := if neg then - (m / one) else m / one in
    if (lowest t <=? z) && (z <=? highest t) then Ok z else UB
  | _ => UB
  end.
(** (ftype)x of a floating point number. *)
Definition to_fmt (f : fmt) (x : fval) : Z :=
  match x with
  | NaN => nan f
  | Inf neg => with_sign f neg (inf f)
  | Fin neg m => with_sign f neg (round f m 1)
  end.

(** Element types, int8_t ... uint64_t, float and double.  An element is an integer or the
    bits of a float or a double. *)
Inductive nty : Type := TI (t : ity) | TF (f : fmt).
Definition same_fmt (f g : fmt) : bool := match f, g with Single, Single => true | Double, Double => true | _, _ => false end.
(** The conversion in Cast_x_to_y, DKNumber.c 70-75, and in Cmp_x_to_y 89-102. *)
Definition cast (ts td : nty) (x : Z) : outcome Z :=
  match ts, td with
  | TI _, TI t => Ok (Number_Model.cast t x)
  | TI _, TF f => Ok (of_int f x)
  | TF f, TI t => to_int t (decode f x)
  | TF f, TF g => Ok (if same_fmt f g then x else to_fmt g (decode f x))
  end.
(** The operator < between two elements of a type; false if one is a NaN. *)
Definition flt (x y : fval) : bool :=
  match x, y with
  | NaN, _ | _, NaN => false
  | Inf a, Inf b => a && negb b
  | Inf a, Fin _ _ => a
  | Fin _ _, Inf b => negb b
  | Fin a m, Fin b n => (if a then - m else m) <? (if b then - n else n)
  end.
Definition lt (t : nty) (x y : Z) : bool := match t with TI _ => x <? y | TF f => flt (decode f x) (decode f y) end.

(** struct DKNumber 312-316: the type and the elements in their order; rows and columns of a
    matrix are left out, comparisons and conversions of numbers of the same count do not
    look at them. *)
Record rnum : Type := mkR { rty : nty; elems : list Z }.
Definition twidth (t : nty) : nat := match t with TI t => width t | TF Single => 4%nat | TF Double => 8%nat end.
Definition bytes (a : rnum) : list Z := concat (map (le (twidth (rty a))) (elems a)).
(** Cmp_x_to_y 89-102, of two numbers of the same count. *)
Fixpoint cmp_loop (tx ty : nty) (x y : list Z) : outcome Z :=
  match x, y with
  | a :: x', b :: y' =>
    do b <- cast ty tx b;
    if lt tx a b then Ok 1 else if lt tx b a then Ok (-1) else cmp_loop tx ty x' y'
  | _, _ => Ok 0
  end.
(** DKNumberCompare 889-924, of two numbers. *)
Definition compare (a b : rnum) : outcome Z :=
  if (length (elems a) =? length (elems b))%nat then cmp_loop (rty a) (rty b) (elems a) (elems b)
  else
    let sa := length (bytes a) in let sb := length (bytes b) in
    if (sa <? sb)%nat then Ok 1 else if (sb <? sa)%nat then Ok (-1) else memcmp (bytes a) (bytes b) sa.
(** DKNumberEqual 877-883. *)
Definition equal (a b : rnum) : outcome bool := do c <- compare a b; Ok (c =? 0).
(** DKNumberHash 930-974. *)
Definition hash (a : rnum) : Z := match elems a with [x] => x mod 2 ^ 64 | _ => memhash 0 (bytes a) end.
(** DKNumberGetInt32, GetInt64, GetFloat, GetDouble 1115-1197: DKNumberConvert 1038-1088 into one
    element, which takes the first. *)
Definition get (t : nty) (a : rnum) : outcome Z := match elems a with [] => Ok 0 | x :: _ => cast (rty a) t x end.
(** DKNumberGetBool 1094-1109. *)
Definition get_bool (a : rnum) : outcome bool := do z <- get (TI int32) a; Ok (negb (z =? 0)).

(** The operators +, / and * of double, of finite operands. *)
Definition sval (neg : bool) (m : Z) : Z := if neg then - m else m.
Definition add (x y : Z) : Z :=
  match decode Double x, decode Double y with
  | Fin a m, Fin b n =>
    let z := sval a m + sval b n in
    if z =? 0 then with_sign Double (a && b) 0 else fin Double z
  | NaN, _ | _, NaN => nan Double
  | Inf a, Inf b => if eqb a b then x else nan Double
  | Inf _, _ => x
  | _, Inf _ => y
  end.
Definition div (x y : Z) : Z :=
  match decode Double x, decode Double y with
  | Fin a m, Fin b n =>
    if n =? 0 then (if m =? 0 then nan Double else with_sign Double (xorb a b) (inf Double))
    else with_sign Double (xorb a b) (round Double (m * one) n)
  | NaN, _ | _, NaN => nan Double
  | Inf _, Inf _ => nan Double
  | Inf a, Fin b _ => with_sign Double (xorb a b) (inf Double)
  | Fin a _, Inf b => with_sign Double (xorb a b) 0
  end.
Definition mul (x y : Z) : Z :=
  match decode Double x, decode Double y with
  | Fin a m, Fin b n => with_sign Double (xorb a b) (round Double (m * n) one)
  | NaN, _ | _, NaN => nan Double
  | Inf a, Fin b m | Fin a m, Inf b => if m =? 0 then nan Double else with_sign Double (xorb a b) (inf Double)
  | Inf a, Inf b => with_sign Double (xorb a b) (inf Double)
  end.

(** dk_strtonum, DKPlatform.c 596-696: fpart, 642-651, from the digits of the fraction. *)
Fixpoint fpart (acc denom : Z) (fs : list N) : Z :=
  match fs with
  | [] => acc
  | d :: fs' => fpart (add acc (div (of_int Double (Z.of_N d)) (of_int Double denom))) (denom * 10) fs'
  end.
(** fval, 679-686; [pow10] is pow of 10 and an exponent. *)
Definition real (pow10 : Z -> Z) (sign ipart : Z) (fs : list N) (exp : option Z) : Z :=
  let x := mul (of_int Double sign) (add (of_int Double ipart) (fpart 0 10 fs)) in
  match exp with None => x | Some e => mul x (pow10 e) end.
(** A number token of a JSON text, DKJSON.c 477-493, and a text that is read as a double: a
    number without point and exponent is an integer, taken as a double as 686-699 do. *)
Definition read (pow10 : Z -> Z) (s : list N) : outcome (Z * list N) :=
  do r <- strtonum s;
  Ok (match fst r with
      | NInt z => of_int Double z
      | NReal sign ipart fs exp => real pow10 sign ipart fs exp
      end, snd r).

(** sprintf of %f: six digits after the point, rounded to nearest with ties to even. *)
Definition micro (m : Z) : Z :=
  let n := m * 1000000 in
  let k := n / one in
  let r := n mod one in
  if 2 * r <? one then k else if one <? 2 * r then k + 1 else if Z.even k then k else k + 1.
Definition six (n : Z) : list N := map (fun p => (48 + Z.to_N (n / p mod 10))%N) [100000; 10000; 1000; 100; 10; 1].
Definition sprintf_f (x : fval) : list N :=
  match x with
  | NaN => [110; 97; 110]%N
  | Inf neg => ((if neg then [45] else []) ++ [105; 110; 102])%N
  | Fin neg m => ((if neg then [45] else []) ++ print_digits 320 (Z.to_N (micro m / 1000000)) [] ++ 46 :: six (micro m mod 1000000))%N
  end.
(** DKNumberFormatString, DKNumber.c 980-1022, of one float or double (a float is passed as a
    double), with the branch of DKSPrintf for %f and %lf, DKStream.c 463-500: sprintf into the
    120 characters of tmp, line 300, then TrimZeroes. *)
Definition print (f : fmt) (x : Z) : outcome (list N) :=
  let t := sprintf_f (decode f x) in
  if (length t <? 120)%nat then Ok (trim_zeroes t) else UB.
