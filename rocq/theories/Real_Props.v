(** Properties C140 to C146: floating point numbers. *)
Require Import Coq.ZArith.ZArith Coq.NArith.NArith Coq.QArith.QArith Coq.QArith.Qabs Coq.Lists.List Coq.micromega.Lia.
Require Import Verif.Base Verif.Number_Model Verif.Number_Spec Verif.Strtonum_Model Verif.Strtonum_Spec Verif.Stream_Spec Verif.Real_Model Verif.Real_Spec.
Require Verif.Real_Cases Verif.Real_Round Verif.Real_Conv Verif.Real_Order Verif.Real_Text Verif.Real_Print.
Import ListNotations.
Local Open Scope Z_scope.

(** C140: an integer of any type becomes the nearest float or double, the even one of two, and
    itself if it has at most 24 or 53 significant bits. *)
Theorem C140_integer_to_real : forall f t z, integer_type t -> holds t z ->
  exists b, cast (TI t) (TF f) z = Ok b /\ rounded (layout_of f) (inject_Z z) b /\
    (significant (fraction_bits (layout_of f) + 1) z -> same (value_of (TF f) b) (Real (inject_Z z))).
Proof. exact Real_Round.int_rounded. Qed.
Print Assumptions C140_integer_to_real.
(** A larger integer does not become a smaller number. *)
Theorem C140_order : forall f t y z, integer_type t -> holds t y -> holds t z -> y <= z ->
  exists b c q r, cast (TI t) (TF f) y = Ok b /\ cast (TI t) (TF f) z = Ok c /\ value_of (TF f) b = Real q /\ value_of (TF f) c = Real r /\ (q <= r)%Q.
Proof. exact Real_Round.int_order. Qed.
Print Assumptions C140_order.
(** 2^24 + 1 and 2^24 + 3 as float. *)
Example C140_case : integer_type int32 /\ holds int32 16777217 /\ holds int32 16777219 /\
  cast (TI int32) (TF Single) 16777217 = Ok 1266679808 /\ cast (TI int32) (TF Single) 16777219 = Ok 1266679810.
Proof. exact Real_Cases.int_case. Qed.

(** C141, the part that holds: a float or double that is not NaN or infinite is truncated when it
    is taken as an integer that the type can hold; the other numbers are undefined behaviour. *)
Theorem C141_truncate_partial : forall f t b q, integer_type t -> pattern (layout_of f) b -> meaning (layout_of f) b = Real q ->
  exists z, truncated q z /\ ((holds t z /\ get (TI t) (mkR (TF f) [b]) = Ok z) \/ (~ holds t z /\ get (TI t) (mkR (TF f) [b]) = UB)).
Proof. exact Real_Conv.to_int_ok. Qed.
Print Assumptions C141_truncate_partial.
(** C141 is false for the double 10^10 taken as int32 and for NaN, and 0.5 is taken as false. *)
Theorem C141_refuted : (same (value_of (TF Double) 4756540486875873280) (Real 10000000000) /\ get (TI int32) (mkR (TF Double) [4756540486875873280]) = UB) /\
  (value_of (TF Double) 9221120237041090560 = NotANumber /\ get (TI int64) (mkR (TF Double) [9221120237041090560]) = UB) /\
  (same (value_of (TF Double) 4602678819172646912) (Real (1 # 2)) /\ get_bool (mkR (TF Double) [4602678819172646912]) = Ok false).
Proof. exact Real_Cases.truncate. Qed.
Print Assumptions C141_refuted.
(** -2.75 is taken as -2. *)
Example C141_case : pattern double 13836746905142427648 /\ same (meaning double 13836746905142427648) (Real (- (11 # 4))) /\ get (TI int32) (mkR (TF Double) [13836746905142427648]) = Ok (-2).
Proof. exact Real_Cases.truncate_case. Qed.

(** C142, the part that holds: an integer with at most 24 or 53 significant bits comes back from
    float or double, a float comes back from double. *)
Theorem C142_integer_back_partial : forall f t z, integer_type t -> holds t z -> significant (fraction_bits (layout_of f) + 1) z ->
  exists b, cast (TI t) (TF f) z = Ok b /\ cast (TF f) (TI t) b = Ok z.
Proof. exact Real_Cases.integer_back. Qed.
Print Assumptions C142_integer_back_partial.
Theorem C142_float_back_partial : forall b, pattern float b -> proper (meaning float b) ->
  exists d, cast (TF Single) (TF Double) b = Ok d /\ same (value_of (TF Double) d) (value_of (TF Single) b) /\ cast (TF Double) (TF Single) d = Ok b.
Proof. exact Real_Order.float_back. Qed.
Print Assumptions C142_float_back_partial.
(** A double within the range of float becomes the nearest float. *)
Theorem C142_nearest_float_partial : forall b q, pattern double b -> meaning double b = Real q -> (Qabs q <= largest float)%Q ->
  exists c, cast (TF Double) (TF Single) b = Ok c /\ rounded float q c.
Proof. exact Real_Round.narrow_rounded. Qed.
Print Assumptions C142_nearest_float_partial.
(** C142 is false for the int64 2^53 + 1, which comes back smaller, and for 2^63 - 1, which cannot
    be taken back. *)
Theorem C142_refuted :
  (exists b, cast (TI int64) (TF Double) 9007199254740993 = Ok b /\ cast (TF Double) (TI int64) b = Ok 9007199254740992) /\
  (exists b, cast (TI int64) (TF Double) 9223372036854775807 = Ok b /\ cast (TF Double) (TI int64) b = UB).
Proof. exact Real_Cases.back. Qed.
Print Assumptions C142_refuted.
Example C142_case : significant (fraction_bits double + 1) (- (3 * 2 ^ 60)) /\ holds int64 (- (3 * 2 ^ 60)) /\ proper (meaning float 1036831949) /\
  (Qabs (1 # 10) <= largest float)%Q /\ cast (TF Double) (TF Single) 4591870180066957722 = Ok 1036831949.
Proof. exact Real_Cases.back_case. Qed.

(** C143, the part that holds: numbers of the same type and count without a NaN are ordered by the
    first elements that differ, and are equal if all elements have the same value. *)
Theorem C143_order_partial : forall t xs ys, (match t with TI t => integer_type t | TF _ => True end) -> length xs = length ys ->
  Forall (element t) xs -> Forall (element t) ys -> Forall (fun x => proper (value_of t x)) (xs ++ ys) ->
  exists c, compare (mkR t xs) (mkR t ys) = Ok c /\ (c = 1 <-> first (map (value_of t) xs) (map (value_of t) ys)) /\
    (c = -1 <-> first (map (value_of t) ys) (map (value_of t) xs)) /\ (c = 0 <-> Forall2 same (map (value_of t) xs) (map (value_of t) ys)).
Proof. exact Real_Order.compare_same_ok. Qed.
Print Assumptions C143_order_partial.
(** C143 is false for a NaN, which is equal to 1 and to 2, and equal numbers have different hash
    codes: 0 and -0. *)
Theorem C143_refuted : let real b := mkR (TF Double) [b] in
  (equal (real 9221120237041090560) (real 4607182418800017408) = Ok true /\ equal (real 9221120237041090560) (real 4611686018427387904) = Ok true /\ equal (real 4607182418800017408) (real 4611686018427387904) = Ok false) /\
  (equal (real 0) (real 9223372036854775808) = Ok true /\ hash (real 0) <> hash (real 9223372036854775808)).
Proof. exact Real_Cases.order. Qed.
Print Assumptions C143_refuted.
(** The vectors (1, -2.75) and (1, 0.5). *)
Example C143_case : Forall (element (TF Double)) [4607182418800017408; 13836746905142427648] /\ Forall (fun x => proper (value_of (TF Double) x)) [4607182418800017408; 13836746905142427648; 4607182418800017408; 4602678819172646912] /\
  compare (mkR (TF Double) [4607182418800017408; 13836746905142427648]) (mkR (TF Double) [4607182418800017408; 4602678819172646912]) = Ok 1.
Proof. exact Real_Cases.order_case. Qed.

(** C144, the part that holds: numbers of different types are ordered by their values, if the type
    of the first has an element for every value of the second. *)
Theorem C144_mixed_partial : forall a b, (match rty a with TI t => integer_type t | TF _ => True end) -> length (elems a) = length (elems b) ->
  Forall (element (rty a)) (elems a) -> Forall (element (rty b)) (elems b) ->
  Forall (fun x => proper (value_of (rty a) x)) (elems a) -> Forall (fun y => can_hold (rty a) (value_of (rty b) y)) (elems b) ->
  exists c, compare a b = Ok c /\ (c = 1 <-> first (map (value_of (rty a)) (elems a)) (map (value_of (rty b)) (elems b))) /\
    (c = -1 <-> first (map (value_of (rty b)) (elems b)) (map (value_of (rty a)) (elems a))) /\
    (c = 0 <-> Forall2 same (map (value_of (rty a)) (elems a)) (map (value_of (rty b)) (elems b))).
Proof. exact Real_Order.compare_ok. Qed.
Print Assumptions C144_mixed_partial.
(** C144 is false: 1 equals 1.5 but 1.5 does not equal 1; comparing 1 with 10^10 is undefined
    behaviour; 2^53 equals the double 2^53, which equals 2^53 + 1. *)
Theorem C144_refuted : let int z := mkR (TI int64) [z] in let real b := mkR (TF Double) [b] in
  (equal (int 1) (real 4609434218613702656) = Ok true /\ equal (real 4609434218613702656) (int 1) = Ok false) /\
  compare (mkR (TI int32) [1]) (real 4756540486875873280) = UB /\
  (equal (int 9007199254740992) (real 4845873199050653696) = Ok true /\ equal (real 4845873199050653696) (int 9007199254740993) = Ok true /\ equal (int 9007199254740992) (int 9007199254740993) = Ok false).
Proof. exact Real_Cases.mixed. Qed.
Print Assumptions C144_refuted.
(** 1.5 as double against 3 as int32. *)
Example C144_case : can_hold (TF Double) (value_of (TI int32) 3) /\ compare (mkR (TF Double) [4609434218613702656]) (mkR (TI int32) [3]) = Ok 1.
Proof. exact Real_Cases.mixed_case. Qed.

(** C145, the part that holds: a number with a point and at most 17 digits after it is read as a
    double that differs from it by at most 3 (n + k + 1) / 2^53, where n is the integer before the
    point and k the number of digits after it. *)
Theorem C145_read_partial : forall pow10 ws neg ds fs rest, Forall white ws -> Forall digit ds -> ds <> [] -> value ds <= i64max -> Forall digit fs -> (length fs < 18)%nat -> ends rest ->
  exists b q, read pow10 (ws ++ sign_text neg ++ ds ++ 46%N :: fs ++ rest) = Ok (b, rest) /\ pattern double b /\ meaning double b = Real q /\
    let x := (if neg then - number ds fs else number ds fs)%Q in
    (Qabs (q - x) <= 3 * (inject_Z (value ds) + inject_Z (Z.of_nat (length fs)) + 1) * (1 # 2 ^ 53))%Q.
Proof. exact Real_Text.read_near. Qed.
Print Assumptions C145_read_partial.
(** C145 is false for the text 0.15: another double is nearer. *)
Theorem C145_refuted : exists b q, read (fun _ => 0) [48; 46; 49; 53; 44]%N = Ok (b, [44%N]) /\ meaning double b = Real q /\ ~ nearest double (15 # 100) q.
Proof. exact Real_Cases.not_nearest. Qed.
Print Assumptions C145_refuted.
(** The text -12.375, followed by a comma. *)
Example C145_case : Forall digit [49; 50]%N /\ value [49; 50]%N = 12 /\ Forall digit [51; 55; 53]%N /\ ends [44%N] /\ (number [49; 50]%N [51; 55; 53]%N == 99 # 8)%Q /\
  exists b, read (fun _ => 0) [45; 49; 50; 46; 51; 55; 53; 44]%N = Ok (b, [44%N]) /\ same (meaning double b) (Real (- (99 # 8))).
Proof. exact Real_Cases.read_case. Qed.

(** C146, the part that holds: a float or double of at most 10^110 is printed as the nearest number
    with six digits after the point, without the zeros at the end. *)
Theorem C146_print_partial : forall f b q, pattern (layout_of f) b -> meaning (layout_of f) b = Real q -> (Qabs q <= inject_Z (10 ^ 110))%Q ->
  exists neg ds n fs, print f b = Ok (sign_text neg ++ ds ++ 46%N :: fs) /\ decimal ds n /\ Forall digit fs /\ (1 <= length fs <= 6)%nat /\ (forall g, fs = g ++ [48%N] -> g = []) /\
    (Qabs (q - (if neg then - number ds fs else number ds fs)) <= 1 # 2000000)%Q.
Proof. exact Real_Print.print_near. Qed.
Print Assumptions C146_print_partial.
(** The text of a number of at most 2^63 - 1 is read as one that is near. *)
Theorem C146_near_partial : forall f b q, pattern (layout_of f) b -> meaning (layout_of f) b = Real q -> (Qabs q <= inject_Z i64max)%Q ->
  exists t, print f b = Ok t /\ forall pow10 rest, ends rest -> exists b' q', read pow10 (t ++ rest) = Ok (b', rest) /\ pattern double b' /\ meaning double b' = Real q' /\
    (Qabs (q' - q) <= (1 # 2000000) + 3 * (Qabs q + 8) * (1 # 2 ^ 53))%Q.
Proof. exact Real_Print.print_read. Qed.
Print Assumptions C146_near_partial.
(** The text of a double that is a whole number is read as the same double, bit by bit. *)
Theorem C146_whole_partial : forall b q z, pattern double b -> meaning double b = Real q -> (q == inject_Z z)%Q -> Z.abs z <= i64max ->
  exists neg ds, print Double b = Ok (sign_text neg ++ ds ++ [46; 48]%N) /\ decimal ds (Z.abs z) /\ (z <> 0 -> neg = (z <? 0)) /\
    forall pow10 rest, ends rest -> read pow10 ((sign_text neg ++ ds ++ [46; 48]%N) ++ rest) = Ok (b, rest).
Proof. exact Real_Print.whole_back. Qed.
Print Assumptions C146_whole_partial.
(** C146 is false for 10^-7, which is printed as 0.0; for 2^63, whose text is undefined behaviour
    to read; for 10^113, whose text does not fit; and for NaN, whose text is no number. *)
Theorem C146_refuted :
  print Double 4502148214488346440 = Ok [48; 46; 48]%N /\
  (exists t, print Double 4890909195324358656 = Ok t /\ read (fun _ => 0) (t ++ [44%N]) = UB) /\
  print Double 6297380774879948160 = UB /\
  (print Double 9221120237041090560 = Ok [110; 97; 110]%N /\ read (fun _ => 0) [110; 97; 110; 44]%N = Ok (0, [110; 97; 110; 44]%N)).
Proof. exact Real_Cases.print_read. Qed.
Print Assumptions C146_refuted.
(** -2.75 is printed as -2.75, and 10^10 as 10000000000.0. *)
Example C146_case : print Double 13836746905142427648 = Ok [45; 50; 46; 55; 53]%N /\
  print Double 4756540486875873280 = Ok [49; 48; 48; 48; 48; 48; 48; 48; 48; 48; 48; 46; 48]%N.
Proof. exact Real_Cases.print_case. Qed.
