(** Property theorems about reading numbers. *)
Require Import Coq.ZArith.ZArith Coq.NArith.NArith Coq.Lists.List.
Require Import Verif.Base Verif.Strtonum_Model Verif.Strtonum_Spec Verif.Strtonum_Proofs.
Import ListNotations.
Local Open Scope N_scope.

(** C36: the decimal representation of a 64 bit integer other than the most negative one is
    read as this integer, up to the first character that does not continue the number. *)
Theorem C36_decimal : forall neg ds z rest, decimal ds (Z.abs z) -> (- i64max <= z <= i64max)%Z -> signed neg (Z.abs z) = z -> ends rest ->
  strtonum (sign_text neg ++ ds ++ rest) = Ok (NInt z, rest).
Proof. exact decimal_read. Qed.
Print Assumptions C36_decimal.
(** C36: there is a decimal representation, namely the one that is printed. *)
Theorem C36_printed : forall z, (- i64max <= z <= i64max)%Z -> exists neg ds, print_int z = sign_text neg ++ ds /\ decimal ds (Z.abs z) /\ ds <> [] /\ signed neg (Z.abs z) = z.
Proof. exact print_int_ok. Qed.
Print Assumptions C36_printed.
(** C36 with white space before the number and any number of leading zeros. *)
Theorem C36_integer : forall ws neg ds rest, Forall white ws -> Forall digit ds -> ds <> [] -> (value ds <= i64max)%Z -> ends rest ->
  strtonum (ws ++ sign_text neg ++ ds ++ rest) = Ok (NInt (signed neg (value ds)), rest).
Proof. exact read_int. Qed.
Print Assumptions C36_integer.
(** " -9223372036854775807," *)
Example C36_case : strtonum (32 :: print_int (- i64max) ++ [44; 0]) = Ok (NInt (- i64max), [44; 0]) /\ print_int (-120) = [45; 49; 50; 48] /\ ends [44; 0] /\ decimal [49; 50; 48] 120.
Proof.
  split; [vm_compute; reflexivity|]. split; [reflexivity|]. split; [cbn; unfold digit; repeat split; try discriminate; intros [H _]; vm_compute in H; congruence|].
  split; [repeat constructor; vm_compute; discriminate|]. split; [reflexivity|]. right. exists 49, [50; 48]. split; [reflexivity|discriminate].
Qed.

(** C86, the part that holds: a fraction of less than 18 digits and an exponent without sign
    are read as they are written.  Missing: signed exponents and long fractions. *)
Theorem C86_fraction_partial : forall ws neg ds fs es rest, Forall white ws -> Forall digit ds -> ds <> [] -> (value ds <= i64max)%Z ->
  Forall digit fs -> (length fs < 18)%nat -> match es with None => True | Some (e, ed) => (e = 101 \/ e = 69) /\ Forall digit ed /\ (value ed <= i64max)%Z end -> ends rest ->
  strtonum (ws ++ sign_text neg ++ ds ++ (46 :: fs) ++ match es with None => [] | Some (e, ed) => e :: ed end ++ rest) =
  Ok (NReal (if neg then -1 else 1)%Z (value ds) (map (fun d => d - 48) fs) (match es with None => None | Some (_, ed) => Some (value ed) end), rest).
Proof. exact read_real. Qed.
Print Assumptions C86_fraction_partial.
Theorem C86_exponent_partial : forall ws neg ds e ed rest, Forall white ws -> Forall digit ds -> ds <> [] -> (value ds <= i64max)%Z -> (e = 101 \/ e = 69) -> Forall digit ed -> (value ed <= i64max)%Z -> ends rest ->
  strtonum (ws ++ sign_text neg ++ ds ++ (e :: ed) ++ rest) = Ok (NReal (if neg then -1 else 1)%Z (value ds) [] (Some (value ed)), rest).
Proof. exact read_exp. Qed.
Print Assumptions C86_exponent_partial.
(** "-12.50e3]" *)
Example C86_case : strtonum [45; 49; 50; 46; 53; 48; 101; 51; 93; 0] = Ok (NReal (-1) 12 [5; 0] (Some 3%Z), [93; 0]).
Proof. reflexivity. Qed.
(** C86 is false: "1e-5" is read as 1, up to the sign of the exponent. *)
Theorem C86_sign_refuted : strtonum [49; 101; 45; 53; 0] = Ok (NReal 1 1 [] (Some 0%Z), [45; 53; 0]).
Proof. reflexivity. Qed.
Print Assumptions C86_sign_refuted.
(** C86 is false: 18 digits after the point are undefined behaviour. *)
Theorem C86_long_refuted : exists fs, Forall digit fs /\ length fs = 18%nat /\ strtonum (48 :: 46 :: fs ++ [0]) = UB.
Proof. exists (repeat 49 18). split; [repeat constructor; vm_compute; discriminate|]. split; reflexivity. Qed.
Print Assumptions C86_long_refuted.
(** C86 is false: integers that do not fit are undefined behaviour, also the most negative one. *)
Theorem C86_range_refuted : strtonum (45 :: print_digits 20 (2 ^ 63) [] ++ [0]) = UB.
Proof. vm_compute. reflexivity. Qed.
Print Assumptions C86_range_refuted.
