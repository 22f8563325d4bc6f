(** Theorems about the clocks, and about the conversion of letters. *)
Require Import Coq.ZArith.ZArith Coq.NArith.NArith Coq.QArith.QArith Coq.QArith.Qabs Coq.Lists.List Coq.Bool.Bool.
Require Import Verif.Base Verif.Real_Model Verif.Real_Spec Verif.Clock_Model Verif.Clock_Proofs.
Require Import Verif.Utf8_Spec Verif.String_Spec Verif.Case_Model Verif.Case_Proofs.
Import ListNotations.
Local Open Scope Z_scope.

(** C151: the date and time is that of the system, to less than half a microsecond, and is later
    whenever the system shows a later microsecond.  Missing: the date and time of Windows, for which
    it is false. *)
Theorem C151_shows_time_partial : forall s u, Z.abs (s - 978307200) <= 2 ^ 32 -> 0 <= u < 1000000 -> exists q, meaning double (datetime s u) = Real q /\ (Qabs (q - instant s u) <= 48 # 100000000)%Q.
Proof. exact shows_time. Qed.
Print Assumptions C151_shows_time_partial.
Theorem C151_in_order_partial : forall s u s' u', Z.abs (s - 978307200) <= 2 ^ 32 -> 0 <= u < 1000000 -> Z.abs (s' - 978307200) <= 2 ^ 32 -> 0 <= u' < 1000000 -> s < s' \/ (s = s' /\ u < u') ->
  exists q r, meaning double (datetime s u) = Real q /\ meaning double (datetime s' u') = Real r /\ (q < r)%Q.
Proof. exact in_order. Qed.
Print Assumptions C151_in_order_partial.
Theorem C151_windows_refuted : exists n s q, n = (11644473600 + s) * 10000000 /\ s = 900000000 /\ meaning double (windows_datetime n) = Real q /\ (instant s 0 + 800000000 < q)%Q.
Proof. exact windows_wrong. Qed.
Print Assumptions C151_windows_refuted.
Example C151_case : Z.abs (1700000000 - 978307200) <= 2 ^ 32 /\ (instant 1700000000 500000 == 721692800 + (1 # 2))%Q.
Proof. vm_compute. repeat split; discriminate. Qed.

(** C152: local time is off by twice the distance to universal time. *)
Theorem C152_local_partial : forall s u west, Z.abs (s - 978307200) <= 2 ^ 32 -> 0 <= u < 1000000 -> Z.abs west <= 1440 ->
  exists q, meaning double (localtime s u west) = Real q /\ (Qabs (q - (instant s u + inject_Z (60 * west))) <= 1 # 1000000)%Q.
Proof. exact local_off. Qed.
Print Assumptions C152_local_partial.
Theorem C152_refuted : forall s u west, Z.abs (s - 978307200) <= 2 ^ 32 -> 0 <= u < 1000000 -> 0 < Z.abs west <= 1440 ->
  exists q, meaning double (localtime s u west) = Real q /\ (119 <= Qabs (q - (instant s u - inject_Z (60 * west))))%Q.
Proof. exact local_wrong. Qed.
Print Assumptions C152_refuted.
Example C152_case : Z.abs (1700000000 - 978307200) <= 2 ^ 32 /\ 0 < Z.abs 300 <= 1440 /\ (instant 1700000000 0 == 721692800)%Q.
Proof. vm_compute. repeat split; discriminate. Qed.

Local Open Scope N_scope.
(** C153: conversion to small or capital letters fits into the buffer and changes letters of the
    Latin alphabet only; a text that fits is converted character by character.  Missing: buffers
    of size zero and texts that do not fit, for which it is false. *)
Theorem C153_fits_partial : forall up size s junk, 0 < size < 2^32 -> ~ In 0 s ->
  exists l, call up size (s ++ 0 :: junk) = Ok (l ++ [0]) /\ length (l ++ [0]) = Nat.min (length s + 1) (N.to_nat size) /\
    (forall k b, nth_error l k = Some b -> exists a, nth_error s k = Some a /\ (a < 128 -> changed up a b) /\ (128 <= a -> b = a)).
Proof. exact fits_buffer. Qed.
Print Assumptions C153_fits_partial.
Theorem C153_text_partial : forall up size cs junk, text cs -> N.of_nat (length (encode cs)) < size -> size < 2^32 ->
  exists ds, call up size (encode cs ++ 0 :: junk) = Ok (encode ds ++ [0]) /\ text ds /\ Forall2 (changed up) cs ds.
Proof. exact whole. Qed.
Print Assumptions C153_text_partial.
Theorem C153_no_room_refuted : forall up s, call up 0 (s ++ [0]) = UB.
Proof. exact no_room. Qed.
Print Assumptions C153_no_room_refuted.
Theorem C153_cut_refuted : exists cs l, text cs /\ call false 2 (encode cs ++ [0]) = Ok (l ++ [0]) /\ forall ds, text ds -> encode ds <> l.
Proof. exact cut_char. Qed.
Print Assumptions C153_cut_refuted.
Example C153_case : text [72; 233; 90] /\ call false 100 (encode [72; 233; 90] ++ [0]) = Ok (encode [104; 233; 122] ++ [0]) /\ call true 100 (encode [104; 233; 122] ++ [0]) = Ok (encode [72; 233; 90] ++ [0]).
Proof. split; [repeat (constructor; [split; [split; [discriminate|intros (? & ?); discriminate || (vm_compute in *; congruence)]|discriminate]|]); constructor|]. split; vm_compute; reflexivity. Qed.
