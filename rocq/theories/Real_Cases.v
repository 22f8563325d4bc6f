(** Cases computed. *)
Require Import Coq.ZArith.ZArith Coq.NArith.NArith Coq.QArith.QArith Coq.QArith.Qabs Coq.Lists.List Coq.micromega.Lia.
Require Import Verif.Base Verif.Number_Model Verif.Number_Spec Verif.Strtonum_Model Verif.Strtonum_Spec Verif.Stream_Spec Verif.Real_Model Verif.Real_Spec Verif.Real_Proofs Verif.Real_Conv Verif.Real_Order.
Import ListNotations.
Local Open Scope Z_scope.

Ltac now_vm := vm_compute; repeat split; try reflexivity; try discriminate; auto.
Lemma int_case : integer_type int32 /\ holds int32 16777217 /\ holds int32 16777219 /\
  cast (TI int32) (TF Single) 16777217 = Ok 1266679808 /\ cast (TI int32) (TF Single) 16777219 = Ok 1266679810.
Proof. split; [cbn; auto|]. split; [now_vm|]. split; [now_vm|]. split; vm_compute; reflexivity. Qed.
Lemma truncate : (same (value_of (TF Double) 4756540486875873280) (Real 10000000000) /\ get (TI int32) (mkR (TF Double) [4756540486875873280]) = UB) /\
  (value_of (TF Double) 9221120237041090560 = NotANumber /\ get (TI int64) (mkR (TF Double) [9221120237041090560]) = UB) /\
  (same (value_of (TF Double) 4602678819172646912) (Real (1 # 2)) /\ get_bool (mkR (TF Double) [4602678819172646912]) = Ok false).
Proof. split; [|split]; split; vm_compute; reflexivity. Qed.
Lemma truncate_case : pattern double 13836746905142427648 /\ same (meaning double 13836746905142427648) (Real (- (11 # 4))) /\ get (TI int32) (mkR (TF Double) [13836746905142427648]) = Ok (-2).
Proof. split; [now_vm|]. split; vm_compute; reflexivity. Qed.
Lemma integer_back : forall f t z, integer_type t -> holds t z -> significant (fraction_bits (layout_of f) + 1) z ->
  exists b, cast (TI t) (TF f) z = Ok b /\ cast (TF f) (TI t) b = Ok z.
Proof. intros f t z Ht Hz HS. destruct (int_back f t z Ht Hz) as (b & E & _ & B); [destruct f; exact HS|]. exists b. auto. Qed.
Lemma back :
  (exists b, cast (TI int64) (TF Double) 9007199254740993 = Ok b /\ cast (TF Double) (TI int64) b = Ok 9007199254740992) /\
  (exists b, cast (TI int64) (TF Double) 9223372036854775807 = Ok b /\ cast (TF Double) (TI int64) b = UB).
Proof. split; [exists 4845873199050653696|exists 4890909195324358656]; split; vm_compute; reflexivity. Qed.
Lemma back_case : significant (fraction_bits double + 1) (- (3 * 2 ^ 60)) /\ holds int64 (- (3 * 2 ^ 60)) /\ proper (meaning float 1036831949) /\
  (Qabs (1 # 10) <= largest float)%Q /\ cast (TF Double) (TF Single) 4591870180066957722 = Ok 1036831949.
Proof. split; [exists (-3), 60; split; [vm_compute; discriminate|split; [lia|reflexivity]]|]. split; [now_vm|]. split; [intros X; vm_compute in X; discriminate X|]. split; [vm_compute; discriminate|vm_compute; reflexivity]. Qed.
Lemma order : let real b := mkR (TF Double) [b] in
  (equal (real 9221120237041090560) (real 4607182418800017408) = Ok true /\ equal (real 9221120237041090560) (real 4611686018427387904) = Ok true /\ equal (real 4607182418800017408) (real 4611686018427387904) = Ok false) /\
  (equal (real 0) (real 9223372036854775808) = Ok true /\ hash (real 0) <> hash (real 9223372036854775808)).
Proof. cbv zeta. split; [split; [|split]|split]; vm_compute; try reflexivity; discriminate. Qed.
Lemma order_case : Forall (element (TF Double)) [4607182418800017408; 13836746905142427648] /\ Forall (fun x => proper (value_of (TF Double) x)) [4607182418800017408; 13836746905142427648; 4607182418800017408; 4602678819172646912] /\
  compare (mkR (TF Double) [4607182418800017408; 13836746905142427648]) (mkR (TF Double) [4607182418800017408; 4602678819172646912]) = Ok 1.
Proof.
  split; [repeat apply Forall_cons; try apply Forall_nil; now_vm|]. split; [repeat apply Forall_cons; try apply Forall_nil; intros X; vm_compute in X; discriminate X|]. vm_compute. reflexivity.
Qed.
Lemma mixed : let int z := mkR (TI int64) [z] in let real b := mkR (TF Double) [b] in
  (equal (int 1) (real 4609434218613702656) = Ok true /\ equal (real 4609434218613702656) (int 1) = Ok false) /\
  compare (mkR (TI int32) [1]) (real 4756540486875873280) = UB /\
  (equal (int 9007199254740992) (real 4845873199050653696) = Ok true /\ equal (real 4845873199050653696) (int 9007199254740993) = Ok true /\ equal (int 9007199254740992) (int 9007199254740993) = Ok false).
Proof. cbv zeta. split; [split|split; [|split; [|split]]]; vm_compute; reflexivity. Qed.
Lemma mixed_case : can_hold (TF Double) (value_of (TI int32) 3) /\ compare (mkR (TF Double) [4609434218613702656]) (mkR (TI int32) [3]) = Ok 1.
Proof. split; [exists 4613937818241073152; split; [now_vm|vm_compute; reflexivity]|vm_compute; reflexivity]. Qed.
Lemma not_nearest : exists b q, read (fun _ => 0) [48; 46; 49; 53; 44]%N = Ok (b, [44%N]) /\ meaning double b = Real q /\ ~ nearest double (15 # 100) q.
Proof.
  exists 4594572339843380020. eexists. split; [vm_compute; reflexivity|]. split; [vm_compute; reflexivity|]. intros N.
  assert (P : pattern double 4594572339843380019) by now_vm. specialize (N 4594572339843380019 _ P eq_refl). revert N. vm_compute. intros N. apply N. reflexivity.
Qed.
Lemma read_case : Forall digit [49; 50]%N /\ value [49; 50]%N = 12 /\ Forall digit [51; 55; 53]%N /\ ends [44%N] /\ (number [49; 50]%N [51; 55; 53]%N == 99 # 8)%Q /\
  exists b, read (fun _ => 0) [45; 49; 50; 46; 51; 55; 53; 44]%N = Ok (b, [44%N]) /\ same (meaning double b) (Real (- (99 # 8))).
Proof.
  split; [repeat apply Forall_cons; try apply Forall_nil; now_vm|]. split; [reflexivity|]. split; [repeat apply Forall_cons; try apply Forall_nil; now_vm|]. split; [cbn; unfold digit; lia|]. split; [reflexivity|].
  exists 13846528160583122944. split; vm_compute; reflexivity.
Qed.
Lemma print_read :
  print Double 4502148214488346440 = Ok [48; 46; 48]%N /\
  (exists t, print Double 4890909195324358656 = Ok t /\ read (fun _ => 0) (t ++ [44%N]) = UB) /\
  print Double 6297380774879948160 = UB /\
  (print Double 9221120237041090560 = Ok [110; 97; 110]%N /\ read (fun _ => 0) [110; 97; 110; 44]%N = Ok (0, [110; 97; 110; 44]%N)).
Proof.
  split; [vm_compute; reflexivity|]. split; [|split; [vm_compute; reflexivity|split; vm_compute; reflexivity]].
  exists [57; 50; 50; 51; 51; 55; 50; 48; 51; 54; 56; 53; 52; 55; 55; 53; 56; 48; 56; 46; 48]%N. split; vm_compute; reflexivity.
Qed.
Lemma print_case : print Double 13836746905142427648 = Ok [45; 50; 46; 55; 53]%N /\
  print Double 4756540486875873280 = Ok [49; 48; 48; 48; 48; 48; 48; 48; 48; 48; 48; 46; 48]%N.
Proof. split; vm_compute; reflexivity. Qed.
