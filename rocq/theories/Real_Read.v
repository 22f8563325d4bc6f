(** Reading decimal fractions. *)
Require Import Coq.ZArith.ZArith Coq.NArith.NArith Coq.QArith.QArith Coq.QArith.Qabs Coq.Lists.List Coq.Bool.Bool Coq.micromega.Lia Coq.micromega.Lqa.
Require Import Verif.Base Verif.Number_Model Verif.Number_Spec Verif.Strtonum_Model Verif.Strtonum_Spec Verif.Strtonum_Proofs Verif.Stream_Spec Verif.Real_Model Verif.Real_Spec Verif.Real_Proofs Verif.Real_Meaning Verif.Real_Conv Verif.Real_Order.
Import ListNotations.
Local Open Scope Z_scope.

Lemma round_rel : forall n d, 0 <= n -> 0 < d -> n = 0 \/ 2 ^ 52 * d <= n \/ d = 1 -> round Double n d < inf Double -> 2 ^ 53 * Z.abs (n - mag Double (round Double n d) * d) <= n.
Proof.
  intros n d Hn Hd HC HR. destruct (round_spec Double n d Hn Hd) as (B & q & HB & Hq & R & S1 & U & C).
  assert (H2 : 0 < 2 ^ q) by (apply Z.pow_pos_nonneg; cbn [unit] in Hq; lia).
  assert (K : 2 * Z.abs (n - mag Double (round Double n d) * d) <= d * 2 ^ q).
  { destruct C as [(E & L)|(E & L)]; rewrite E in HR |- *; rewrite Z.min_l by lia; lia. }
  set (D := Z.abs (n - mag Double (round Double n d) * d)) in *. assert (0 <= D) by (unfold D; lia). change (2 ^ 53) with (2 ^ 52 * 2). set (P := 2 ^ 52) in *. assert (0 < P) by reflexivity.
  destruct U as [U|U].
  - cbn [unit] in U. subst q. change (2 ^ 0) with 1 in K. destruct HC as [Z0|[G|G]].
    + subst n. pose proof (round_exact Double 0 d ltac:(vm_compute; split; discriminate) Hd) as X. rewrite mag_0, Z.mul_0_l in X. unfold D. rewrite X, mag_0. lia.
    + nia.
    + subst d. assert (D = 0) by lia. lia.
  - cbn [prec] in U. replace (53 - 1) with 52 in U by lia. rewrite Z.pow_add_r in U by (cbn [unit] in Hq; lia). fold P in U. nia.
Qed.
Definition eps : Q := (1 # 9007199254740992)%Q.
Definition V (b : Z) : Q := qv (mag Double b).
Lemma V_pos : forall b, 0 <= b -> (0 <= V b)%Q. Proof. intros b H. apply qv_nonneg. now apply mag_pos. Qed.
Lemma qv_mul : forall a b, (qv (a * b) == qv a * inject_Z b)%Q. Proof. intros. unfold qv. rewrite inject_Z_mult. ring. Qed.
Lemma inject_pos : forall d, 0 < d -> (0 < inject_Z d)%Q. Proof. intros d H. rewrite Zlt_Qlt in H. exact H. Qed.
(** The relative error of an operation. *)
Lemma round_err : forall n d x, 0 <= n -> 0 < d -> n = 0 \/ 2 ^ 52 * d <= n \/ d = 1 -> round Double n d < inf Double -> (x * inject_Z d == qv n)%Q -> (V (round Double n d) - x <= x * eps /\ x - V (round Double n d) <= x * eps)%Q.
Proof.
  intros n d x Hn Hd HC HR E. pose proof (round_rel n d Hn Hd HC HR) as K. set (r := round Double n d) in *. pose proof (inject_pos d Hd) as PD.
  assert (K1 : n - mag Double r * d <= n /\ 2 ^ 53 * (n - mag Double r * d) <= n /\ 2 ^ 53 * (mag Double r * d - n) <= n) by lia. destruct K1 as (_ & K1 & K2).
  rewrite qv_le in K1, K2. rewrite Z.mul_comm, qv_mul, qv_sub, qv_mul in K1. rewrite Z.mul_comm, qv_mul, qv_sub, qv_mul in K2. fold (V r) in K1, K2. rewrite <- E in K1, K2.
  change (inject_Z (2 ^ 53)) with (9007199254740992 # 1)%Q in K1, K2. unfold eps. split.
  - apply (Qmult_le_r _ _ _ PD). setoid_replace ((V r - x) * inject_Z d)%Q with (V r * inject_Z d - x * inject_Z d)%Q by ring. setoid_replace (x * (1 # 9007199254740992) * inject_Z d)%Q with (x * inject_Z d * (1 # 9007199254740992))%Q by ring. lra.
  - apply (Qmult_le_r _ _ _ PD). setoid_replace ((x - V r) * inject_Z d)%Q with (x * inject_Z d - V r * inject_Z d)%Q by ring. setoid_replace (x * (1 # 9007199254740992) * inject_Z d)%Q with (x * inject_Z d * (1 # 9007199254740992))%Q by ring. lra.
Qed.
Lemma fits_Q : forall n d x, 0 <= n -> 0 < d -> (x * inject_Z d == qv n)%Q -> (x <= inject_Z (2 ^ 65))%Q -> round Double n d < inf Double.
Proof.
  intros n d x Hn Hd E L. apply round_fits; [exact Hn|exact Hd|]. apply Z.le_trans with (2 ^ 65 * one * d).
  - apply (proj2 (qv_le _ _)). rewrite qv_mul, qv_int, <- E. apply Qmult_le_r; [now apply inject_pos|exact L].
  - apply Z.mul_le_mono_nonneg_r; [lia|]. apply big_double. split; [apply Z.pow_nonneg; lia|]. apply Z.pow_le_mono_r; lia.
Qed.
(** Bits of numbers that are not negative. *)
Definition nn (b : Z) : Prop := 0 <= b < inf Double.
Lemma decode_nn : forall b, nn b -> decode Double b = Fin false (mag Double b).
Proof. intros b H. pose proof (decode_with_sign Double false b ltac:(unfold nn in H; lia)) as D. cbn [with_sign] in D. rewrite D. destruct (Z.ltb_spec b (inf Double)); [reflexivity|unfold nn in H; lia]. Qed.
Lemma round_nn : forall n d, 0 <= n -> 0 < d -> round Double n d < inf Double -> nn (round Double n d).
Proof. intros n d Hn Hd HR. pose proof (round_pos Double n d Hn Hd). unfold nn. lia. Qed.

Lemma add_ok : forall a b, nn a -> nn b -> (V a + V b <= inject_Z (2 ^ 65))%Q -> nn (add a b) /\ (V (add a b) - (V a + V b) <= (V a + V b) * eps)%Q /\ ((V a + V b) - V (add a b) <= (V a + V b) * eps)%Q.
Proof.
  intros a b Ha Hb L. unfold add. rewrite !decode_nn by assumption. cbn [sval andb]. pose proof (mag_pos Double a (proj1 Ha)) as Pa. pose proof (mag_pos Double b (proj1 Hb)) as Pb.
  assert (E : ((V a + V b) * inject_Z 1 == qv (mag Double a + mag Double b))%Q) by (rewrite qv_add; unfold V; change (inject_Z 1) with 1%Q; ring).
  pose proof (fits_Q (mag Double a + mag Double b) 1 (V a + V b)%Q ltac:(lia) ltac:(lia) E L) as F. pose proof (round_err (mag Double a + mag Double b) 1 (V a + V b)%Q ltac:(lia) ltac:(lia) ltac:(auto) F E) as R.
  destruct (Z.eqb_spec (mag Double a + mag Double b) 0) as [Z0|Z0].
  - cbn [with_sign]. assert (A0 : mag Double a = 0) by lia. assert (B0 : mag Double b = 0) by lia. unfold V. rewrite A0, B0, mag_0, qv_0. split; [split; [lia|reflexivity]|]. unfold eps. split; lra.
  - unfold fin. destruct (Z.ltb_spec (mag Double a + mag Double b) 0); [lia|]. cbn [with_sign]. rewrite Z.abs_eq by lia. split; [now apply round_nn; [lia|lia|]|]. exact R.
Qed.
Lemma int_ok : forall z, 0 <= z <= 2 ^ 64 -> nn (of_int Double z) /\ (V (of_int Double z) - inject_Z z <= inject_Z z * eps)%Q /\ (inject_Z z - V (of_int Double z) <= inject_Z z * eps)%Q.
Proof.
  intros z Hz. unfold of_int, fin. pose proof one_pos as HO. destruct (Z.ltb_spec (z * one) 0); [nia|]. cbn [with_sign]. rewrite Z.abs_eq by lia.
  assert (E : (inject_Z z * inject_Z 1 == qv (z * one))%Q) by (rewrite qv_int; change (inject_Z 1) with 1%Q; ring).
  assert (F : round Double (z * one) 1 < inf Double). { apply (fits_Q _ _ (inject_Z z)); [lia|lia|exact E|]. rewrite <- Zle_Qle. assert (2 ^ 64 <= 2 ^ 65) by (apply Z.pow_le_mono_r; lia). lia. }
  split; [apply round_nn; lia|]. apply (round_err _ 1 _); auto; lia.
Qed.
Lemma int_exact : forall z, 0 <= z <= 2 ^ 64 -> significant 53 z -> nn (of_int Double z) /\ mag Double (of_int Double z) = z * one.
Proof.
  intros z Hz HS. destruct (repr_int Double z HS ltac:(lia)) as (c & Hc & M). rewrite (of_int_exact Double z c) by (lia || exact M). destruct (Z.ltb_spec z 0); [lia|]. cbn [with_sign]. split; [exact Hc|]. rewrite M. lia.
Qed.
Lemma ten_significant : forall i, (i <= 22)%nat -> significant 53 (10 ^ Z.of_nat i).
Proof.
  intros i Hi. exists (5 ^ Z.of_nat i), (Z.of_nat i). split; [|split; [lia|]].
  - rewrite Z.abs_eq by (apply Z.pow_nonneg; lia). apply Z.le_trans with (5 ^ 22); [apply Z.pow_le_mono_r; lia|]. vm_compute. discriminate.
  - replace 10 with (5 * 2) by lia. apply Z.pow_mul_l.
Qed.
Lemma small_significant : forall z, 0 <= z <= 2 ^ 53 -> significant 53 z.
Proof. intros z Hz. exists z, 0. rewrite Z.pow_0_r. split; [lia|]. split; lia. Qed.
Lemma div_ok : forall d i, 0 <= d <= 9 -> (1 <= i <= 18)%nat -> let t := (inject_Z d / inject_Z (10 ^ Z.of_nat i))%Q in let r := div (of_int Double d) (of_int Double (10 ^ Z.of_nat i)) in
  nn r /\ (V r - t <= t * eps)%Q /\ (t - V r <= t * eps)%Q.
Proof.
  intros d i Hd Hi. cbv zeta. assert (T0 : 0 < 10 ^ Z.of_nat i <= 2 ^ 60) by (split; [apply Z.pow_pos_nonneg; lia|]; apply Z.le_trans with (10 ^ 18); [apply Z.pow_le_mono_r; lia|vm_compute; discriminate]).
  set (T := 10 ^ Z.of_nat i) in *. assert (HS : significant 53 T) by (apply ten_significant; lia).
  assert (B64 : 2 ^ 60 <= 2 ^ 64) by (apply Z.pow_le_mono_r; lia). assert (B53 : 9 <= 2 ^ 53) by (vm_compute; discriminate). assert (B9 : 9 <= 2 ^ 64) by (vm_compute; discriminate).
  destruct (int_exact T ltac:(lia) HS) as (N1 & M1). destruct (int_exact d ltac:(lia) (small_significant d ltac:(lia))) as (N2 & M2).
  unfold div. rewrite !decode_nn by assumption. rewrite M1, M2. pose proof one_pos as HO. destruct (Z.eqb_spec (T * one) 0); [nia|]. cbn [xorb with_sign].
  pose proof (inject_pos T ltac:(lia)) as PT. assert (TN : ~ (inject_Z T == 0)%Q) by (intros N; rewrite N in PT; apply (Qlt_irrefl 0); exact PT).
  assert (E : (inject_Z d / inject_Z T * inject_Z (T * one) == qv (d * one * one))%Q). { rewrite qv_mul, qv_int, inject_Z_mult. field. exact TN. }
  assert (TP : 0 < T * one) by nia.
  assert (C : d * one * one = 0 \/ 2 ^ 52 * (T * one) <= d * one * one \/ T * one = 1).
  { destruct (Z.eq_dec d 0) as [->|Nd]; [left; lia|right; left]. assert (2 ^ 112 <= one) by (rewrite one_pow; apply Z.pow_le_mono_r; lia). assert (2 ^ 52 * T <= 2 ^ 112) by (replace 112 with (52 + 60) by lia; rewrite Z.pow_add_r by lia; apply Z.mul_le_mono_nonneg_l; [apply Z.pow_nonneg|]; lia). nia. }
  assert (F : round Double (d * one * one) (T * one) < inf Double).
  { apply (fits_Q _ _ (inject_Z d / inject_Z T)%Q); [nia|exact TP|exact E|]. apply Qle_shift_div_r; [exact PT|]. rewrite <- inject_Z_mult, <- Zle_Qle. assert (9 <= 2 ^ 65) by (vm_compute; discriminate). nia. }
  split; [apply round_nn; [nia|exact TP|exact F]|]. apply round_err; auto. nia.
Qed.
