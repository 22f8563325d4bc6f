(** The model's reading of bit patterns is the one of the specification. *)
Require Import Coq.ZArith.ZArith Coq.QArith.QArith Coq.QArith.Qabs Coq.QArith.Qpower Coq.Lists.List Coq.Bool.Bool Coq.micromega.Lia Coq.micromega.Lqa.
Require Import Verif.Base Verif.Number_Model Verif.Real_Model Verif.Real_Spec Verif.Real_Proofs.
Import ListNotations.
Local Open Scope Z_scope.

Definition qv (z : Z) : Q := (inject_Z z * power (-1074))%Q.
Lemma two_neq : ~ (2 # 1 == 0)%Q. Proof. intros H. discriminate H. Qed.
Lemma power_plus : forall a b, (power (a + b) == power a * power b)%Q.
Proof. intros a b. apply Qpower_plus. apply two_neq. Qed.
Lemma power_Z : forall a, 0 <= a -> (power a == inject_Z (2 ^ a))%Q.
Proof. intros a H. rewrite Zpower_Qpower by exact H. reflexivity. Qed.
Lemma power_pos : forall a, (0 < power a)%Q.
Proof. intros a. apply Qpower_0_lt. reflexivity. Qed.
Global Opaque power.
Lemma qv_one : (qv one == 1)%Q.
Proof. unfold qv. rewrite one_pow. rewrite <- power_Z by lia. rewrite <- power_plus. reflexivity. Qed.
Lemma qv_int : forall z, (qv (z * one) == inject_Z z)%Q.
Proof. intros z. unfold qv. rewrite inject_Z_mult. rewrite <- Qmult_assoc. fold (qv one). rewrite qv_one. ring. Qed.
Lemma qv_0 : (qv 0 == 0)%Q. Proof. unfold qv. ring. Qed.
Lemma qv_add : forall a b, (qv (a + b) == qv a + qv b)%Q. Proof. intros. unfold qv. rewrite inject_Z_plus. ring. Qed.
Lemma qv_opp : forall a, (qv (- a) == - qv a)%Q. Proof. intros. unfold qv. rewrite inject_Z_opp. ring. Qed.
Lemma qv_sub : forall a b, (qv (a - b) == qv a - qv b)%Q. Proof. intros. unfold Z.sub. rewrite qv_add, qv_opp. ring. Qed.
Lemma qv_le : forall a b, a <= b <-> (qv a <= qv b)%Q.
Proof. intros a b. unfold qv. rewrite (Zle_Qle a b). symmetry. apply Qmult_le_r. apply power_pos. Qed.
Lemma qv_lt : forall a b, a < b <-> (qv a < qv b)%Q.
Proof. intros a b. unfold qv. rewrite (Zlt_Qlt a b). symmetry. apply Qmult_lt_r. apply power_pos. Qed.
Lemma qv_nonneg : forall a, 0 <= a -> (0 <= qv a)%Q.
Proof. intros a H. apply qv_le in H. rewrite qv_0 in H. exact H. Qed.
Lemma qv_nonpos : forall a, a <= 0 -> (qv a <= 0)%Q.
Proof. intros a H. apply qv_le in H. rewrite qv_0 in H. exact H. Qed.
Lemma qv_abs : forall a, (qv (Z.abs a) == Qabs (qv a))%Q.
Proof.
  intros a. destruct (Z_le_dec 0 a) as [H|H].
  - rewrite Z.abs_eq by lia. rewrite Qabs_pos; [reflexivity|]. now apply qv_nonneg.
  - rewrite Z.abs_neq by lia. rewrite qv_opp. rewrite Qabs_neg; [reflexivity|]. apply qv_nonpos. lia.
Qed.
Lemma qv_eq : forall a b, a = b <-> (qv a == qv b)%Q.
Proof.
  intros a b. split; [intros ->; reflexivity|]. intros H. pose proof (qv_le a b) as L1. pose proof (qv_le b a) as L2.
  assert (A : (qv a <= qv b)%Q) by (rewrite H; apply Qle_refl). assert (B : (qv b <= qv a)%Q) by (rewrite H; apply Qle_refl). apply L1 in A. apply L2 in B. lia.
Qed.

(** What the model decodes is what the bits mean. *)
Definition agree (x : fval) (e : ext) : Prop :=
  match x, e with
  | NaN, NotANumber => True
  | Inf true, Minus | Inf false, Plus => True
  | Fin neg m, Real q => 0 <= m /\ (q == qv (sval neg m))%Q
  | _, _ => False
  end.
Lemma bits_split : forall f b, pattern (layout_of f) b -> let c := b mod sign_bit f in
  negative (layout_of f) b = (sign_bit f <=? b) /\ exponent_field (layout_of f) b = c / hid f /\ fraction_field (layout_of f) b = c mod hid f /\ 0 <= c < 2 ^ (fbits f - 1).
Proof.
  intros f b Hb c. assert (HS : 0 < sign_bit f) by (destruct f; reflexivity). assert (HR : 0 <= b < 2 * sign_bit f) by (destruct f; exact Hb).
  pose proof (Z.mod_pos_bound b (sign_bit f) HS) as MB. pose proof (Z.div_mod b (sign_bit f) ltac:(lia)) as DM. fold c in MB, DM.
  assert (HH : sign_bit f = hid f * 2 ^ exponent_bits (layout_of f)) by (destruct f; reflexivity).
  assert (HP := hid_pos f). assert (HE : 0 < 2 ^ exponent_bits (layout_of f)) by (destruct f; reflexivity).
  assert (HF : 2 ^ fraction_bits (layout_of f) = hid f) by (destruct f; reflexivity).
  assert (HN : 2 ^ (fraction_bits (layout_of f) + exponent_bits (layout_of f)) = sign_bit f) by (destruct f; reflexivity).
  split; [|split; [|split]].
  - unfold negative. rewrite HN. destruct (Z.leb_spec (sign_bit f) b).
    + assert (b / sign_bit f = 1) as -> by (symmetry; apply Z.div_unique with (b - sign_bit f); lia). reflexivity.
    + rewrite Z.div_small by lia. reflexivity.
  - unfold exponent_field. rewrite HF. rewrite (Z.div_mod b (sign_bit f)) at 1 by lia. fold c. rewrite HH at 1.
    replace (hid f * 2 ^ exponent_bits (layout_of f) * (b / sign_bit f) + c) with (c + 2 ^ exponent_bits (layout_of f) * (b / sign_bit f) * hid f) by ring.
    rewrite Z.div_add by lia. rewrite (Z.mul_comm (2 ^ _) (b / _)). rewrite Z.mod_add by lia. apply Z.mod_small. split; [apply Z.div_pos; lia|]. apply Z.div_lt_upper_bound; [lia|]. rewrite <- HH. lia.
  - unfold fraction_field. rewrite HF. rewrite (Z.div_mod b (sign_bit f)) at 1 by lia. fold c. rewrite HH at 1.
    replace (hid f * 2 ^ exponent_bits (layout_of f) * (b / sign_bit f) + c) with (c + 2 ^ exponent_bits (layout_of f) * (b / sign_bit f) * hid f) by ring. apply Z.mod_add. lia.
  - exact MB.
Qed.

Lemma mag_meaning : forall f c, 0 <= c -> let e := c / hid f in let m := (inject_Z (c mod hid f) * power (- fraction_bits (layout_of f)))%Q in
  (qv (mag f c) == if e =? 0 then m * power (1 - bias (layout_of f)) else (1 + m) * power (e - bias (layout_of f)))%Q.
Proof.
  intros f c Hc e m. rewrite mag_eq. cbv zeta. fold e. pose proof (hid_pos f) as HP. pose proof (unit_pos f) as HU. assert (He : 0 <= e) by (apply Z.div_pos; lia).
  destruct (Z.eqb_spec e 0) as [E|E].
  - unfold qv, m. rewrite inject_Z_mult, <- power_Z by lia. rewrite <- !Qmult_assoc, <- !power_plus. replace (unit f + -1074) with (- fraction_bits (layout_of f) + (1 - bias (layout_of f))) by (destruct f; reflexivity). reflexivity.
  - unfold qv, m. rewrite inject_Z_mult, inject_Z_plus, <- power_Z by lia. unfold hid at 2. rewrite <- (power_Z (prec f - 1)) by (destruct f; cbn; lia).
    assert (X : (1 == power (prec f - 1) * power (- fraction_bits (layout_of f)))%Q) by (rewrite <- power_plus; destruct f; reflexivity).
    assert (W : (1 + inject_Z (c mod hid f) * power (- fraction_bits (layout_of f)) == (inject_Z (c mod hid f) + power (prec f - 1)) * power (- fraction_bits (layout_of f)))%Q) by (rewrite Qmult_plus_distr_l, <- X; ring).
    rewrite W. replace (e - bias (layout_of f)) with ((e - 1 + unit f) + -1074 + fraction_bits (layout_of f)) by (destruct f; cbn; lia).
    rewrite (power_plus _ (fraction_bits (layout_of f))), (power_plus (e - 1 + unit f)). assert (Y : (power (- fraction_bits (layout_of f)) * power (fraction_bits (layout_of f)) == 1)%Q) by (rewrite <- power_plus; destruct f; reflexivity).
    transitivity ((inject_Z (c mod hid f) + power (prec f - 1)) * power (e - 1 + unit f) * power (-1074) * 1)%Q; [ring|].
    rewrite <- Y. ring.
Qed.

Lemma meaning_decode : forall f b, pattern (layout_of f) b -> agree (decode f b) (meaning (layout_of f) b).
Proof.
  intros f b Hb. destruct (bits_split f b Hb) as (N1 & E1 & F1 & R1). set (c := b mod sign_bit f) in *. unfold meaning, decode. rewrite N1, E1, F1. cbv zeta. fold c.
  set (neg := sign_bit f <=? b). pose proof (hid_pos f) as HP. assert (HT : 2 ^ exponent_bits (layout_of f) - 1 = top f) by (destruct f; reflexivity). rewrite HT.
  pose proof (Z.div_mod c (hid f) ltac:(lia)) as DM. pose proof (Z.mod_pos_bound c (hid f) HP) as MB.
  assert (HC : c < (top f + 1) * hid f) by (destruct f; exact (proj2 R1)).
  assert (HD : c / hid f <= top f) by (apply Z.lt_succ_r; apply Z.div_lt_upper_bound; lia).
  destruct (Z.eqb_spec (c / hid f) (top f)) as [E|E].
  - assert (L : inf f <= c) by (rewrite inf_eq; nia). destruct (Z.ltb_spec c (inf f)); [lia|]. destruct (Z.eqb_spec (c mod hid f) 0) as [Z0|Z0].
    + destruct (Z.eqb_spec c (inf f)) as [|N]; [destruct neg; exact Logic.I|]. rewrite inf_eq in N. nia.
    + destruct (Z.eqb_spec c (inf f)) as [C|C]; [|exact Logic.I]. rewrite inf_eq in C. nia.
  - destruct (Z.ltb_spec c (inf f)) as [L|L]; [|rewrite inf_eq in L; nia]. pose proof (mag_meaning f c (proj1 R1)) as M. cbv zeta in M. cbn [agree]. split; [apply mag_pos; lia|].
    unfold sval. destruct neg; [rewrite qv_opp|]; rewrite M; reflexivity.
Qed.

(** Patterns made by the model. *)
Lemma with_sign_pattern : forall f neg b, 0 <= b <= inf f -> pattern (layout_of f) (with_sign f neg b).
Proof.
  intros f neg b Hb. unfold pattern, with_sign. assert (HS : inf f < sign_bit f) by (destruct f; reflexivity).
  assert (HE : 2 ^ (1 + fraction_bits (layout_of f) + exponent_bits (layout_of f)) = 2 * sign_bit f) by (destruct f; reflexivity). rewrite HE. destruct neg; lia.
Qed.
Lemma decode_with_sign : forall f neg b, 0 <= b <= inf f -> decode f (with_sign f neg b) = if b <? inf f then Fin neg (mag f b) else Inf neg.
Proof.
  intros f neg b Hb. unfold decode, with_sign. assert (HS : inf f < sign_bit f) by (destruct f; reflexivity). assert (HI : 0 < inf f) by (destruct f; reflexivity).
  destruct neg.
  - destruct (Z.leb_spec (sign_bit f) (sign_bit f + b)); [|lia]. replace ((sign_bit f + b) mod sign_bit f) with b by (apply Z.mod_unique with 1; lia). cbv zeta. destruct (Z.ltb_spec b (inf f)); [reflexivity|]. destruct (Z.eqb_spec b (inf f)); [reflexivity|lia].
  - destruct (Z.leb_spec (sign_bit f) b); [lia|]. rewrite Z.mod_small by lia. cbv zeta. destruct (Z.ltb_spec b (inf f)); [reflexivity|]. destruct (Z.eqb_spec b (inf f)); [reflexivity|lia].
Qed.
(** Every pattern that is a number is made so. *)
Lemma pattern_form : forall f b, pattern (layout_of f) b -> decode f b <> NaN -> exists neg c, 0 <= c <= inf f /\ b = with_sign f neg c.
Proof.
  intros f b Hb HN. unfold decode in HN. cbv zeta in HN. set (c := b mod sign_bit f) in *. assert (HS : 0 < sign_bit f) by (destruct f; reflexivity). assert (HR : 0 <= b < 2 * sign_bit f) by (destruct f; exact Hb).
  pose proof (Z.mod_pos_bound b (sign_bit f) HS) as MB. fold c in MB. exists (sign_bit f <=? b), c. split.
  - destruct (Z.ltb_spec c (inf f)); [lia|]. destruct (Z.eqb_spec c (inf f)); [lia|]. congruence.
  - unfold with_sign, c. destruct (Z.leb_spec (sign_bit f) b).
    + rewrite <- (Z.mod_unique b (sign_bit f) 1 (b - sign_bit f)) by lia. lia.
    + now rewrite Z.mod_small by lia.
Qed.
