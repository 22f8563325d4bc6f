(** Conversions and comparisons. *)
Require Import Coq.ZArith.ZArith Coq.QArith.QArith Coq.QArith.Qabs Coq.Lists.List Coq.Bool.Bool Coq.micromega.Lia Coq.micromega.Lqa.
Require Import Verif.Base Verif.Number_Model Verif.Number_Spec Verif.Number_Proofs Verif.Real_Model Verif.Real_Spec Verif.Real_Proofs Verif.Real_Meaning.
Import ListNotations.
Local Open Scope Z_scope.

Lemma agree_real : forall f b q, pattern (layout_of f) b -> meaning (layout_of f) b = Real q -> exists neg c, 0 <= c < inf f /\ b = with_sign f neg c /\ decode f b = Fin neg (mag f c) /\ (q == qv (sval neg (mag f c)))%Q.
Proof.
  intros f b q Hb Hm. pose proof (meaning_decode f b Hb) as A. rewrite Hm in A. destruct (decode f b) as [|g|g m] eqn:D; [destruct A|destruct g; destruct A|]. cbn in A.
  destruct (pattern_form f b Hb) as (neg & c & Hc & E); [rewrite D; discriminate|]. pose proof (decode_with_sign f neg c Hc) as D'. rewrite <- E, D in D'.
  destruct (Z.ltb_spec c (inf f)); [|discriminate]. injection D' as -> ->. exists neg, c. split; [lia|]. split; [exact E|]. split; [reflexivity|]. apply A.
Qed.
Lemma meaning_fin : forall f neg c, 0 <= c < inf f -> exists q, meaning (layout_of f) (with_sign f neg c) = Real q /\ (q == qv (sval neg (mag f c)))%Q.
Proof.
  intros f neg c Hc. pose proof (with_sign_pattern f neg c ltac:(lia)) as P. pose proof (meaning_decode f _ P) as A. rewrite decode_with_sign in A by lia.
  destruct (Z.ltb_spec c (inf f)); [|lia]. destruct (meaning (layout_of f) (with_sign f neg c)) as [| |q|]; cbn in A; try contradiction. exists q. split; [reflexivity|apply A].
Qed.

Lemma fin_form : forall f z, Z.abs z <= mag f (inf f - 1) -> 0 <= round f (Z.abs z) 1 < inf f.
Proof. intros f z H. pose proof (round_pos f (Z.abs z) 1 ltac:(lia) ltac:(lia)). pose proof (round_fits f (Z.abs z) 1 ltac:(lia) ltac:(lia) ltac:(lia)). lia. Qed.
Lemma fin_nearest : forall f z, Z.abs z <= mag f (inf f - 1) -> exists q, pattern (layout_of f) (fin f z) /\ meaning (layout_of f) (fin f z) = Real q /\ (q == qv (sval (z <? 0) (mag f (round f (Z.abs z) 1))))%Q /\ nearest (layout_of f) (qv z) q.
Proof.
  intros f z H. pose proof (fin_form f z H) as R. destruct (meaning_fin f (z <? 0) _ R) as (q & M & E). exists q. split; [apply with_sign_pattern; lia|]. split; [exact M|]. split; [exact E|].
  intros b r Hb Hr. destruct (agree_real f b r Hb Hr) as (neg & c & Hc & _ & _ & Er). rewrite E, Er. rewrite <- !qv_sub, <- !qv_abs. apply (proj1 (qv_le _ _)).
  pose proof (round_nearest f (Z.abs z) 1 c ltac:(lia) ltac:(lia) ltac:(lia) ltac:(lia)) as N1. pose proof (round_nearest f (Z.abs z) 1 0 ltac:(lia) ltac:(lia) ltac:(lia) ltac:(lia)) as N0. rewrite mag_0 in N0.
  pose proof (mag_pos f c ltac:(lia)). pose proof (mag_pos f _ (proj1 R)). set (y := mag f (round f (Z.abs z) 1)) in *. unfold sval. set (m := mag f c) in *. clearbody y m. clear - N1 N0 H0 H1. destruct (Z.ltb_spec z 0); destruct neg; lia.
Qed.
Lemma int_big : forall f z, Z.abs z <= 2 ^ 64 -> Z.abs (z * one) <= mag f (inf f - 1).
Proof. intros f z H. rewrite Z.abs_mul. rewrite (Z.abs_eq one) by (pose proof one_pos; lia). apply big_int. lia. Qed.
Lemma holds_64 : forall t z, integer_type t -> holds t z -> Z.abs z <= 2 ^ 64.
Proof.
  intros t z Ht Hz. unfold holds in Hz. assert (B : 0 < bits t <= 64). { unfold bits. unfold integer_type in Ht. cbn [In] in Ht. lia. }
  destruct (signed t).
  - assert (2 ^ (bits t - 1) <= 2 ^ 64) by (apply Z.pow_le_mono_r; lia). lia.
  - assert (2 ^ bits t <= 2 ^ 64) by (apply Z.pow_le_mono_r; lia). lia.
Qed.

Lemma int_nearest : forall f z, Z.abs z <= 2 ^ 64 -> exists q, pattern (layout_of f) (of_int f z) /\ meaning (layout_of f) (of_int f z) = Real q /\ nearest (layout_of f) (inject_Z z) q.
Proof.
  intros f z H. destruct (fin_nearest f (z * one) (int_big f z H)) as (q & P & M & _ & N). exists q. split; [exact P|]. split; [exact M|].
  intros b r Hb Hr. pose proof (N b r Hb Hr) as X. rewrite qv_int in X. exact X.
Qed.
(** An order that is kept by nearest values: no model in it. *)
Lemma nearest_mono : forall l x y q r bq br, nearest l x q -> nearest l y r -> pattern l bq -> meaning l bq = Real q -> pattern l br -> meaning l br = Real r -> (x < y)%Q -> (q <= r)%Q.
Proof.
  intros l x y q r bq br Nx Ny Pq Mq Pr Mr L. destruct (Qlt_le_dec r q) as [C|C]; [exfalso|exact C]. pose proof (Nx _ _ Pr Mr) as A. pose proof (Ny _ _ Pq Mq) as B.
  revert A B. apply (Qabs_case (x - q)); intros ?; apply (Qabs_case (x - r)); intros ?; intros A; apply (Qabs_case (y - r)); intros ?; apply (Qabs_case (y - q)); intros ? B; lra.
Qed.

(** Numbers that a format has. *)
Lemma repr_raw : forall f k q, 0 <= k <= 2 * hid f -> unit f + (prec f - 1) <= q -> exists c, 0 <= c /\ mag f c = k * 2 ^ q.
Proof.
  intros f k q Hk Hq. pose proof (hid_pos f) as HP. destruct (Z.eq_dec k 0) as [->|N]; [exists 0; split; [lia|]; rewrite mag_0; ring|].
  assert (Hp : 0 <= prec f - 1) by (destruct f; cbn; lia). pose proof (unit_pos f) as HU.
  destruct (Z_le_dec (hid f) k) as [G|G].
  - exists ((q - unit f) * hid f + k). split; [nia|]. apply mag_form; lia.
  - assert (H0 : Z.log2 k < prec f - 1) by (apply Z.log2_lt_pow2; [lia|]; unfold hid in G; lia). pose proof (Z.log2_nonneg k) as HL. pose proof (Z.log2_spec k ltac:(lia)) as LS.
    set (s := prec f - 1 - Z.log2 k). assert (Hs : 0 <= s) by (unfold s; lia). assert (P1 : hid f = 2 ^ s * 2 ^ Z.log2 k) by (unfold hid; rewrite <- Z.pow_add_r by lia; f_equal; unfold s; lia).
    assert (0 < 2 ^ s) by (apply Z.pow_pos_nonneg; lia). replace (2 ^ Z.succ (Z.log2 k)) with (2 * 2 ^ Z.log2 k) in LS by (rewrite Z.pow_succ_r; lia).
    exists ((q - s - unit f) * hid f + k * 2 ^ s). split; [unfold s; nia|]. rewrite mag_form; [|unfold s; lia|nia|right; nia].
    rewrite <- Z.mul_assoc, <- Z.pow_add_r by (unfold s; lia). do 2 f_equal. lia.
Qed.
Lemma repr_int : forall f z, significant (prec f) z -> Z.abs z <= 2 ^ 64 -> exists c, 0 <= c < inf f /\ mag f c = Z.abs z * one.
Proof.
  intros f z (k & j & Hk & Hj & E) Hz. rewrite hid2 in Hk. destruct (repr_raw f (Z.abs k) (1074 + j)) as (c & Hc & M); [lia|destruct f; cbn [unit prec]; lia|].
  assert (X : mag f c = Z.abs z * one). { rewrite M, E, one_pow, Z.abs_mul, (Z.abs_eq (2 ^ j)) by (apply Z.pow_nonneg; lia). rewrite (Z.add_comm 1074), Z.pow_add_r by lia. ring. }
  exists c. split; [|exact X]. split; [exact Hc|]. assert (L : mag f c <= mag f (inf f - 1)) by (rewrite X; apply big_int; lia). apply mag_le_inv in L; [lia|lia|destruct f; vm_compute; discriminate].
Qed.
(** Conversion of an integer whose value the format has. *)
Lemma of_int_exact : forall f z c, 0 <= c <= inf f -> mag f c = Z.abs z * one -> of_int f z = with_sign f (z <? 0) c.
Proof.
  intros f z c Hc M. pose proof one_pos as HO. unfold of_int, fin. rewrite Z.abs_mul, (Z.abs_eq one) by lia. rewrite <- M. rewrite <- (Z.mul_1_r (mag f c)). rewrite round_exact by lia.
  f_equal. destruct (Z.ltb_spec z 0), (Z.ltb_spec (z * one) 0); try reflexivity; nia.
Qed.

(** Truncation. *)
Lemma low_high : forall t z, integer_type t -> ((lowest t <=? z) && (z <=? highest t) = true <-> holds t z).
Proof.
  intros t z Ht. unfold lowest, highest, holds. rewrite full_bits. destruct (half t Ht) as (H1 & H2 & H3). rewrite H2. rewrite andb_true_iff, Z.leb_le, Z.leb_le. destruct (signed t); lia.
Qed.
Lemma qv_floor : forall m, 0 <= m -> (inject_Z (m / one) <= qv m)%Q /\ (qv m < inject_Z (m / one) + 1)%Q.
Proof.
  intros m Hm. pose proof one_pos as HO. pose proof (Z.div_mod m one ltac:(lia)) as DM. pose proof (Z.mod_pos_bound m one HO) as MB.
  assert (A : (qv (m / one * one) <= qv m)%Q) by (apply (proj1 (qv_le _ _)); lia). assert (B : (qv m < qv ((m / one + 1) * one))%Q) by (apply (proj1 (qv_lt _ _)); lia). rewrite qv_int in A, B. rewrite inject_Z_plus in B. split; [exact A|exact B].
Qed.
Lemma trunc_bounds : forall q z, truncated q z -> (q < inject_Z (z + 1))%Q /\ (inject_Z (z - 1) < q)%Q /\ ((0 <= q)%Q -> inject_Z z <= q)%Q /\ ((q <= 0)%Q -> q <= inject_Z z)%Q.
Proof.
  intros q z [(A1 & A2 & A3)|(A1 & A2 & A3)]; replace (z - 1) with (z + -1) by lia; rewrite !inject_Z_plus; change (inject_Z 1) with (1#1)%Q; change (inject_Z (-1)) with (-1#1)%Q.
  - split; [lra|]. split; [lra|]. split; [lra|]. intros N. assert (E : (q == 0)%Q) by lra. assert (L : 0 < z + 1) by (rewrite Zlt_Qlt, inject_Z_plus; change (inject_Z 1) with (1#1)%Q; change (inject_Z 0) with (0#1)%Q; lra).
    assert (L' : 0 <= z) by lia. rewrite Zle_Qle in L'. change (inject_Z 0) with (0#1)%Q in L'. lra.
  - split; [lra|]. split; [lra|]. split; [|lra]. intros N. assert (E : (q == 0)%Q) by lra. assert (L : z + -1 < 0) by (rewrite Zlt_Qlt, inject_Z_plus; change (inject_Z (-1)) with (-1#1)%Q; change (inject_Z 0) with (0#1)%Q; lra).
    assert (L' : z <= 0) by lia. rewrite Zle_Qle in L'. change (inject_Z 0) with (0#1)%Q in L'. lra.
Qed.
Lemma truncated_unique : forall q y z, truncated q y -> truncated q z -> y = z.
Proof.
  intros q y z Hy Hz. apply trunc_bounds in Hy, Hz. destruct Hy as (A1 & A2 & A3 & A4), Hz as (B1 & B2 & B3 & B4). destruct (Qlt_le_dec q 0) as [N|N].
  - assert (NL : (q <= 0)%Q) by lra. specialize (A4 NL). specialize (B4 NL). assert (y - 1 < z) by (rewrite Zlt_Qlt; lra). assert (z - 1 < y) by (rewrite Zlt_Qlt; lra). lia.
  - specialize (A3 N). specialize (B3 N). assert (y < z + 1) by (rewrite Zlt_Qlt; lra). assert (z < y + 1) by (rewrite Zlt_Qlt; lra). lia.
Qed.
Lemma truncated_compat : forall q r z, (q == r)%Q -> truncated r z -> truncated q z.
Proof. intros q r z E H. unfold truncated in *. rewrite E. exact H. Qed.
Lemma trunc_sval : forall neg m, 0 <= m -> truncated (qv (sval neg m)) (if neg then - (m / one) else m / one).
Proof.
  intros neg m Hm. destruct (qv_floor m Hm) as (A & B). pose proof (qv_nonneg m Hm) as P. unfold truncated, sval. destruct neg.
  - right. rewrite qv_opp, inject_Z_opp. split; [lra|]. split; [lra|]. lra.
  - left. split; [exact P|]. split; assumption.
Qed.
Lemma to_int_ok : forall f t b q, integer_type t -> pattern (layout_of f) b -> meaning (layout_of f) b = Real q -> exists z, truncated q z /\ ((holds t z /\ to_int t (decode f b) = Ok z) \/ (~ holds t z /\ to_int t (decode f b) = UB)).
Proof.
  intros f t b q Ht Hb Hm. destruct (agree_real f b q Hb Hm) as (neg & c & Hc & _ & D & E). exists (if neg then - (mag f c / one) else mag f c / one).
  split; [eapply truncated_compat; [exact E|]; apply trunc_sval; apply mag_pos; lia|]. rewrite D. cbn [to_int]. destruct ((lowest t <=? _) && _) eqn:R.
  - left. split; [apply (low_high t _ Ht); exact R|reflexivity].
  - right. split; [|reflexivity]. intros H. apply (low_high t _ Ht) in H. congruence.
Qed.
Lemma trunc_int : forall z, truncated (inject_Z z) z.
Proof.
  intros z. unfold truncated. destruct (Z_le_dec 0 z) as [H|H].
  - left. rewrite Zle_Qle in H. change (inject_Z 0) with 0%Q in H. split; [exact H|]. split; lra.
  - right. assert (H' : z <= 0) by lia. rewrite Zle_Qle in H'. change (inject_Z 0) with 0%Q in H'. split; [exact H'|]. split; lra.
Qed.
