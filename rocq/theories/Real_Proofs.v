(** Rounding, and what bit patterns mean. *)
Require Import Coq.ZArith.ZArith Coq.QArith.QArith Coq.QArith.Qabs Coq.Lists.List Coq.Bool.Bool Coq.micromega.Lia Coq.micromega.Lqa.
Require Import Verif.Base Verif.Number_Model Verif.Real_Model Verif.Real_Spec.
Import ListNotations.
Local Open Scope Z_scope.

Global Opaque one.
Lemma one_pow : one = 2 ^ 1074. Proof. reflexivity. Qed.
Lemma one_pos : 0 < one. Proof. rewrite one_pow. apply Z.pow_pos_nonneg; lia. Qed.
Definition hid (f : fmt) : Z := 2 ^ (prec f - 1).
Lemma hid_pos : forall f, 0 < hid f. Proof. intros []; reflexivity. Qed.
Lemma hid2 : forall f, 2 ^ prec f = 2 * hid f. Proof. intros []; reflexivity. Qed.
Lemma unit_pos : forall f, 0 <= unit f. Proof. intros []; cbn; lia. Qed.
Lemma mag_eq : forall f b, mag f b = let e := b / hid f in let m := b mod hid f in if e =? 0 then m * 2 ^ unit f else (m + hid f) * 2 ^ (e - 1 + unit f).
Proof. reflexivity. Qed.
Lemma inf_eq : forall f, inf f = top f * hid f. Proof. reflexivity. Qed.

Lemma mag_form : forall f q k, unit f <= q -> 0 <= k <= 2 * hid f -> q = unit f \/ hid f <= k -> mag f ((q - unit f) * hid f + k) = k * 2 ^ q.
Proof.
  intros f q k Hq Hk Hc. pose proof (hid_pos f) as HP. pose proof (unit_pos f) as HU. rewrite mag_eq. cbv zeta. set (j := q - unit f) in *. assert (Hj : 0 <= j) by (unfold j; lia).
  destruct (Z_lt_dec k (hid f)) as [L|L].
  - assert (j = 0) by (unfold j; lia). replace (j * hid f + k) with k by lia. rewrite Z.div_small by lia. rewrite Z.mod_small by lia. cbn [Z.eqb]. f_equal. f_equal. unfold j in *; lia.
  - destruct (Z.eq_dec k (2 * hid f)) as [E|E].
    + replace (j * hid f + k) with ((j + 2) * hid f) by lia. rewrite Z.div_mul by lia. rewrite Z.mod_mul by lia.
      destruct (Z.eqb_spec (j + 2) 0); [lia|]. replace (j + 2 - 1 + unit f) with (q + 1) by (unfold j; lia). rewrite Z.pow_add_r by lia. rewrite E. change (2 ^ 1) with 2. ring.
    + replace (j * hid f + k) with ((k - hid f) + (j + 1) * hid f) by lia. rewrite Z.div_add by lia. rewrite Z.mod_add by lia.
      rewrite Z.div_small by lia. rewrite Z.mod_small by lia. destruct (Z.eqb_spec (0 + (j + 1)) 0); [lia|]. replace (0 + (j + 1) - 1 + unit f) with q by (unfold j; lia). f_equal. lia.
Qed.

Lemma form_of : forall f b, 0 <= b -> exists q k, unit f <= q /\ 0 <= k < 2 * hid f /\ (q = unit f \/ hid f <= k) /\ b = (q - unit f) * hid f + k.
Proof.
  intros f b Hb. pose proof (hid_pos f) as HP. destruct (Z_lt_dec b (hid f)) as [L|L].
  - exists (unit f), b. lia.
  - exists (b / hid f - 1 + unit f), (b mod hid f + hid f). pose proof (Z.mod_pos_bound b (hid f) HP) as M. pose proof (Z.div_mod b (hid f) ltac:(lia)) as D.
    assert (1 <= b / hid f) by (apply Z.div_le_lower_bound; lia). split; [lia|]. split; [lia|]. split; [lia|]. nia.
Qed.

Lemma mag_step : forall f b, 0 <= b -> mag f b < mag f (b + 1).
Proof.
  intros f b Hb. destruct (form_of f b Hb) as (q & k & Q1 & K1 & C & E). rewrite E. rewrite mag_form by lia.
  replace ((q - unit f) * hid f + k + 1) with ((q - unit f) * hid f + (k + 1)) by lia. rewrite mag_form by lia.
  assert (0 < 2 ^ q) by (apply Z.pow_pos_nonneg; pose proof (unit_pos f); lia). nia.
Qed.
Lemma mag_mono : forall f a b, 0 <= a -> a < b -> mag f a < mag f b.
Proof.
  intros f a b Ha Hb. replace b with (a + 1 + Z.of_nat (Z.to_nat (b - a - 1))) by lia. generalize (Z.to_nat (b - a - 1)) as n. clear b Hb.
  induction n as [|n IH].
  - rewrite Z.add_0_r. now apply mag_step.
  - eapply Z.lt_trans; [exact IH|]. replace (a + 1 + Z.of_nat (S n)) with ((a + 1 + Z.of_nat n) + 1) by lia. apply mag_step. lia.
Qed.
Lemma mag_mono_le : forall f a b, 0 <= a -> a <= b -> mag f a <= mag f b.
Proof. intros f a b Ha Hb. destruct (Z.eq_dec a b) as [->|N]; [lia|]. pose proof (mag_mono f a b Ha). lia. Qed.
Lemma mag_lt_inv : forall f a b, 0 <= a -> 0 <= b -> mag f a < mag f b -> a < b.
Proof. intros f a b Ha Hb H. destruct (Z_lt_dec a b); [easy|]. pose proof (mag_mono_le f b a Hb). lia. Qed.
Lemma mag_le_inv : forall f a b, 0 <= a -> 0 <= b -> mag f a <= mag f b -> a <= b.
Proof. intros f a b Ha Hb H. destruct (Z_le_dec a b); [easy|]. pose proof (mag_mono f b a Hb). lia. Qed.
Lemma mag_0 : forall f, mag f 0 = 0. Proof. intros []; reflexivity. Qed.
Lemma mag_pos : forall f b, 0 <= b -> 0 <= mag f b.
Proof. intros f b H. rewrite <- (mag_0 f). now apply mag_mono_le. Qed.

Lemma round_full : forall f n d, 0 <= n -> 0 < d -> exists B q, 0 <= B /\ unit f <= q /\ mag f B * d <= n < mag f (B + 1) * d /\ mag f (B + 1) = mag f B + 2 ^ q /\
  (q = unit f \/ 2 ^ (q + (prec f - 1)) * d <= n) /\
  ((round f n d = Z.min B (inf f) /\ 2 * (n - mag f B * d) <= d * 2 ^ q /\ (2 * (n - mag f B * d) = d * 2 ^ q -> Z.even B = true)) \/ (round f n d = Z.min (B + 1) (inf f) /\ 2 * (mag f (B + 1) * d - n) <= d * 2 ^ q /\ (2 * (mag f (B + 1) * d - n) = d * 2 ^ q -> Z.even (B + 1) = true))).
Proof.
  intros f n d Hn Hd. unfold round. cbv zeta. set (a := n / d). set (q := Z.max (unit f) (Z.log2 a - (prec f - 1))). fold (hid f).
  pose proof (hid_pos f) as HP. pose proof (unit_pos f) as HU. assert (Ha : 0 <= a) by (unfold a; apply Z.div_pos; lia).
  assert (Hq : unit f <= q) by (unfold q; lia). assert (H2q : 0 < 2 ^ q) by (apply Z.pow_pos_nonneg; lia).
  assert (HD : 0 < d * 2 ^ q) by nia. assert (Hprec : 1 < prec f) by (destruct f; cbn; lia).
  set (k := n / (d * 2 ^ q)). set (r := n mod (d * 2 ^ q)).
  assert (Ek : k = a / 2 ^ q) by (unfold k, a; rewrite Z.div_div by lia; reflexivity).
  assert (Hk0 : 0 <= k) by (unfold k; apply Z.div_pos; lia).
  pose proof (Z.div_mod n (d * 2 ^ q) ltac:(lia)) as DM. fold k in DM. fold r in DM. pose proof (Z.mod_pos_bound n (d * 2 ^ q) HD) as MB. fold r in MB.
  assert (Hk1 : k < 2 * hid f).
  { rewrite Ek. apply Z.div_lt_upper_bound; [lia|]. rewrite <- hid2. rewrite <- Z.pow_add_r by lia.
    destruct (Z.eq_dec a 0) as [Z0|N0]; [rewrite Z0; apply Z.pow_pos_nonneg; lia|]. pose proof (Z.log2_spec a ltac:(lia)) as LS.
    eapply Z.lt_le_trans; [apply LS|]. apply Z.pow_le_mono_r; lia. }
  assert (Hc : q = unit f \/ hid f <= k /\ 2 ^ (q + (prec f - 1)) * d <= n).
  { destruct (Z.eq_dec q (unit f)) as [|Nq]; [now left|right]. assert (Eq : q = Z.log2 a - (prec f - 1)) by (unfold q in *; lia).
    assert (Na : 0 < a). { destruct (Z.eq_dec a 0) as [Z0|]; [|lia]. rewrite Z0 in Eq. change (Z.log2 0) with 0 in Eq. lia. }
    pose proof (Z.log2_spec a Na) as LS. assert (L : 2 ^ (q + (prec f - 1)) <= a) by (replace (q + (prec f - 1)) with (Z.log2 a) by lia; apply LS).
    split.
    - rewrite Ek. apply Z.div_le_lower_bound; [lia|]. unfold hid. rewrite <- Z.pow_add_r by lia. exact L.
    - assert (a * d <= n) by (unfold a; rewrite Z.mul_comm; apply Z.mul_div_le; lia). nia. }
  assert (M0 : mag f ((q - unit f) * hid f + k) = k * 2 ^ q) by (apply mag_form; lia).
  assert (M1 : mag f ((q - unit f) * hid f + k + 1) = (k + 1) * 2 ^ q) by (rewrite <- Z.add_assoc; apply mag_form; lia).
  exists ((q - unit f) * hid f + k), q. rewrite M0, M1.
  split; [nia|]. split; [exact Hq|]. split; [nia|]. split; [ring|]. split; [tauto|].
  assert (EV : Z.even ((q - unit f) * hid f + k) = Z.even k). { rewrite Z.even_add, Z.even_mul. replace (Z.even (hid f)) with true by (destruct f; reflexivity). rewrite orb_true_r. now destruct (Z.even k). }
  assert (X0 : n - k * 2 ^ q * d = r) by nia. assert (X1 : (k + 1) * 2 ^ q * d - n = d * 2 ^ q - r) by nia. rewrite X0, X1.
  destruct (Z.ltb_spec (2 * r) (d * 2 ^ q)).
  - left. split; [reflexivity|]. split; [lia|]. intros Y. lia.
  - destruct (Z.ltb_spec (d * 2 ^ q) (2 * r)).
    + right. split; [now rewrite Z.add_assoc|]. split; [lia|]. intros Y. lia.
    + destruct (Z.even k) eqn:EK.
      * left. split; [reflexivity|]. split; [lia|]. intros _. rewrite EV. reflexivity.
      * right. split; [now rewrite Z.add_assoc|]. split; [lia|]. intros _. rewrite Z.even_add, EV. reflexivity.
Qed.
Lemma round_spec : forall f n d, 0 <= n -> 0 < d -> exists B q, 0 <= B /\ unit f <= q /\ mag f B * d <= n < mag f (B + 1) * d /\ mag f (B + 1) = mag f B + 2 ^ q /\
  (q = unit f \/ 2 ^ (q + (prec f - 1)) * d <= n) /\
  ((round f n d = Z.min B (inf f) /\ 2 * (n - mag f B * d) <= d * 2 ^ q) \/ (round f n d = Z.min (B + 1) (inf f) /\ 2 * (mag f (B + 1) * d - n) <= d * 2 ^ q)).
Proof.
  intros f n d Hn Hd. destruct (round_full f n d Hn Hd) as (B & q & HB & Hq & R & S1 & C & H). exists B, q. repeat (split; [assumption|]). destruct H as [(E & L & _)|(E & L & _)]; auto.
Qed.
(** Of two numbers equally near, the even one. *)
Lemma round_even : forall f n d b, 0 <= n -> 0 < d -> round f n d < inf f -> 0 <= b -> b <> round f n d -> Z.abs (n - mag f (round f n d) * d) = Z.abs (n - mag f b * d) -> Z.even (round f n d) = true.
Proof.
  intros f n d b Hn Hd Hr Hb Hne HE. destruct (round_full f n d Hn Hd) as (B & q & HB & Hq & R & S1 & _ & H).
  assert (C : mag f b < mag f B \/ b = B \/ b = B + 1 \/ mag f (B + 1) < mag f b). { destruct (Z_lt_dec b B); [left; apply mag_mono; lia|]. destruct (Z.eq_dec b B); [auto|]. destruct (Z.eq_dec b (B + 1)); [auto|]. right; right; right. apply mag_mono; lia. }
  destruct H as [(E & L & H)|(E & L & H)]; rewrite E in *.
  - assert (X : Z.min B (inf f) = B) by lia. rewrite X in *. apply H. destruct C as [C|[C|[C|C]]]; [nia|lia|subst b; nia|nia].
  - assert (X : Z.min (B + 1) (inf f) = B + 1) by lia. rewrite X in *. apply H. destruct C as [C|[C|[C|C]]]; [nia|subst b; nia|lia|nia].
Qed.

Lemma round_pos : forall f n d, 0 <= n -> 0 < d -> 0 <= round f n d <= inf f.
Proof.
  intros f n d Hn Hd. destruct (round_spec f n d Hn Hd) as (B & q & HB & _ & _ & _ & _ & H). assert (0 < inf f) by (destruct f; reflexivity).
  destruct H as [[-> _]|[-> _]]; lia.
Qed.
Lemma round_nearest : forall f n d b, 0 <= n -> 0 < d -> round f n d < inf f -> 0 <= b -> Z.abs (n - mag f (round f n d) * d) <= Z.abs (n - mag f b * d).
Proof.
  intros f n d b Hn Hd Hr Hb. destruct (round_spec f n d Hn Hd) as (B & q & HB & Hq & R & S1 & _ & H).
  assert (C : mag f b <= mag f B \/ mag f (B + 1) <= mag f b). { destruct (Z_le_dec b B); [left|right]; apply mag_mono_le; lia. }
  destruct H as [[E L]|[E L]]; rewrite E in *.
  - assert (X : Z.min B (inf f) = B) by lia. rewrite X in *. nia.
  - assert (X : Z.min (B + 1) (inf f) = B + 1) by lia. rewrite X in *. nia.
Qed.
Lemma round_exact : forall f b d, 0 <= b <= inf f -> 0 < d -> round f (mag f b * d) d = b.
Proof.
  intros f b d Hb Hd. pose proof (mag_pos f b ltac:(lia)) as Mp. destruct (round_spec f (mag f b * d) d ltac:(nia) Hd) as (B & q & HB & Hq & R & S1 & _ & H).
  assert (L1 : mag f B <= mag f b) by nia. assert (L2 : mag f b < mag f (B + 1)) by nia.
  apply mag_le_inv in L1; [|lia|lia]. apply mag_lt_inv in L2; [|lia|lia]. assert (B = b) by lia. subst B.
  destruct H as [[E L]|[E L]]; [lia|]. assert (0 < 2 ^ q) by (apply Z.pow_pos_nonneg; pose proof (unit_pos f); lia). nia.
Qed.
Lemma round_fits : forall f n d, 0 <= n -> 0 < d -> n <= mag f (inf f - 1) * d -> round f n d < inf f.
Proof.
  intros f n d Hn Hd H. destruct (round_spec f n d Hn Hd) as (B & q & HB & Hq & R & S1 & _ & C). assert (0 < inf f) by (destruct f; reflexivity).
  assert (L : mag f B <= mag f (inf f - 1)) by nia. apply mag_le_inv in L; [|lia|lia].
  destruct (Z.eq_dec B (inf f - 1)) as [E|N]; [|destruct C as [[-> _]|[-> _]]; lia].
  subst B. destruct C as [[-> _]|[_ C]]; [lia|]. assert (0 < 2 ^ q) by (apply Z.pow_pos_nonneg; pose proof (unit_pos f); lia). nia.
Qed.
Lemma round_mono : forall f n n' d, 0 <= n -> n <= n' -> 0 < d -> round f n d <= round f n' d.
Proof.
  intros f n n' d Hn Hl Hd. destruct (round_spec f n d Hn Hd) as (B & q & HB & Hq & R & S1 & _ & C). destruct (round_spec f n' d ltac:(lia) Hd) as (B' & q' & HB' & Hq' & R' & S1' & _ & C').
  assert (LB : B <= B'). { assert (mag f B < mag f (B' + 1)) by nia. apply mag_lt_inv in H; lia. }
  destruct (Z.eq_dec B B') as [E|N]; [|destruct C as [[-> _]|[-> _]]; destruct C' as [[-> _]|[-> _]]; lia].
  subst B'. destruct (Z.eq_dec n n') as [->|Nn]; [lia|].
  destruct C as [[-> A]|[-> A]]; destruct C' as [[-> A']|[-> A']]; try lia.
Qed.

(** The largest finite number. *)
Lemma mag_top : forall f, hid f * 2 ^ (top f - 2 + unit f) <= mag f (inf f - 1).
Proof.
  intros f. pose proof (hid_pos f). rewrite <- (mag_form f (top f - 2 + unit f) (hid f)); [|destruct f; cbn; lia|lia|lia].
  apply mag_mono_le; [destruct f; cbn; nia|]. rewrite inf_eq. destruct f; cbn [top]; lia.
Qed.
Lemma big_single : forall z, 0 <= z <= 2 ^ 64 -> z * one <= mag Single (inf Single - 1).
Proof.
  intros z H. eapply Z.le_trans; [|apply mag_top]. rewrite one_pow. change (hid Single) with (2 ^ 23). change (top Single - 2 + unit Single) with 1178. rewrite <- Z.pow_add_r by lia.
  replace (23 + 1178) with (64 + 63 + 1074) by lia. rewrite Z.pow_add_r by lia. apply Z.mul_le_mono_nonneg_r; [apply Z.pow_nonneg; lia|]. lia.
Qed.
Lemma big_double : forall z, 0 <= z <= 2 ^ 1000 -> z * one <= mag Double (inf Double - 1).
Proof.
  intros z H. eapply Z.le_trans; [|apply mag_top]. rewrite one_pow. change (hid Double) with (2 ^ 52). change (top Double - 2 + unit Double) with 2045. rewrite <- Z.pow_add_r by lia.
  replace (52 + 2045) with (1000 + 23 + 1074) by lia. rewrite !Z.pow_add_r by lia. set (T := 2 ^ 1074). set (U := 2 ^ 1000) in *. assert (0 <= T) by (apply Z.pow_nonneg; lia). assert (0 <= U) by (apply Z.pow_nonneg; lia). change (2 ^ 23) with 8388608. nia.
Qed.
Lemma big_int : forall f z, 0 <= z <= 2 ^ 64 -> z * one <= mag f (inf f - 1).
Proof. intros [] z H; [now apply big_single|]. apply big_double. split; [lia|]. eapply Z.le_trans; [apply H|]. apply Z.pow_le_mono_r; lia. Qed.
