(** Conversions give the nearest value, the even one of two. *)
Require Import Coq.ZArith.ZArith Coq.NArith.NArith Coq.QArith.QArith Coq.QArith.Qabs Coq.Lists.List Coq.Bool.Bool Coq.micromega.Lia Coq.micromega.Lqa.
Require Import Verif.Base Verif.Number_Model Verif.Number_Spec Verif.Real_Model Verif.Real_Spec Verif.Real_Proofs Verif.Real_Meaning Verif.Real_Conv Verif.Real_Order.
Import ListNotations.
Local Open Scope Z_scope.

Lemma even_mod : forall b k, 0 < k -> Z.even (b mod 2 ^ k) = Z.even b.
Proof.
  intros b k Hk. pose proof (Z.pow_pos_nonneg 2 k ltac:(lia) ltac:(lia)). rewrite (Z.div_mod b (2 ^ k)) at 2 by lia. rewrite Z.even_add, Z.even_mul, Z.even_pow by lia. cbn [Z.even orb]. now destruct (Z.even (b mod 2 ^ k)).
Qed.
Lemma even_field : forall f neg c, Z.even c = true -> Z.even (fraction_field (layout_of f) (with_sign f neg c)) = true.
Proof.
  intros f neg c H. unfold fraction_field. rewrite even_mod by (destruct f; reflexivity). unfold with_sign. destruct neg; [|exact H]. rewrite Z.even_add, H. destruct f; reflexivity.
Qed.
Lemma ws_rounded : forall f neg m, 0 <= m <= mag f (inf f - 1) -> rounded (layout_of f) (qv (sval neg m)) (with_sign f neg (round f m 1)).
Proof.
  intros f neg m H. pose proof (round_pos f m 1 ltac:(lia) ltac:(lia)) as RP. pose proof (round_fits f m 1 ltac:(lia) ltac:(lia) ltac:(lia)) as RF. assert (R : 0 <= round f m 1 < inf f) by lia.
  split; [apply with_sign_pattern; lia|]. destruct (meaning_fin f neg _ R) as (q & M & E). exists q. split; [exact M|].
  pose proof (mag_pos f _ (proj1 R)) as Y0. pose proof (round_nearest f m 1 0 ltac:(lia) ltac:(lia) RF ltac:(lia)) as N0. rewrite mag_0 in N0.
  split.
  - intros b r Hb Hr. destruct (agree_real f b r Hb Hr) as (neg' & c & Hc & _ & _ & Er). rewrite E, Er. rewrite <- !qv_sub, <- !qv_abs. apply (proj1 (qv_le _ _)).
    pose proof (round_nearest f m 1 c ltac:(lia) ltac:(lia) RF ltac:(lia)) as N1. pose proof (mag_pos f c ltac:(lia)) as M0. set (y := mag f (round f m 1)) in *. unfold sval. set (x := mag f c) in *. clearbody y x. clear - N1 N0 Y0 M0 H. destruct neg, neg'; lia.
  - intros b r Hb Hr Hne HE. destruct (agree_real f b r Hb Hr) as (neg' & c & Hc & _ & _ & Er). apply even_field. rewrite E, Er in HE. rewrite <- !qv_sub, <- !qv_abs in HE. apply (proj2 (qv_eq _ _)) in HE.
    assert (Hne' : sval neg' (mag f c) <> sval neg (mag f (round f m 1))). { intros X. apply Hne. rewrite Er, E, X. reflexivity. }
    pose proof (mag_pos f c ltac:(lia)) as M0. apply (round_even f m 1 c); try lia.
    + intros X. subst c. set (y := mag f (round f m 1)) in *. unfold sval in *. clearbody y. clear - HE Hne' N0 Y0 H. destruct neg, neg'; lia.
    + set (y := mag f (round f m 1)) in *. unfold sval in *. set (x := mag f c) in *. clearbody y x. clear - HE Hne' N0 Y0 M0 H. destruct neg, neg'; lia.
Qed.
Lemma rounded_compat : forall l x y b, (x == y)%Q -> rounded l x b -> rounded l y b.
Proof.
  intros l x y b E (P & q & M & N & T). split; [exact P|]. exists q. split; [exact M|]. split; [intros c r Hc Hr; rewrite <- E; now apply (N c)|]. intros c r Hc Hr Hne HE. apply (T c r Hc Hr Hne). rewrite E. exact HE.
Qed.
Theorem int_rounded : forall f t z, integer_type t -> holds t z -> exists b, cast (TI t) (TF f) z = Ok b /\ rounded (layout_of f) (inject_Z z) b /\ (significant (fraction_bits (layout_of f) + 1) z -> same (value_of (TF f) b) (Real (inject_Z z))).
Proof.
  intros f t z Ht Hz. pose proof (holds_64 t z Ht Hz) as B. exists (of_int f z). split; [reflexivity|]. split.
  - eapply rounded_compat; [|unfold of_int, fin; apply ws_rounded; split; [lia|now apply int_big]]. rewrite <- qv_int. apply (proj1 (qv_eq _ _)). unfold sval. destruct (Z.ltb_spec (z * one) 0); lia.
  - intros HS. destruct (int_back f t z Ht Hz) as (b & E & S & _); [destruct f; exact HS|]. cbn [cast] in E. injection E as E. rewrite E. exact S.
Qed.
Theorem int_order : forall f t y z, integer_type t -> holds t y -> holds t z -> y <= z -> exists b c q r, cast (TI t) (TF f) y = Ok b /\ cast (TI t) (TF f) z = Ok c /\ value_of (TF f) b = Real q /\ value_of (TF f) c = Real r /\ (q <= r)%Q.
Proof.
  intros f t y z Ht Hy Hz L. exists (of_int f y), (of_int f z). destruct (int_nearest f y (holds_64 t y Ht Hy)) as (q & P1 & M1 & N1). destruct (int_nearest f z (holds_64 t z Ht Hz)) as (r & P2 & M2 & N2). exists q, r.
  split; [reflexivity|]. split; [reflexivity|]. split; [exact M1|]. split; [exact M2|]. destruct (Z.eq_dec y z) as [->|N]; [rewrite M1 in M2; injection M2 as ->; apply Qle_refl|].
  eapply (nearest_mono _ _ _ _ _ _ _ N1 N2 P1 M1 P2 M2). rewrite <- Zlt_Qlt. lia.
Qed.
Lemma largest_ok : forall f, (largest (layout_of f) == qv (mag f (inf f - 1)))%Q.
Proof.
  intros f. destruct (meaning_fin f false (inf f - 1)) as (q & M & E). { destruct f; vm_compute; split; [discriminate|reflexivity|discriminate|reflexivity]. }
  change (sval false (mag f (inf f - 1))) with (mag f (inf f - 1)) in E. rewrite <- E. unfold meaning in M.
  destruct f.
  - change (with_sign Single false (inf Single - 1)) with 2139095039 in M. change (layout_of Single) with float in *.
    change (exponent_field float 2139095039) with 254 in M. change (fraction_field float 2139095039) with 8388607 in M. change (negative float 2139095039) with false in M. cbn [Z.eqb] in M. change (254 =? 2 ^ exponent_bits float - 1) with false in M. change (254 =? 0) with false in M. cbv iota zeta in M. injection M as <-.
    unfold largest. change (254 - bias float) with (bias float). change (fraction_bits float) with 23. assert (X : (2 - power (- (23)) == 1 + inject_Z 8388607 * power (- (23)))%Q) by reflexivity. rewrite X. reflexivity.
  - change (with_sign Double false (inf Double - 1)) with 9218868437227405311 in M. change (layout_of Double) with double in *.
    change (exponent_field double 9218868437227405311) with 2046 in M. change (fraction_field double 9218868437227405311) with 4503599627370495 in M. change (negative double 9218868437227405311) with false in M. change (2046 =? 2 ^ exponent_bits double - 1) with false in M. change (2046 =? 0) with false in M. cbv iota zeta in M. injection M as <-.
    unfold largest. change (2046 - bias double) with (bias double). change (fraction_bits double) with 52. assert (X : (2 - power (- (52)) == 1 + inject_Z 4503599627370495 * power (- (52)))%Q) by reflexivity. rewrite X. reflexivity.
Qed.
Theorem narrow_rounded : forall b q, pattern double b -> meaning double b = Real q -> (Qabs q <= largest float)%Q -> exists c, cast (TF Double) (TF Single) b = Ok c /\ rounded float q c.
Proof.
  intros b q HP HM HB. destruct (agree_real Double b q HP HM) as (neg & m & Hm & E & D & Q1). cbn [cast same_fmt]. rewrite D. cbn [to_fmt]. eexists. split; [reflexivity|].
  eapply rounded_compat; [symmetry; exact Q1|]. apply (ws_rounded Single). pose proof (mag_pos Double m ltac:(lia)). split; [lia|]. apply (proj2 (qv_le _ _)). rewrite <- (largest_ok Single). eapply Qle_trans; [|exact HB]. rewrite Q1. unfold sval. destruct neg; [rewrite qv_opp, Qabs_opp|]; apply Qle_Qabs.
Qed.
