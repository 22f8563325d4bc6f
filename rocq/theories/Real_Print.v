(** Printing with six digits after the point. *)
Require Import Coq.ZArith.ZArith Coq.NArith.NArith Coq.QArith.QArith Coq.QArith.Qabs Coq.Lists.List Coq.Bool.Bool Coq.micromega.Lia Coq.micromega.Lqa.
Require Import Verif.Base Verif.Number_Model Verif.Number_Spec Verif.Strtonum_Model Verif.Strtonum_Spec Verif.Strtonum_Proofs Verif.Stream_Model Verif.Stream_Spec Verif.Stream_Proofs Verif.Real_Model Verif.Real_Spec Verif.Real_Proofs Verif.Real_Meaning Verif.Real_Conv Verif.Real_Order Verif.Real_Read Verif.Real_Text.
Import ListNotations.
Local Open Scope Z_scope.

Lemma micro_err : forall m, 0 <= m -> 0 <= micro m /\ 2 * Z.abs (micro m * one - m * 1000000) <= one.
Proof.
  intros m Hm. unfold micro. cbv zeta. pose proof one_pos as P. set (n := m * 1000000). assert (0 <= n) by (unfold n; lia). pose proof (Z.div_mod n one ltac:(lia)) as DM. pose proof (Z.mod_pos_bound n one P) as MB. assert (0 <= n / one) by (apply Z.div_pos; lia).
  set (k := n / one) in *. set (r := n mod one) in *. clearbody k r n. rewrite (Z.mul_comm one k) in DM.
  assert (X : k * one = n - r) by lia. assert (Y : (k + 1) * one = n - r + one) by lia.
  destruct (Z.ltb_spec (2 * r) one); [rewrite X; lia|]. destruct (Z.ltb_spec one (2 * r)); [rewrite Y; lia|]. destruct (Z.even k); [rewrite X|rewrite Y]; lia.
Qed.
Lemma six_digits : forall n, Forall digit (six n).
Proof. intros n. unfold six. apply Forall_map. apply Forall_forall. intros p _. pose proof (Z.mod_pos_bound (n / p) 10 ltac:(lia)). unfold digit. lia. Qed.
Lemma six_value : forall n, 0 <= n < 1000000 -> value (six n) = n.
Proof.
  intros n H. unfold six, value. cbn [map fold_left].
  pose proof (Z.div_mod n 10 ltac:(lia)). pose proof (Z.mod_pos_bound n 10 ltac:(lia)).
  assert (E2 : n / 100 = n / 10 / 10) by (rewrite Z.div_div by lia; reflexivity). assert (E3 : n / 1000 = n / 10 / 10 / 10) by (rewrite !Z.div_div by lia; reflexivity). assert (E4 : n / 10000 = n / 10 / 10 / 10 / 10) by (rewrite !Z.div_div by lia; reflexivity). assert (E5 : n / 100000 = n / 10 / 10 / 10 / 10 / 10) by (rewrite !Z.div_div by lia; reflexivity).
  rewrite E2, E3, E4, E5, Z.div_1_r. set (a := n / 10) in *.
  pose proof (Z.div_mod a 10 ltac:(lia)). pose proof (Z.mod_pos_bound a 10 ltac:(lia)). set (b := a / 10) in *.
  pose proof (Z.div_mod b 10 ltac:(lia)). pose proof (Z.mod_pos_bound b 10 ltac:(lia)). set (c := b / 10) in *.
  pose proof (Z.div_mod c 10 ltac:(lia)). pose proof (Z.mod_pos_bound c 10 ltac:(lia)). set (d := c / 10) in *.
  pose proof (Z.div_mod d 10 ltac:(lia)). pose proof (Z.mod_pos_bound d 10 ltac:(lia)). set (e := d / 10) in *.
  pose proof (Z.mod_pos_bound e 10 ltac:(lia)). assert (0 <= e < 10) by lia. pose proof (Z.mod_small e 10 ltac:(lia)).
  clearbody a b c d e. lia.
Qed.
Lemma decimal_length : forall ds n k, decimal ds n -> n < 10 ^ Z.of_nat k -> (0 < k)%nat -> (length ds <= k)%nat.
Proof.
  intros ds n k (HD & HV & HF) HN HK. destruct HF as [->|(d & ds' & -> & Hd)]; [cbn; lia|]. cbn [length]. rewrite value_cons in HV. destruct (Forall_inv HD) as [D1 D2]. pose proof (value_nonneg ds' (Forall_inv_tail HD)).
  assert (10 ^ Z.of_nat (length ds') < 10 ^ Z.of_nat k). { pose proof (Z.pow_pos_nonneg 10 (Z.of_nat (length ds')) ltac:(lia) ltac:(lia)). nia. }
  apply Z.pow_lt_mono_r_iff in H0; lia.
Qed.
Lemma decimal_point : forall ds n, decimal ds n -> ~ In 46%N ds.
Proof. intros ds n (HD & _) HI. rewrite Forall_forall in HD. destruct (HD _ HI). lia. Qed.
Lemma digits_cancel : forall (i j f g : list N), ~ In 46%N i -> ~ In 46%N j -> i ++ 46%N :: f = j ++ 46%N :: g -> i = j /\ f = g.
Proof.
  induction i as [|b i IH]; intros [|b' j] f g H1 H2 E; cbn in E; injection E; intros; subst; auto; try (exfalso; cbn in *; tauto).
  destruct (IH j f g) as [-> ->]; auto; cbn in *; tauto.
Qed.
Lemma number_fraction : forall i f, Forall digit f -> (number i f == inject_Z (value i) + tail 0 (map (fun d => (d - 48)%N) f))%Q.
Proof. exact number_tail. Qed.
Lemma print_form : forall f b q, pattern (layout_of f) b -> meaning (layout_of f) b = Real q -> (Qabs q <= inject_Z (10 ^ 110))%Q ->
  exists neg c ds fs, 0 <= c < inf f /\ b = with_sign f neg c /\ (q == qv (sval neg (mag f c)))%Q /\ decimal ds (micro (mag f c) / 1000000) /\
    print f b = Ok (trim_zeroes (sign_text neg ++ ds ++ 46%N :: six (micro (mag f c) mod 1000000))) /\
    trim_zeroes (sign_text neg ++ ds ++ 46%N :: six (micro (mag f c) mod 1000000)) = sign_text neg ++ ds ++ 46%N :: fs /\ Forall digit fs /\ (1 <= length fs <= 6)%nat /\ (forall g, fs = g ++ [48%N] -> g = []) /\
    (number ds fs == number ds (six (micro (mag f c) mod 1000000)))%Q.
Proof.
  intros f b q HP HM HB. destruct (agree_real f b q HP HM) as (neg & c & Hc & -> & HD & HQ). exists neg, c. pose proof (mag_pos f c ltac:(lia)) as M0. pose proof one_pos as P1.
  destruct (micro_err _ M0) as (K0 & KE). set (k := micro (mag f c)) in *.
  assert (MB : mag f c <= 10 ^ 110 * one).
  { apply (proj2 (qv_le _ _)). rewrite qv_int. eapply Qle_trans; [|exact HB]. rewrite HQ. unfold sval. destruct neg; [rewrite qv_opp, Qabs_opp|]; apply Qle_Qabs. }
  assert (KB : k <= 10 ^ 116 + 1). { change (10 ^ 116) with (10 ^ 110 * 1000000). set (t := 10 ^ 110) in *. set (o := one) in *. clearbody t o k. nia. }
  assert (DB : 0 <= k / 1000000 < 10 ^ 111). { split; [apply Z.div_pos; lia|]. apply Z.div_lt_upper_bound; [lia|]. change (10 ^ 111) with (10 ^ 110 * 10). change (10 ^ 116) with (10 ^ 110 * 1000000) in KB. pose proof (Z.pow_pos_nonneg 10 110 ltac:(lia) ltac:(lia)). lia. }
  destruct (print_ok 320 (Z.to_N (k / 1000000)) []) as (ds & E & HD1 & HV & HF).
  { assert (X : (Z.of_N (Z.to_N (k / 1000000)) < Z.of_N (10 ^ N.of_nat 320))%Z); [|lia]. rewrite Z2N.id by lia. rewrite N2Z.inj_pow. eapply Z.lt_le_trans; [apply DB|]. change (Z.of_N 10) with 10. apply Z.pow_le_mono_r; lia. }
  { lia. }
  rewrite app_nil_r in E. rewrite Z2N.id in HV by lia. assert (DEC : decimal ds (k / 1000000)) by (split; [exact HD1|split; [exact HV|exact HF]]).
  pose proof (decimal_length ds _ 111 DEC ltac:(apply DB) ltac:(lia)) as DL. pose proof (six_digits (k mod 1000000)) as SD. pose proof (decimal_point _ _ DEC) as NP.
  assert (NS : ~ In 46%N (sign_text neg ++ ds)). { intros HI. apply in_app_or in HI. destruct HI as [HI|HI]; [destruct neg; cbn in HI; [destruct HI as [HI|[]]; discriminate HI|exact HI]|exact (NP HI)]. }
  destruct (trim_value (sign_text neg ++ ds) (six (k mod 1000000)) NS SD) as (fs & T & HG & HN & HZ & _). rewrite <- !app_assoc in T. specialize (HN ltac:(discriminate)).
  destruct (trim_value ds (six (k mod 1000000)) NP SD) as (fs' & T' & _ & _ & _ & HE).
  exists ds, fs. split; [exact Hc|]. split; [reflexivity|]. split; [exact HQ|]. split; [exact DEC|]. split.
  { unfold print. rewrite HD. unfold sprintf_f. fold k. rewrite E. fold (sign_text neg).
    destruct (Nat.ltb_spec (length (sign_text neg ++ ds ++ 46%N :: six (k mod 1000000))) 120) as [L|L]; [reflexivity|]. exfalso. rewrite !app_length in L. cbn [length six map] in L. destruct neg; cbn [sign_text length] in L; lia. }
  split; [exact T|]. split; [exact HG|].
  destruct (trim_zeroes_spec (sign_text neg ++ ds ++ 46%N :: six (k mod 1000000))) as [[C _]|(i & g & z & Hi & A & B & _)]; [exfalso; apply C; apply in_or_app; right; apply in_or_app; right; left; reflexivity|].
  rewrite T in B. rewrite app_assoc in A, B. destruct (digits_cancel _ _ _ _ NS Hi A) as (_ & A2). destruct (digits_cancel _ _ _ _ NS Hi B) as (_ & B2).
  destruct (trim_zeroes_spec (ds ++ 46%N :: six (k mod 1000000))) as [[C _]|(i' & g' & z' & Hi' & A' & B' & R')]; [exfalso; apply C; apply in_or_app; right; left; reflexivity|].
  split. { pose proof (f_equal (@length N) A2) as AL. rewrite app_length in AL. cbn [length six map] in AL. subst fs. destruct g; [exfalso; apply HN; reflexivity|]. cbn [length] in AL |- *. lia. }
  split; [exact HZ|].
  assert (fs = fs') as <-; [|exact HE].
  assert (TT : trimmed (sign_text neg ++ ds ++ 46%N :: six (k mod 1000000)) (sign_text neg ++ ds ++ 46%N :: fs')).
  { right. rewrite T' in B'. destruct (digits_cancel _ _ _ _ NP Hi' A') as (Q1 & Q2). destruct (digits_cancel _ _ _ _ NP Hi' B') as (_ & Q3). exists (sign_text neg ++ ds), g', z'. split; [exact NS|]. rewrite <- !app_assoc. split; [rewrite Q2; reflexivity|]. split; [rewrite Q3; reflexivity|exact R']. }
  pose proof (trimmed_unique _ _ _ (trim_zeroes_spec _) TT) as U. rewrite T in U. apply app_inv_head in U. apply app_inv_head in U. congruence.
Qed.
(** The printed number is the nearest one with six digits. *)
Theorem print_near : forall f b q, pattern (layout_of f) b -> meaning (layout_of f) b = Real q -> (Qabs q <= inject_Z (10 ^ 110))%Q ->
  exists neg ds n fs, print f b = Ok (sign_text neg ++ ds ++ 46%N :: fs) /\ decimal ds n /\ Forall digit fs /\ (1 <= length fs <= 6)%nat /\ (forall g, fs = g ++ [48%N] -> g = []) /\
    (Qabs (q - (if neg then - number ds fs else number ds fs)) <= 1 # 2000000)%Q.
Proof.
  intros f b q HP HM HB. destruct (print_form f b q HP HM HB) as (neg & c & ds & fs & Hc & -> & HQ & DEC & PR & T & HG & HL & HZ & HE).
  exists neg, ds, (micro (mag f c) / 1000000), fs. rewrite PR, T. split; [reflexivity|]. split; [exact DEC|]. split; [exact HG|]. split; [exact HL|]. split; [exact HZ|].
  pose proof (mag_pos f c ltac:(lia)) as M0. destruct (micro_err _ M0) as (K0 & KE). set (k := micro (mag f c)) in *.
  assert (NV : (number ds fs * 1000000 == inject_Z k)%Q).
  { rewrite HE. unfold number. rewrite Stream_Proofs.value_app. pose proof (Z.div_mod k 1000000 ltac:(lia)) as DM. pose proof (Z.mod_pos_bound k 1000000 ltac:(lia)) as MB. rewrite six_value by exact MB. destruct DEC as (_ & -> & _).
    change (Z.of_nat (length (six (k mod 1000000)))) with 6. change (10 ^ 6) with 1000000. replace (k / 1000000 * 1000000 + k mod 1000000) with k by lia. unfold inject_Z. field. }
  assert (KQ : (Qabs (inject_Z k - qv (mag f c) * 1000000) <= 1 # 2)%Q).
  { assert (X : (qv (2 * Z.abs (k * one - mag f c * 1000000)) <= qv one)%Q) by (apply (proj1 (qv_le _ _)); exact KE). rewrite Z.mul_comm in X. rewrite qv_mul, qv_abs, qv_sub, qv_int, qv_mul, qv_one in X. change (inject_Z 1000000) with 1000000%Q in X. change (inject_Z 2) with 2%Q in X. lra. }
  apply Qabs_Qle_condition in KQ. destruct KQ as (Q1 & Q2). apply Qabs_Qle_condition. rewrite HQ. destruct neg; cbn [sval]; rewrite ?qv_opp; split; lra.
Qed.
Theorem print_read : forall f b q, pattern (layout_of f) b -> meaning (layout_of f) b = Real q -> (Qabs q <= inject_Z i64max)%Q ->
  exists t, print f b = Ok t /\ forall pow10 rest, ends rest -> exists b' q', read pow10 (t ++ rest) = Ok (b', rest) /\ pattern double b' /\ meaning double b' = Real q' /\
    (Qabs (q' - q) <= (1 # 2000000) + 3 * (Qabs q + 8) * (1 # 2 ^ 53))%Q.
Proof.
  intros f b q HP HM HB. assert (HB' : (Qabs q <= inject_Z (10 ^ 110))%Q). { eapply Qle_trans; [exact HB|]. rewrite <- Zle_Qle. vm_compute. discriminate. }
  destruct (print_form f b q HP HM HB') as (neg & c & ds & fs & Hc & -> & HQ & DEC & PR & T & HG & HL & HZ & HE). destruct (print_near f _ q HP HM HB') as (neg' & ds' & n' & fs' & PR' & DEC' & HG' & HL' & HZ' & NE).
  exists (sign_text neg' ++ ds' ++ 46%N :: fs'). split; [exact PR'|]. intros pow10 rest HE'.
  destruct DEC' as (HD & HV & HF). assert (HV63 : value ds' <= i64max).
  { rewrite PR, T in PR'. assert (EQ : sign_text neg ++ ds ++ 46%N :: fs = sign_text neg' ++ ds' ++ 46%N :: fs') by congruence. clear PR'.
    assert (value ds = value ds').
    { assert (P : forall ds n, decimal ds n -> match ds with [] => False | d :: _ => d <> 45%N end). { intros xs n (A & _ & B). destruct B as [->|(d & xs' & -> & _)]; [discriminate|]. destruct (Forall_inv A). intros ->. lia. }
      pose proof (P ds _ DEC) as P1. pose proof (P ds' n' (conj HD (conj HV HF))) as P2. pose proof (decimal_point _ _ DEC) as N1. pose proof (decimal_point ds' n' (conj HD (conj HV HF))) as N2.
      destruct neg, neg'; cbn [sign_text app] in EQ.
      - injection EQ as EQ. destruct (digits_cancel _ _ _ _ N1 N2 EQ) as (-> & _). reflexivity.
      - destruct ds' as [|d ds']; [contradiction|]. cbn in EQ. congruence.
      - destruct ds as [|d ds]; [contradiction|]. cbn in EQ. congruence.
      - destruct (digits_cancel _ _ _ _ N1 N2 EQ) as (-> & _). reflexivity. }
    rewrite <- H. destruct DEC as (_ & -> & _). pose proof (mag_pos f c ltac:(lia)) as M0. destruct (micro_err _ M0) as (K0 & KE). pose proof one_pos as P1.
    assert (MB : mag f c <= i64max * one). { apply (proj2 (qv_le _ _)). rewrite qv_int. eapply Qle_trans; [|exact HB]. rewrite HQ. unfold sval. destruct neg; [rewrite qv_opp, Qabs_opp|]; apply Qle_Qabs. }
    assert (KB : micro (mag f c) <= i64max * 1000000). { set (t := i64max) in *. set (o := one) in *. set (k := micro (mag f c)) in *. clearbody t o k. nia. }
    apply Z.div_le_upper_bound; lia. }
  destruct (read_near pow10 [] neg' ds' fs' rest ltac:(constructor) HD) as (b' & q' & R & PB & MQ & ERR).
  { destruct HF as [->|(d & x & -> & _)]; discriminate. } { exact HV63. } { exact HG'. } { lia. } { exact HE'. }
  cbn [app] in R. exists b', q'. split; [rewrite <- !app_assoc; cbn [app]; exact R|]. split; [exact PB|]. split; [exact MQ|].
  pose proof (number_tail ds' fs' HG') as NT. destruct (tail_bounds _ 0 (digit_vals fs' HG')) as (T0 & T1). set (x := number ds' fs') in *. cbv zeta in ERR.
  assert (L6 : (inject_Z (Z.of_nat (length fs')) <= 6)%Q) by (change 6%Q with (inject_Z 6); rewrite <- Zle_Qle; lia).
  assert (VX : (inject_Z (value ds') <= x)%Q) by (rewrite NT; lra). assert (V0 : (0 <= inject_Z (value ds'))%Q) by (change 0%Q with (inject_Z 0); rewrite <- Zle_Qle; apply value_nonneg; exact HD).
  set (v := inject_Z (value ds')) in *. set (l := inject_Z (Z.of_nat (length fs'))) in *. clearbody v l x. clear - ERR NE L6 VX V0. change (1 # 2 ^ 53)%Q with (1 # 9007199254740992)%Q in *.
  assert (XQ : (x <= Qabs q + (1 # 2000000))%Q).
  { destruct neg'; apply Qabs_Qle_condition in NE; destruct NE; [pose proof (Qle_Qabs (- q)) as A; rewrite Qabs_opp in A; lra|pose proof (Qle_Qabs q); lra]. }
  apply Qabs_Qle_condition in ERR. apply Qabs_Qle_condition in NE. apply Qabs_Qle_condition. set (a := Qabs q) in *. clearbody a. destruct ERR, NE. destruct neg'; split; lra.
Qed.
(** Whole numbers come back exactly. *)
Lemma add_zero : forall c, nn c -> add c 0 = c.
Proof.
  intros c Hc. unfold add. rewrite (decode_nn c Hc). change (decode Double 0) with (Fin false 0). cbn [sval andb]. rewrite Z.add_0_r. destruct (Z.eqb_spec (mag Double c) 0) as [E|E].
  - unfold with_sign. unfold nn in Hc. destruct (Z.eq_dec c 0) as [->|N]; [reflexivity|]. exfalso. pose proof (mag_mono Double 0 c ltac:(lia) ltac:(lia)) as L. rewrite mag_0 in L. lia.
  - pose proof (mag_pos Double c ltac:(unfold nn in Hc; lia)). unfold fin. rewrite Z.abs_eq by lia. destruct (Z.ltb_spec (mag Double c) 0); [lia|]. unfold with_sign. rewrite <- (Z.mul_1_r (mag Double c)). rewrite round_exact by (unfold nn in Hc; lia). reflexivity.
Qed.
Theorem whole_back : forall b q z, pattern double b -> meaning double b = Real q -> (q == inject_Z z)%Q -> Z.abs z <= i64max ->
  exists neg ds, print Double b = Ok (sign_text neg ++ ds ++ [46; 48]%N) /\ decimal ds (Z.abs z) /\ (z <> 0 -> neg = (z <? 0)) /\ forall pow10 rest, ends rest -> read pow10 ((sign_text neg ++ ds ++ [46; 48]%N) ++ rest) = Ok (b, rest).
Proof.
  intros b q z HP HM HZ HB. assert (B : (Qabs q <= inject_Z (10 ^ 110))%Q). { rewrite HZ. change (Qabs (inject_Z z)) with (inject_Z (Z.abs z)). rewrite <- Zle_Qle. eapply Z.le_trans; [exact HB|]. vm_compute. discriminate. }
  destruct (print_form Double b q HP HM B) as (neg & c & ds & fs & Hc & -> & HQ & DEC & PR & T & HG & HL & HZ' & HE).
  pose proof (mag_pos Double c ltac:(lia)) as M0. pose proof one_pos as P1.
  assert (MZ : z * one = sval neg (mag Double c)). { apply (proj1 (inject_qv _ _)). rewrite <- HZ. exact HQ. }
  assert (MA : mag Double c = Z.abs z * one). { unfold sval in MZ. set (o := one) in *. set (m := mag Double c) in *. clearbody o m. destruct neg; nia. }
  assert (MK : micro (mag Double c) = Z.abs z * 1000000). { destruct (micro_err _ M0) as (K0 & KE). rewrite MA in KE at 2. set (k := micro (mag Double c)) in *. set (o := one) in *. clearbody k o. nia. }
  rewrite MK, Z.div_mul in DEC by lia. rewrite MK, Z.mod_mul in PR by lia.
  assert (NP : ~ In 46%N (sign_text neg ++ ds)). { intros HI. apply in_app_or in HI. destruct HI as [HI|HI]; [destruct neg; cbn in HI; [destruct HI as [HI|[]]; discriminate HI|exact HI]|exact (decimal_point _ _ DEC HI)]. }
  exists neg, ds. split.
  { rewrite PR. f_equal. eapply trimmed_unique; [apply trim_zeroes_spec|]. right. exists (sign_text neg ++ ds), [48%N], 5%nat. split; [exact NP|]. rewrite <- !app_assoc. split; [reflexivity|]. split; [reflexivity|]. left. reflexivity. }
  split; [exact DEC|]. split. { intros NZ. unfold sval in MZ. set (o := one) in *. set (m := mag Double c) in *. clearbody o m. destruct neg, (Z.ltb_spec z 0); auto; exfalso; nia. }
  intros pow10 rest HR. destruct DEC as (HD & HV & HF).
  assert (NE : ds <> []) by (destruct HF as [->|(d & x & -> & _)]; discriminate).
  pose proof (read_real [] neg ds [48%N] None rest ltac:(constructor) HD NE ltac:(lia) ltac:(apply Forall_cons; [split; lia|constructor]) ltac:(cbn; lia) Logic.I HR) as R. cbn [app map] in R.
  unfold read. rewrite <- !app_assoc. cbn [app]. rewrite R. cbn [obind fst snd]. unfold real. rewrite HV. change (48 - 48)%N with 0%N.
  assert (F : fpart 0 10 [0%N] = 0) by (vm_compute; reflexivity). rewrite F.
  assert (OI : of_int Double (Z.abs z) = c). { rewrite (of_int_exact Double _ c); [|lia|rewrite MA; lia]. destruct (Z.ltb_spec (Z.abs z) 0); [lia|]. reflexivity. }
  rewrite OI. rewrite add_zero by exact Hc. rewrite mul_sign by exact Hc. reflexivity.
Qed.
