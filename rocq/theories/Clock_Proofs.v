(** Proofs about the clocks. *)
Require Import Coq.ZArith.ZArith Coq.QArith.QArith Coq.QArith.Qabs Coq.Bool.Bool Coq.micromega.Lia Coq.micromega.Lqa.
Require Import Verif.Base Verif.Real_Model Verif.Real_Spec Verif.Real_Proofs Verif.Real_Meaning Verif.Real_Conv Verif.Real_Read Verif.Clock_Model.
Local Open Scope Z_scope.

(** The time that [s] seconds and [u] microseconds since 1970 are, in seconds since 2001. *)
Definition instant (s u : Z) : Q := (inject_Z (s - 978307200) + inject_Z u * (1 # 1000000))%Q.

(** [b] is the finite number of [z] units. *)
Definition is (b z : Z) : Prop := exists neg c, 0 <= c < inf Double /\ b = with_sign Double neg c /\ z = sval neg (mag Double c).
Lemma is_decode : forall b z, is b z -> exists neg m, decode Double b = Fin neg m /\ z = sval neg m /\ 0 <= m.
Proof.
  intros b z (neg & c & Hc & -> & ->). exists neg, (mag Double c). rewrite decode_with_sign by lia. destruct (Z.ltb_spec c (inf Double)); [|lia]. split; [reflexivity|]. split; [reflexivity|]. apply mag_pos. lia.
Qed.
Lemma fin_is : forall z, Z.abs z <= mag Double (inf Double - 1) -> exists z', is (fin Double z) z' /\ 2 ^ 53 * Z.abs (z - z') <= Z.abs z.
Proof.
  intros z H. pose proof (fin_form Double z H) as R. pose proof (round_rel (Z.abs z) 1 ltac:(lia) ltac:(lia) ltac:(auto) ltac:(lia)) as E.
  exists (sval (z <? 0) (mag Double (round Double (Z.abs z) 1))). split; [exists (z <? 0), (round Double (Z.abs z) 1); auto|].
  set (r := mag Double (round Double (Z.abs z) 1)) in *. set (P := 2 ^ 53) in *. rewrite Z.mul_1_r in E. unfold sval. destruct (Z.ltb_spec z 0).
  - replace (z - - r) with (- (Z.abs z - r)) by lia. now rewrite Z.abs_opp.
  - replace (z - r) with (Z.abs z - r) by lia. exact E.
Qed.
Lemma add_is : forall a b x y, is a x -> is b y -> Z.abs (x + y) <= mag Double (inf Double - 1) -> exists z, is (add a b) z /\ 2 ^ 53 * Z.abs (x + y - z) <= Z.abs (x + y).
Proof.
  intros a b x y Ha Hb H. destruct (is_decode a x Ha) as (n1 & m1 & D1 & -> & _). destruct (is_decode b y Hb) as (n2 & m2 & D2 & -> & _). unfold add. rewrite D1, D2. cbv zeta. destruct (Z.eqb_spec (sval n1 m1 + sval n2 m2) 0) as [E|E].
  - exists 0. rewrite E. split; [|cbn; lia]. exists (n1 && n2), 0. rewrite mag_0. split; [vm_compute; split; [discriminate|reflexivity]|]. split; [reflexivity|]. now destruct (n1 && n2).
  - now apply fin_is.
Qed.
Lemma int_is : forall z, Z.abs z <= 2 ^ 53 -> is (of_int Double z) (z * one).
Proof.
  intros z H. assert (S : significant (prec Double) z) by (exists z, 0; cbn [prec]; rewrite Z.pow_0_r; lia).
  destruct (repr_int Double z S) as (c & Hc & M); [eapply Z.le_trans; [exact H|apply Z.pow_le_mono_r; lia]|]. rewrite (of_int_exact Double z c) by (lia || exact M).
  exists (z <? 0), c. split; [exact Hc|]. split; [reflexivity|]. rewrite M. unfold sval. destruct (Z.ltb_spec z 0); lia.
Qed.
Lemma add_ints : forall y z, Z.abs y <= 2 ^ 53 -> Z.abs z <= 2 ^ 53 -> Z.abs (y + z) <= 2 ^ 53 -> is (add (of_int Double y) (of_int Double z)) ((y + z) * one).
Proof.
  intros y z Hy Hz Hs. destruct (is_decode _ _ (int_is y Hy)) as (n1 & m1 & D1 & E1 & _). destruct (is_decode _ _ (int_is z Hz)) as (n2 & m2 & D2 & E2 & _). unfold add. rewrite D1, D2, <- E1, <- E2. cbv zeta.
  rewrite <- Z.mul_add_distr_r. destruct (Z.eqb_spec ((y + z) * one) 0) as [E|E].
  - rewrite E. exists (n1 && n2), 0. rewrite mag_0. split; [vm_compute; split; [discriminate|reflexivity]|]. split; [reflexivity|]. now destruct (n1 && n2).
  - now apply int_is.
Qed.
(** The literal of 1 / D, in units. *)
Definition lit (D : Z) : Z := mag Double (round Double one D).
Lemma one_big : 2 ^ 200 <= one. Proof. rewrite one_pow. apply Z.pow_le_mono_r; lia. Qed.
Lemma big40 : 2 ^ 40 * one <= mag Double (inf Double - 1).
Proof. apply big_double. split; [lia|apply Z.pow_le_mono_r; lia]. Qed.
Lemma lit_ok : forall D, 0 < D <= 2 ^ 40 -> 0 <= round Double one D < inf Double /\ 2 ^ 53 * Z.abs (one - lit D * D) <= one /\ 2 ^ 52 <= lit D /\ lit D * D <= 2 * one.
Proof.
  intros D HD. pose proof one_pos as HO. pose proof one_big as OB. pose proof big40 as B40.
  assert (F : round Double one D < inf Double). { apply round_fits; [lia|lia|]. change (2 ^ 40) with 1099511627776 in *. set (M := mag Double (inf Double - 1)) in *. clearbody M. set (E := one) in *. clearbody E. nia. }
  pose proof (round_pos Double one D ltac:(lia) ltac:(lia)) as RP. split; [lia|].
  assert (R : 2 ^ 53 * Z.abs (one - lit D * D) <= one).
  { apply round_rel; [lia|lia| |exact F]. right. left. apply Z.le_trans with (2 ^ 200); [|exact OB]. apply Z.le_trans with (2 ^ 52 * 2 ^ 40); [apply Z.mul_le_mono_nonneg_l; [lia|lia]|]. rewrite <- Z.pow_add_r by lia. apply Z.pow_le_mono_r; lia. }
  split; [exact R|]. set (m := lit D) in *. set (E := one) in *. change (2 ^ 53) with 9007199254740992 in R. clearbody m E.
  assert (L : E <= 2 * (m * D)) by lia. assert (L2 : m * D <= 2 * E) by lia. split; [|exact L2].
  apply Z.nlt_ge. intros C. assert (K : m * D <= 2 ^ 52 * 2 ^ 40) by (destruct (Z_le_dec 0 m); [apply Z.mul_le_mono_nonneg; lia|nia]). rewrite <- Z.pow_add_r in K by lia.
  assert (2 ^ (52 + 40) * 2 < 2 ^ 200) by reflexivity. lia.
Qed.
Lemma mul_is : forall u D, 0 <= u <= 2 ^ 53 -> 0 < D <= 2 ^ 40 -> exists z, is (mul (of_int Double u) (round Double one D)) z /\ 0 <= z /\ 2 ^ 53 * Z.abs (u * lit D - z) <= u * lit D.
Proof.
  intros u D Hu HD. assert (B : Z.abs u <= 2 ^ 53) by lia. destruct (int_is u B) as (n & c & Hc & Eb & Ez). destruct (lit_ok D HD) as (H6 & _ & L6 & U6). set (e := round Double one D) in *.
  assert (D1 : decode Double (of_int Double u) = Fin n (mag Double c)) by (rewrite Eb, decode_with_sign by lia; destruct (Z.ltb_spec c (inf Double)); [reflexivity|lia]).
  assert (D2 : decode Double e = Fin false (lit D)) by (apply (decode_nn e); exact H6).
  pose proof one_pos as HO. pose proof (mag_pos Double c ltac:(lia)) as Mp. assert (M : mag Double c = u * one) by (unfold sval in Ez; destruct n; nia).
  unfold mul. rewrite D1, D2. rewrite xorb_false_r. rewrite M. set (m := lit D) in *. set (r := round Double (u * one * m) one). assert (P6 : 0 < m) by (eapply Z.lt_le_trans; [|exact L6]; reflexivity).
  assert (L : u * one * m <= mag Double (inf Double - 1) * one).
  { assert (K : 2 ^ 100 * one <= mag Double (inf Double - 1)) by (apply big_double; split; [lia|apply Z.pow_le_mono_r; lia]). assert (K2 : u * m <= 2 ^ 100 * one).
    { assert (m <= 2 * one) by nia. apply Z.le_trans with (2 ^ 53 * (2 * one)); [apply Z.mul_le_mono_nonneg; lia|]. assert (2 ^ 53 * 2 <= 2 ^ 100) by (vm_compute; discriminate). nia. }
    replace (u * one * m) with (u * m * one) by ring. apply Z.mul_le_mono_nonneg_r; lia. }
  assert (R : r < inf Double) by (apply round_fits; [nia|lia|exact L]). pose proof (round_pos Double (u * one * m) one ltac:(nia) HO) as RP. fold r in RP.
  assert (N : n = false \/ u = 0) by (destruct n; [right|left; reflexivity]; unfold sval in Ez; nia).
  assert (E : 2 ^ 53 * Z.abs (u * one * m - mag Double r * one) <= u * one * m).
  { apply round_rel; [nia|lia| |exact R]. destruct (Z.eq_dec u 0) as [->|U0]; [left; ring|right; left]. set (P := 2 ^ 52) in *. nia. }
  assert (E' : 2 ^ 53 * Z.abs (u * m - mag Double r) <= u * m).
  { set (P := 2 ^ 53) in *. replace (u * one * m - mag Double r * one) with ((u * m - mag Double r) * one) in E by ring. rewrite Z.abs_mul, (Z.abs_eq one) in E by lia. apply (Z.mul_le_mono_pos_r _ _ one HO). nia. }
  pose proof (mag_pos Double r ltac:(lia)) as Mr. exists (mag Double r). split; [|auto]. exists n, r. split; [lia|]. split; [reflexivity|]. destruct N as [->|U0]; [reflexivity|]. subst u.
  assert (mag Double r = 0) by (set (P := 2 ^ 53) in *; assert (0 < P) by reflexivity; nia). unfold sval. destruct n; lia.
Qed.
Lemma is_meaning : forall b z, is b z -> exists q, meaning double b = Real q /\ (q == qv z)%Q.
Proof. intros b z (n & c & Hc & -> & ->). exact (meaning_fin Double n c Hc). Qed.
Lemma datetime_is : forall s u, Z.abs (s - 978307200) <= 2 ^ 32 -> 0 <= u < 1000000 -> exists z, is (datetime s u) z /\ 100 * Z.abs (1000000 * z - (1000000 * (s - 978307200) + u) * one) <= 48 * one.
Proof.
  intros s u Hs Hu. unfold datetime, minus_epoch. change (2 ^ 32) with 4294967296 in Hs.
  assert (H1 : is (add (of_int Double s) (of_int Double (- 978307200))) ((s + - 978307200) * one)) by (apply add_ints; change (2 ^ 53) with 9007199254740992; lia).
  unfold e6. destruct (mul_is u 1000000 ltac:(change (2 ^ 53) with 9007199254740992; lia) ltac:(vm_compute; split; [reflexivity|discriminate])) as (z1 & H2 & P1 & E1). destruct (lit_ok 1000000 ltac:(vm_compute; split; [reflexivity|discriminate])) as (_ & E6 & L6 & _). pose proof one_pos as HO.
  pose proof big40 as big.
  set (E := one) in *. clearbody E. remember (mag Double (inf Double - 1)) as M eqn:EM. set (m := lit 1000000) in *. clearbody m. change (2 ^ 40) with 1099511627776 in big. change (2 ^ 53) with 9007199254740992 in *. clear L6.
  set (x := s + - 978307200) in *. replace (s - 978307200) with x in * by (unfold x; lia). clearbody x. 
  assert (Hm : 0 <= m <= E) by lia. assert (Hw : 0 <= u * m <= 1000000 * m) by nia. assert (Hx : Z.abs (x * E) <= 4294967296 * E) by (rewrite Z.abs_mul, (Z.abs_eq E) by lia; nia).
  assert (B : Z.abs (x * E + z1) <= M) by lia.
  destruct (add_is _ _ _ _ H1 H2) as (z & H3 & E3); [rewrite <- EM; exact B|]. exists z. split; [exact H3|]. change (2 ^ 53) with 9007199254740992 in E3.
  assert (Eu : 9007199254740992 * Z.abs (u * (E - m * 1000000)) <= 1000000 * E) by (rewrite Z.abs_mul, (Z.abs_eq u) by lia; nia).
  replace (1000000 * z - (1000000 * x + u) * E) with (1000000 * (z - (x * E + z1)) + 1000000 * (z1 - u * m) - u * (E - m * 1000000)) by ring.
  set (w := u * m) in *. set (v := u * (E - m * 1000000)) in *. set (y := x * E) in *. clearbody w v y. lia.
Qed.
Theorem shows_time : forall s u, Z.abs (s - 978307200) <= 2 ^ 32 -> 0 <= u < 1000000 -> exists q, meaning double (datetime s u) = Real q /\ (Qabs (q - instant s u) <= 48 # 100000000)%Q.
Proof.
  intros s u Hs Hu. destruct (datetime_is s u Hs Hu) as (z & H & E). destruct (is_meaning _ _ H) as (q & Hq & Eq). exists q. split; [exact Hq|].
  assert (A : (instant s u * (1000000 # 1) == qv ((1000000 * (s - 978307200) + u) * one))%Q) by (unfold instant; rewrite qv_int, inject_Z_plus, inject_Z_mult; change (inject_Z 1000000) with (1000000 # 1)%Q; ring).
  apply (proj1 (qv_le _ _)) in E. rewrite Z.mul_comm, qv_mul, qv_abs, qv_sub, <- A, (Z.mul_comm 1000000 z), qv_mul, <- Eq, qv_int in E. change (inject_Z 1000000) with (1000000 # 1)%Q in E. change (inject_Z 100) with (100 # 1)%Q in E. change (inject_Z 48) with (48 # 1)%Q in E.
  revert E. apply Qabs_case; intros C1 E; apply Qabs_case; intros C2; lra.
Qed.
(** Later by a microsecond is later. *)
Theorem in_order : forall s u s' u', Z.abs (s - 978307200) <= 2 ^ 32 -> 0 <= u < 1000000 -> Z.abs (s' - 978307200) <= 2 ^ 32 -> 0 <= u' < 1000000 -> s < s' \/ (s = s' /\ u < u') ->
  exists q r, meaning double (datetime s u) = Real q /\ meaning double (datetime s' u') = Real r /\ (q < r)%Q.
Proof.
  intros s u s' u' Hs Hu Hs' Hu' O. destruct (datetime_is s u Hs Hu) as (z & H & E). destruct (datetime_is s' u' Hs' Hu') as (z' & H' & E'). destruct (is_meaning _ _ H) as (q & Hq & Eq). destruct (is_meaning _ _ H') as (r & Hr & Er). exists q, r. split; [exact Hq|]. split; [exact Hr|].
  rewrite Eq, Er. apply (proj1 (qv_lt _ _)). pose proof one_pos as HO. set (E0 := one) in *. clearbody E0. assert (D : 1000000 * (s - 978307200) + u + 1 <= 1000000 * (s' - 978307200) + u') by lia.
  set (a := 1000000 * (s - 978307200) + u) in *. set (b := 1000000 * (s' - 978307200) + u') in *. clearbody a b. assert (K : (a + 1) * E0 <= b * E0) by nia. rewrite Z.mul_add_distr_r in K. set (aE := a * E0) in *. set (bE := b * E0) in *. clearbody aE bE. lia.
Qed.

(** ** Local time *)
Lemma minutes_is : forall w, Z.abs w <= 1440 -> is (mul (of_int Double w) (of_int Double 60)) (w * 60 * one).
Proof.
  intros w Hw. change 1440 with (1440 * 1) in Hw. assert (B : Z.abs w <= 2 ^ 53) by (change (2 ^ 53) with 9007199254740992; lia). assert (B2 : Z.abs (w * 60) <= 2 ^ 53) by (change (2 ^ 53) with 9007199254740992; lia).
  destruct (int_is w B) as (n & c & Hc & Eb & Ez). destruct (int_is 60 ltac:(vm_compute; discriminate)) as (n2 & c2 & Hc2 & Eb2 & Ez2). destruct (int_is (w * 60) B2) as (n3 & c3 & Hc3 & _ & Ez3).
  pose proof one_pos as HO. pose proof (mag_pos Double c ltac:(lia)) as P1. pose proof (mag_pos Double c2 ltac:(lia)) as P2. pose proof (mag_pos Double c3 ltac:(lia)) as P3.
  assert (N2 : n2 = false /\ mag Double c2 = 60 * one) by (unfold sval in Ez2; destruct n2; split; lia). destruct N2 as [-> M2].
  assert (M1 : mag Double c = Z.abs w * one) by (unfold sval in Ez; destruct n; nia). assert (M3 : mag Double c3 = Z.abs w * 60 * one) by (unfold sval in Ez3; destruct n3; nia).
  unfold mul. rewrite Eb, Eb2, !decode_with_sign by lia. destruct (Z.ltb_spec c (inf Double)); [|lia]. destruct (Z.ltb_spec c2 (inf Double)); [|lia]. rewrite xorb_false_r, M1, M2.
  replace (Z.abs w * one * (60 * one)) with (mag Double c3 * one) by (rewrite M3; ring). rewrite round_exact by lia. exists n, c3. split; [exact Hc3|]. split; [reflexivity|].
  unfold sval in *. rewrite M3. destruct n; nia.
Qed.
Theorem local_off : forall s u west, Z.abs (s - 978307200) <= 2 ^ 32 -> 0 <= u < 1000000 -> Z.abs west <= 1440 ->
  exists q, meaning double (localtime s u west) = Real q /\ (Qabs (q - (instant s u + inject_Z (60 * west))) <= 1 # 1000000)%Q.
Proof.
  intros s u west Hs Hu Hw. destruct (datetime_is s u Hs Hu) as (z & H & E). pose proof (minutes_is west Hw) as H2. unfold localtime. pose proof one_pos as HO.
  pose proof big40 as big. change (2 ^ 40) with 1099511627776 in big. change (2 ^ 32) with 4294967296 in Hs.
  set (x := s - 978307200) in *.
  assert (F : exists z2, is (add (datetime s u) (mul (of_int Double west) (of_int Double 60))) z2 /\ Z.abs (1000000 * z2 - ((1000000 * x + u) * one + 1000000 * (west * 60 * one))) <= one).
  { assert (Hz : Z.abs (z + west * 60 * one) <= 4295100000 * one) by (set (E0 := one) in *; clearbody E0; assert (Z.abs (x * E0) <= 4294967296 * E0) by (rewrite Z.abs_mul, (Z.abs_eq E0) by lia; nia); assert (Z.abs (west * 60 * E0) <= 86400 * E0) by (rewrite Z.abs_mul, (Z.abs_eq E0) by lia; nia); assert (0 <= u * E0 <= 1000000 * E0) by nia; replace ((1000000 * x + u) * E0) with (1000000 * (x * E0) + u * E0) in E by ring; lia).
    destruct (add_is _ _ _ _ H H2) as (z2 & H3 & E3); [lia|]. exists z2. split; [exact H3|]. change (2 ^ 53) with 9007199254740992 in E3. set (y := (1000000 * x + u) * one) in *. set (v := west * 60 * one) in *. set (E0 := one) in *. clearbody y v E0. lia. }
  destruct F as (z2 & H3 & E3). destruct (is_meaning _ _ H3) as (q & Hq & Eq). exists q. split; [exact Hq|].
  assert (A : ((instant s u + inject_Z (60 * west)) * (1000000 # 1) == qv ((1000000 * x + u) * one + 1000000 * (west * 60 * one)))%Q).
  { rewrite qv_add, qv_int, (Z.mul_comm 1000000 (west * 60 * one)), qv_mul, qv_int. unfold instant. fold x. rewrite inject_Z_plus, (inject_Z_mult 1000000 x), (Z.mul_comm 60 west). change (inject_Z 1000000) with (1000000 # 1)%Q. ring. }
  apply (proj1 (qv_le _ _)) in E3. rewrite qv_abs, qv_sub, <- A, (Z.mul_comm 1000000 z2), qv_mul, <- Eq, qv_one in E3. change (inject_Z 1000000) with (1000000 # 1)%Q in E3.
  revert E3. apply Qabs_case; intros C1 E3; apply Qabs_case; intros C2; lra.
Qed.
(** Off by twice the distance to universal time. *)
Theorem local_wrong : forall s u west, Z.abs (s - 978307200) <= 2 ^ 32 -> 0 <= u < 1000000 -> 0 < Z.abs west <= 1440 ->
  exists q, meaning double (localtime s u west) = Real q /\ (119 <= Qabs (q - (instant s u - inject_Z (60 * west))))%Q.
Proof.
  intros s u west Hs Hu Hw. destruct (local_off s u west Hs Hu ltac:(lia)) as (q & Hq & E). exists q. split; [exact Hq|].
  assert (W : (1 <= inject_Z west \/ inject_Z west <= -1)%Q). { assert (C : 1 <= west \/ west <= -1) by lia. destruct C as [C|C]; rewrite Zle_Qle in C; [left|right]; exact C. }
  rewrite inject_Z_mult in *. change (inject_Z 60) with (60 # 1)%Q in *. revert E. apply Qabs_case; intros C1 E; apply Qabs_case; intros C2; destruct W; lra.
Qed.

(** ** Windows *)
(** 9 July 1998, 16:00. *)
Theorem windows_wrong : exists n s q, n = (11644473600 + s) * 10000000 /\ s = 900000000 /\ meaning double (windows_datetime n) = Real q /\ (instant s 0 + 800000000 < q)%Q.
Proof.
  exists 125444736000000000, 900000000.
  assert (H1 : is (add (of_int Double 900000000) (of_int Double (- 978307200))) (- 78307200 * one)) by (apply (add_ints 900000000 (- 978307200)); vm_compute; discriminate).
  destruct (mul_is 8999999100000000 10000000 ltac:(vm_compute; split; discriminate) ltac:(vm_compute; split; [reflexivity|discriminate])) as (z1 & H2 & P1 & E1). destruct (lit_ok 10000000 ltac:(vm_compute; split; [reflexivity|discriminate])) as (_ & E7 & _ & U7).
  pose proof big40 as big. pose proof one_pos as HO. change (2 ^ 40) with 1099511627776 in big. change (2 ^ 53) with 9007199254740992 in *.
  assert (B : Z.abs (- 78307200 * one + z1) <= mag Double (inf Double - 1)) by lia.
  destruct (add_is _ _ _ _ H1 H2 B) as (z & H3 & E3). change (2 ^ 53) with 9007199254740992 in E3.
  assert (W : windows_datetime 125444736000000000 = add (add (of_int Double 900000000) (of_int Double (- 978307200))) (mul (of_int Double 8999999100000000) (round Double one 10000000))) by (unfold windows_datetime, minus_epoch, e7; reflexivity).
  destruct (is_meaning _ _ H3) as (q & Hq & Eq). exists q. split; [reflexivity|]. split; [reflexivity|]. split; [rewrite W; exact Hq|]. rewrite Eq. unfold instant.
  assert (L : (900000000 - 978307200 + 800000000) * one < z) by (set (E := one) in *; clearbody E; set (m := lit 10000000) in *; clearbody m; lia).
  apply (proj1 (qv_lt _ _)) in L. rewrite qv_int, inject_Z_plus in L. change (inject_Z 800000000) with (800000000 # 1)%Q in L. change (inject_Z 0) with (0 # 1)%Q. lra.
Qed.
