(** The value of a text, and the text of a value. *)
Require Import Coq.ZArith.ZArith Coq.NArith.NArith Coq.QArith.QArith Coq.QArith.Qabs Coq.Lists.List Coq.Bool.Bool Coq.micromega.Lia Coq.micromega.Lqa.
Require Import Verif.Base Verif.Number_Model Verif.Number_Spec Verif.Strtonum_Model Verif.Strtonum_Spec Verif.Strtonum_Proofs Verif.Stream_Model Verif.Stream_Spec Verif.Stream_Proofs Verif.Real_Model Verif.Real_Spec Verif.Real_Proofs Verif.Real_Meaning Verif.Real_Conv Verif.Real_Order Verif.Real_Read.
Import ListNotations.
Local Open Scope Z_scope.

(** The digits that follow the first [i] ones after the point. *)
Fixpoint tail (i : nat) (fs : list N) : Q :=
  match fs with [] => 0%Q | d :: fs' => (inject_Z (Z.of_N d) / inject_Z (10 ^ Z.of_nat (S i)) + tail (S i) fs')%Q end.
Lemma ten_pos : forall i, (0 < inject_Z (10 ^ Z.of_nat i))%Q.
Proof. intros i. apply inject_pos. apply Z.pow_pos_nonneg; lia. Qed.
Lemma tail_bounds : forall fs i, Forall (fun d => (d <= 9)%N) fs -> (0 <= tail i fs)%Q /\ (tail i fs * inject_Z (10 ^ Z.of_nat i) <= 1)%Q.
Proof.
  induction fs as [|d fs IH]; intros i HF; cbn [tail].
  - split; [lra|]. setoid_replace (0 * inject_Z (10 ^ Z.of_nat i))%Q with 0%Q by ring. lra.
  - destruct (IH (S i) (Forall_inv_tail HF)) as (A & B). pose proof (Forall_inv HF) as D. cbv beta in D. pose proof (ten_pos i) as P. pose proof (ten_pos (S i)) as P1.
    assert (E : (inject_Z (10 ^ Z.of_nat (S i)) == 10 * inject_Z (10 ^ Z.of_nat i))%Q). { rewrite Nat2Z.inj_succ, Z.pow_succ_r by lia. rewrite inject_Z_mult. reflexivity. }
    assert (D0 : (0 <= inject_Z (Z.of_N d))%Q) by (change 0%Q with (inject_Z 0); rewrite <- Zle_Qle; lia). assert (D9 : (inject_Z (Z.of_N d) <= 9)%Q) by (change 9%Q with (inject_Z 9); rewrite <- Zle_Qle; lia).
    assert (X : (inject_Z (Z.of_N d) / inject_Z (10 ^ Z.of_nat (S i)) * inject_Z (10 ^ Z.of_nat i) == inject_Z (Z.of_N d) * (1 # 10))%Q).
    { rewrite E. field. intros N. rewrite N in P. exact (Qlt_irrefl 0 P). }
    assert (Y : (tail (S i) fs * inject_Z (10 ^ Z.of_nat i) == tail (S i) fs * inject_Z (10 ^ Z.of_nat (S i)) * (1 # 10))%Q) by (rewrite E; field).
    split.
    + assert (0 <= inject_Z (Z.of_N d) / inject_Z (10 ^ Z.of_nat (S i)))%Q by (apply Qle_shift_div_l; [exact P1|]; rewrite Qmult_0_l; exact D0). lra.
    + rewrite Qmult_plus_distr_l, X, Y. lra.
Qed.
Lemma fpart_ok : forall fs i acc x, (i + length fs <= 17)%nat -> Forall (fun d => (d <= 9)%N) fs -> nn acc -> (0 <= x)%Q -> (x + tail i fs <= 1)%Q ->
  (V acc - x <= 3 * inject_Z (Z.of_nat i) * eps)%Q -> (x - V acc <= 3 * inject_Z (Z.of_nat i) * eps)%Q ->
  let r := fpart acc (10 ^ Z.of_nat (S i)) fs in let k := inject_Z (Z.of_nat (i + length fs)) in
  nn r /\ (V r - (x + tail i fs) <= 3 * k * eps)%Q /\ ((x + tail i fs) - V r <= 3 * k * eps)%Q.
Proof.
  induction fs as [|d fs IH]; intros i acc x HL HF HA HX HS E1 E2; cbv zeta; cbn [fpart tail length] in *.
  - rewrite Nat.add_0_r, Qplus_0_r. auto.
  - pose proof (Forall_inv HF) as D. cbv beta in D. destruct (div_ok (Z.of_N d) (S i) ltac:(lia) ltac:(lia)) as (N1 & A1 & A2). cbv zeta in A1, A2.
    destruct (tail_bounds fs (S i) (Forall_inv_tail HF)) as (T0 & _).
    set (t := (inject_Z (Z.of_N d) / inject_Z (10 ^ Z.of_nat (S i)))%Q) in *. set (q := div (of_int Double (Z.of_N d)) (of_int Double (10 ^ Z.of_nat (S i)))) in *.
    assert (t0 : (0 <= t)%Q) by (apply Qle_shift_div_l; [apply ten_pos|]; rewrite Qmult_0_l; change 0%Q with (inject_Z 0); rewrite <- Zle_Qle; lia).
    pose proof (V_pos acc (proj1 HA)) as VA. pose proof (V_pos q (proj1 N1)) as VQ.
    assert (I17 : (inject_Z (Z.of_nat i) <= 17)%Q) by (change 17%Q with (inject_Z 17); rewrite <- Zle_Qle; lia). assert (I0 : (0 <= inject_Z (Z.of_nat i))%Q) by (change 0%Q with (inject_Z 0); rewrite <- Zle_Qle; lia).
    unfold eps in *. assert (B : (V acc + V q <= 2)%Q) by lra.
    destruct (add_ok acc q HA N1) as (N2 & B1 & B2). { eapply Qle_trans; [exact B|]. change 2%Q with (inject_Z 2). rewrite <- Zle_Qle. vm_compute. discriminate. }
    unfold eps in B1, B2. replace (10 ^ Z.of_nat (S i) * 10) with (10 ^ Z.of_nat (S (S i))) by (rewrite (Nat2Z.inj_succ (S i)), Z.pow_succ_r by lia; ring).
    assert (SI : (inject_Z (Z.of_nat (S i)) == inject_Z (Z.of_nat i) + 1)%Q) by (rewrite Nat2Z.inj_succ; unfold Z.succ; rewrite inject_Z_plus; reflexivity).
    destruct (IH (S i) (add acc q) (x + t)%Q) as (R0 & R1 & R2).
    + lia.
    + exact (Forall_inv_tail HF).
    + exact N2.
    + lra.
    + lra.
    + rewrite SI. lra.
    + rewrite SI. lra.
    + replace (i + S (length fs))%nat with (S i + length fs)%nat by lia. split; [exact R0|]. split; [setoid_replace (x + (t + tail (S i) fs))%Q with (x + t + tail (S i) fs)%Q by ring; exact R1|setoid_replace (x + (t + tail (S i) fs))%Q with (x + t + tail (S i) fs)%Q by ring; exact R2].
Qed.
Lemma mul_sign : forall (neg : bool) b, nn b -> mul (of_int Double (if neg then -1 else 1)) b = with_sign Double neg b.
Proof.
  intros neg b Hb. destruct (int_exact 1 ltac:(lia) (small_significant 1 ltac:(vm_compute; split; discriminate))) as (N1 & M1). rewrite Z.mul_1_l in M1.
  assert (D : decode Double (of_int Double (if neg then -1 else 1)) = Fin neg one).
  { destruct (repr_int Double 1 (small_significant 1 ltac:(vm_compute; split; discriminate)) ltac:(vm_compute; discriminate)) as (c & Hc & M). change (Z.abs 1) with 1 in M.
    assert (O : of_int Double (if neg then -1 else 1) = with_sign Double neg c) by (destruct neg; rewrite (of_int_exact Double _ c); (reflexivity || lia || (rewrite M; lia))).
    rewrite O, decode_with_sign by lia. destruct (Z.ltb_spec c (inf Double)); [|lia]. rewrite M. rewrite Z.mul_1_l. reflexivity. }
  unfold mul. rewrite D, decode_nn by exact Hb. rewrite xorb_false_r. rewrite Z.mul_comm. rewrite round_exact; [reflexivity|unfold nn in Hb; lia|apply one_pos].
Qed.

Lemma digit_vals : forall fs, Forall digit fs -> Forall (fun d => (d <= 9)%N) (map (fun d => (d - 48)%N) fs).
Proof. intros fs H. rewrite Forall_map. eapply Forall_impl; [|exact H]. intros d [A B]. lia. Qed.
Lemma value_cons : forall d fs, value (d :: fs) = (Z.of_N d - 48) * 10 ^ Z.of_nat (length fs) + value fs.
Proof. intros d fs. change (d :: fs) with ([d] ++ fs). rewrite Stream_Proofs.value_app. f_equal. Qed.
Lemma tail_value : forall fs i, Forall digit fs -> (tail i (map (fun d => (d - 48)%N) fs) * inject_Z (10 ^ Z.of_nat (i + length fs)) == inject_Z (value fs))%Q.
Proof.
  induction fs as [|d fs IH]; intros i HF; cbn [map tail length].
  - change (value []) with 0. ring.
  - rewrite value_cons. pose proof (IH (S i) (Forall_inv_tail HF)) as X. replace (i + S (length fs))%nat with (S i + length fs)%nat by lia. rewrite Qmult_plus_distr_l, X.
    destruct (Forall_inv HF) as [D1 D2]. rewrite Nat2Z.inj_add, Z.pow_add_r by lia. rewrite inject_Z_plus, !inject_Z_mult. replace (Z.of_N (d - 48)) with (Z.of_N d - 48) by lia.
    field. pose proof (ten_pos (S i)) as P. intros N. rewrite N in P. exact (Qlt_irrefl 0 P).
Qed.
Lemma number_tail : forall ds fs, Forall digit fs -> (number ds fs == inject_Z (value ds) + tail 0 (map (fun d => (d - 48)%N) fs))%Q.
Proof.
  intros ds fs HF. unfold number. rewrite Stream_Proofs.value_app. pose proof (tail_value fs 0 HF) as X. cbn [Nat.add] in X. pose proof (ten_pos (length fs)) as P.
  assert (N0 : ~ (inject_Z (10 ^ Z.of_nat (length fs)) == 0)%Q) by (intros N; rewrite N in P; exact (Qlt_irrefl 0 P)).
  change (value ds * 10 ^ Z.of_nat (length fs) + value fs # 1)%Q with (inject_Z (value ds * 10 ^ Z.of_nat (length fs) + value fs)). change (10 ^ Z.of_nat (length fs) # 1)%Q with (inject_Z (10 ^ Z.of_nat (length fs))).
  rewrite inject_Z_plus, inject_Z_mult. rewrite <- X. field. exact N0.
Qed.
Lemma value_nonneg : forall ds, Forall digit ds -> 0 <= value ds.
Proof. intros ds H. apply (fold_ge ds H 0). lia. Qed.

(** The sum of the integer and the fraction, without the sign. *)
Lemma sum_ok : forall ip fs, 0 <= ip <= i64max -> Forall digit fs -> (length fs <= 17)%nat ->
  let r := add (of_int Double ip) (fpart 0 10 (map (fun d => (d - 48)%N) fs)) in let x := (inject_Z ip + tail 0 (map (fun d => (d - 48)%N) fs))%Q in
  nn r /\ (V r - x <= 3 * (inject_Z ip + inject_Z (Z.of_nat (length fs)) + 1) * eps)%Q /\ (x - V r <= 3 * (inject_Z ip + inject_Z (Z.of_nat (length fs)) + 1) * eps)%Q.
Proof.
  intros ip fs Hip HF HL. cbv zeta. set (gs := map (fun d => (d - 48)%N) fs). assert (GL : length gs = length fs) by (unfold gs; apply map_length). pose proof (digit_vals fs HF) as HG. fold gs in HG.
  assert (B63 : i64max <= 2 ^ 63) by (vm_compute; discriminate). assert (B64 : 2 ^ 63 <= 2 ^ 64) by (apply Z.pow_le_mono_r; lia).
  destruct (int_ok ip ltac:(lia)) as (N1 & A1 & A2). destruct (tail_bounds gs 0 HG) as (T0 & T1). change (inject_Z (10 ^ Z.of_nat 0)) with 1%Q in T1. rewrite Qmult_1_r in T1.
  assert (V0 : (V 0 == 0)%Q) by (unfold V; rewrite mag_0; apply qv_0).
  destruct (fpart_ok gs 0 0 0%Q) as (N2 & B1 & B2); try assumption.
  - lia.
  - split; [lia|reflexivity].
  - lra.
  - lra.
  - rewrite V0. change (inject_Z (Z.of_nat 0)) with 0%Q. lra.
  - rewrite V0. change (inject_Z (Z.of_nat 0)) with 0%Q. lra.
  - cbv zeta in N2, B1, B2. change (10 ^ Z.of_nat 1) with 10 in *. cbn [Nat.add] in B1, B2. rewrite GL in B1, B2. rewrite Qplus_0_l in B1, B2. set (f := fpart 0 10 gs) in *.
    assert (K0 : (0 <= inject_Z (Z.of_nat (length fs)))%Q) by (change 0%Q with (inject_Z 0); rewrite <- Zle_Qle; lia). assert (K17 : (inject_Z (Z.of_nat (length fs)) <= 17)%Q) by (change 17%Q with (inject_Z 17); rewrite <- Zle_Qle; lia).
    assert (I0 : (0 <= inject_Z ip)%Q) by (change 0%Q with (inject_Z 0); rewrite <- Zle_Qle; lia). assert (I63 : (inject_Z ip <= 9223372036854775808)%Q). { change 9223372036854775808%Q with (inject_Z 9223372036854775808). rewrite <- Zle_Qle. change 9223372036854775808 with (2 ^ 63). lia. }
    pose proof (V_pos f (proj1 N2)) as VF. pose proof (V_pos _ (proj1 N1)) as VI. unfold eps in *.
    destruct (add_ok (of_int Double ip) f N1 N2) as (N3 & C1 & C2).
    { change (inject_Z (2 ^ 65)) with (36893488147419103232 # 1)%Q. lra. }
    split; [exact N3|]. unfold eps in C1, C2. split; lra.
Qed.
Theorem read_near : forall pow10 ws neg ds fs rest, Forall white ws -> Forall digit ds -> ds <> [] -> (value ds <= i64max) -> Forall digit fs -> (length fs < 18)%nat -> ends rest ->
  exists b q, read pow10 (ws ++ sign_text neg ++ ds ++ 46%N :: fs ++ rest) = Ok (b, rest) /\ pattern double b /\ meaning double b = Real q /\
    let x := (if neg then - number ds fs else number ds fs)%Q in (Qabs (q - x) <= 3 * (inject_Z (value ds) + inject_Z (Z.of_nat (length fs)) + 1) * (1 # 2 ^ 53))%Q.
Proof.
  intros pow10 ws neg ds fs rest HW HD HN HV HF HL HE. pose proof (read_real ws neg ds fs None rest HW HD HN HV HF HL Logic.I HE) as R. cbn [app] in R.
  destruct (sum_ok (value ds) fs) as (N1 & A1 & A2); [pose proof (value_nonneg ds HD); lia|exact HF|lia|]. cbv zeta in N1, A1, A2.
  set (gs := map (fun d => (d - 48)%N) fs) in *. set (r := add (of_int Double (value ds)) (fpart 0 10 gs)) in *.
  destruct (meaning_fin Double neg r N1) as (q & M & E). exists (with_sign Double neg r), q. split.
  { unfold read. rewrite R. cbn [obind fst snd]. unfold real. fold gs. fold r. rewrite mul_sign by exact N1. reflexivity. }
  split; [apply (with_sign_pattern Double); unfold nn in N1; lia|]. split; [exact M|]. cbv zeta. pose proof (number_tail ds fs HF) as NT. fold gs in NT.
  change (1 # 2 ^ 53)%Q with eps. assert (EQ : (q == if neg then - V r else V r)%Q) by (rewrite E; unfold sval, V; destruct neg; [apply qv_opp|reflexivity]).
  apply Qabs_Qle_condition. destruct neg; rewrite EQ, NT; split; lra.
Qed.
