(** Proofs about strings read as integers and truth values. *)
Require Import Coq.ZArith.ZArith Coq.NArith.NArith Coq.Lists.List Coq.Bool.Bool Coq.micromega.Lia.
Require Import Verif.Base Verif.Scalar_Model Verif.Scalar_Spec.
Require Verif.Strtonum_Model Verif.Strtonum_Spec Verif.Strtonum_Proofs.
Import ListNotations.
Local Open Scope N_scope.

Lemma space_iff b : is_space b = true <-> white b.
Proof. unfold is_space, white. rewrite orb_true_iff, andb_true_iff, N.eqb_eq, !N.leb_le. tauto. Qed.
Lemma digit_iff b : is_digit b = true <-> digit b.
Proof. unfold is_digit, digit. rewrite andb_true_iff, !N.leb_le. tauto. Qed.
Lemma digit_no b : ~ digit b -> is_digit b = false.
Proof. rewrite <- digit_iff. destruct (is_digit b); congruence. Qed.
Lemma skip_ok ws s : Forall white ws -> skip_space (ws ++ s) = skip_space s.
Proof. induction ws as [|b ws IH]; intros W; [reflexivity|]. inversion W as [|? ? B Ws]; subst. cbn [app skip_space]. rewrite (proj2 (space_iff b) B). exact (IH Ws). Qed.
Lemma skip_stop s : (match s with b :: _ => ~ white b | [] => True end) -> skip_space s = s.
Proof. destruct s as [|b s]; [reflexivity|]. intros W. cbn [skip_space]. rewrite <- space_iff in W. destruct (is_space b); congruence. Qed.
Lemma digits_ok : forall ds acc rest, Forall digit ds -> no_digit rest -> digits acc (ds ++ rest) = (acc * 10 ^ Z.of_nat (length ds) + value ds)%Z.
Proof.
  induction ds as [|d ds IH]; intros acc rest D R.
  - cbn [app length value]. change (Z.of_nat 0) with 0%Z. rewrite Z.pow_0_r. destruct rest as [|b rest]; cbn [digits]; [lia|]. cbn [no_digit] in R. rewrite (digit_no b R). lia.
  - inversion D as [|? ? Dd Dds]; subst. cbn [app digits]. rewrite (proj2 (digit_iff d) Dd), (IH _ rest Dds R). cbn [value length].
    rewrite Nat2Z.inj_succ, Z.pow_succ_r by lia. ring.
Qed.
Lemma first_digit d : digit d -> ~ white d /\ d <> 43 /\ d <> 45.
Proof. unfold digit, white. lia. Qed.
Lemma strtol_plain s : (match s with b :: _ => ~ white b /\ b <> 43 /\ b <> 45 | [] => True end) -> strtol s = clamp64 (digits 0 s).
Proof.
  intros H. unfold strtol. rewrite skip_stop by (destruct s; tauto). destruct s as [|b s]; [reflexivity|]. destruct H as (_ & A & B).
  destruct b as [|p]; [reflexivity|]. do 6 (destruct p as [p|p|]; try reflexivity); exfalso; lia.
Qed.
Lemma strtol_space ws s : Forall white ws -> strtol (ws ++ s) = strtol s.
Proof. intros W. unfold strtol. rewrite skip_ok by exact W. reflexivity. Qed.
Lemma strtol_ok t z : stands_for t z -> strtol t = clamp64 z.
Proof.
  intros (ws & g & ds & rest & -> & W & D & NE & R & ->). rewrite strtol_space by exact W.
  pose proof (digits_ok ds 0 rest D R) as V. replace (0 * 10 ^ Z.of_nat (length ds) + value ds)%Z with (value ds) in V by ring.
  destruct g; cbn [sign_text app signed].
  - change (strtol (43 :: ds ++ rest)) with (clamp64 (digits 0 (ds ++ rest))). rewrite V. reflexivity.
  - change (strtol (45 :: ds ++ rest)) with (clamp64 (- digits 0 (ds ++ rest))). rewrite V. reflexivity.
  - rewrite strtol_plain; [rewrite V; reflexivity|]. destruct ds as [|d ds]; [contradiction|]. inversion D; subst. cbn [app]. apply first_digit. assumption.
Qed.
Lemma strtol_none t : no_number t -> strtol t = 0%Z.
Proof.
  intros (ws & g & rest & -> & W & R & F). rewrite strtol_space by exact W.
  pose proof (digits_ok [] 0 rest (Forall_nil _) R) as V. cbn [app length value] in V. replace (0 * 10 ^ Z.of_nat 0 + 0)%Z with 0%Z in V by reflexivity.
  destruct g; cbn [sign_text app].
  - change (strtol (43 :: rest)) with (clamp64 (digits 0 (rest))). rewrite V. reflexivity.
  - change (strtol (45 :: rest)) with (clamp64 (- digits 0 (rest))). rewrite V. reflexivity.
  - rewrite strtol_plain by (apply F; reflexivity). rewrite V. reflexivity.
Qed.
Lemma get64 t : get_int64 (Some t) = strtol t.
Proof. destruct t; reflexivity. Qed.
Lemma get32 t : get_int32 (Some t) = to_int32 (strtol t).
Proof. destruct t; reflexivity. Qed.
Lemma clamp_nearest z : nearest (- 2 ^ 63) (2 ^ 63 - 1) z (clamp64 z).
Proof.
  unfold nearest, clamp64. change (2 ^ 63)%Z with 9223372036854775808%Z. destruct (Z.ltb_spec z (Z.opp 9223372036854775808)); [|destruct (Z.ltb_spec (9223372036854775808 - 1) z)]; (split; [lia|intros r' R'; lia]).
Qed.
Lemma int64_ok t z : stands_for t z -> nearest (- 2 ^ 63) (2 ^ 63 - 1) z (get_int64 (Some t)).
Proof. intros S. rewrite get64, (strtol_ok t z S). apply clamp_nearest. Qed.
Lemma none_ok t : no_number t -> get_int64 (Some t) = 0%Z /\ get_int32 (Some t) = 0%Z.
Proof. intros H. rewrite get64, get32, (strtol_none t H). split; reflexivity. Qed.
Lemma int32_ok t z : stands_for t z -> (- 2 ^ 31 <= z < 2 ^ 31)%Z -> get_int32 (Some t) = z.
Proof.
  intros S R. rewrite get32, (strtol_ok t z S). unfold clamp64, to_int32. change (2 ^ 63)%Z with 9223372036854775808%Z. change (2 ^ 31)%Z with 2147483648%Z in *. change (2 ^ 32)%Z with 4294967296%Z.
  destruct (Z.ltb_spec z (Z.opp 9223372036854775808)); [lia|]. destruct (Z.ltb_spec (9223372036854775808 - 1) z); [lia|]. rewrite Z.mod_small by lia. lia.
Qed.
(** Whatever the text is, it begins with a number or does not. *)
Lemma split_digits s : exists ds rest, s = ds ++ rest /\ Forall digit ds /\ no_digit rest.
Proof.
  induction s as [|b s (ds & rest & -> & D & R)]; [exists [], []; repeat split; constructor|].
  destruct (is_digit b) eqn:E.
  - exists (b :: ds), rest. split; [reflexivity|]. split; [constructor; [apply digit_iff, E|exact D]|exact R].
  - exists [], (b :: ds ++ rest). split; [reflexivity|]. split; [constructor|]. cbn. rewrite <- digit_iff, E. discriminate.
Qed.
Lemma split_space s : exists ws rest, s = ws ++ rest /\ Forall white ws /\ match rest with b :: _ => ~ white b | [] => True end.
Proof.
  induction s as [|b s (ws & rest & -> & W & R)]; [exists [], []; repeat split; constructor|].
  destruct (is_space b) eqn:E.
  - exists (b :: ws), rest. split; [reflexivity|]. split; [constructor; [apply space_iff, E|exact W]|exact R].
  - exists [], (b :: ws ++ rest). split; [reflexivity|]. split; [constructor|]. rewrite <- space_iff, E. discriminate.
Qed.
Lemma total t : (exists z, stands_for t z) \/ no_number t.
Proof.
  destruct (split_space t) as (ws & s & -> & W & F).
  assert (X : forall g s', s = sign_text g ++ s' -> (g = Absent -> match s' with b :: _ => ~ white b /\ b <> 43 /\ b <> 45 | [] => True end) -> (exists z, stands_for (ws ++ s) z) \/ no_number (ws ++ s)).
  { intros g s' -> A. destruct (split_digits s') as (ds & rest & -> & D & R). destruct ds as [|d ds].
    - right. exists ws, g, rest. auto.
    - left. exists (signed g (value (d :: ds))), ws, g, (d :: ds), rest. split; [reflexivity|]. split; [exact W|]. split; [exact D|]. split; [discriminate|]. auto. }
  destruct s as [|b s]; [apply (X Absent []); auto|].
  destruct (N.eq_dec b 43) as [->|A]; [apply (X Plus s); [reflexivity|discriminate]|]. destruct (N.eq_dec b 45) as [->|B]; [apply (X Minus s); [reflexivity|discriminate]|].
  apply (X Absent (b :: s)); auto.
Qed.

(** ** Printed numbers *)
Lemma same_value ds : Strtonum_Spec.value ds = value ds.
Proof.
  assert (G : forall ds acc, fold_left (fun v b => (10 * v + (Z.of_N b - 48))%Z) ds acc = (acc * 10 ^ Z.of_nat (length ds) + value ds)%Z).
  { clear. induction ds as [|d ds IH]; intros acc; cbn [fold_left value length]; [rewrite Z.pow_0_r; ring|]. rewrite IH, Nat2Z.inj_succ, Z.pow_succ_r by lia. ring. }
  unfold Strtonum_Spec.value. rewrite G. ring.
Qed.
Lemma printed z : (- (2 ^ 63 - 1) <= z <= 2 ^ 63 - 1)%Z -> stands_for (Strtonum_Model.print_int z) z.
Proof.
  intros R. destruct (Strtonum_Proofs.print_int_ok z R) as (neg & ds & E & (D & V & _) & NE & S). rewrite same_value in V.
  exists [], (if neg then Minus else Absent), ds, []. rewrite app_nil_r. split; [rewrite E; destruct neg; reflexivity|]. split; [constructor|]. split; [exact D|]. split; [exact NE|]. split; [exact I|].
  rewrite <- S, <- V. destruct neg; reflexivity.
Qed.
Lemma print_back z : (- (2 ^ 63 - 1) <= z <= 2 ^ 63 - 1)%Z -> get_int64 (Some (Strtonum_Model.print_int z)) = z.
Proof.
  intros R. rewrite get64, (strtol_ok _ z (printed z R)). unfold clamp64. change (2 ^ 63)%Z with 9223372036854775808%Z in *.
  destruct (Z.ltb_spec z (Z.opp 9223372036854775808)); [lia|]. destruct (Z.ltb_spec (9223372036854775808 - 1) z); [lia|]. reflexivity.
Qed.
Lemma bool_printed z : (- (2 ^ 63 - 1) <= z <= 2 ^ 63 - 1)%Z -> get_bool (Some (Strtonum_Model.print_int z)) = (0 <? z)%Z.
Proof.
  intros R. destruct (Strtonum_Proofs.print_int_ok z R) as (neg & ds & E & (D & V & F) & NE & S). rewrite E. destruct neg; cbn [Strtonum_Spec.sign_text app Strtonum_Spec.signed] in *.
  - cbn [get_bool]. symmetry. apply Z.ltb_ge. lia.
  - destruct F as [->|(d & ds' & -> & Nd)]; cbn [get_bool].
    + change (Strtonum_Spec.value [48]) with 0%Z in V. replace z with 0%Z by lia. reflexivity.
    + inversion D as [|? ? Dd Dds]; subst. unfold Strtonum_Spec.digit in Dd. rewrite same_value in V. cbn [value] in V.
      assert (P : (0 <= value ds')%Z).
      { clear -Dds. induction ds' as [|e ds' IH]; cbn [value]; [lia|]. inversion Dds as [|? ? De D']; subst. specialize (IH D'). unfold Strtonum_Spec.digit in De. pose proof (Z.pow_nonneg 10 (Z.of_nat (length ds')) ltac:(lia)). nia. }
      pose proof (Z.pow_pos_nonneg 10 (Z.of_nat (length ds')) ltac:(lia) ltac:(lia)) as Q.
      replace (0 <? z)%Z with true by (symmetry; apply Z.ltb_lt; nia).
      assert (G : is_digit d = true) by (apply digit_iff; exact Dd). rewrite G. destruct (N.eqb_spec d 48); [contradiction|]. reflexivity.
Qed.
