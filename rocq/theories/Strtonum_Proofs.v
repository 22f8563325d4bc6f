(** Proofs about reading and printing numbers. *)
Require Import Coq.ZArith.ZArith Coq.NArith.NArith Coq.Lists.List Coq.Bool.Bool Coq.micromega.Lia.
Require Import Verif.Base Verif.Strtonum_Model Verif.Strtonum_Spec.
Import ListNotations.
Local Open Scope N_scope.

Lemma isdigit_yes b : digit b -> isdigit b = true.
Proof. intros [A B]. unfold isdigit. apply andb_true_intro. split; apply N.leb_le; auto. Qed.
Lemma isdigit_no b : ~ digit b -> isdigit b = false.
Proof. intros H. unfold isdigit. apply andb_false_iff. destruct (N.leb_spec 48 b); auto. destruct (N.leb_spec b 57); auto. exfalso. apply H. split; auto. Qed.
Definition fold (v : Z) (ds : list N) : Z := fold_left (fun v b => (10 * v + (Z.of_N b - 48))%Z) ds v.
Lemma fold_ge ds : Forall digit ds -> forall v, (0 <= v)%Z -> (v <= fold v ds)%Z.
Proof. induction 1 as [|b ds [A B] _ IH]; intros v H; [cbn; lia|]. change (fold v (b :: ds)) with (fold (10 * v + (Z.of_N b - 48)) ds). specialize (IH (10 * v + (Z.of_N b - 48))%Z ltac:(lia)). lia. Qed.
Lemma digits_ok ds b rest : Forall digit ds -> ~ digit b -> forall v, (0 <= v)%Z -> (fold v ds <= i64max)%Z -> digits v (ds ++ b :: rest) = Ok (fold v ds, b :: rest).
Proof.
  induction 1 as [|d ds D F IH]; intros N v V M.
  - cbn. now rewrite isdigit_no.
  - cbn [app digits]. rewrite isdigit_yes by auto. destruct D as [D1 D2]. pose proof (fold_ge ds F (v * 10 + (Z.of_N d - 48))%Z ltac:(lia)) as G.
    assert (E: fold v (d :: ds) = fold (v * 10 + (Z.of_N d - 48)) ds) by (unfold fold; cbn [fold_left]; f_equal; lia).
    rewrite E in M. destruct (Z.leb_spec (v * 10 + (Z.of_N d - 48)) i64max); [|lia]. rewrite IH by (auto; lia). now rewrite E.
Qed.
Lemma fraction_ok ds b rest : Forall digit ds -> ~ digit b -> forall k, (k + length ds <= 18)%nat -> fraction (10 ^ Z.of_nat k) (ds ++ b :: rest) = Ok (map (fun d => d - 48) ds, b :: rest).
Proof.
  induction 1 as [|d ds D F IH]; intros N k K.
  - cbn. now rewrite isdigit_no.
  - cbn [app fraction]. rewrite isdigit_yes by auto. cbn [length] in K.
    replace (10 ^ Z.of_nat k * 10)%Z with (10 ^ Z.of_nat (S k))%Z by (rewrite Nat2Z.inj_succ, Z.pow_succ_r by lia; lia).
    assert (M: (10 ^ Z.of_nat (S k) <= 10 ^ 18)%Z) by (apply Z.pow_le_mono_r; lia).
    destruct (Z.leb_spec (10 ^ Z.of_nat (S k)) i64max) as [L|L]; [|unfold i64max in L; change (10 ^ 18)%Z with 1000000000000000000%Z in M; lia].
    rewrite IH by (auto; lia). reflexivity.
Qed.
Lemma schar_small b : b < 128 -> schar b = Z.of_N b.
Proof. intros H. unfold schar. destruct (N.ltb_spec b 128); auto; lia. Qed.
Lemma skip_white_ok ws b s : Forall white ws -> b < 128 -> ~ white b -> skip_white (ws ++ b :: s) = Ok (b :: s).
Proof.
  intros F B W. induction F as [|w ws Hw _ IH].
  - cbn [app skip_white]. rewrite schar_small by auto. unfold isspace, white in *.
    replace ((-1 <=? Z.of_N b) && (Z.of_N b <=? 255))%Z with true by (symmetry; apply andb_true_intro; split; apply Z.leb_le; lia). cbn [obind].
    destruct (Z.leb_spec 9 (Z.of_N b)), (Z.leb_spec (Z.of_N b) 13), (Z.eqb_spec (Z.of_N b) 32); cbn [andb orb]; auto; lia.
  - cbn [app skip_white]. assert (w < 128) by (unfold white in Hw; lia). rewrite schar_small by auto. unfold isspace, white in *.
    replace ((-1 <=? Z.of_N w) && (Z.of_N w <=? 255))%Z with true by (symmetry; apply andb_true_intro; split; apply Z.leb_le; lia). cbn [obind].
    destruct (Z.leb_spec 9 (Z.of_N w)), (Z.leb_spec (Z.of_N w) 13), (Z.eqb_spec (Z.of_N w) 32); cbn [andb orb]; auto; lia.
Qed.
(** The text after white space and sign. *)
Lemma strtonum_start ws neg ds rest : Forall white ws -> Forall digit ds -> ds <> [] ->
  strtonum (ws ++ sign_text neg ++ ds ++ rest) =
  (do r <- digits 0 (ds ++ rest);
    let (ipart, s) := r in
    match s with
    | [] => UB
    | b :: s' =>
      do r <- (if b =? 46 then do r <- fraction 10 s'; Ok (Some (fst r), snd r) else Ok (None, s));
      let (fpart, s) := r : option (list N) * list N in
      match s with
      | [] => UB
      | b :: s' =>
        do r <- (if (b =? 101) || (b =? 69) then do r <- digits 0 s'; Ok (Some (fst r), snd r) else Ok (None, s));
        let (epart, s) := r : option Z * list N in
        match fpart, epart with
        | None, None => Ok (NInt (ipart * (if neg then -1 else 1)), s)
        | _, _ => Ok (NReal (if neg then -1 else 1)%Z ipart (match fpart with Some f => f | None => [] end) epart, s)
        end
      end
    end).
Proof.
  intros W D N. destruct ds as [|d ds]; [congruence|]. inversion_clear D. destruct H as [D1 D2]. unfold strtonum. destruct neg; cbn [sign_text app].
  - rewrite skip_white_ok by (auto; unfold white; lia). cbn [obind]. rewrite N.eqb_refl. reflexivity.
  - rewrite skip_white_ok by (auto; unfold white; lia). cbn [obind]. destruct (N.eqb_spec d 45); [lia|]. destruct (N.eqb_spec d 43); [lia|]. reflexivity.
Qed.
Lemma read_int ws neg ds rest : Forall white ws -> Forall digit ds -> ds <> [] -> (value ds <= i64max)%Z -> ends rest ->
  strtonum (ws ++ sign_text neg ++ ds ++ rest) = Ok (NInt (signed neg (value ds)), rest).
Proof.
  intros W D N V E. rewrite strtonum_start by auto. destruct rest as [|b rest]; [destruct E|]. destruct E as (E1 & E2 & E3 & E4).
  rewrite digits_ok by (auto; lia). cbn [obind]. destruct (N.eqb_spec b 46); [congruence|]. cbn [obind].
  destruct (N.eqb_spec b 101); [congruence|]. destruct (N.eqb_spec b 69); [congruence|]. cbn [orb obind].
  change (fold 0 ds) with (value ds). do 3 f_equal. unfold signed. destruct neg; lia.
Qed.
Lemma read_real ws neg ds fs es rest : Forall white ws -> Forall digit ds -> ds <> [] -> (value ds <= i64max)%Z ->
  Forall digit fs -> (length fs < 18)%nat -> match es with None => True | Some (e, ed) => (e = 101 \/ e = 69) /\ Forall digit ed /\ (value ed <= i64max)%Z end -> ends rest ->
  strtonum (ws ++ sign_text neg ++ ds ++ (46 :: fs) ++ match es with None => [] | Some (e, ed) => e :: ed end ++ rest) =
  Ok (NReal (if neg then -1 else 1)%Z (value ds) (map (fun d => d - 48) fs) (match es with None => None | Some (_, ed) => Some (value ed) end), rest).
Proof.
  intros W D N V F L Es E. rewrite strtonum_start by auto. destruct rest as [|b rest]; [destruct E|]. destruct E as (E1 & E2 & E3 & E4). cbn [app].
  rewrite digits_ok by (auto; try lia; unfold digit; lia). cbn [obind]. change (46 =? 46) with true. cbv iota. change 10%Z with (10 ^ Z.of_nat 1)%Z.
  destruct es as [[e ed]|].
  - destruct Es as (He & De & Ve). cbn [app]. rewrite fraction_ok; [|auto|unfold digit; lia|lia]. cbn [obind fst snd].
    replace ((e =? 101) || (e =? 69)) with true by (symmetry; apply orb_true_iff; rewrite !N.eqb_eq; auto).
    rewrite digits_ok by (auto; lia). reflexivity.
  - cbn [app]. rewrite fraction_ok by (auto; lia). cbn [obind fst snd]. destruct (N.eqb_spec b 101); [congruence|]. destruct (N.eqb_spec b 69); [congruence|]. reflexivity.
Qed.
Lemma read_exp ws neg ds e ed rest : Forall white ws -> Forall digit ds -> ds <> [] -> (value ds <= i64max)%Z -> (e = 101 \/ e = 69) -> Forall digit ed -> (value ed <= i64max)%Z -> ends rest ->
  strtonum (ws ++ sign_text neg ++ ds ++ (e :: ed) ++ rest) = Ok (NReal (if neg then -1 else 1)%Z (value ds) [] (Some (value ed)), rest).
Proof.
  intros W D N V He De Ve E. rewrite strtonum_start by auto. destruct rest as [|b rest]; [destruct E|]. destruct E as (E1 & E2 & E3 & E4). cbn [app].
  rewrite digits_ok by (auto; try lia; unfold digit; lia). cbn [obind]. destruct (N.eqb_spec e 46); [lia|]. cbn [obind].
  replace ((e =? 101) || (e =? 69)) with true by (symmetry; apply orb_true_iff; rewrite !N.eqb_eq; auto).
  rewrite digits_ok by (auto; lia). reflexivity.
Qed.
(** ** Printing *)
Lemma value_app a b : value (a ++ b) = fold (value a) b.
Proof. unfold value, fold. apply fold_left_app. Qed.
Lemma print_ok fuel : forall n acc, n < 10 ^ N.of_nat fuel -> (0 < fuel)%nat ->
  exists ds, print_digits fuel n acc = ds ++ acc /\ Forall digit ds /\ value ds = Z.of_N n /\ (ds = [48] \/ exists d ds', ds = d :: ds' /\ d <> 48).
Proof.
  induction fuel as [|fuel IH]; intros n acc H P; [lia|]. cbn [print_digits]. pose proof (N.mod_lt n 10 ltac:(lia)). pose proof (N.div_mod n 10 ltac:(lia)) as DM. pose proof (N.le_0_l (n mod 10)). assert (Dg: digit (48 + n mod 10)) by (split; lia).
  destruct (N.eqb_spec (n / 10) 0) as [Z|NZ].
  - exists [48 + n mod 10]. split; [reflexivity|]. split; [apply Forall_cons; [exact Dg|apply Forall_nil]|]. split; [unfold value; cbn [fold_left]; lia|].
    destruct (N.eq_dec (n mod 10) 0) as [-> |M]; [left; reflexivity|right; eexists; eexists; split; [reflexivity|lia]].
  - assert (Hf: (0 < fuel)%nat) by (destruct fuel; [exfalso; apply NZ; apply N.div_small; exact H|lia]).
    destruct (IH (n / 10) (48 + n mod 10 :: acc)) as (ds & E & D & V & L); auto.
    { apply N.div_lt_upper_bound; [lia|]. rewrite Nat2N.inj_succ, N.pow_succ_r' in H. exact H. }
    exists (ds ++ [48 + n mod 10]). rewrite E, <- app_assoc. split; [reflexivity|]. split; [apply Forall_app; split; [exact D|apply Forall_cons; [exact Dg|apply Forall_nil]]|].
    split; [rewrite value_app, V; unfold fold; cbn [fold_left]; lia|]. right. destruct L as [->|(d & ds' & -> & Nd)]; [|exists d, (ds' ++ [48 + n mod 10]); auto]. unfold value in V; cbn [fold_left] in V. lia.
Qed.
Lemma print_int_ok z : (- i64max <= z <= i64max)%Z -> exists neg ds, print_int z = sign_text neg ++ ds /\ decimal ds (Z.abs z) /\ ds <> [] /\ signed neg (Z.abs z) = z.
Proof.
  intros R. unfold print_int. unfold i64max in R. destruct (Z.ltb_spec z 0) as [L|L].
  - destruct (print_ok 20 (Z.to_N (- z)) []) as (ds & E & D & V & F); [change (N.of_nat 20) with 20; change (10 ^ 20) with 100000000000000000000; lia|lia|].
    exists true, ds. rewrite E, app_nil_r. split; [reflexivity|]. split; [split; [auto|split; [lia|auto]]|]. split; [destruct F as [->|(d & ds' & -> & _)]; discriminate|cbn; lia].
  - destruct (print_ok 20 (Z.to_N z) []) as (ds & E & D & V & F); [change (N.of_nat 20) with 20; change (10 ^ 20) with 100000000000000000000; lia|lia|].
    exists false, ds. rewrite E, app_nil_r. split; [reflexivity|]. split; [split; [auto|split; [lia|auto]]|]. split; [destruct F as [->|(d & ds' & -> & _)]; discriminate|cbn; lia].
Qed.
Lemma decimal_read neg ds z rest : decimal ds (Z.abs z) -> (- i64max <= z <= i64max)%Z -> signed neg (Z.abs z) = z -> ends rest -> strtonum (sign_text neg ++ ds ++ rest) = Ok (NInt z, rest).
Proof.
  intros (D & V & F) R S E. assert (N: ds <> []) by (destruct F as [->|(d & ds' & -> & _)]; discriminate).
  rewrite <- S, <- V. apply (read_int [] neg ds rest); auto. lia.
Qed.
Lemma print_read z rest : (- i64max <= z <= i64max)%Z -> ends rest -> strtonum (print_int z ++ rest) = Ok (NInt z, rest).
Proof.
  intros R E. destruct (print_int_ok z R) as (neg & ds & -> & D & N & S). rewrite <- app_assoc. now apply decimal_read.
Qed.
