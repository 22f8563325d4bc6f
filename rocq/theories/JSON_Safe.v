(** Proofs about JSON: tame texts are parsed without undefined behaviour. *)
Require Import Coq.ZArith.ZArith Coq.NArith.NArith Coq.Lists.List Coq.Bool.Bool Coq.Arith.Arith Coq.micromega.Lia.
Require Import Verif.Base Verif.Utf8_Model Verif.Utf8_Spec Verif.Utf8_Proofs Verif.Utf8_Strings Verif.Strtonum_Model Verif.Strtonum_Spec Verif.Strtonum_Proofs Verif.JSON_Model Verif.JSON_Spec Verif.JSON_Proofs Verif.JSON_Parse.
Import ListNotations.
Local Open Scope N_scope.

Definition suffix (a b : list N) : Prop := exists p, b = p ++ a.
Lemma suffix_refl a : suffix a a. Proof. now exists []. Qed.
Lemma suffix_trans a b c : suffix a b -> suffix b c -> suffix a c.
Proof. intros (p & ->) (q & ->). exists (q ++ p). now rewrite app_assoc. Qed.
Lemma suffix_cons a b x : suffix a b -> suffix a (x :: b). Proof. intros (p & ->). now exists (x :: p). Qed.
Lemma suffix_len a b : suffix a b -> (length a <= length b)%nat. Proof. intros (p & ->). rewrite app_length. lia. Qed.
Lemma suffix_skip n b : suffix (skipn n b) b. Proof. exists (firstn n b). now rewrite firstn_skipn. Qed.
Lemma suffix_tame a b : suffix a b -> tame b -> tame a.
Proof.
  intros (p & ->) (A & B & C). split; [|split].
  - apply Forall_app in A. tauto.
  - intros pre ds post E. apply (B (p ++ pre) ds post). now rewrite E, app_assoc.
  - intros pre post E. apply (C (p ++ pre) post). now rewrite E, app_assoc.
Qed.
Lemma skip_end n (s : list N) : (n <= length s)%nat -> skipn n (s ++ [0]) = skipn n s ++ [0].
Proof. intros L. rewrite skipn_app. replace (n - length s)%nat with 0%nat by lia. reflexivity. Qed.
Lemma tame_head b s : tame (b :: s) -> 0 < b < 128.
Proof. intros (A & _). now inversion A. Qed.
(** ** Numbers *)
Lemma digits_total s : forall acc k, (forall ds post, s = ds ++ post -> Forall digit ds -> (k + length ds < 18)%nat) -> (0 <= acc < 10 ^ Z.of_nat k)%Z ->
  exists v s', digits acc (s ++ [0]) = Ok (v, s' ++ [0]) /\ suffix s' s.
Proof.
  induction s as [|b s IH]; intros acc k H A; cbn [app digits]; [exists acc, []; split; [reflexivity|apply suffix_refl]|].
  destruct (isdigit b) eqn:D; [|exists acc, (b :: s); split; [reflexivity|apply suffix_refl]].
  assert (Hb: digit b) by (unfold isdigit in D; apply andb_true_iff in D; rewrite !N.leb_le in D; exact D).
  assert (K: (k + 1 < 18)%nat) by (apply (H [b] s); auto). unfold digit in Hb.
  assert (P: (10 ^ Z.of_nat (S k) = 10 * 10 ^ Z.of_nat k)%Z) by (rewrite Nat2Z.inj_succ, Z.pow_succ_r; lia).
  assert (M: (10 ^ Z.of_nat (S k) <= 10 ^ 17)%Z) by (apply Z.pow_le_mono_r; lia).
  assert (I: (10 ^ 17 <= i64max)%Z) by (unfold i64max; lia).
  replace (acc * 10 + (Z.of_N b - 48) <=? i64max)%Z with true by (symmetry; apply Z.leb_le; lia).
  destruct (IH (acc * 10 + (Z.of_N b - 48))%Z (S k)) as (v & s' & E & Su).
  - intros ds post -> F. specialize (H (b :: ds) post eq_refl ltac:(constructor; auto)). cbn [length] in H. lia.
  - lia.
  - exists v, s'. split; [exact E|now apply suffix_cons].
Qed.
Lemma fraction_total s : forall k, (forall ds post, s = ds ++ post -> Forall digit ds -> (k + length ds < 18)%nat) ->
  exists v s', fraction (10 ^ Z.of_nat (S k)) (s ++ [0]) = Ok (v, s' ++ [0]) /\ suffix s' s.
Proof.
  induction s as [|b s IH]; intros k H; cbn [app fraction]; [exists [], []; split; [reflexivity|apply suffix_refl]|].
  destruct (isdigit b) eqn:D; [|exists [], (b :: s); split; [reflexivity|apply suffix_refl]].
  assert (Hb: digit b) by (unfold isdigit in D; apply andb_true_iff in D; rewrite !N.leb_le in D; exact D).
  assert (K: (k + 1 < 18)%nat) by (apply (H [b] s); auto).
  assert (P: (10 ^ Z.of_nat (S k) * 10 = 10 ^ Z.of_nat (S (S k)))%Z) by (rewrite (Nat2Z.inj_succ (S k)), Z.pow_succ_r; lia).
  assert (M: (10 ^ Z.of_nat (S (S k)) <= 10 ^ 18)%Z) by (apply Z.pow_le_mono_r; lia).
  rewrite P. replace (10 ^ Z.of_nat (S (S k)) <=? i64max)%Z with true by (symmetry; apply Z.leb_le; unfold i64max; lia).
  destruct (IH (S k)) as (v & s' & E & Su).
  - intros ds post -> F. specialize (H (b :: ds) post eq_refl ltac:(constructor; auto)). cbn [length] in H. lia.
  - rewrite E. cbn [obind fst snd]. exists (b - 48 :: v), s'. split; [reflexivity|now apply suffix_cons].
Qed.
Lemma tame_run s : tame s -> forall ds post, s = ds ++ post -> Forall digit ds -> (0 + length ds < 18)%nat.
Proof. intros (_ & B & _) ds post E F. apply (B [] ds post); auto. Qed.
Lemma schar_ascii b : b < 128 -> schar b = Z.of_N b.
Proof. intros H. unfold schar. destruct (N.ltb_spec b 128); [reflexivity|lia]. Qed.
Lemma isspace_ascii b : b < 128 -> exists w, isspace (Z.of_N b) = Ok w.
Proof.
  intros L. unfold isspace. replace ((-1 <=? Z.of_N b) && (Z.of_N b <=? 255))%Z with true by (symmetry; apply andb_true_intro; split; apply Z.leb_le; lia). eauto.
Qed.
Lemma skip_total s : tame s -> exists s', Strtonum_Model.skip_white (s ++ [0]) = Ok (s' ++ [0]) /\ suffix s' s.
Proof.
  induction s as [|b s IH]; intros T; cbn [app Strtonum_Model.skip_white].
  - exists []. split; [reflexivity|apply suffix_refl].
  - pose proof (tame_head b s T). rewrite schar_ascii by lia. destruct (isspace_ascii b) as (w & ->); [lia|]. cbn [obind]. destruct w.
    + destruct IH as (s' & E & Su); [apply (suffix_tame s (b :: s)); auto; apply suffix_cons, suffix_refl|]. exists s'. split; [exact E|now apply suffix_cons].
    + exists (b :: s). split; [reflexivity|apply suffix_refl].
Qed.
Lemma strtonum_total s : tame s -> exists r, strtonum (s ++ [0]) = Ok r.
Proof.
  intros T. unfold strtonum. destruct (skip_total s T) as (s1 & -> & Su). cbn [obind]. assert (T1: tame s1) by eauto using suffix_tame.
  assert (C: exists b s', s1 ++ [0] = b :: s') by (destruct s1; cbn; eauto). destruct C as (b & s' & E1). rewrite E1.
  assert (D: exists sg s2, (if b =? 45 then ((-1)%Z, s') else if b =? 43 then (1%Z, s') else (1%Z, b :: s')) = (sg, s2 ++ [0]) /\ tame s2).
  { destruct s1 as [|b1 s1]; cbn in E1; injection E1 as <- <-.
    - exists 1%Z, []. split; [reflexivity|auto].
    - assert (T2: tame s1) by (apply (suffix_tame s1 (b1 :: s1)); auto; apply suffix_cons, suffix_refl).
      destruct (b1 =? 45); [eexists _, s1; split; [reflexivity|auto]|]. destruct (b1 =? 43); [eexists _, s1; split; [reflexivity|auto]|]. eexists _, (b1 :: s1). split; [reflexivity|auto]. }
  destruct D as (sg & s2 & -> & T2). destruct (digits_total s2 0 0 (tame_run s2 T2)) as (v & s3 & -> & S3); [cbn; lia|]. cbn [obind]. assert (T3: tame s3) by eauto using suffix_tame.
  assert (C: exists b s', s3 ++ [0] = b :: s') by (destruct s3; cbn; eauto). destruct C as (b3 & s3' & E3). rewrite E3.
  assert (D: exists f s4, (if b3 =? 46 then do r <- fraction 10 s3'; Ok (Some (fst r), snd r) else Ok (None, b3 :: s3')) = Ok (f, s4 ++ [0]) /\ tame s4).
  { destruct s3 as [|c3 s3]; cbn in E3; injection E3 as <- <-; [exists None, []; split; [reflexivity|auto]|].
    assert (T4: tame s3) by (apply (suffix_tame s3 (c3 :: s3)); auto; apply suffix_cons, suffix_refl).
    destruct (c3 =? 46); [|exists None, (c3 :: s3); split; [reflexivity|auto]]. destruct (fraction_total s3 0 (tame_run s3 T4)) as (f & s4 & E & S4). change (10 ^ Z.of_nat 1)%Z with 10%Z in E. rewrite E. cbn [obind fst snd].
    exists (Some f), s4. split; [reflexivity|eauto using suffix_tame]. }
  destruct D as (f & s4 & -> & T4). cbn [obind].
  assert (C: exists b s', s4 ++ [0] = b :: s') by (destruct s4; cbn; eauto). destruct C as (b4 & s4' & E4). rewrite E4.
  assert (D: exists e s5, (if (b4 =? 101) || (b4 =? 69) then do r <- digits 0 s4'; Ok (Some (fst r), snd r) else Ok (None, b4 :: s4')) = Ok (e, s5)).
  { destruct s4 as [|c4 s4]; cbn in E4; injection E4 as <- <-; [eexists _, _; reflexivity|].
    assert (T5: tame s4) by (apply (suffix_tame s4 (c4 :: s4)); auto; apply suffix_cons, suffix_refl).
    destruct ((c4 =? 101) || (c4 =? 69)); [|eexists _, _; reflexivity]. destruct (digits_total s4 0 0 (tame_run s4 T5)) as (e & s5 & -> & _); [cbn; lia|]. eexists _, _. reflexivity. }
  destruct D as (e & s5 & ->). cbn [obind]. destruct f, e; eauto.
Qed.
(** ** Tokens *)
Lemma space_total s : tame s -> forall fuel, (length s < fuel)%nat -> exists ch s1, skip_space fuel (s ++ [0]) = Ok (ch, length (firstn 1 s1), s1 ++ [0]) /\ suffix s1 s /\ ch = Z.of_N (hd 0 s1).
Proof.
  induction s as [|b s IH]; intros T [|fuel] L; cbn [length] in L; try lia; cbn [app skip_space].
  - exists 0%Z, []. rewrite scan_nul. split; [reflexivity|]. split; [apply suffix_refl|reflexivity].
  - pose proof (tame_head b s T). rewrite scan_ascii by lia. cbn [obind Nat.eqb]. destruct (isspace_ascii b) as (w & ->); [lia|]. cbn [obind skipn]. destruct w.
    + destruct (IH ltac:(apply (suffix_tame s (b :: s)); auto; apply suffix_cons, suffix_refl) fuel ltac:(lia)) as (ch & s1 & E & Su & C). exists ch, s1. split; [exact E|]. split; [now apply suffix_cons|auto].
    + exists (Z.of_N b), (b :: s). split; [reflexivity|]. split; [apply suffix_refl|reflexivity].
Qed.
Lemma skip_cases n (s : list N) : (n <= length s)%nat -> (n = length s /\ skipn n s = []) \/ (exists b r, skipn n s = b :: r /\ (n < length s)%nat).
Proof.
  intros L. destruct (Nat.eq_dec n (length s)) as [->|Ne]; [left; split; [auto|apply skipn_all]|right].
  destruct (skipn n s) as [|b r] eqn:E; [|exists b, r; split; [auto|lia]]. pose proof (skipn_length n s) as X. rewrite E in X. cbn in X. lia.
Qed.
Lemma string_total s want : tame s -> forall fuel len buf, (len <= length s)%nat -> (length s - len < fuel)%nat ->
  exists len' buf', scan_string fuel want (s ++ [0]) len buf = Ok (len', buf') /\ (len <= len' <= length s)%nat.
Proof.
  intros T. induction fuel as [|fuel IH]; intros len buf L F; [lia|]. cbn [scan_string]. rewrite skip_end by auto.
  destruct (skip_cases len s L) as [(-> & ->)|(b & r & E & L1)]; [cbn [app]; rewrite scan_nul; cbn [obind Nat.eqb]; exists (length s), buf; split; [reflexivity|lia]|].
  assert (Tb: tame (b :: r)) by (rewrite <- E; apply (suffix_tame _ s); auto using suffix_skip). pose proof (tame_head b r Tb) as Hb.
  rewrite E. cbn [app]. rewrite scan_ascii by lia. cbn [obind Nat.eqb].
  destruct (Z.of_N b =? 92)%Z eqn:B1.
  - apply Z.eqb_eq in B1. rewrite skip_end by lia. assert (E1: skipn (len + 1) s = r) by (rewrite Nat.add_comm, <- (firstn_skipn len s) at 1; rewrite E; rewrite skipn_app, firstn_length, Nat.min_l by lia; rewrite skipn_all2 by (rewrite firstn_length; lia); replace (1 + len - len)%nat with 1%nat by lia; reflexivity).
    rewrite E1. destruct r as [|e r].
    + cbn [app]. rewrite scan_nul. cbn [obind]. change (0 =? 117)%Z with false. cbv iota.
      destruct (IH (len + 1 + 0)%nat (buf ++ []) ltac:(lia) ltac:(lia)) as (len' & buf' & E2 & R). cbn. cbn in E2. rewrite E2. exists len', buf'. split; [reflexivity|lia].
    + assert (Te: tame (e :: r)) by (apply (suffix_tame _ (b :: e :: r)); auto; apply suffix_cons, suffix_refl). pose proof (tame_head e r Te) as He. cbn [app]. rewrite scan_ascii by lia. cbn [obind].
      assert (Lr: length (b :: e :: r) = (length s - len)%nat) by (rewrite <- E; apply skipn_length). cbn [length] in Lr.
      destruct (Z.of_N e =? 117)%Z eqn:B2.
      * apply Z.eqb_eq in B2. destruct Tb as (_ & _ & U). assert (Eb: b = 92) by lia. assert (Ee: e = 117) by lia. subst b e.
        destruct (U [] r eq_refl) as (a & b & c & d & x & y & z & w & r' & -> & Ha & Hb' & Hc & Hd & K). cbn [length] in Lr.
        rewrite skip_end by lia. replace (skipn (len + 1 + 1) s) with (a :: b :: c :: d :: r') by (replace (len + 1 + 1)%nat with (len + 2)%nat by lia; rewrite <- (firstn_skipn len s), E, skipn_app, firstn_length, Nat.min_l by lia; rewrite skipn_all2 by (rewrite firstn_length; lia); replace (len + 2 - len)%nat with 2%nat by lia; reflexivity).
        cbn [app]. rewrite (scan_unicode_ok want a b c d x y z w) by auto. cbn [obind].
        destruct (IH (len + 1 + 4 + 1)%nat (buf ++ utf8 (4096 * x + 256 * y + 16 * z + w)) ltac:(lia) ltac:(lia)) as (len' & buf' & E2 & R). rewrite E2. exists len', buf'. split; [reflexivity|lia].
      * match goal with |- context [scan_string fuel want _ _ (buf ++ ?q)] => destruct (IH (len + 1 + 1)%nat (buf ++ q) ltac:(lia) ltac:(lia)) as (len' & buf' & E2 & R) end. rewrite E2. exists len', buf'. split; [reflexivity|lia].
  - destruct (Z.of_N b =? 34)%Z; [exists (len + 1)%nat, buf; split; [reflexivity|lia]|].
    match goal with |- context [scan_string fuel want _ _ (buf ++ ?q)] => destruct (IH (len + 1)%nat (buf ++ q) ltac:(lia) ltac:(lia)) as (len' & buf' & E2 & R) end. rewrite E2. exists len', buf'. split; [reflexivity|lia].
Qed.
Lemma word_total s : tame s -> forall fuel len, (len <= length s)%nat -> (length s - len < fuel)%nat -> exists len', scan_word fuel (s ++ [0]) len = Ok len' /\ (len <= len' <= length s)%nat.
Proof.
  intros T. induction fuel as [|fuel IH]; intros len L F; [lia|]. cbn [scan_word]. rewrite skip_end by auto.
  destruct (skip_cases len s L) as [(-> & ->)|(b & r & E & L1)]; [cbn [app]; rewrite scan_nul; cbn [obind Nat.eqb]; exists (length s); split; [reflexivity|lia]|].
  assert (Tb: tame (b :: r)) by (rewrite <- E; apply (suffix_tame _ s); auto using suffix_skip). pose proof (tame_head b r Tb) as Hb.
  rewrite E. cbn [app]. rewrite scan_ascii by lia. cbn [obind Nat.eqb]. destruct (isspace_ascii b) as (w & ->); [lia|]. cbn [obind]. destruct (w || special (Z.of_N b)); [exists len; split; [reflexivity|lia]|].
  destruct (IH (len + 1)%nat ltac:(lia) ltac:(lia)) as (len' & E2 & R). rewrite E2. exists len'. split; [reflexivity|lia].
Qed.
(** What a token is. *)
Definition tok (s : list N) (t : token) (obj : option json) (cur : list N) : Prop :=
  exists s1 s', tstr t = s1 ++ [0] /\ cur = s' ++ [0] /\ suffix s1 s /\ suffix s' s /\ (s1 = [] -> tlen t = 0%Z) /\ (hd 0 s1 <> 0 -> hd 0 s1 <> 35 \/ obj <> None -> (length s' < length s)%nat) /\ (obj <> None -> s1 <> []).
Definition vres (s : list N) (cur : list N) : Prop := exists s', cur = s' ++ [0] /\ suffix s' s.
Lemma rd_end s : exists b, rd (s ++ [0]) 0 = Ok b /\ b = hd 0 s.
Proof. destruct s as [|b s]; [exists 0|exists b]; split; reflexivity. Qed.
Lemma hd_ascii s : tame s -> hd 0 s < 128.
Proof. destruct s as [|b s]; intros T; cbn; [lia|]. pose proof (tame_head b s T). lia. Qed.
Lemma is_digit_ascii b : b < 128 -> is_digit b = Ok (isdigit b).
Proof. intros H. unfold is_digit. replace (b <? 128) with true by (symmetry; now apply N.ltb_lt). reflexivity. Qed.
Lemma minus_total b : b < 128 -> exists g, (if b =? 45 then Ok true else is_digit b) = Ok g /\ (g = true -> b = 45 \/ digit b).
Proof.
  intros H. destruct (N.eqb_spec b 45); [eauto|]. rewrite is_digit_ascii by auto. eexists. split; [reflexivity|]. intros D. right. unfold isdigit in D. apply andb_true_iff in D. rewrite !N.leb_le in D. exact D.
Qed.
Theorem token_total vec : forall fuel,
  (forall want s, tame s -> (length s < fuel)%nat -> exists t obj cur, scan_token fuel vec want (s ++ [0]) = Ok (t, obj, cur) /\ tok s t obj cur) /\
  (forall want s dbl buf, tame s -> (length s + 1 < fuel)%nat -> exists obj cur, scan_vector fuel vec want (s ++ [0]) dbl buf = Ok (obj, cur) /\ vres s cur).
Proof.
  induction fuel as [|fuel (IHt & IHv)]; [split; intros; lia|]. split.
  - intros want s T L. cbn [scan_token]. destruct (space_total s T (S (length (s ++ [0])))) as (ch & s1 & -> & Su & Ch); [rewrite app_length; cbn; lia|]. cbn [obind].
    assert (T1: tame s1) by eauto using suffix_tame. pose proof (suffix_len s1 s Su) as L1. destruct s1 as [|b s1]; cbn [firstn length Nat.eqb].
    + eexists _, _, _. split; [reflexivity|]. exists [], []. cbn. repeat split; auto; try congruence.
    + cbn [hd] in Ch. subst ch. pose proof (tame_head b s1 T1) as Hb. cbn [length] in L1.
      destruct (Z.eqb_spec (Z.of_N b) 34) as [E34|N34].
      * destruct (string_total (b :: s1) want T1 (S (length ((b :: s1) ++ [0]))) 1 []) as (len & buf & -> & R); [cbn; lia|rewrite app_length; cbn; lia|]. cbn [obind].
        eexists _, _, _. split; [reflexivity|]. exists (b :: s1), (skipn len (b :: s1)). cbn [tstr tlen]. rewrite skip_end by lia. split; [auto|]. split; [auto|]. split; [auto|]. split; [eapply suffix_trans; [apply suffix_skip|exact Su]|]. split; [discriminate|].
        rewrite skipn_length. cbn [length] in *. split; [lia|discriminate].
      * destruct ((Z.of_N b =? 35)%Z && vec) eqn:EV.
        -- apply andb_true_iff in EV. destruct EV as (E35 & ->). apply Z.eqb_eq in E35. cbn [app skipn].
           assert (T2: tame s1) by (apply (suffix_tame s1 (b :: s1)); auto; apply suffix_cons, suffix_refl).
           assert (C: exists c n, ustrscan (s1 ++ [0]) = Ok (c, n) /\ ((c =? 91)%Z = true -> n = 1%nat /\ s1 <> [])).
           { destruct s1 as [|c s1]; [exists 0%Z, 0%nat; split; [reflexivity|discriminate]|]. pose proof (tame_head c s1 T2). cbn [app]. rewrite scan_ascii by lia. eexists _, _. split; [reflexivity|]. split; [auto|discriminate]. }
           destruct C as (c & n & -> & Hn). cbn [obind fst snd]. destruct (c =? 91)%Z.
           ++ destruct (Hn eq_refl) as (-> & Ne). destruct s1 as [|c1 s1]; [congruence|]. cbn [Nat.add skipn app].
              destruct (IHv want s1 false []) as (obj & cur & -> & (s' & -> & Sv)); [apply (suffix_tame s1 (c1 :: s1)); auto; apply suffix_cons, suffix_refl|cbn [length] in *; lia|]. cbn [obind].
              eexists _, _, _. split; [reflexivity|]. exists (b :: c1 :: s1), s'. cbn [tstr tlen]. split; [reflexivity|]. split; [reflexivity|]. split; [auto|]. split; [eapply suffix_trans; [exact Sv|]; eapply suffix_trans; [|exact Su]; do 2 apply suffix_cons; apply suffix_refl|]. split; [discriminate|].
              split; [|discriminate]. intros _ _. pose proof (suffix_len _ _ Sv). cbn [length] in *. lia.
           ++ eexists _, _, _. split; [reflexivity|]. exists (b :: s1), s. cbn [tstr tlen]. split; [reflexivity|]. split; [reflexivity|]. split; [auto|]. split; [apply suffix_refl|]. split; [discriminate|]. split; [cbn [hd]; intros _ [X|X]; [lia|congruence]|congruence].
        -- change (rd ((b :: s1) ++ [0]) 0) with (Ok b). cbn [obind]. destruct (special (Z.of_N b)).
           ++ eexists _, _, _. split; [reflexivity|]. exists (b :: s1), s1. cbn [tstr tlen]. split; [reflexivity|]. split; [reflexivity|]. split; [auto|]. split; [eapply suffix_trans; [|exact Su]; apply suffix_cons, suffix_refl|]. split; [discriminate|]. split; [lia|discriminate].
           ++ destruct (word_total (b :: s1) T1 (S (length ((b :: s1) ++ [0]))) 1) as (len & -> & R); [cbn; lia|rewrite app_length; cbn; lia|]. cbn [obind].
              eexists _, _, _. split; [reflexivity|]. exists (b :: s1), (skipn len (b :: s1)). cbn [tstr tlen]. rewrite skip_end by lia. split; [auto|]. split; [auto|]. split; [auto|]. split; [eapply suffix_trans; [apply suffix_skip|exact Su]|]. split; [discriminate|].
              rewrite skipn_length. cbn [length] in *. split; [lia|discriminate].
  - intros want s dbl buf T L. cbn [scan_vector]. destruct (IHt false s T ltac:(lia)) as (t & obj & cur & -> & (s1 & s' & Es & -> & Su & Su' & _ & Pr & _)). cbn [obind].
    rewrite Es. destruct (rd_end s1) as (b & -> & Eb). cbn [obind]. assert (T1: tame s1) by eauto using suffix_tame. destruct (minus_total b) as (g & -> & Hg); [rewrite Eb; now apply hd_ascii|]. cbn [obind].
    destruct g; [|eexists _, _; split; [reflexivity|exists s'; auto]]. destruct (strtonum_total s1 T1) as (x & ->). cbn [obind].
    assert (Lt: (length s' < length s)%nat) by (apply Pr; destruct (Hg eq_refl) as [X|X]; unfold digit in X; lia).
    assert (T': tame s') by eauto using suffix_tame.
    destruct (IHt false s' T' ltac:(lia)) as (t2 & obj2 & cur2 & -> & (s2 & s3 & Es2 & -> & Su2 & Su3 & _ & Pr2 & _)). cbn [obind]. rewrite Es2. destruct (rd_end s2) as (b2 & -> & Eb2). cbn [obind].
    assert (Su4: suffix s3 s) by (eapply suffix_trans; eauto).
    destruct (N.eqb_spec b2 44) as [E44|_].
    + match goal with |- context [scan_vector fuel vec want _ ?a ?b] => destruct (IHv want s3 a b) as (o & c & -> & (s4 & -> & Sv)); [eauto using suffix_tame|pose proof (suffix_len _ _ Su3); lia|] end.
      eexists _, _. split; [reflexivity|]. exists s4. split; [reflexivity|]. eapply suffix_trans; eauto.
    + destruct (b2 =? 93); eexists _, _; (split; [reflexivity|exists s3; auto]).
Qed.
Lemma scan_total vec want s : tame s -> exists t obj cur, scan_token (S (length (s ++ [0]))) vec want (s ++ [0]) = Ok (t, obj, cur) /\ tok s t obj cur.
Proof. intros T. apply token_total; auto. rewrite app_length. cbn. lia. Qed.
Lemma starts_total word : ~ In 0 word -> forall s, exists b, starts (s ++ [0]) word = Ok b.
Proof.
  induction word as [|w word IH]; intros Nz s; cbn [starts]; [eauto|]. destruct s as [|b s].
  - change (rd ([] ++ [0]) 0) with (Ok 0). cbn [obind]. destruct (N.eqb_spec 0 w) as [E|_]; [exfalso; apply Nz; left; auto|eauto].
  - change (rd ((b :: s) ++ [0]) 0) with (Ok b). cbn [obind app tl]. destruct (b =? w); [|eauto]. apply IH. intros X. apply Nz. now right.
Qed.
(** ** Values *)
Definition pok (s : list N) (r : outcome (pres * list N)) : Prop :=
  exists p s', r = Ok (p, s' ++ [0]) /\ suffix s' s /\ match p with PVal _ => (length s' < length s)%nat | _ => True end.
Definition pok1 (s : list N) (r : outcome (pres * list N)) : Prop := exists p s', r = Ok (p, s' ++ [0]) /\ suffix s' s.
Ltac fin x := eexists _, x; split; [reflexivity|]; eauto using suffix_trans.
Theorem parse_total vec : forall fuel,
  (forall s, tame s -> (2 * length s + 2 < fuel)%nat -> pok s (parse_object fuel vec (s ++ [0]))) /\
  (forall s l, tame s -> (2 * length s + 3 < fuel)%nat -> pok1 s (array_loop fuel vec (s ++ [0]) l)) /\
  (forall s l, tame s -> (2 * length s + 3 < fuel)%nat -> pok1 s (object_loop fuel vec (s ++ [0]) l)).
Proof.
  induction fuel as [|fuel (IHp & IHa & IHo)]; [repeat split; intros; lia|]. repeat split.
  - intros s T L. cbn [parse_object]. destruct (scan_total vec true s T) as (t & obj & cur & -> & (s1 & s' & Es & -> & Su & Su' & Z0 & Pr & Ob)). cbn [obind].
    assert (T': tame s') by eauto using suffix_tame. assert (T1: tame s1) by eauto using suffix_tame.
    destruct (Z.eqb_spec (tlen t) 0) as [Ez|Nz]; [eexists _, s'; split; [reflexivity|]; auto|]. rewrite Es. destruct (rd_end s1) as (b & -> & Eb). cbn [obind].
    assert (Hh: s1 <> [] -> b <> 0) by (intros Ne; destruct s1 as [|x s1]; [congruence|]; cbn in Eb; subst b; pose proof (tame_head x s1 T1); lia). rewrite <- Eb in Pr.
    destruct obj as [v|]; [eexists _, s'; split; [reflexivity|]; split; auto; apply Pr; [apply Hh, Ob; discriminate|right; discriminate]|].
    assert (Nb: s1 <> []) by (intros X; apply Nz, Z0; auto). specialize (Hh Nb).
    assert (Go: forall (r : outcome (pres * list N)), pok1 s' r -> b <> 35 -> pok s r).
    { intros r (p & s2 & -> & S2) Nb'. exists p, s2. split; [reflexivity|]. split; [eapply suffix_trans; eauto|]. specialize (Pr Hh (or_introl Nb')). pose proof (suffix_len _ _ S2). destruct p; auto. lia. }
    assert (Lo: b <> 35 -> (2 * length s' + 3 < fuel)%nat) by (intros X; specialize (Pr Hh (or_introl X)); lia).
    destruct (N.eqb_spec b 91); [apply Go; [apply IHa; auto; apply Lo|]; lia|]. destruct (N.eqb_spec b 93); [eexists _, s'; split; [reflexivity|]; auto|]. destruct (N.eqb_spec b 123); [apply Go; [apply IHo; auto; apply Lo|]; lia|]. destruct (N.eqb_spec b 125); [eexists _, s'; split; [reflexivity|]; auto|].
    destruct (minus_total b) as (g & -> & Hg); [rewrite Eb; now apply hd_ascii|]. cbn [obind]. destruct g.
    + destruct (strtonum_total s1 T1) as (x & ->). cbn [obind]. eexists _, s'. split; [reflexivity|]. split; auto. apply Pr; auto. left. destruct (Hg eq_refl) as [X|X]; unfold digit in X; lia.
    + assert (Hs: forall w word, starts (s1 ++ [0]) (w :: word) = Ok true -> b = w).
      { intros w word H. cbn [starts] in H. destruct (rd_end s1) as (b' & E' & Eb'). rewrite E' in H. cbn [obind] in H. destruct (N.eqb_spec b' w); [congruence|discriminate]. }
      destruct (starts_total [116; 114; 117; 101] ltac:(cbn; lia) s1) as (r1 & E1). rewrite E1. cbn [obind]. destruct r1; [eexists _, s'; split; [reflexivity|]; split; auto; apply Pr; auto; left; apply Hs in E1; lia|].
      destruct (starts_total [102; 97; 108; 115; 101] ltac:(cbn; lia) s1) as (r2 & E2). rewrite E2. cbn [obind]. destruct r2; [eexists _, s'; split; [reflexivity|]; split; auto; apply Pr; auto; left; apply Hs in E2; lia|].
      destruct (starts_total [110; 117; 108; 108] ltac:(cbn; lia) s1) as (r3 & E3). rewrite E3. cbn [obind]. destruct r3; [eexists _, s'; split; [reflexivity|]; split; auto; apply Pr; auto; left; apply Hs in E3; lia|].
      eexists _, s'; split; [reflexivity|]; auto.
  - intros s l T L. cbn [array_loop]. destruct (IHp s T ltac:(lia)) as (p & s' & -> & Su & Pr). cbn [obind]. destruct p as [v|b|]; [|destruct (b =? 93); fin s'|fin s'].
    destruct (scan_total vec false s' ltac:(eauto using suffix_tame)) as (t & obj & cur & -> & (s1 & s2 & Es & -> & Su1 & Su2 & _ & Pr2 & _)). cbn [obind]. rewrite Es. destruct (rd_end s1) as (b & -> & Eb). cbn [obind].
    destruct (b =? 93); [fin s2|]. destruct (N.eqb_spec b 44); [|fin s2].
    destruct (IHa s2 (l ++ [v])) as (p & s3 & E & S3); [eauto using suffix_tame, suffix_trans|pose proof (suffix_len _ _ Su2); lia|]. rewrite E. fin s3.
  - intros s l T L. cbn [object_loop]. destruct (IHp s T ltac:(lia)) as (p & s' & -> & Su & Pr). cbn [obind]. destruct p as [v|b|]; [|destruct (b =? 125); fin s'|fin s'].
    destruct v as [| | | |k| |]; try (fin s'; fail).
    destruct (scan_total vec false s' ltac:(eauto using suffix_tame)) as (t & obj & cur & -> & (s1 & s2 & Es & -> & Su1 & Su2 & _ & Pr2 & _)). cbn [obind]. rewrite Es. destruct (rd_end s1) as (b & -> & Eb). cbn [obind].
    destruct (N.eqb_spec b 58); [|fin s2]. assert (T2: tame s2) by eauto using suffix_tame. pose proof (suffix_len _ _ Su2) as Ls2.
    destruct (IHp s2 T2 ltac:(lia)) as (p & s3 & -> & S3 & Pr3). cbn [obind]. destruct p as [v|b'|]; [|fin s3|fin s3]. assert (T3: tame s3) by eauto using suffix_tame.
    destruct (scan_total vec false s3 T3) as (t' & obj' & cur' & -> & (s4 & s5 & Es4 & -> & Su4 & Su5 & _ & Pr4 & _)). cbn [obind]. rewrite Es4. destruct (rd_end s4) as (c & -> & Ec). cbn [obind].
    destruct (c =? 125); [fin s5|]. destruct (N.eqb_spec c 44); [|fin s5].
    destruct (IHo s5 (dict_set l k v)) as (p & s6 & E & S6); [eauto using suffix_tame|pose proof (suffix_len _ _ Su5); lia|]. rewrite E. fin s6.
Qed.
Theorem json_total vec s : tame s -> exists v, json_parse vec s = Ok v.
Proof.
  intros T. unfold json_parse. destruct (parse_total vec (2 * length s + 3)) as (P & _). destruct (P s T ltac:(lia)) as (p & s' & -> & _). cbn [obind]. eauto.
Qed.
